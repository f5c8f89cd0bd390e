(** Expressions: C52. *)
From Verif Require Import Base TokenModel LexModel ExprModel ExprProofs.

(** * Specification *)

(** The binary operators of C, one list per level from the loosest to the tightest; the
    ellipsis of GNU case ranges is counted with the comma. *)
Definition levels : list (list ttype) := [
  [T_COMMA; T_ELLIPSIS];
  [T_EQUAL; T_PLUSEQUAL; T_MINUSEQUAL; T_STAREQUAL; T_SLASHEQUAL; T_PERCENTEQUAL; T_LESSLESSEQUAL; T_GREATERGREATEREQUAL;
   T_AMPEQUAL; T_CARETEQUAL; T_PIPEEQUAL];
  [T_QUESTION];
  [T_PIPEPIPE];
  [T_AMPAMP];
  [T_PIPE];
  [T_CARET];
  [T_AMP];
  [T_EQUALEQUAL; T_EXCLAIMEQUAL];
  [T_LESS; T_LESSEQUAL; T_GREATER; T_GREATEREQUAL];
  [T_LESSLESS; T_GREATERGREATER];
  [T_PLUS; T_MINUS];
  [T_STAR; T_SLASH; T_PERCENT]].
(** The level of an operator, counted from one. *)
Fixpoint level_in (n : nat) (ls : list (list ttype)) (t : ttype) : option nat :=
  match ls with
  | [] => None
  | l :: ls => if existsb (ttype_eqb t) l then Some n else level_in (S n) ls t
  end.
Definition level (t : ttype) : nat := match level_in 1 levels t with Some n => n | None => 0 end.
(** Assignments group from the right. *)
Definition from_right (t : ttype) : bool := level t =? 2.

(** The tokens of a tree from left to right. *)
Fixpoint fringe (x : expr) : list token :=
  match x with
  | ENull => []
  | EUnary tk x | EPrefix tk x => tk :: fringe x
  | EBinary l tk r | EArg l tk r | EField l tk r => fringe l ++ tk :: fringe r
  | ETernary c q t colon f => fringe c ++ q :: fringe t ++ colon ++ fringe f
  | EPostfix x tk => fringe x ++ [tk]
  | EParens lp x rp => lp :: fringe x ++ rp
  | ESquares l b x e | ECall l b x e => fringe l ++ b :: fringe x ++ e
  | ECast lp t rp x => lp :: fringe t ++ rp ++ fringe x
  | ESizeof tk lp x rp => tk :: lp ++ fringe x ++ rp
  | EConcat x ks => fringe x ++ ks
  | ELiteral tk => [tk]
  | ERecover ks => ks
  end.

(** How tightly the operators met on the way down the left edge of a tree hold on to what
    is on their left. *)
Fixpoint ledge (x : expr) : list nat :=
  match x with
  | EBinary l tk _ | EArg l tk _ => level (ty tk) :: ledge l
  | ETernary c _ _ _ _ => 3 :: ledge c
  | EConcat x _ => 12 :: ledge x
  | EPostfix x _ => 14 :: ledge x
  | ESquares l _ _ _ | EField l _ _ | ECall l _ _ _ => 15 :: ledge l
  | _ => []
  end.
(** How tightly the operators met on the way down the right edge hold on to what is on
    their right: less than on the left if they group from the right.  A cast holds on as
    tightly as a member access, see [C52_cast_refuted].  What follows [:] may be anything but
    a comma. *)
Definition after (p : nat) (x : expr) (e : list nat) : list nat := if isnull x then [] else p :: e.
Definition right_of (t : ttype) : nat := if from_right t then level t - 1 else level t.
Fixpoint redge (x : expr) : list nat :=
  match x with
  | EBinary _ tk r | EArg _ tk r => after (right_of (ty tk)) r (redge r)
  | ETernary _ _ _ _ f => after 1 f (redge f)
  | EUnary _ x | EPrefix _ x | ESizeof _ [] x _ => after 14 x (redge x)
  | EField _ _ r => after 15 r (redge r)
  | ECast _ _ _ x => after 15 x (redge x)
  | _ => []
  end.

(** The operands of every operator are what the levels say: whatever is at the right edge of
    the left operand holds on to its own operand at least as tightly, whatever is at the left
    edge of the right operand more tightly. *)
Definition on_left (p : nat) (l : expr) : Prop := Forall (fun q => p <= q) (redge l).
Definition on_right (p : nat) (r : expr) : Prop := Forall (fun q => p < q) (ledge r).
Fixpoint respects (x : expr) : Prop :=
  match x with
  | ENull | ELiteral _ | ERecover _ => True
  | EUnary _ x | EPrefix _ x => on_right 14 x /\ respects x
  | EBinary l tk r | EArg l tk r => on_left (level (ty tk)) l /\ on_right (right_of (ty tk)) r /\ respects l /\ respects r
  | ETernary c _ t _ f => on_left 3 c /\ on_right 1 f /\ respects c /\ respects t /\ respects f
  | EPostfix x _ => on_left 14 x /\ respects x
  | EParens _ x _ => respects x
  | ESquares l _ x _ | ECall l _ x _ => on_left 15 l /\ respects l /\ respects x
  | EField l _ r => on_left 15 l /\ on_right 15 r /\ respects l /\ respects r
  | ECast _ t _ x => on_right 15 x /\ respects t /\ respects x
  | ESizeof _ [] x _ => on_right 14 x /\ respects x
  | ESizeof _ _ x _ => respects x
  | EConcat x _ => on_left 12 x /\ respects x
  end.

(** What the operators look like. *)
Definition unary_ops : list ttype := [T_EXCLAIM; T_TILDE; T_PLUS; T_MINUS; T_STAR; T_AMP].
Definition steps : list ttype := [T_PLUSPLUS; T_MINUSMINUS].
Definition atoms : list ttype := [T_IDENT; T_LITERAL; T_STRING].
Definition closed (t : ttype) (ks : list token) : Prop := exists k, ks = [k] /\ ty k = t.
Fixpoint shape (x : expr) : Prop :=
  match x with
  | ENull | ERecover _ => True
  | ELiteral k => In (ty k) atoms
  | EUnary tk x => In (ty tk) unary_ops /\ shape x
  | EPrefix tk x => In (ty tk) steps /\ shape x
  | EBinary l tk r => 1 <= level (ty tk) /\ ty tk <> T_COMMA /\ ty tk <> T_QUESTION /\ l <> ENull /\ shape l /\ shape r
  | EArg l tk r => ty tk = T_COMMA /\ l <> ENull /\ shape l /\ shape r
  | ETernary c q t colon f => ty q = T_QUESTION /\ closed T_COLON colon /\ c <> ENull /\ f <> ENull /\ shape c /\ shape t /\ shape f
  | EPostfix x tk => In (ty tk) steps /\ x <> ENull /\ shape x
  | EParens lp x rp => ty lp = T_LPAREN /\ closed T_RPAREN rp /\ shape x
  | ESquares l b x e => ty b = T_LSQUARE /\ closed T_RSQUARE e /\ l <> ENull /\ shape l /\ shape x
  | ECall l b x e => ty b = T_LPAREN /\ closed T_RPAREN e /\ l <> ENull /\ shape l /\ shape x
  | EField l tk r => In (ty tk) [T_PERIOD; T_ARROW] /\ l <> ENull /\ shape l /\ shape r
  | ECast lp t rp x => ty lp = T_LPAREN /\ closed T_RPAREN rp /\ (exists ks, t = ERecover ks) /\ shape x
  | ESizeof tk lp x rp => ty tk = T_SIZEOF /\ ((lp = [] /\ rp = []) \/ (closed T_LPAREN lp /\ closed T_RPAREN rp)) /\ shape x
  | EConcat x ks => ks <> [] /\ Forall (fun k => In (ty k) atoms) ks /\ x <> ENull /\ (match x with EConcat _ _ => False | _ => True end) /\ shape x
  end.

(** [sub a b]: [a] is [b] with some elements left out. *)
Inductive sub {A : Type} : list A -> list A -> Prop :=
| sub_nil : forall l, sub [] l
| sub_keep : forall x a b, sub a b -> sub (x :: a) (x :: b)
| sub_skip : forall x a b, sub a b -> sub a (x :: b).

(** The tokens an operand begins with, and the ones an operand is wanted after. *)
Definition starts (k : token) : Prop := In (ty k) (atoms ++ unary_ops ++ steps ++ [T_SIZEOF; T_LPAREN]).
Definition wanted_after : list ttype :=
  concat levels ++ unary_ops ++ steps ++ [T_SIZEOF; T_LPAREN; T_LSQUARE; T_PERIOD; T_ARROW; T_COLON].
(** A binary operator where an operand is wanted. *)
Definition misplaced (k : token) : Prop := flag F_BINARY k = true /\ ~ (starts k /\ ty k <> T_IDENT).
(** Tokens no expression can lose: what follows [:] is the beginning of an operand, and no
    operator other than the unary ones follows an operator or a cast. *)
Definition sane (stop : nat) (cast : list token -> list token -> option nat) (d t : list token) : Prop :=
  forall a k b, t = a ++ k :: b ->
    (ty k = T_COLON -> exists y r, b = y :: r /\ starts y /\ length b <> stop) /\
    (In (ty k) wanted_after -> ty k <> T_LPAREN -> ty k <> T_COMMA -> forall y r, b = y :: r -> ~ misplaced y) /\
    (ty k = T_LPAREN -> forall n y r, cast (k :: rev a ++ d) b = Some n -> skipn (S n) b = y :: r -> ~ misplaced y).

(** * Proof *)

Lemma rule_level : forall t er, find_rule false t = Some er -> match r_func er with
  | FBinary => r_pc er = level t /\ binary_pc er = right_of t
  | FTernary => r_pc er = 3
  | FConcat => r_pc er = 12
  | FPrepost => r_pc er = 14
  | FParens | FSquares | FField => r_pc er = 15
  | _ => False end.
Proof. intros t er H. destruct t; vm_compute in H; try discriminate H; injection H as <-; vm_compute; auto. Qed.
Lemma unary_level : forall t er, find_rule true t = Some er -> match r_func er with
  | FUnary | FPrepost | FSizeof => r_pc er = 14
  | FParens => r_pc er = 15
  | FLiteral => True
  | _ => False end.
Proof. intros t er H. destruct t; vm_compute in H; try discriminate H; injection H as <-; vm_compute; auto. Qed.

Section Sound.
Variable stop : nat.
Variable tpeek : bool -> list token -> list token -> option nat.
Variable braces : list token -> list token -> option nat * bool.
Notation peek := (peek stop).
Notation recover := (recover tpeek braces).
Notation rel := (rel stop tpeek braces).

(** Nothing at the right edge lets go of what follows. *)
Definition follows (x : expr) (s : st) : Prop :=
  forall k er, peek s = Some k -> find_rule false (ty k) = Some er -> on_left (r_pc er) x.
Definition stops (pc : nat) (s : st) : Prop := forall k er, peek s = Some k -> find_rule false (ty k) = Some er -> r_pc er <= pc.

Lemma after_le : forall p q x, q <= p -> on_left q x -> Forall (fun r => q <= r) (after p x (redge x)).
Proof. intros p q x L H. unfold after. destruct (isnull x); [constructor|]. constructor; [exact L|exact H]. Qed.
Lemma follows_after : forall p x y s, redge y = after p x (redge x) -> (x <> ENull -> follows x s /\ stops p s) -> follows y s.
Proof.
  intros p x y s E H k er P F. unfold on_left. rewrite E. unfold after. destruct (isnull x) eqn:N; [constructor|].
  destruct H as [H1 H2]; [intros ->; discriminate N|]. constructor; [exact (H2 _ _ P F)|exact (H1 _ _ P F)].
Qed.
Lemma follows_nil : forall y s, redge y = [] -> follows y s.
Proof. intros y s E k er P F. unfold on_left. rewrite E. constructor. Qed.

Definition claim (c : call) (s : st) (x : expr) (s' : st) : Prop :=
  match c with
  | CExec pc => x <> ENull -> respects x /\ on_right pc x /\ follows x s' /\ stops pc s'
  | CLoop pc l => l <> ENull -> respects l -> on_right pc l -> follows l s -> x <> ENull -> respects x /\ on_right pc x /\ follows x s' /\ stops pc s'
  | CApply er tk l => match l with
                      | ENull => (exists t, find_rule true t = Some er) -> x <> ENull -> respects x /\ ledge x = [] /\ follows x s'
                      | _ => find_rule false (ty tk) = Some er -> respects l -> on_left (r_pc er) l -> x <> ENull ->
                             respects x /\ (forall pc, pc < r_pc er -> on_right pc l -> on_right pc x) /\ follows x s'
                      end
  end.
Lemma claim_apply : forall er tk l s x s', l <> ENull ->
  (find_rule false (ty tk) = Some er -> respects l -> on_left (r_pc er) l -> x <> ENull ->
   respects x /\ (forall pc, pc < r_pc er -> on_right pc l -> on_right pc x) /\ follows x s') -> claim (CApply er tk l) s x s'.
Proof. intros er tk l s x s' N H. destruct l; try exact H. contradiction. Qed.
Lemma claim_applied : forall er tk l s x s', l <> ENull -> claim (CApply er tk l) s x s' ->
  find_rule false (ty tk) = Some er -> respects l -> on_left (r_pc er) l -> x <> ENull ->
   respects x /\ (forall pc, pc < r_pc er -> on_right pc l -> on_right pc x) /\ follows x s'.
Proof. intros er tk l s x s' N H. destruct l; try exact H. contradiction. Qed.
Lemma recover_plain : forall s x s1, recover s = (x, s1) -> respects x /\ ledge x = [] /\ redge x = [].
Proof.
  intros s x s1 H. assert (x = ENull \/ exists ks, x = ERecover ks) as Q.
  { unfold ExprModel.recover in H. destruct (tpeek false (e_done s) (e_toks s)) as [n|].
    - destruct (_ || _) in H; injection H as <- <-; eauto.
    - destruct (e_toks s) as [|k r]; [injection H as <- <-; eauto|].
      destruct (flag F_BINARY k); [destruct (_ || _) in H; injection H as <- <-; eauto|].
      destruct (is T_LBRACE k); [destruct (braces (e_done s) (k :: r)) as [[n|] e]; injection H as <- <-; eauto|].
      destruct (is T_COMMA k); injection H as <- <-; eauto. }
  destruct Q as [->|[ks ->]]; repeat split.
Qed.
Lemma on_right_nil : forall pc x, ledge x = [] -> on_right pc x.
Proof. intros pc x E. unfold on_right. rewrite E. constructor. Qed.
Lemma on_right_cons : forall p x y, ledge y = p :: ledge x -> forall pc, pc < p -> on_right pc x -> on_right pc y.
Proof. intros p x y E pc L H. unfold on_right. rewrite E. constructor; assumption. Qed.
Lemma on_right_null : forall pc, on_right pc ENull.
Proof. constructor. Qed.
Lemma exec_claim : forall pc s x s', claim (CExec pc) s x s' -> respects x /\ on_right pc x /\ (x <> ENull -> follows x s' /\ stops pc s').
Proof. intros pc s x s' H. cbn [claim] in H. destruct (isnull x) eqn:N; [apply isnull_eq in N; subst x; repeat split; constructor || contradiction|]. destruct H as (A & B & C & D); [intros ->; discriminate N|]. auto. Qed.

Ltac by_level F T := let L := fresh in pose proof (rule_level _ _ F) as L; rewrite T in L.

Lemma sound : forall c s x s', rel c s x s' -> claim c s x s'.
Proof.
  intros c s x s' H. induction H.
  - intros N. contradiction.
  - intros N. destruct (recover_plain _ _ _ H1) as (A & B & C). apply IHrel; [exact H2|exact A|apply on_right_nil, B|apply follows_nil, C|exact N].
  - intros N. contradiction.
  - intros N. destruct (IHrel1 (ex_intro _ _ H0) H4) as (A & B & C). apply IHrel2; [exact H4|exact A|apply on_right_nil, B|exact C|exact N].
  - intros N. contradiction.
  - intros N. contradiction.
  - intros _ A B C _. split; [exact A|]. split; [exact B|]. split; [exact C|exact H].
  - intros M A B C N. destruct (claim_applied _ _ _ _ _ _ M IHrel1 H0 A (C _ _ H H0) H3) as (D & E & G). apply IHrel2; [exact H3|exact D|exact (E _ H1 B)|exact G|exact N].
  - intros _ _ _ _ N. contradiction.
  - intros _ _. split; [exact I|]. split; [reflexivity|]. apply follows_nil. reflexivity.
  - (* binary *)
    apply claim_apply; [assumption|]. intros F A B _. by_level F H. destruct H2 as [L1 L2]. destruct (exec_claim _ _ _ _ IHrel) as (R1 & R2 & R3). rewrite L2 in R2, R3. rewrite L1 in B.
    destruct (is T_COMMA tk); (split; [exact (conj B (conj R2 (conj A R1)))|]; split; [intros pc; rewrite L1; apply on_right_cons; reflexivity|]; apply (follows_after (right_of (ty tk)) r); [reflexivity|exact R3]).
  - (* concat *)
    apply claim_apply; [assumption|]. intros F A B _. by_level F H. rewrite H1 in *.
    assert (Q : respects (EConcat l [tk]) /\ (forall pc, pc < 12 -> on_right pc l -> on_right pc (EConcat l [tk])) /\ follows (EConcat l [tk]) s).
    { split; [exact (conj B A)|]. split; [intros pc; apply on_right_cons; reflexivity|]. apply follows_nil. reflexivity. }
    destruct l; try exact Q. split; [exact A|]. split; [intros pc _ K; exact K|]. apply follows_nil. reflexivity.
  - (* field *)
    apply claim_apply; [assumption|]. intros F A B _. by_level F H. rewrite H2 in *. destruct (exec_claim _ _ _ _ IHrel) as (R1 & R2 & R3).
    split; [exact (conj B (conj R2 (conj A R1)))|]. split; [intros pc; apply on_right_cons; reflexivity|]. apply (follows_after 15 r); [reflexivity|exact R3].
  - (* cast *)
    intros [t F] _. pose proof (unary_level _ _ F) as L. rewrite H in L. rewrite L in *. destruct (exec_claim _ _ _ _ IHrel) as (R1 & R2 & R3).
    split; [exact (conj R2 (conj I R1))|]. split; [reflexivity|]. apply (follows_after 15 x); [reflexivity|exact R3].
  - intros _ _. destruct (exec_claim _ _ _ _ IHrel) as (R1 & R2 & R3). split; [exact R1|]. split; [reflexivity|]. apply follows_nil. reflexivity.
  - (* call *)
    apply claim_apply; [assumption|]. intros F A B _. by_level F H. rewrite H3 in *. destruct (exec_claim _ _ _ _ IHrel) as (R1 & R2 & R3).
    split; [exact (conj B (conj A R1))|]. split; [intros pc; apply on_right_cons; reflexivity|]. apply follows_nil. reflexivity.
  - (* prefix *)
    intros [t F] _. pose proof (unary_level _ _ F) as L. rewrite H in L. rewrite L in *. destruct (exec_claim _ _ _ _ IHrel) as (R1 & R2 & R3).
    split; [exact (conj R2 R1)|]. split; [reflexivity|]. apply (follows_after 14 x); [reflexivity|exact R3].
  - apply claim_apply; [assumption|]. intros F A B _. by_level F H. rewrite H1 in *. split; [exact (conj B A)|]. split; [intros pc; apply on_right_cons; reflexivity|]. apply follows_nil. reflexivity.
  - intros _ _. destruct (exec_claim _ _ _ _ IHrel) as (R1 & R2 & R3). split; [exact R1|]. split; [reflexivity|]. apply follows_nil. reflexivity.
  - intros [t F] _. pose proof (unary_level _ _ F) as L. rewrite H in L. rewrite L in *. destruct (exec_claim _ _ _ _ IHrel) as (R1 & R2 & R3).
    split; [exact (conj R2 R1)|]. split; [reflexivity|]. apply (follows_after 14 x); [reflexivity|exact R3].
  - (* squares *)
    apply claim_apply; [assumption|]. intros F A B _. by_level F H. rewrite H3 in *. destruct (exec_claim _ _ _ _ IHrel) as (R1 & R2 & R3).
    split; [exact (conj B (conj A R1))|]. split; [intros pc; apply on_right_cons; reflexivity|]. apply follows_nil. reflexivity.
  - (* ternary *)
    destruct (isnull l) eqn:N.
    { apply isnull_eq in N. subst l. intros [t' F]. apply unary_func in F. rewrite H in F. destruct F. }
    apply claim_apply; [intros ->; discriminate N|]. intros F A B _. by_level F H. rewrite H4 in *. destruct (exec_claim _ _ _ _ IHrel1) as (R1 & _ & _). destruct (exec_claim _ _ _ _ IHrel2) as (S1 & S2 & S3).
    split; [exact (conj B (conj S2 (conj A (conj R1 S1))))|]. split; [intros pc; apply on_right_cons; reflexivity|]. apply (follows_after 1 f); [reflexivity|exact S3].
  - destruct (isnull l) eqn:N; [apply isnull_eq in N; subst l; intros _ K; contradiction|]. apply claim_apply; [intros ->; discriminate N|]. intros _ _ _ K. contradiction.
  - intros [t F] _. pose proof (unary_level _ _ F) as L. rewrite H in L. rewrite L in *. destruct (exec_claim _ _ _ _ IHrel) as (R1 & R2 & R3).
    split; [exact (conj R2 R1)|]. split; [reflexivity|]. apply (follows_after 14 x); [reflexivity|exact R3].
Qed.

(** What the callbacks answer along a tree [x] read after the tokens [d] (last first) and
    before the tokens [r]: they recognise the types and casts in the tree and no others. *)
Notation recover_cast := (recover_cast tpeek).
Fixpoint agrees (d : list token) (x : expr) (r : list token) : Prop :=
  match x with
  | ENull => peek (St d r false) = None \/
      exists k, peek (St d r false) = Some k /\ find_rule true (ty k) = None /\ recover (St d r false) = (ENull, St d r false)
  | ELiteral k => ty k = T_IDENT -> recover (St d (k :: r) false) = (ENull, St d (k :: r) false)
  | ERecover ks => (exists k, peek (St d (ks ++ r) false) = Some k /\ (find_rule true (ty k) = None \/ ty k = T_IDENT)) /\
      recover (St d (ks ++ r) false) = (ERecover ks, St (rev ks ++ d) r false)
  | EUnary tk x | EPrefix tk x => agrees (tk :: d) x r
  | EBinary l tk x | EArg l tk x | EField l tk x => agrees d l (tk :: fringe x ++ r) /\ agrees (tk :: rev (fringe l) ++ d) x r
  | ETernary c q t colon f =>
      agrees d c (q :: fringe t ++ colon ++ fringe f ++ r) /\ agrees (q :: rev (fringe c) ++ d) t (colon ++ fringe f ++ r) /\
      agrees (rev colon ++ rev (fringe t) ++ q :: rev (fringe c) ++ d) f r
  | EPostfix x tk => agrees d x (tk :: r)
  | EParens lp x rp => recover_cast (St (lp :: d) (fringe x ++ rp ++ r) false) = None /\ agrees (lp :: d) x (rp ++ r)
  | ESquares l b x e | ECall l b x e => agrees d l (b :: fringe x ++ e ++ r) /\ agrees (b :: rev (fringe l) ++ d) x (e ++ r)
  | ECast lp t rp x => recover_cast (St (lp :: d) (fringe t ++ rp ++ fringe x ++ r) false) = Some (length (fringe t)) /\
      agrees (rev rp ++ rev (fringe t) ++ lp :: d) x r
  | ESizeof tk lp x rp => (lp = [] -> next_is T_LPAREN (fringe x ++ r) = false) /\ agrees (rev lp ++ tk :: d) x (rp ++ r)
  | EConcat x ks => agrees d x (ks ++ r)
  end.

Definition rule_for (u : bool) (t : ttype) (f : efunc) (pc : nat) : Prop := exists er, find_rule u t = Some er /\ r_func er = f /\ r_pc er = pc.
Ltac in_types H := repeat (destruct H as [H|H]; [rewrite <- H; vm_compute; eexists; repeat split|]); destruct H.
Lemma atoms_unary : forall t, In t atoms -> exists er, find_rule true t = Some er /\ r_func er = FLiteral.
Proof. intros t H. in_types H. Qed.
Lemma atoms_concat : forall t, In t atoms -> rule_for false t FConcat 12.
Proof. intros t H. in_types H. Qed.
Lemma unary_rule : forall t, In t unary_ops -> rule_for true t FUnary 14.
Proof. intros t H. in_types H. Qed.
Lemma steps_rule : forall u t, In t steps -> rule_for u t FPrepost 14.
Proof. intros u t H. destruct u; in_types H. Qed.
Lemma field_rule : forall t, In t [T_PERIOD; T_ARROW] -> rule_for false t FField 15.
Proof. intros t H. in_types H. Qed.
Lemma level_rule : forall t, 1 <= level t -> t <> T_QUESTION -> exists er, find_rule false t = Some er /\ r_func er = FBinary /\ r_pc er = level t /\ binary_pc er = right_of t.
Proof. intros t H N. destruct t; try (vm_compute in H; lia); try contradiction; (eexists; split; [vm_compute; reflexivity|]; vm_compute; auto). Qed.
Lemma no_ident : forall t u f pc, rule_for u t f pc -> u = true -> f <> FLiteral -> t <> T_IDENT.
Proof. intros t u f pc (er & F & E & _) -> N ->. vm_compute in F. injection F as <-. cbn [r_func] in E. congruence. Qed.
Lemma not_eof : forall t u er, find_rule u t = Some er -> t <> T_EOF.
Proof. intros t u er H ->. destruct u; vm_compute in H; discriminate H. Qed.

(** A token that is there. *)
Lemma peek_here : forall d k r, stop <= length r -> ty k <> T_EOF -> peek (St d (k :: r) false) = Some k.
Proof.
  intros d k r L N. unfold ExprModel.peek. cbn [e_toks e_err orb]. assert (E : (length (k :: r) =? stop) = false) by (apply Nat.eqb_neq; cbn [length]; lia). rewrite E.
  destruct (is T_EOF k) eqn:I; [apply is_eq in I; contradiction|reflexivity].
Qed.
Definition goes (pc : nat) (s : st) (x : expr) (s1 : st) : Prop := forall y s2, rel (CLoop pc x) s1 y s2 -> rel (CExec pc) s y s2.
Lemma goes_stop : forall pc s x s1, goes pc s x s1 -> stops pc s1 -> rel (CExec pc) s x s1.
Proof. intros pc s x s1 G S. apply G, R_stop, S. Qed.

(** One operator in front. *)
Lemma front : forall pc d k r u f p x s2, rule_for u (ty k) f p -> u = true -> f <> FLiteral -> stop <= length r ->
  (forall er, r_func er = f -> r_pc er = p -> rel (CApply er k ENull) (St (k :: d) r false) x s2) -> x <> ENull -> goes pc (St d (k :: r) false) x s2.
Proof.
  intros pc d k r u f p x s2 R -> N L A X y s3 H. pose proof (no_ident _ _ _ _ R eq_refl N) as I. destruct R as (er & F & E & P).
  refine (R_op stop tpeek braces pc (St d (k :: r) false) k er (St d (k :: r) false) k r x s2 y s3 (peek_here _ _ _ L (not_eof _ _ _ F)) F _ _ (A _ E P) X H); [|reflexivity].
  destruct (is T_IDENT k) eqn:Q; [apply is_eq in Q; contradiction|reflexivity].
Qed.
(** One operator after an operand. *)
Lemma behind : forall pc s l d k r x s2 f p, goes pc s l (St d (k :: r) false) -> rule_for false (ty k) f p -> pc < p -> stop <= length r ->
  (forall er, find_rule false (ty k) = Some er -> r_func er = f -> r_pc er = p -> rel (CApply er k l) (St (k :: d) r false) x s2) -> x <> ENull -> e_err s2 = false -> goes pc s x s2.
Proof.
  intros pc s l d k r x s2 f p G (er & F & E & P) L ST A X Y y s3 H. apply G.
  refine (R_more stop tpeek braces pc l (St d (k :: r) false) k er x s2 y s3 (peek_here _ _ _ ST (not_eof _ _ _ F)) F _ (A _ F E P) X Y H). lia.
Qed.
Lemma follows_none : forall x d k r, find_rule false (ty k) = None -> follows x (St d (k :: r) false) /\ forall pc, stops pc (St d (k :: r) false).
Proof.
  intros x d k r F. assert (Q : forall j, peek (St d (k :: r) false) = Some j -> j = k).
  { intros j P. apply peek_toks in P. destruct P as (q & E & _). cbn [e_toks] in E. congruence. }
  split; [intros j er P K|intros pc j er P K]; rewrite (Q _ P) in K; congruence.
Qed.
Lemma closers : find_rule false T_RPAREN = None /\ find_rule false T_RSQUARE = None /\ find_rule false T_COLON = None.
Proof. vm_compute. auto. Qed.
Lemma follows_op : forall x d k r p f, rule_for false (ty k) f p -> on_left p x -> follows x (St d (k :: r) false).
Proof.
  intros x d k r p f (er & F & _ & P) H j er' PK K. apply peek_toks in PK. destruct PK as (q & E & _). cbn [e_toks] in E. assert (j = k) by congruence. subst j. assert (er' = er) by congruence. subst. exact H.
Qed.
(** The end of an operand on the right. *)
Lemma right_end : forall x y p s, redge y = after p x (redge x) -> follows y s -> x <> ENull -> follows x s /\ stops p s.
Proof.
  intros x y p s E H N. unfold follows, on_left in H. rewrite E in H. unfold after in H. rewrite (null_false _ N) in H.
  split; intros k er P F; specialize (H _ _ P F); inversion H; subst; assumption.
Qed.

Definition reads (x : expr) : Prop := forall pc d r, shape x -> respects x -> agrees d x r -> on_right pc x -> x <> ENull -> stop <= length r ->
  follows x (St (rev (fringe x) ++ d) r false) -> goes pc (St d (fringe x ++ r) false) x (St (rev (fringe x) ++ d) r false).
(** An operand, possibly missing. *)
Lemma operand : forall x pc d r, reads x -> shape x -> respects x -> agrees d x r -> on_right pc x -> stop <= length r ->
  (x <> ENull -> follows x (St (rev (fringe x) ++ d) r false) /\ stops pc (St (rev (fringe x) ++ d) r false)) ->
  rel (CExec pc) (St d (fringe x ++ r) false) x (St (rev (fringe x) ++ d) r false).
Proof.
  intros x pc d r R S P A O L F. destruct (isnull x) eqn:N.
  - apply isnull_eq in N. subst x. cbn [fringe app rev]. destruct A as [A|(k & A & B & C)]; [apply R_end, A|exact (R_fail _ _ _ _ _ _ _ A B C)].
  - assert (N' : x <> ENull) by (intros ->; discriminate N). destruct (F N') as [F1 F2]. apply goes_stop; [|exact F2]. apply R; auto.
Qed.

Ltac norm := repeat (progress (rewrite ?rev_app_distr, <- ?app_assoc; cbn [rev app])).
Ltac norm_in H := repeat (progress (rewrite ?rev_app_distr, <- ?app_assoc in H; cbn [rev app] in H)).
Ltac len := cbn [length app]; rewrite ?app_length; cbn [length app]; rewrite ?app_length; cbn [length app]; rewrite ?app_length; lia.

(** What is between brackets. *)
Lemma inner : forall x d k r, reads x -> shape x -> respects x -> agrees d x (k :: r) -> stop <= length (k :: r) -> (forall q, In q (ledge x) -> 0 < q) -> find_rule false (ty k) = None ->
  rel (CExec 0) (St d (fringe x ++ k :: r) false) x (St (rev (fringe x) ++ d) (k :: r) false).
Proof.
  intros x d k r R S P A L O F. apply operand; try assumption; [apply Forall_forall; exact O|]. intros N. destruct (follows_none x (rev (fringe x) ++ d) k r F) as [F1 F2]. split; [exact F1|apply F2].
Qed.
Lemma ledge_pos : forall x, shape x -> forall q, In q (ledge x) -> 0 < q.
Proof.
  induction x; intros S p H; cbn [ledge] in H; try contradiction; cbn [shape] in S.
  - destruct H as [<-|H]; [destruct S as (A & _); lia|]. apply IHx1; [apply S|exact H].
  - destruct H as [<-|H]; [destruct S as (A & _); rewrite A; vm_compute; lia|]. apply IHx1; [apply S|exact H].
  - destruct H as [<-|H]; [lia|]. apply IHx1; [apply S|exact H].
  - destruct H as [<-|H]; [lia|]. apply IHx; [apply S|exact H].
  - destruct H as [<-|H]; [lia|]. apply IHx1; [apply S|exact H].
  - destruct H as [<-|H]; [lia|]. apply IHx1; [apply S|exact H].
  - destruct H as [<-|H]; [lia|]. apply IHx1; [apply S|exact H].
  - destruct H as [<-|H]; [lia|]. apply IHx; [apply S|exact H].
Qed.
Lemma on_right_head : forall pc p x y, on_right pc y -> ledge y = p :: ledge x -> pc < p /\ on_right pc x.
Proof. intros pc p x y H E. unfold on_right in *. rewrite E in H. inversion H; subst. split; assumption. Qed.
Lemma rule_of : forall u t f pc, (exists er, find_rule u t = Some er /\ r_func er = f /\ r_pc er = pc) -> rule_for u t f pc.
Proof. intros. assumption. Qed.

Lemma concat_loop : forall ks' pc s x ks d r, goes pc s (EConcat x ks) (St d (ks' ++ r) false) -> Forall (fun k => In (ty k) atoms) ks' -> pc < 12 -> stop <= length r ->
  goes pc s (EConcat x (ks ++ ks')) (St (rev ks' ++ d) r false).
Proof.
  induction ks' as [|k ks' IH]; intros pc s x ks d r G F L S.
  - rewrite app_nil_r. exact G.
  - inversion F; subst. assert (Q : goes pc s (EConcat x (ks ++ [k])) (St (k :: d) (ks' ++ r) false)).
    { refine (behind _ _ _ _ _ _ _ _ _ _ G (atoms_concat _ H1) L _ _ _ _); [len| |discriminate|reflexivity].
      intros er _ E _. exact (A_concat _ _ _ er k (EConcat x ks) _ E ltac:(discriminate)). }
    apply IH in Q; try assumption. rewrite <- app_assoc in Q. cbn [rev]. rewrite <- app_assoc. exact Q.
Qed.

Lemma all_reads : forall x, reads x.
Proof.
  induction x; intros pc d r S P A O N L F; try contradiction; cbn [shape respects agrees fringe] in *.
  - (* unary *)
    destruct S as [S1 S2], P as [P1 P2]. refine (front _ _ _ _ _ _ _ _ _ (unary_rule _ S1) eq_refl _ _ _ N); [discriminate|len|].
    intros er E1 E2. norm_in F. norm. apply A_unary; [exact E1|]. rewrite E2. apply operand; try assumption. apply (right_end x (EUnary tk x) 14); [reflexivity|exact F].
  - (* binary *)
    destruct S as (S1 & S2 & S3 & S4 & S5 & S6), P as (P1 & P2 & P3 & P4), A as [A1 A2]. destruct (on_right_head pc (level (ty tk)) x1 _ O eq_refl) as [O1 O2].
    destruct (level_rule _ S1 S3) as (er & R1 & R2 & R3 & R4). assert (RF : rule_for false (ty tk) FBinary (level (ty tk))) by (exists er; auto).
    assert (G := IHx1 pc d (tk :: fringe x2 ++ r) S5 P3 A1 O2 S4 ltac:(len) (follows_op _ _ _ _ _ _ RF P1)). norm_in F. norm.
    refine (behind _ _ _ _ _ _ _ _ _ _ G RF O1 _ _ N _); [len| |reflexivity].
    intros er' E0 E1 E2. assert (er' = er) by congruence. subst er'. assert (C : is T_COMMA tk = false) by (destruct (is T_COMMA tk) eqn:I; [apply is_eq in I; contradiction|reflexivity]).
    assert (Q : rel (CExec (binary_pc er)) (St (tk :: rev (fringe x1) ++ d) (fringe x2 ++ r) false) x2 (St (rev (fringe x2) ++ tk :: rev (fringe x1) ++ d) r false)).
    { rewrite R4. apply operand; try assumption. apply (right_end x2 (EBinary x1 tk x2) (right_of (ty tk))); [reflexivity|exact F]. }
    pose proof (A_binary _ _ _ er tk x1 _ _ _ E1 S4 Q) as K. rewrite C in K. exact K.
  - (* arg *)
    destruct S as (S1 & S4 & S5 & S6), P as (P1 & P2 & P3 & P4), A as [A1 A2]. destruct (on_right_head pc (level (ty tk)) x1 _ O eq_refl) as [O1 O2].
    assert (S0 : 1 <= level (ty tk)) by (rewrite S1; vm_compute; lia). assert (S3 : ty tk <> T_QUESTION) by congruence.
    destruct (level_rule _ S0 S3) as (er & R1 & R2 & R3 & R4). assert (RF : rule_for false (ty tk) FBinary (level (ty tk))) by (exists er; auto).
    assert (G := IHx1 pc d (tk :: fringe x2 ++ r) S5 P3 A1 O2 S4 ltac:(len) (follows_op _ _ _ _ _ _ RF P1)). norm_in F. norm.
    refine (behind _ _ _ _ _ _ _ _ _ _ G RF O1 _ _ N _); [len| |reflexivity].
    intros er' E0 E1 E2. assert (er' = er) by congruence. subst er'. assert (C : is T_COMMA tk = true) by (apply is_eq; exact S1).
    assert (Q : rel (CExec (binary_pc er)) (St (tk :: rev (fringe x1) ++ d) (fringe x2 ++ r) false) x2 (St (rev (fringe x2) ++ tk :: rev (fringe x1) ++ d) r false)).
    { rewrite R4. apply operand; try assumption. apply (right_end x2 (EArg x1 tk x2) (right_of (ty tk))); [reflexivity|exact F]. }
    pose proof (A_binary _ _ _ er tk x1 _ _ _ E1 S4 Q) as K. rewrite C in K. exact K.
  - (* ternary *)
    destruct S as (S1 & (c & -> & S2) & S3 & S4 & S5 & S6 & S7), P as (P1 & P2 & P3 & P4 & P5), A as (A1 & A2 & A3). destruct (on_right_head pc 3 x1 _ O eq_refl) as [O1 O2].
    assert (RF : rule_for false (ty q) FTernary 3) by (rewrite S1; vm_compute; eexists; repeat split). cbn [app rev] in A1, A2, A3.
    assert (G := IHx1 pc d (q :: fringe x2 ++ c :: fringe x3 ++ r) S5 P3 A1 O2 S3 ltac:(len) (follows_op _ _ _ _ _ _ RF P1)). norm_in F. norm.
    refine (behind _ _ _ _ _ _ _ _ _ _ G RF O1 _ _ N _); [len| |reflexivity].
    intros er _ E1 E2.
    refine (A_ternary _ _ _ er q x1 _ x2 _ [c] _ x3 _ E1 _ (expect_ok T_COLON _ c _ S2) _ S4).
    + apply inner; try assumption; [len|apply ledge_pos; exact S6|rewrite S2; reflexivity].
    + apply operand; try assumption. apply (right_end x3 (ETernary x1 q x2 [c] x3) 1); [reflexivity|exact F].
  - (* prefix *)
    destruct S as [S1 S2], P as [P1 P2]. refine (front _ _ _ _ _ _ _ _ _ (steps_rule true _ S1) eq_refl _ _ _ N); [discriminate|len|].
    intros er E1 E2. norm_in F. norm. apply A_prefix; [exact E1|]. rewrite E2. apply operand; try assumption. apply (right_end x (EPrefix tk x) 14); [reflexivity|exact F].
  - (* postfix *)
    destruct S as (S1 & S2 & S3), P as [P1 P2]. destruct (on_right_head pc 14 x _ O eq_refl) as [O1 O2]. assert (RF := steps_rule false _ S1).
    assert (G := IHx pc d (tk :: r) S3 P2 A O2 S2 ltac:(len) (follows_op _ _ _ _ _ _ RF P1)). norm.
    refine (behind _ _ _ _ _ _ _ _ _ _ G RF O1 L _ N _); [|reflexivity]. intros er _ E1 E2. apply A_postfix; assumption.
  - (* parens *)
    destruct S as (S1 & (c & -> & S2) & S3), A as [A1 A2]. assert (RF : rule_for true (ty lp) FParens 15) by (rewrite S1; vm_compute; eexists; repeat split).
    cbn [app] in A1, A2. norm. refine (front _ _ _ _ _ _ _ _ _ RF eq_refl _ _ _ N); [discriminate|len|].
    intros er E1 E2. refine (A_parens _ _ _ er lp _ x _ [c] _ E1 A1 _ (expect_ok T_RPAREN _ c _ S2)). apply inner; try assumption; [len|apply ledge_pos; exact S3|rewrite S2; reflexivity].
  - (* squares *)
    destruct S as (S1 & (c & -> & S2) & S3 & S4 & S5), P as (P1 & P2 & P3), A as [A1 A2]. destruct (on_right_head pc 15 x1 _ O eq_refl) as [O1 O2].
    assert (RF : rule_for false (ty lb) FSquares 15) by (rewrite S1; vm_compute; eexists; repeat split). cbn [app] in A1, A2.
    assert (G := IHx1 pc d (lb :: fringe x2 ++ c :: r) S4 P2 A1 O2 S3 ltac:(len) (follows_op _ _ _ _ _ _ RF P1)). norm.
    refine (behind _ _ _ _ _ _ _ _ _ _ G RF O1 _ _ N _); [len| |reflexivity].
    intros er _ E1 E2. refine (A_squares _ _ _ er lb x1 _ x2 _ [c] _ E1 S3 _ (expect_ok T_RSQUARE _ c _ S2)). apply inner; try assumption; [len|apply ledge_pos; exact S5|rewrite S2; reflexivity].
  - (* field *)
    destruct S as (S1 & S2 & S3 & S4), P as (P1 & P2 & P3 & P4), A as [A1 A2]. destruct (on_right_head pc 15 x1 _ O eq_refl) as [O1 O2]. assert (RF := field_rule _ S1).
    assert (G := IHx1 pc d (tk :: fringe x2 ++ r) S3 P3 A1 O2 S2 ltac:(len) (follows_op _ _ _ _ _ _ RF P1)). norm_in F. norm.
    refine (behind _ _ _ _ _ _ _ _ _ _ G RF O1 _ _ N _); [len| |reflexivity].
    intros er _ E1 E2. apply A_field; [exact E1|exact S2|]. rewrite E2. apply operand; try assumption. apply (right_end x2 (EField x1 tk x2) 15); [reflexivity|exact F].
  - (* call *)
    destruct S as (S1 & (c & -> & S2) & S3 & S4 & S5), P as (P1 & P2 & P3), A as [A1 A2]. destruct (on_right_head pc 15 x1 _ O eq_refl) as [O1 O2].
    assert (RF : rule_for false (ty lp) FParens 15) by (rewrite S1; vm_compute; eexists; repeat split). cbn [app] in A1, A2.
    assert (G := IHx1 pc d (lp :: fringe x2 ++ c :: r) S4 P2 A1 O2 S3 ltac:(len) (follows_op _ _ _ _ _ _ RF P1)). norm.
    refine (behind _ _ _ _ _ _ _ _ _ _ G RF O1 _ _ N _); [len| |reflexivity].
    intros er _ E1 E2. refine (A_call _ _ _ er lp x1 _ x2 _ [c] _ E1 S3 _ (expect_ok T_RPAREN _ c _ S2)). apply inner; try assumption; [len|apply ledge_pos; exact S5|rewrite S2; reflexivity].
  - (* cast *)
    destruct S as (S1 & (c & -> & S2) & (ks & ->) & S3), P as (P1 & _ & P2), A as [A1 A2]. cbn [fringe] in *. assert (RF : rule_for true (ty lp) FParens 15) by (rewrite S1; vm_compute; eexists; repeat split).
    cbn [app rev] in A1, A2. norm_in F. norm. refine (front _ _ _ _ _ _ _ _ _ RF eq_refl _ _ _ N); [discriminate|len|].
    intros er E1 E2.
    assert (T1 : firstn (length ks) (ks ++ c :: fringe x2 ++ r) = ks) by (rewrite firstn_app, Nat.sub_diag, firstn_all, firstn_O, app_nil_r; reflexivity).
    assert (T2 : take (length ks) (St (lp :: d) (ks ++ c :: fringe x2 ++ r) false) = St (rev ks ++ lp :: d) (c :: fringe x2 ++ r) false).
    { unfold take. cbn [e_toks e_done e_err]. rewrite T1, skipn_app, Nat.sub_diag, skipn_all, skipn_O. reflexivity. }
    pose proof (expect_ok T_RPAREN (rev ks ++ lp :: d) c (fringe x2 ++ r) S2) as EX. rewrite <- T2 in EX.
    assert (Q : rel (CExec (r_pc er)) (St (c :: rev ks ++ lp :: d) (fringe x2 ++ r) false) x2 (St (rev (fringe x2) ++ c :: rev ks ++ lp :: d) r false)).
    { rewrite E2. apply operand; try assumption. apply (right_end x2 (ECast lp (ERecover ks) [c] x2) 15); [reflexivity|exact F]. }
    pose proof (A_cast _ _ _ er lp _ _ _ _ _ _ E1 A1 EX Q) as K. cbn [e_toks] in K. rewrite T1 in K. exact K.
  - (* sizeof *)
    destruct S as (S1 & S2 & S3), A as [A1 A2]. assert (RF : rule_for true (ty tk) FSizeof 14) by (rewrite S1; vm_compute; eexists; repeat split).
    destruct S2 as [[-> ->]|[(b & -> & S4) (c & -> & S5)]]; cbn [app rev] in *.
    + rewrite app_nil_r in *. destruct P as [P1 P2]. norm_in F. norm. refine (front _ _ _ _ _ _ _ _ _ RF eq_refl _ _ _ N); [discriminate|len|].
      intros er E1 E2. apply A_sizeof_bare; [exact E1|apply A1; reflexivity|]. rewrite E2. apply operand; try assumption. apply (right_end x (ESizeof tk [] x []) 14); [reflexivity|exact F].
    + norm. refine (front _ _ _ _ _ _ _ _ _ RF eq_refl _ _ _ N); [discriminate|len|].
      intros er E1 E2. refine (A_sizeof _ _ _ er tk (St (tk :: d) (b :: fringe x ++ c :: r) false) b _ x _ [c] _ E1 eq_refl S4 _ (expect_ok T_RPAREN _ c _ S5)). cbn [take e_toks e_done e_err firstn skipn rev app]. apply inner; try assumption; [len|apply ledge_pos; exact S3|rewrite S5; reflexivity].
  - (* concat *)
    destruct S as (S1 & S2 & S3 & S4 & S5), P as [P1 P2]. destruct (on_right_head pc 12 x _ O eq_refl) as [O1 O2]. destruct ks as [|k ks]; [contradiction|]. inversion S2; subst. cbn [app] in A.
    assert (RF := atoms_concat _ H1). assert (G := IHx pc d (k :: ks ++ r) S5 P2 A O2 S3 ltac:(len) (follows_op _ _ _ _ _ _ RF P1)).
    assert (Q : goes pc (St d (fringe x ++ k :: ks ++ r) false) (EConcat x [k]) (St (k :: rev (fringe x) ++ d) (ks ++ r) false)).
    { refine (behind _ _ _ _ _ _ _ _ _ _ G RF O1 _ _ _ _); [len| |discriminate|reflexivity]. intros er _ E _.
      pose proof (A_concat stop tpeek braces er k x (St (k :: rev (fringe x) ++ d) (ks ++ r) false) E S3) as K. destruct x; try exact K. contradiction. }
    apply concat_loop in Q; try assumption. norm. exact Q.
  - (* literal *)
    destruct (atoms_unary _ S) as (er & F1 & F2). cbn [app rev]. intros y s2 H.
    refine (R_op stop tpeek braces pc (St d (tk :: r) false) tk er (St d (tk :: r) false) tk r (ELiteral tk) _ y s2 (peek_here _ _ _ L (not_eof _ _ _ F1)) F1 _ eq_refl (A_literal _ _ _ er tk _ F2) N H).
    destruct (is T_IDENT tk) eqn:I; [apply is_eq in I; exact (A I)|reflexivity].
  - (* recover *)
    destruct A as [(k & A1 & A2) A3]. intros y s2 H. exact (R_rec _ _ _ _ _ _ _ _ _ _ A1 A2 A3 N H).
Qed.

(** ** Tokens *)

Lemma sub_refl : forall {A} (l : list A), sub l l.
Proof. induction l; constructor; assumption. Qed.
Lemma sub_app : forall {A} (a b c d : list A), sub a b -> sub c d -> sub (a ++ c) (b ++ d).
Proof.
  intros A a b c d H K. induction H; cbn [app]; try (constructor; assumption). induction l; [exact K|]. cbn [app]. apply sub_skip. exact IHl.
Qed.
Lemma sub_cons : forall {A} (x : A) b a, sub a b -> sub (x :: a) (x :: b).
Proof. intros. apply sub_keep. assumption. Qed.

Definition kept (c : call) (s : st) (x : expr) (s' : st) : Prop :=
  exists ks, adv s s' ks /\ sub (fringe x) (match c with CExec _ => ks | CLoop _ l => fringe l ++ ks | CApply _ tk l => fringe l ++ tk :: ks end).
Lemma ident_state : forall s k r s1, e_toks s = k :: r -> (if is T_IDENT k then recover s = (ENull, s1) else s1 = s) -> exists q, adv s s1 q.
Proof. intros s k r s1 T H. destruct (is T_IDENT k); [exact (recover_adv _ _ _ _ _ H)|subst s1; exists []; apply adv_refl]. Qed.
Lemma sub_front : forall {A} (a b c : list A), sub a b -> sub a (c ++ b).
Proof. intros A a b c H. induction c; [exact H|]. apply sub_skip. exact IHc. Qed.
Lemma sub_trans : forall {A} (b c : list A), sub b c -> forall a, sub a b -> sub a c.
Proof.
  intros A b c H. induction H; intros a0 K.
  - inversion K; subst. constructor.
  - inversion K; subst; [constructor|apply sub_keep; auto|apply sub_skip; auto].
  - apply sub_skip. auto.
Qed.

Lemma keeps : forall c s x s', rel c s x s' -> kept c s x s'.
Proof.
  intros c s x s' H. unfold kept in *. induction H;
    repeat match goal with H : exists _, adv _ _ _ /\ _ |- _ => destruct H as (? & ? & ?) end;
    repeat match goal with H : expect _ _ = _ |- _ => apply expect_adv in H end.
  - exists []. split; [apply adv_refl|constructor].
  - destruct (recover_yield _ _ _ _ _ H1 H2) as (ks & A & ->). eexists. split; [eapply adv_trans; eassumption|]. assumption.
  - destruct (recover_adv _ _ _ _ _ H1) as [ks A]. exists ks. split; [exact A|constructor].
  - destruct (peek_toks _ _ _ H) as (q & T & _). destruct (ident_state _ _ _ _ T H1) as [q1 A1]. pose proof (adv_take 1 s1) as A2. rewrite H2 in A2. cbn [firstn] in A2.
    eexists. split; [eapply adv_trans; [exact A1|eapply adv_trans; [exact A2|eapply adv_trans; eassumption]]|]. apply sub_front. eapply sub_trans; [|eassumption].
    change ([tk] ++ x1 ++ x0) with ((fringe ENull ++ tk :: x1) ++ x0). apply sub_app; [assumption|apply sub_refl].
  - destruct (peek_toks _ _ _ H) as (q & T & _). destruct (ident_state _ _ _ _ T H1) as [q1 A1]. pose proof (adv_take 1 s1) as A2.
    eexists. split; [eapply adv_trans; [exact A1|eapply adv_trans; [exact A2|eassumption]]|]. constructor.
  - destruct (peek_toks _ _ _ H) as (q & T & _). destruct (ident_state _ _ _ _ T H1) as [q1 A1]. exists q1. split; [exact A1|constructor].
  - exists []. split; [apply adv_refl|]. rewrite app_nil_r. apply sub_refl.
  - destruct (peek_toks _ _ _ H) as (q & T & _). pose proof (adv_take 1 s) as A2. rewrite T in A2. cbn [firstn] in A2.
    eexists. split; [eapply adv_trans; [exact A2|eapply adv_trans; eassumption]|]. eapply sub_trans; [|eassumption]. rewrite (app_assoc [k]), app_assoc. apply sub_app; [assumption|apply sub_refl].
  - pose proof (adv_take 1 s) as A2. eexists. split; [eapply adv_trans; [exact A2|eassumption]|constructor].
  - exists []. split; [apply adv_refl|]. apply sub_refl.
  - eexists. split; [eassumption|]. destruct (is T_COMMA tk); cbn [fringe]; apply sub_app, sub_keep; auto using sub_refl.
  - exists []. split; [apply adv_refl|]. destruct l; cbn [fringe]; try apply sub_refl. rewrite app_assoc. apply sub_refl.
  - eexists. split; [eassumption|]. cbn [fringe]. apply sub_app, sub_keep; auto using sub_refl.
  - pose proof (adv_take n s) as A2. eexists. split; [eapply adv_trans; [exact A2|eapply adv_trans; eassumption]|]. cbn [fringe app]. apply sub_keep, sub_app, sub_app; auto using sub_refl.
  - eexists. split; [eapply adv_trans; eassumption|]. cbn [fringe app]. apply sub_keep, sub_app; auto using sub_refl.
  - eexists. split; [eapply adv_trans; eassumption|]. cbn [fringe app]. apply sub_app, sub_keep, sub_app; auto using sub_refl.
  - eexists. split; [eassumption|]. cbn [fringe app]. apply sub_keep. assumption.
  - exists []. split; [apply adv_refl|]. apply sub_refl.
  - pose proof (adv_take 1 s) as A2. rewrite H0 in A2. cbn [firstn] in A2. eexists. split; [eapply adv_trans; [exact A2|eapply adv_trans; eassumption]|]. cbn [fringe app]. apply sub_keep, sub_keep, sub_app; auto using sub_refl.
  - eexists. split; [eassumption|]. cbn [fringe app]. rewrite app_nil_r. apply sub_keep. assumption.
  - eexists. split; [eapply adv_trans; eassumption|]. cbn [fringe app]. apply sub_app, sub_keep, sub_app; auto using sub_refl.
  - eexists. split; [eapply adv_trans; [eassumption|eapply adv_trans; eassumption]|]. cbn [fringe app]. apply sub_app, sub_keep, sub_app, sub_app; auto using sub_refl.
  - eexists. split; [eapply adv_trans; [eassumption|eapply adv_trans; eassumption]|]. constructor.
  - eexists. split; [eassumption|]. cbn [fringe app]. apply sub_keep. assumption.
Qed.

(** ** No token lost *)

Definition cast_of (d t : list token) : option nat := recover_cast (St d t false).
Definition sane_at (s : st) : Prop := sane stop cast_of (e_done s) (e_toks s).
Definition ready (s : st) : Prop := forall y r, e_toks s = y :: r -> misplaced y -> back_if T_LPAREN (e_done s) || back_if T_COMMA (e_done s) = true.
Lemma sane_adv : forall s s' ks, adv s s' ks -> sane_at s -> sane_at s'.
Proof.
  intros s s' ks [A1 A2] H a k b E. rewrite E in A1. rewrite app_assoc in A1. specialize (H _ _ _ A1). rewrite rev_app_distr, <- app_assoc, <- A2 in H. exact H.
Qed.
Lemma starts_rule : forall k, starts k <-> find_rule true (ty k) <> None.
Proof.
  intros k. unfold starts. generalize (ty k). intros t. split.
  - intros H. assert (Q : forallb (fun t => isSome (find_rule true t)) (atoms ++ unary_ops ++ steps ++ [T_SIZEOF; T_LPAREN]) = true) by (vm_compute; reflexivity).
    rewrite forallb_forall in Q. specialize (Q _ H). destruct (find_rule true t); [discriminate|discriminate Q].
  - intros H. assert (Q : existsb (ttype_eqb t) (atoms ++ unary_ops ++ steps ++ [T_SIZEOF; T_LPAREN]) = true) by (destruct t; try (vm_compute; reflexivity); exfalso; apply H; vm_compute; reflexivity).
    apply existsb_exists in Q. destruct Q as (j & J & E). apply ttype_eqb_spec in E. subst j. exact J.
Qed.
Lemma wants : forall u t er, find_rule u t = Some er -> (match r_func er with FLiteral | FConcat => False | _ => True end) -> In t wanted_after.
Proof.
  intros u t er H N. assert (Q : existsb (ttype_eqb t) wanted_after = true) by (destruct u, t; vm_compute in H; try discriminate H; injection H as <-; cbn [r_func] in N; try contradiction; vm_compute; reflexivity).
  apply existsb_exists in Q. destruct Q as (j & J & E). apply ttype_eqb_spec in E. subst j. exact J.
Qed.
(** After an operator. *)
Lemma ready_after : forall d k t e, sane stop cast_of d (k :: t) -> In (ty k) wanted_after -> ready (St (k :: d) t e).
Proof.
  intros d k t e S W y r E M. cbn [e_toks e_done back_if] in *. destruct (is T_LPAREN k) eqn:I1; [reflexivity|]. destruct (is T_COMMA k) eqn:I2; [reflexivity|].
  assert (N1 : ty k <> T_LPAREN) by (intros Q; apply is_eq in Q; congruence). assert (N2 : ty k <> T_COMMA) by (intros Q; apply is_eq in Q; congruence).
  destruct (S [] k t eq_refl) as (_ & S2 & _). destruct (S2 W N1 N2 _ _ E M).
Qed.
Lemma wanted_colon : In T_COLON wanted_after /\ In T_LPAREN wanted_after.
Proof. assert (Q : forall t, existsb (ttype_eqb t) wanted_after = true -> In t wanted_after) by (intros t H; apply existsb_exists in H; destruct H as (j & J & E); apply ttype_eqb_spec in E; subst j; exact J). split; apply Q; vm_compute; reflexivity. Qed.
(** After a consumed token. *)
Lemma expect_ready : forall t s ks s', expect t s = (ks, s') -> e_err s' = false -> sane_at s -> In t wanted_after -> ready s' /\ sane_at s' /\
  exists k, ks = [k] /\ e_toks s = k :: e_toks s' /\ ty k = t.
Proof.
  intros t s ks s' H E S W. pose proof (expect_adv _ _ _ _ H) as A. destruct (expect_err _ _ _ _ H E) as (_ & k & -> & T). split; [|split; [exact (sane_adv _ _ _ A S)|]].
  - destruct A as [A1 A2]. cbn [app rev] in A1, A2. unfold sane_at in S. rewrite A1 in S. subst t. pose proof (ready_after (e_done s) k (e_toks s') (e_err s') S W) as R. destruct s' as [d' t' e']. cbn [e_done e_toks e_err] in *. rewrite A2. exact R.
  - exists k. destruct A as [A1 _]. auto.
Qed.

Definition lossless (c : call) (s : st) (x : expr) (s' : st) : Prop :=
  match c with
  | CExec _ => sane_at s -> ready s -> e_err s' = false -> adv s s' (fringe x) /\ (forall y, peek s = Some y -> starts y -> x <> ENull)
  | CLoop _ l => l <> ENull -> sane_at s -> e_err s' = false -> x <> ENull /\ exists ks, adv s s' ks /\ fringe x = fringe l ++ ks
  | CApply er tk l => forall d, e_done s = tk :: d -> sane stop cast_of d (tk :: e_toks s) -> find_rule (isnull l) (ty tk) = Some er -> e_err s' = false ->
      x <> ENull /\ exists ks, adv s s' ks /\ fringe x = fringe l ++ tk :: ks
  end.
Lemma sane_take : forall s k r, e_toks s = k :: r -> sane_at s -> sane stop cast_of (e_done s) (k :: e_toks (take 1 s)) /\ e_done (take 1 s) = k :: e_done s.
Proof. intros s k r T S. rewrite (take1 _ _ _ T). cbn [e_toks e_done]. split; [|reflexivity]. unfold sane_at in S. rewrite T in S. exact S. Qed.
Lemma sane_pop : forall s tk d, e_done s = tk :: d -> sane stop cast_of d (tk :: e_toks s) -> sane_at s.
Proof.
  intros s tk d E S a k b T. rewrite T in S. specialize (S (tk :: a) k b eq_refl). cbn [rev] in S. rewrite <- app_assoc in S. cbn [app] in S. rewrite <- E in S. exact S.
Qed.
Lemma ready_pop : forall s tk d u er, e_done s = tk :: d -> sane stop cast_of d (tk :: e_toks s) -> find_rule u (ty tk) = Some er -> (match r_func er with FLiteral | FConcat => False | _ => True end) -> ready s.
Proof. intros s tk d u er E S F N. pose proof (ready_after d tk (e_toks s) (e_err s) S (wants _ _ _ F N)) as R. destruct s as [d' t' e']. cbn [e_done e_toks e_err] in *. rewrite E. exact R. Qed.
(** Where an operand was read. *)
Lemma ident_same : forall s k r s1, e_toks s = k :: r -> ready s -> find_rule true (ty k) <> None -> (if is T_IDENT k then recover s = (ENull, s1) else s1 = s) -> e_toks s1 = e_toks s /\ e_done s1 = e_done s.
Proof.
  intros s k r s1 T R F H. destruct (is T_IDENT k) eqn:I; [|subst s1; auto]. destruct (recover_ident _ _ _ _ _ _ T H) as [Q|[Q1 Q2]]; [exact Q|].
  rewrite (R _ _ T) in Q2; [discriminate Q2|]. split; [exact Q1|]. intros [_ N]. apply N, is_eq, I.
Qed.

Lemma no_loss : forall c s x s', rel c s x s' -> lossless c s x s'.
Proof.
  intros c s x s' H. induction H.
  - intros _ _ _. split; [apply adv_refl|]. intros y P. congruence.
  - intros S R E. destruct (recover_yield _ _ _ _ _ H1 H2) as (ks & A & ->). destruct (IHrel ltac:(discriminate) (sane_adv _ _ _ A S) E) as (N & q & A' & F). split; [rewrite F; exact (adv_trans _ _ _ _ _ A A')|]. intros; exact N.
  - intros S R E. destruct (peek_toks _ _ _ H) as (r & T & _). split.
    + destruct (recover_ident _ _ _ _ _ _ T H1) as [[Q1 Q2]|[Q1 Q2]]; [split; cbn [fringe app rev]; congruence|]. rewrite (R _ _ T) in Q2; [discriminate Q2|]. split; [exact Q1|]. intros [K _]. apply starts_rule in K. contradiction.
    + intros y P K. assert (y = k) by congruence. subst y. apply starts_rule in K. contradiction.
  - intros S R E. destruct (peek_toks _ _ _ H) as (q & T & _). assert (F : find_rule true (ty k) <> None) by congruence. destruct (ident_same _ _ _ _ T R F H1) as [Q1 Q2].
    assert (tk = k) by congruence. subst tk. assert (S1 : sane_at s1) by (unfold sane_at; rewrite Q1, Q2; exact S). destruct (sane_take _ _ _ H2 S1) as [S2 D2].
    pose proof (rel_err _ _ _ _ _ _ _ H5 E) as E2. destruct (IHrel1 _ D2 S2 H0 E2) as (N1 & k1 & A1 & F1).
    assert (A0 : adv s (take 1 s1) [k]) by (rewrite (take1 _ _ _ H2); split; cbn [e_toks e_done app rev]; congruence).
    assert (S3 : sane_at s2) by (apply (sane_adv _ _ _ A1), (sane_adv _ _ _ A0), S). destruct (IHrel2 H4 S3 E) as (N2 & k2 & A2 & F2).
    split; [|intros; exact N2]. rewrite F2, F1. cbn [fringe app]. change (k :: k1 ++ k2) with ([k] ++ k1 ++ k2). exact (adv_trans _ _ _ _ _ A0 (adv_trans _ _ _ _ _ A1 A2)).
  - intros S R E. destruct (peek_toks _ _ _ H) as (q & T & _). assert (F : find_rule true (ty k) <> None) by congruence. destruct (ident_same _ _ _ _ T R F H1) as [Q1 Q2].
    assert (tk = k) by congruence. subst tk. assert (S1 : sane_at s1) by (unfold sane_at; rewrite Q1, Q2; exact S). destruct (sane_take _ _ _ H2 S1) as [S2 D2].
    destruct (IHrel _ D2 S2 H0 E) as [N _]. contradiction.
  - intros S R E. destruct (peek_toks _ _ _ H) as (q & T & _). assert (F : find_rule true (ty k) <> None) by congruence. destruct (ident_same _ _ _ _ T R F H1) as [Q1 Q2]. congruence.
  - intros N S E. split; [exact N|]. exists []. split; [apply adv_refl|symmetry; apply app_nil_r].
  - intros N S E. destruct (peek_toks _ _ _ H) as (q & T & _). destruct (sane_take _ _ _ T S) as [S2 D2]. assert (F : find_rule (isnull x) (ty k) = Some er) by (rewrite (null_false _ N); exact H0).
    destruct (IHrel1 _ D2 S2 F H4) as (N1 & k1 & A1 & F1). pose proof (adv_take 1 s) as A0. rewrite T in A0. cbn [firstn] in A0.
    assert (S3 : sane_at s1) by (apply (sane_adv _ _ _ A1), (sane_adv _ _ _ A0), S). destruct (IHrel2 H3 S3 E) as (N2 & k2 & A2 & F2). split; [exact N2|].
    exists ([k] ++ k1 ++ k2). split; [exact (adv_trans _ _ _ _ _ A0 (adv_trans _ _ _ _ _ A1 A2))|]. rewrite F2, F1, <- app_assoc. reflexivity.
  - intros N S E. destruct (peek_toks _ _ _ H) as (q & T & _). destruct (sane_take _ _ _ T S) as [S2 D2]. assert (F : find_rule (isnull x) (ty k) = Some er) by (rewrite (null_false _ N); exact H0).
    destruct (IHrel _ D2 S2 F E) as (N1 & _). destruct H3; [contradiction|congruence].
  - intros d D S F E. split; [discriminate|]. exists []. split; [apply adv_refl|reflexivity].
  - intros d D S F E. destruct (IHrel (sane_pop _ _ _ D S) (ready_pop _ _ _ _ _ D S F ltac:(rewrite H; exact I)) E) as [A _]. split; [destruct (is T_COMMA tk); discriminate|]. exists (fringe r). split; [exact A|destruct (is T_COMMA tk); reflexivity].
  - intros d D S F E. split; [destruct l; discriminate|]. exists []. split; [apply adv_refl|]. destruct l; cbn [fringe]; try reflexivity. rewrite app_assoc. reflexivity.
  - intros d D S F E. destruct (IHrel (sane_pop _ _ _ D S) (ready_pop _ _ _ _ _ D S F ltac:(rewrite H; exact I)) E) as [A _]. split; [discriminate|]. exists (fringe r). split; [exact A|reflexivity].
  - (* cast *)
    intros d D S F E. pose proof (rel_err _ _ _ _ _ _ _ H2 E) as E1. pose proof (expect_adv _ _ _ _ H1) as A1. destruct (expect_err _ _ _ _ H1 E1) as (E0 & rk & -> & TR). pose proof (adv_take n s) as A0.
    assert (S0 := sane_pop _ _ _ D S). assert (S1 := sane_adv _ _ _ A1 (sane_adv _ _ _ A0 S0)).
    assert (L : ty tk = T_LPAREN) by (destruct (ty tk); vm_compute in F; try discriminate F; injection F as <-; cbn [r_func] in H; try discriminate H; reflexivity).
    assert (R1 : ready s1).
    { intros y r T M. destruct (S [] tk (e_toks s) eq_refl) as (_ & _ & S3). assert (EE : e_err s = false) by exact E0. assert (C : cast_of (tk :: rev [] ++ d) (e_toks s) = Some n).
      { cbn [rev app]. rewrite <- D. unfold cast_of. destruct s as [d0 t0 e0]. cbn [e_done e_toks e_err] in *. rewrite <- EE. exact H0. }
      assert (SK : skipn (Datatypes.S n) (e_toks s) = y :: r).
      { destruct A1 as [A1 _]. cbn [take e_toks app] in A1. replace (Datatypes.S n) with (n + 1) by lia. clear - A1 T. revert A1. generalize (e_toks s). intros l A1. rewrite <- T.
        assert (Q : skipn 1 (skipn n l) = skipn (n + 1) l). { clear. revert l. induction n as [|n IH]; intros [|x l]; cbn [skipn Nat.add]; try reflexivity. apply IH. }
        rewrite <- Q, A1. reflexivity. }
      destruct (S3 L _ _ _ C SK M). }
    destruct (IHrel S1 R1 E) as [A2 _]. split; [discriminate|]. exists (firstn n (e_toks s) ++ [rk] ++ fringe x). split; [exact (adv_trans _ _ _ _ _ A0 (adv_trans _ _ _ _ _ A1 A2))|reflexivity].
  - intros d D S F E. destruct (expect_err _ _ _ _ H2 E) as [E1 _]. destruct (IHrel (sane_pop _ _ _ D S) (ready_pop _ _ _ _ _ D S F ltac:(rewrite H; exact I)) E1) as [A _]. split; [discriminate|]. exists (fringe x ++ rp). split; [exact (adv_trans _ _ _ _ _ A (expect_adv _ _ _ _ H2))|reflexivity].
  - intros d D S F E. destruct (expect_err _ _ _ _ H2 E) as [E1 _]. destruct (IHrel (sane_pop _ _ _ D S) (ready_pop _ _ _ _ _ D S F ltac:(rewrite H; exact I)) E1) as [A _]. split; [discriminate|]. exists (fringe x ++ rp). split; [exact (adv_trans _ _ _ _ _ A (expect_adv _ _ _ _ H2))|reflexivity].
  - intros d D S F E. destruct (IHrel (sane_pop _ _ _ D S) (ready_pop _ _ _ _ _ D S F ltac:(rewrite H; exact I)) E) as [A _]. split; [discriminate|]. exists (fringe x). split; [exact A|reflexivity].
  - intros d D S F E. split; [discriminate|]. exists []. split; [apply adv_refl|reflexivity].
  - (* sizeof with parens *)
    intros d D S F E. destruct (expect_err _ _ _ _ H3 E) as [E1 _]. assert (S0 := sane_pop _ _ _ D S). destruct (sane_take _ _ _ H0 S0) as [S2 D2].
    assert (R : ready (take 1 s)) by (intros y r' T M; rewrite D2; cbn [back_if]; apply is_eq in H1; rewrite H1; reflexivity).
    pose proof (adv_take 1 s) as A0. rewrite H0 in A0. cbn [firstn] in A0.
    destruct (IHrel (sane_adv _ _ _ A0 S0) R E1) as [A _]. split; [discriminate|]. exists ([lp] ++ fringe x ++ rp). split; [exact (adv_trans _ _ _ _ _ A0 (adv_trans _ _ _ _ _ A (expect_adv _ _ _ _ H3)))|reflexivity].
  - intros d D S F E. destruct (IHrel (sane_pop _ _ _ D S) (ready_pop _ _ _ _ _ D S F ltac:(rewrite H; exact I)) E) as [A _]. split; [discriminate|]. exists (fringe x). split; [exact A|cbn [fringe app]; rewrite app_nil_r; reflexivity].
  - intros d D S F E. destruct (expect_err _ _ _ _ H2 E) as [E1 _]. destruct (IHrel (sane_pop _ _ _ D S) (ready_pop _ _ _ _ _ D S F ltac:(rewrite H; exact I)) E1) as [A _]. split; [discriminate|]. exists (fringe x ++ rb). split; [exact (adv_trans _ _ _ _ _ A (expect_adv _ _ _ _ H2))|reflexivity].
  - (* ternary *)
    intros d D S F E. pose proof (rel_err _ _ _ _ _ _ _ H2 E) as E2. destruct (expect_err _ _ _ _ H1 E2) as [E1 _].
    destruct (IHrel1 (sane_pop _ _ _ D S) (ready_pop _ _ _ _ _ D S F ltac:(rewrite H; exact I)) E1) as [A1 _].
    destruct (expect_ready _ _ _ _ H1 E2 (sane_adv _ _ _ A1 (sane_pop _ _ _ D S)) (proj1 wanted_colon)) as (R2 & S2 & _). destruct (IHrel2 S2 R2 E) as [A2 _].
    split; [discriminate|]. exists (fringe t ++ c ++ fringe f). split; [exact (adv_trans _ _ _ _ _ A1 (adv_trans _ _ _ _ _ (expect_adv _ _ _ _ H1) A2))|reflexivity].
  - intros d D S F E. exfalso. pose proof (rel_err _ _ _ _ _ _ _ H2 E) as E2. destruct (expect_err _ _ _ _ H1 E2) as [E1 _].
    destruct (IHrel1 (sane_pop _ _ _ D S) (ready_pop _ _ _ _ _ D S F ltac:(rewrite H; exact I)) E1) as [A1 _]. assert (S1 := sane_adv _ _ _ A1 (sane_pop _ _ _ D S)).
    destruct (expect_ready _ _ _ _ H1 E2 S1 (proj1 wanted_colon)) as (R2 & S2 & k & -> & T & K). destruct (IHrel2 S2 R2 E) as [A2 N].
    destruct (S1 [] k (e_toks s2) T) as (C & _). destruct (C K) as (y & r & T2 & ST & LN). apply (N y); [|exact ST|reflexivity].
    unfold ExprModel.peek. rewrite T2. rewrite T2 in LN. apply Nat.eqb_neq in LN. rewrite E2, LN. destruct (is T_EOF y) eqn:I; [|reflexivity]. apply is_eq in I. apply starts_rule in ST. rewrite I in ST. destruct ST. vm_compute. reflexivity.
  - intros d D S F E. destruct (IHrel (sane_pop _ _ _ D S) (ready_pop _ _ _ _ _ D S F ltac:(rewrite H; exact I)) E) as [A _]. split; [discriminate|]. exists (fringe x). split; [exact A|reflexivity].
Qed.
End Sound.

(** ** Trees inside trees *)

Definition children (x : expr) : list expr :=
  match x with
  | ENull | ELiteral _ | ERecover _ => []
  | EUnary _ x | EPrefix _ x | EPostfix x _ | EParens _ x _ | ESizeof _ _ x _ | EConcat x _ => [x]
  | EBinary l _ r | EArg l _ r | EField l _ r => [l; r]
  | ESquares l _ x _ | ECall l _ x _ => [l; x]
  | ETernary c _ t _ f => [c; t; f]
  | ECast _ t _ x => [t; x]
  end.
Inductive within : expr -> expr -> Prop :=
| W_here : forall x, within x x
| W_below : forall x y z, In y (children z) -> within x y -> within x z.
Lemma respects_child : forall x y, respects x -> In y (children x) -> respects y.
Proof.
  intros x y R C. destruct x; cbn [children In] in C; try contradiction;
    try (cbn [respects] in R; decompose [and] R; repeat (destruct C as [C|C]; [subst y; assumption|]); destruct C).
  - subst y. destruct lp; [apply R|exact R].
  - contradiction.
Qed.
Lemma respects_within : forall y x, within y x -> respects x -> respects y.
Proof. intros y x W. induction W; intros R; [exact R|]. apply IHW. exact (respects_child _ _ R H). Qed.

(** ** The grammar of C *)

(** ISO C 6.5: primary expressions are at 16, postfix ones at 15, unary ones and casts at 14,
    the other operators at their levels.  What is between parentheses after [sizeof] may be a
    type. *)
Inductive gram : nat -> expr -> Prop :=
| G_atom : forall k, In (ty k) atoms -> gram 16 (ELiteral k)
| G_strings : forall k ks, ty k = T_STRING -> ks <> [] -> Forall (fun k => ty k = T_STRING) ks -> gram 16 (EConcat (ELiteral k) ks)
| G_parens : forall lp x rp, ty lp = T_LPAREN -> gram 1 x -> ty rp = T_RPAREN -> gram 16 (EParens lp x [rp])
| G_call0 : forall l lp rp, gram 15 l -> ty lp = T_LPAREN -> ty rp = T_RPAREN -> gram 15 (ECall l lp ENull [rp])
| G_call : forall l lp x rp, gram 15 l -> ty lp = T_LPAREN -> gram 1 x -> ty rp = T_RPAREN -> gram 15 (ECall l lp x [rp])
| G_squares : forall l lb x rb, gram 15 l -> ty lb = T_LSQUARE -> gram 1 x -> ty rb = T_RSQUARE -> gram 15 (ESquares l lb x [rb])
| G_field : forall l tk k, gram 15 l -> In (ty tk) [T_PERIOD; T_ARROW] -> ty k = T_IDENT -> gram 15 (EField l tk (ELiteral k))
| G_postfix : forall l tk, gram 15 l -> In (ty tk) steps -> gram 15 (EPostfix l tk)
| G_prefix : forall tk x, In (ty tk) steps -> gram 14 x -> gram 14 (EPrefix tk x)
| G_unary : forall tk x, In (ty tk) unary_ops -> gram 14 x -> gram 14 (EUnary tk x)
| G_sizeof : forall tk x, ty tk = T_SIZEOF -> gram 14 x -> gram 14 (ESizeof tk [] x [])
| G_sizeof_parens : forall tk lp x rp, ty tk = T_SIZEOF -> ty lp = T_LPAREN -> gram 1 x -> ty rp = T_RPAREN -> gram 14 (ESizeof tk [lp] x [rp])
| G_sizeof_type : forall tk lp ks rp, ty tk = T_SIZEOF -> ty lp = T_LPAREN -> ty rp = T_RPAREN -> gram 14 (ESizeof tk [lp] (ERecover ks) [rp])
| G_cast : forall lp ks rp x, ty lp = T_LPAREN -> ty rp = T_RPAREN -> gram 14 x -> gram 14 (ECast lp (ERecover ks) [rp] x)
| G_binary : forall l tk r, 4 <= level (ty tk) -> gram (level (ty tk)) l -> gram (S (level (ty tk))) r -> gram (level (ty tk)) (EBinary l tk r)
| G_ternary : forall c q t colon f, gram 4 c -> ty q = T_QUESTION -> gram 1 t -> ty colon = T_COLON -> gram 3 f -> gram 3 (ETernary c q t [colon] f)
| G_assign : forall l tk r, gram 14 l -> level (ty tk) = 2 -> gram 2 r -> gram 2 (EBinary l tk r)
| G_comma : forall l tk r, gram 1 l -> ty tk = T_COMMA -> gram 2 r -> gram 1 (EArg l tk r)
| G_up : forall n x, gram (S n) x -> 1 <= n -> gram n x.

(** What the tool groups in another way, see the refutations below: [++] after an operand of
    an unary operator, anything after the operand of a cast, and more than one string on the
    right of an operator tighter than [<<]. *)
Fixpoint stepped (x : expr) : Prop :=
  match x with
  | EPostfix _ _ => True
  | ESquares l _ _ _ | EField l _ _ | ECall l _ _ _ => stepped l
  | _ => False
  end.
Fixpoint strings_first (x : expr) : Prop :=
  match x with
  | EConcat _ _ => True
  | EBinary l _ _ | EArg l _ _ | ETernary l _ _ _ _ | EPostfix l _ | ESquares l _ _ _ | EField l _ _ | ECall l _ _ _ => strings_first l
  | _ => False
  end.
Definition suffixed (x : expr) : Prop := match x with EPostfix _ _ | ESquares _ _ _ _ | EField _ _ _ | ECall _ _ _ _ => True | _ => False end.
Fixpoint plain (x : expr) : Prop :=
  match x with
  | ENull | ELiteral _ | ERecover _ => True
  | EUnary _ x | EPrefix _ x | ESizeof _ [] x _ => ~ stepped x /\ ~ strings_first x /\ plain x
  | EPostfix x _ | EParens _ x _ | ESizeof _ _ x _ | EConcat x _ => plain x
  | EBinary l tk r => plain l /\ (12 <= level (ty tk) -> ~ strings_first r) /\ plain r
  | EArg l _ r | EField l _ r => plain l /\ plain r
  | ESquares l _ x _ | ECall l _ x _ => plain l /\ plain x
  | ETernary c _ t _ f => plain c /\ plain t /\ plain f
  | ECast _ _ _ x => ~ suffixed x /\ ~ strings_first x /\ plain x
  end.

Lemma level_max : forall t, level t <= 13.
Proof. intros t. destruct t; vm_compute; lia. Qed.
Lemma gram_pos : forall n x, gram n x -> 1 <= n <= 16 /\ x <> ENull.
Proof.
  intros n x H. induction H; try (split; [lia|discriminate]).
  split; [lia|apply IHgram].
Qed.
Lemma gram_shape : forall n x, gram n x -> shape x.
Proof.
  assert (C : forall t k, ty k = t -> closed t [k]) by (intros t k H; exists k; auto).
  intros n x H. induction H; cbn [shape];
    repeat match goal with H : gram _ ?x |- _ => lazymatch goal with Q : x <> ENull |- _ => fail | _ => pose proof (proj2 (gram_pos _ _ H)) end end; auto 10.
  - split; [exact H0|]. split; [apply (Forall_impl _ (P := fun k => ty k = T_STRING)); [|exact H1]; intros j J; rewrite J; vm_compute; auto|].
    split; [discriminate|]. split; [exact I|]. rewrite H. vm_compute. auto.
  - repeat split; auto. rewrite H1. left. reflexivity.
  - repeat split; auto. eexists; eauto.
  - assert (ty tk <> T_COMMA) by (intros Q; rewrite Q in H; vm_compute in H; lia). assert (ty tk <> T_QUESTION) by (intros Q; rewrite Q in H; vm_compute in H; lia). repeat split; auto; lia.
  - assert (ty tk <> T_COMMA) by (intros Q; rewrite Q in H0; discriminate H0). assert (ty tk <> T_QUESTION) by (intros Q; rewrite Q in H0; discriminate H0). repeat split; auto; lia.
Qed.

Lemma weak : forall n m k (l : list nat), n <= m -> Forall (fun q => min m k <= q) l -> Forall (fun q => min n k <= q) l.
Proof. intros n m k l L H. eapply Forall_impl; [|exact H]. intros q Q. cbv beta in Q |- *. lia. Qed.
Ltac by_ih := match goal with IH : Forall _ (?f ?l) |- Forall _ (?f ?l) => refine (weak _ _ _ _ _ IH); lia | IH : _ -> Forall _ (?f ?l) |- Forall _ (?f ?l) => refine (weak _ _ _ _ _ (IH _)); [lia|assumption] end.
Lemma ledge_all : forall n x, gram n x -> Forall (fun q => min n 12 <= q) (ledge x).
Proof.
  intros n x H. induction H; cbn [ledge]; try by_ih; try (apply Forall_nil); (apply Forall_cons; [try lia|try by_ih]).
  - apply Forall_nil.
  - rewrite H0. vm_compute. lia.
Qed.
Lemma ledge_plain : forall n x, gram n x -> ~ strings_first x -> Forall (fun q => min n 14 <= q) (ledge x).
Proof.
  intros n x H. induction H; intros N; cbn [ledge strings_first] in *; try by_ih; try (apply Forall_nil); try (destruct N; exact I); (apply Forall_cons; [try lia|try by_ih]).
  rewrite H0. vm_compute. lia.
Qed.
Lemma ledge_unstepped : forall n x, gram n x -> 14 <= n -> ~ strings_first x -> ~ stepped x -> Forall (fun q => 14 < q) (ledge x).
Proof.
  intros n x H. induction H; intros L N M; cbn [ledge strings_first stepped] in *; try (pose proof (level_max (ty tk))); try lia; try (apply Forall_nil); try (destruct N; exact I); try (destruct M; exact I);
    try (apply Forall_cons; [lia|]); (apply IHgram1 + apply IHgram); auto; lia.
Qed.
Lemma ledge_unsuffixed : forall n x, gram n x -> 14 <= n -> ~ strings_first x -> ~ suffixed x -> ledge x = [].
Proof.
  intros n x H. induction H; intros L N M; cbn [ledge strings_first suffixed] in *; try (pose proof (level_max (ty tk))); try lia; try reflexivity; try (destruct N; exact I); try (destruct M; exact I). apply IHgram; auto; lia.
Qed.
Lemma redge_all : forall n x, gram n x -> Forall (fun q => (if 3 <? n then min n 15 else 1) <= q) (redge x).
Proof.
  assert (A : forall m n p (x : expr), (if 3 <? n then min n 15 else 1) <= p -> (if 3 <? n then min n 15 else 1) <= (if 3 <? m then min m 15 else 1) ->
    Forall (fun q => (if 3 <? m then min m 15 else 1) <= q) (redge x) -> Forall (fun q => (if 3 <? n then min n 15 else 1) <= q) (after p x (redge x))).
  { intros m n p x L M H. unfold after. destruct (isnull x); [constructor|]. constructor; [exact L|]. eapply Forall_impl; [|exact H]. intros q Q. cbv beta in Q |- *. lia. }
  intros n x H. induction H; cbn [redge]; try (apply Forall_nil); try (apply (A 14); [vm_compute; lia|vm_compute; lia|assumption]).
  - apply (A 16); [vm_compute; lia|vm_compute; lia|apply Forall_nil].
  - pose proof (level_max (ty tk)). assert (Q : right_of (ty tk) = level (ty tk)) by (unfold right_of, from_right; destruct (Nat.eqb_spec (level (ty tk)) 2); [lia|reflexivity]).
    destruct (Nat.ltb_spec 3 (level (ty tk))) as [B|B]; [|lia]. rewrite Q. pose proof (A (S (level (ty tk))) (level (ty tk)) (level (ty tk)) r) as G.
    destruct (Nat.ltb_spec 3 (level (ty tk))) as [B1|B1]; [|lia]. destruct (Nat.ltb_spec 3 (S (level (ty tk)))) as [B2|B2]; [|lia]. apply G; [lia|lia|exact IHgram2].
  - apply (A 3); [vm_compute; lia|vm_compute; lia|assumption].
  - apply (A 2); [|vm_compute; lia|assumption]. unfold right_of, from_right. rewrite H0. vm_compute. lia.
  - apply (A 2); [|vm_compute; lia|assumption]. rewrite H0. vm_compute. lia.
  - eapply Forall_impl; [|exact IHgram]. intros q Q. cbv beta in Q |- *. destruct (Nat.ltb_spec 3 n); destruct (Nat.ltb_spec 3 (S n)); lia.
Qed.
Lemma left_ok : forall n p x, gram n x -> p <= (if 3 <? n then min n 15 else 1) -> on_left p x.
Proof. intros n p x G L. eapply Forall_impl; [|exact (redge_all _ _ G)]. intros q Q. cbv beta in Q |- *. lia. Qed.
Lemma gram_respects : forall n x, gram n x -> plain x -> respects x.
Proof.
  intros n x H. induction H; intros P; cbn [plain respects] in *; try exact I.
  - split; [apply Forall_nil|exact I].
  - auto.
  - destruct P. split; [apply (left_ok 15); [assumption|vm_compute; lia]|]. auto.
  - destruct P. split; [apply (left_ok 15); [assumption|vm_compute; lia]|]. auto.
  - destruct P. split; [apply (left_ok 15); [assumption|vm_compute; lia]|]. auto.
  - destruct P. split; [apply (left_ok 15); [assumption|vm_compute; lia]|]. split; [apply Forall_nil|]. auto.
  - split; [apply (left_ok 15); [assumption|vm_compute; lia]|]. auto.
  - destruct P as (P1 & P2 & P3). split; [|auto]. exact (ledge_unstepped _ _ H0 ltac:(lia) P2 P1).
  - destruct P as (P1 & P2 & P3). split; [|auto]. exact (ledge_unstepped _ _ H0 ltac:(lia) P2 P1).
  - destruct P as (P1 & P2 & P3). split; [|auto]. exact (ledge_unstepped _ _ H0 ltac:(lia) P2 P1).
  - auto.
  - destruct P as (P1 & P2 & P3). split; [|auto]. unfold on_right. rewrite (ledge_unsuffixed _ _ H1 ltac:(lia) P2 P1). apply Forall_nil.
  - destruct P as (P1 & P2 & P3). pose proof (level_max (ty tk)). assert (Q : right_of (ty tk) = level (ty tk)) by (unfold right_of, from_right; destruct (Nat.eqb_spec (level (ty tk)) 2); [lia|reflexivity]). rewrite Q.
    split; [apply (left_ok (level (ty tk))); [assumption|]; destruct (Nat.ltb_spec 3 (level (ty tk))); lia|]. split; [|auto].
    destruct (Nat.le_gt_cases 12 (level (ty tk))) as [B|B].
    + eapply Forall_impl; [|exact (ledge_plain _ _ H1 (P2 B))]. intros q K. cbv beta in K |- *. lia.
    + eapply Forall_impl; [|exact (ledge_all _ _ H1)]. intros q K. cbv beta in K |- *. lia.
  - destruct P as (P1 & P2 & P3). split; [apply (left_ok 4); [assumption|vm_compute; lia]|]. split; [|auto]. eapply Forall_impl; [|exact (ledge_all _ _ H3)]. intros j K. cbv beta in K |- *. lia.
  - destruct P as (P1 & P2 & P3). rewrite H0. split; [apply (left_ok 14); [assumption|vm_compute; lia]|]. split; [|auto]. unfold right_of, from_right. rewrite H0. eapply Forall_impl; [|exact (ledge_all _ _ H1)]. intros j K. cbv beta in K |- *. vm_compute in K |- *. lia.
  - destruct P as (P1 & P2). rewrite H0. split; [apply (left_ok 1); [assumption|vm_compute; lia]|]. split; [|auto]. eapply Forall_impl; [|exact (ledge_all _ _ H1)]. intros j K. cbv beta in K |- *. vm_compute in K |- *. lia.
  - auto.
Qed.

(** * Theorems *)

Section Theorems.
Variable stop : nat.
Variable tpeek : bool -> list token -> list token -> option nat.
Variable braces : list token -> list token -> option nat * bool.
Notation exec := (expr_exec stop tpeek braces).

Lemma exec_out : forall s x s', exec s = Some (x, s') -> exists x0, rel stop tpeek braces (CExec 0) s x0 s' /\ x = if e_err s' then ENull else x0.
Proof.
  intros s x s' H. unfold expr_exec in H. destruct (run _ _ _ _ _ s) as [[x0 s0]|] eqn:R; [|discriminate H]. apply exec_rel in R. injection H as <- <-. exists x0. auto.
Qed.

(** No input makes the recursion fail an assertion or go on for ever. *)
Theorem C52_total : forall s, exists x s', exec s = Some (x, s').
Proof.
  intros s. unfold expr_exec. destruct (run_total stop tpeek braces (2 * length (e_toks s) + 2) (Exec 0) s (le_n _) I) as [[x s'] R]. rewrite R. eauto.
Qed.

(** Every operator of the tree has the operands its level and direction call for. *)
Theorem C52_grouping : forall s x s', exec s = Some (x, s') -> respects x.
Proof.
  intros s x s' H. destruct (exec_out _ _ _ H) as (x0 & R & ->). destruct (e_err s'); [exact I|]. apply (exec_claim _ _ _ _ _ (sound _ _ _ _ _ _ _ R)).
Qed.

(** In particular for an operator directly below another: on the left it is tighter or as
    tight and not from the right, on the right it is tighter or as tight and from the right. *)
Theorem C52_left : forall s x s' a o1 b o2 c, exec s = Some (x, s') -> within (EBinary (EBinary a o1 b) o2 c) x -> b <> ENull ->
  level (ty o2) < level (ty o1) \/ (level (ty o2) = level (ty o1) /\ from_right (ty o1) = false).
Proof.
  intros s x s' a o1 b o2 c H W N. pose proof (respects_within _ _ W (C52_grouping _ _ _ H)) as (L & _). unfold on_left in L. cbn [redge] in L. unfold after in L. rewrite (null_false _ N) in L. inversion L; subst.
  unfold right_of in H2. destruct (from_right (ty o1)) eqn:F; [unfold from_right in F; apply Nat.eqb_eq in F; left; lia|]. destruct (Nat.eq_dec (level (ty o2)) (level (ty o1))); [right; auto|left; lia].
Qed.
Theorem C52_right : forall s x s' a o1 b o2 c, exec s = Some (x, s') -> within (EBinary a o1 (EBinary b o2 c)) x ->
  level (ty o1) < level (ty o2) \/ (level (ty o1) = level (ty o2) /\ from_right (ty o1) = true).
Proof.
  intros s x s' a o1 b o2 c H W. pose proof (respects_within _ _ W (C52_grouping _ _ _ H)) as (_ & L & _). unfold on_right in L. cbn [ledge] in L. inversion L; subst.
  unfold right_of in H2. destruct (from_right (ty o1)) eqn:F; [|left; exact H2]. unfold from_right in F. apply Nat.eqb_eq in F. destruct (Nat.eq_dec (level (ty o1)) (level (ty o2))); [right; auto|left; lia].
Qed.

(** A tree that has the operands the levels call for is what its tokens are read as,
    whatever follows: the grouping is the only possible one. *)
Theorem C52_round_trip : forall t d k r, shape t -> respects t -> agrees stop tpeek braces d t (k :: r) -> stop <= length (k :: r) ->
  find_rule false (ty k) = None ->
  exec (St d (fringe t ++ k :: r) false) = Some (t, St (rev (fringe t) ++ d) (k :: r) false).
Proof.
  intros t d k r S R A L F. unfold expr_exec. pose proof (inner stop tpeek braces t d k r (all_reads _ _ _ t) S R A L (ledge_pos stop tpeek braces _ S) F) as H. apply exec_rel in H. rewrite H. reflexivity.
Qed.
(** Hence an expression of C is read the way the grammar of C reads it. *)
Theorem C52_grammar : forall n t d k r, gram n t -> plain t -> agrees stop tpeek braces d t (k :: r) -> stop <= length (k :: r) -> find_rule false (ty k) = None ->
  exec (St d (fringe t ++ k :: r) false) = Some (t, St (rev (fringe t) ++ d) (k :: r) false).
Proof. intros n t d k r G P A L F. exact (C52_round_trip t d k r (gram_shape _ _ G) (gram_respects _ _ G P) A L F). Qed.

(** The tokens of the tree are some of those consumed, in the same order; nothing behind the
    ones consumed is touched. *)
Theorem C52_tokens : forall s x s', exec s = Some (x, s') -> exists ks, e_toks s = ks ++ e_toks s' /\ e_done s' = rev ks ++ e_done s /\ sub (fringe x) ks.
Proof.
  intros s x s' H. destruct (exec_out _ _ _ H) as (x0 & R & ->). destruct (keeps _ _ _ _ _ _ _ R) as (ks & [A1 A2] & S). exists ks. split; [exact A1|]. split; [exact A2|]. destruct (e_err s'); [constructor|exact S].
Qed.
(** They are all of them unless an error was raised or an operand is missing where the tool
    drops the operator, see the refutations below. *)
Theorem C52_all_tokens : forall s x s', exec s = Some (x, s') -> e_err s' = false ->
  sane stop (cast_of tpeek) (e_done s) (e_toks s) -> ready s ->
  e_toks s = fringe x ++ e_toks s' /\ e_done s' = rev (fringe x) ++ e_done s.
Proof.
  intros s x s' H E S R. destruct (exec_out _ _ _ H) as (x0 & RR & ->). rewrite E. destruct (no_loss _ _ _ _ _ _ _ RR S R E) as [[A1 A2] _]. auto.
Qed.
End Theorems.

(** * Examples *)

Definition K (t : ttype) (f : N) (s : string) : token := Token (Tok t f (Own (s2b s)) 0 0 1 1) [] [].
Definition id (s : string) : token := K T_IDENT 0 s.
Definition op (t : ttype) (s : string) : token := K t F_BINARY s.
Definition lp := K T_LPAREN 0 "(".
Definition rp := K T_RPAREN 0 ")".
Definition semi := K T_SEMI 0 ";".
Definition eof := K T_EOF 0 "".
Definition tp := type_peek (fun _ => false).
Definition br (d t : list token) : option nat * bool := (None, true).
Definition go (l : list token) : option (expr * st) := expr_exec 0 tp br (St [] (l ++ [semi; eof]) false).

(** [a = b + c * -d[i] == f(x, y) ? p->q : z] *)
Definition eq := op T_EQUAL "=".
Definition plus := op T_PLUS "+".
Definition star := op T_STAR "*".
Definition minus := op T_MINUS "-".
Definition slash := op T_SLASH "/".
Definition eqeq := op T_EQUALEQUAL "==".
Definition quest := K T_QUESTION 0 "?".
Definition colon := K T_COLON 0 ":".
Definition comma := K T_COMMA 0 ",".
Definition arrow := K T_ARROW 0 "->".
Definition dot := K T_PERIOD 0 ".".
Definition lsq := K T_LSQUARE 0 "[".
Definition rsq := K T_RSQUARE 0 "]".
Definition inc := K T_PLUSPLUS 0 "++".
Definition int := K T_INT F_TYPE "int".
Definition L (s : string) : expr := ELiteral (id s).
Definition e1 : expr :=
  EBinary (L "a") eq
    (ETernary
       (EBinary
          (EBinary (L "b") plus (EBinary (L "c") star (EUnary minus (ESquares (L "d") lsq (L "i") [rsq]))))
          eqeq
          (ECall (L "f") lp (EArg (L "x") comma (L "y")) [rp]))
       quest (EField (L "p") arrow (L "q")) [colon] (L "z")).
Ltac is_gram := repeat (first [apply G_atom; vm_compute; tauto | eapply G_parens; [reflexivity| |reflexivity] | eapply G_call; [|reflexivity| |reflexivity] | eapply G_squares; [|reflexivity| |reflexivity]
  | apply G_field; [|vm_compute; tauto|reflexivity] | apply G_unary; [vm_compute; tauto|] | apply G_ternary; [|reflexivity| |reflexivity|] | apply G_assign; [|reflexivity|] | apply G_comma; [|reflexivity|]
  | apply (G_binary _ eqeq); [vm_compute; lia| |] | apply (G_binary _ plus); [vm_compute; lia| |] | apply (G_binary _ star); [vm_compute; lia| |] | apply G_up; [|vm_compute; lia]]).
Example e1_gram : gram 2 e1.
Proof. unfold e1, L. is_gram. Qed.
Example e1_read : plain e1 /\ agrees 0 tp br [] e1 [semi; eof] /\ find_rule false (ty semi) = None /\
  go (fringe e1) = Some (e1, St (rev (fringe e1)) [semi; eof] false).
Proof.
  split; [vm_compute; tauto|]. split; [|split; vm_compute; reflexivity].
  cbn [agrees e1]. repeat split; try (intros _; vm_compute; reflexivity); vm_compute; reflexivity.
Qed.

Example e1_left : exists x s', go (fringe e1) = Some (x, s') /\ exists a b c, within (EBinary (EBinary a plus b) eqeq c) x /\ b <> ENull /\ level (ty eqeq) < level (ty plus).
Proof.
  exists e1, (St (rev (fringe e1)) [semi; eof] false). split; [vm_compute; reflexivity|]. do 3 eexists. split.
  - eapply W_below; [right; left; reflexivity|]. eapply W_below; [left; reflexivity|]. apply W_here.
  - split; [discriminate|vm_compute; lia].
Qed.
(** [a - b - c] and [a = b = c] group in opposite directions. *)
Example chains :
  go [id "a"; minus; id "b"; minus; id "c"] = Some (EBinary (EBinary (L "a") minus (L "b")) minus (L "c"), St (rev [id "a"; minus; id "b"; minus; id "c"]) [semi; eof] false) /\
  go [id "a"; eq; id "b"; eq; id "c"] = Some (EBinary (L "a") eq (EBinary (L "b") eq (L "c")), St (rev [id "a"; eq; id "b"; eq; id "c"]) [semi; eof] false).
Proof. split; vm_compute; reflexivity. Qed.
(** The input of the example above cannot lose tokens. *)
Definition saneb (stop : nat) (cast : list token -> list token -> option nat) : list token -> list token -> bool :=
  let startsb k := existsb (ttype_eqb (ty k)) (atoms ++ unary_ops ++ steps ++ [T_SIZEOF; T_LPAREN]) in
  let misplacedb k := flag F_BINARY k && negb (startsb k && negb (is T_IDENT k)) in
  let fine l := match l with y :: _ => negb (misplacedb y) | [] => true end in
  fix go d t := match t with
  | [] => true
  | k :: b =>
      (if is T_COLON k then match b with y :: _ => startsb y && negb (length b =? stop) | [] => false end else true) &&
      (if existsb (ttype_eqb (ty k)) wanted_after && negb (is T_LPAREN k) && negb (is T_COMMA k) then fine b else true) &&
      (if is T_LPAREN k then match cast (k :: d) b with Some n => fine (skipn (S n) b) | None => true end else true) &&
      go (k :: d) b
  end.
Lemma types_in : forall t l, existsb (ttype_eqb t) l = true <-> In t l.
Proof.
  intros t l. rewrite existsb_exists. split; [intros (j & J & E); apply ttype_eqb_spec in E; subst j; exact J|]. intros H. exists t. split; [exact H|apply ttype_eqb_spec; reflexivity].
Qed.
Lemma misplacedb_spec : forall k, flag F_BINARY k && negb (existsb (ttype_eqb (ty k)) (atoms ++ unary_ops ++ steps ++ [T_SIZEOF; T_LPAREN]) && negb (is T_IDENT k)) = false -> ~ misplaced k.
Proof.
  intros k H [F N]. rewrite F in H. cbn [andb] in H. apply negb_false_iff, andb_true_iff in H. destruct H as [H1 H2]. apply N. split; [apply types_in, H1|]. intros Q. apply is_eq in Q. rewrite Q in H2. discriminate H2.
Qed.
Lemma saneb_ok : forall stop cast t d, saneb stop cast d t = true -> sane stop cast d t.
Proof.
  intros stop cast. induction t as [|x t IH]; intros d H a k b E; [destruct a; discriminate E|].
  cbn [saneb] in H. fold (saneb stop cast) in H. apply andb_true_iff in H. destruct H as [H G]. apply andb_true_iff in H. destruct H as [H C]. apply andb_true_iff in H. destruct H as [A W].
  destruct a as [|x' a]; cbn [app] in E; injection E as E1 E2.
  - subst x t. split; [|split].
    + intros Q. apply is_eq in Q. rewrite Q in A. destruct b as [|y r]; [discriminate A|]. apply andb_true_iff in A. destruct A as [A1 A2]. exists y, r. split; [reflexivity|]. split; [apply types_in, A1|]. apply Nat.eqb_neq, negb_true_iff, A2.
    + intros I1 N1 N2 y r ->. apply types_in in I1. rewrite I1 in W. destruct (is T_LPAREN k) eqn:Q; [apply is_eq in Q; contradiction|]. destruct (is T_COMMA k) eqn:Q2; [apply is_eq in Q2; contradiction|]. apply misplacedb_spec, negb_true_iff, W.
    + intros Q n y r K SK. apply is_eq in Q. rewrite Q in C. cbn [rev app] in K. rewrite K, SK in C. apply misplacedb_spec, negb_true_iff, C.
  - subst x'. specialize (IH _ G a k b E2). cbn [rev]. rewrite <- app_assoc. exact IH.
Qed.
Example e1_sane : sane 0 (cast_of tp) [] (fringe e1 ++ [semi; eof]) /\ ready (St [] (fringe e1 ++ [semi; eof]) false).
Proof.
  split; [apply saneb_ok; vm_compute; reflexivity|]. intros y r E M. exfalso. cbn in E. injection E as <- _. revert M. apply misplacedb_spec. vm_compute. reflexivity.
Qed.

(** * What is false *)

(** An operator directly after something in parentheses that could be a type is lost: the
    tree of [(a)/b] has no [/], that of [(a)&&(b)] no [&&]. *)
Theorem C52_all_tokens_refuted : exists l x s', go l = Some (x, s') /\ e_err s' = false /\ e_toks s' = [semi; eof] /\ fringe x <> l.
Proof.
  exists [lp; id "a"; rp; slash; id "b"]. do 2 eexists. split; [vm_compute; reflexivity|]. split; [reflexivity|]. split; [reflexivity|]. discriminate.
Qed.
Example lost : option_map (fun p => fringe (fst p)) (go [lp; id "a"; rp; op T_AMPAMP "&&"; lp; id "b"; rp]) = Some [lp; id "a"; rp; lp; id "b"; rp].
Proof. vm_compute. reflexivity. Qed.
(** A condition without a last operand is lost as a whole: [f(a ? b : )]. *)
Theorem C52_condition_refuted : exists l x s', go l = Some (x, s') /\ e_err s' = false /\ e_toks s' = [semi; eof] /\ fringe x <> l /\ ~ In quest (fringe x) /\ In quest l.
Proof.
  exists [id "f"; lp; id "a"; quest; id "b"; colon; rp]. do 2 eexists. split; [vm_compute; reflexivity|]. split; [reflexivity|]. split; [reflexivity|]. split; [discriminate|]. split; [|cbn; tauto].
  intros H. repeat (destruct H as [H|H]; [discriminate H|]). exact H.
Qed.
(** The grammar of C is not followed for all expressions: [(int)a.b] is [((int)a).b], [-a++]
    is [(-a)++], [s + "a" "b"] is [(s + "a") "b"]. *)
Definition misread (t : expr) : Prop :=
  gram 4 t /\ agrees 0 tp br [] t [semi; eof] /\ exists x s', go (fringe t) = Some (x, s') /\ e_err s' = false /\ e_toks s' = [semi; eof] /\ fringe x = fringe t /\ x <> t.
Ltac misreads := do 2 eexists; split; [vm_compute; reflexivity|]; split; [reflexivity|]; split; [reflexivity|]; split; [reflexivity|]; discriminate.
Theorem C52_cast_refuted : misread (ECast lp (ERecover [int]) [rp] (EField (L "a") dot (L "b"))).
Proof.
  split; [do 10 (apply G_up; [|lia]); apply G_cast; [reflexivity|reflexivity|]; apply G_up; [|lia]; unfold L; is_gram|].
  split; [cbn [agrees]; repeat split; try (intros _); vm_compute; reflexivity|misreads].
Qed.
Theorem C52_postfix_refuted : misread (EUnary minus (EPostfix (L "a") inc)).
Proof.
  split; [do 10 (apply G_up; [|lia]); apply G_unary; [vm_compute; tauto|]; apply G_up; [|lia]; apply G_postfix; [unfold L; is_gram|vm_compute; tauto]|].
  split; [cbn [agrees]; repeat split; try (intros _); vm_compute; reflexivity|misreads].
Qed.
Definition str (s : string) : token := K T_STRING 0 s.
Theorem C52_strings_refuted : misread (EBinary (L "s") plus (EConcat (ELiteral (str "a")) [str "b"])).
Proof.
  split.
  - do 8 (apply G_up; [|lia]). apply (G_binary _ plus); [vm_compute; lia|unfold L; is_gram|]. do 3 (apply G_up; [|vm_compute; lia]). apply G_strings; [reflexivity|discriminate|repeat constructor].
  - split; [cbn [agrees]; repeat split; try (intros _); try (intros Q; discriminate Q); vm_compute; reflexivity|misreads].
Qed.

Print Assumptions C52_total.
Print Assumptions C52_grouping.
Print Assumptions C52_left.
Print Assumptions C52_right.
Print Assumptions C52_round_trip.
Print Assumptions C52_grammar.
Print Assumptions C52_tokens.
Print Assumptions C52_all_tokens.
Print Assumptions C52_all_tokens_refuted.
Print Assumptions C52_condition_refuted.
Print Assumptions C52_cast_refuted.
Print Assumptions C52_postfix_refuted.
Print Assumptions C52_strings_refuted.
