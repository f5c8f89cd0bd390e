(** What the document of an expression consists of, for C60. *)
From Verif Require Import Base TokenModel LexModel DocModel DocProofs DocFit DocProps ExprModel ExprProofs ExprProps BuildModel BuildProofs ExprDocModel.
Local Close Scope Q_scope.
Local Open Scope nat_scope.

(** * Specification *)

(** What an expression is printed as: tokens, spaces, spaces where the line may be broken
    instead, line breaks, blanks up to a column, recovered tokens and added parentheses. *)
Inductive piece : Set := Tk (k : token) | Sp | Ln | Brk | Col (k : token) | Rec (ks : list token) | Open | Close.

Section Show.
Variable q : queries.
Variable S_ : setting.
Definition opt_ (b : bool) (p : piece) : list piece := if b then [p] else [].
(** Operators other than assignments can be written without spaces if the source has none. *)
Definition spaced (k : token) : bool := flag F_ASSIGN k || negb (flag F_SPACE k) || q_spaces q k.
(** The line is broken behind an operator followed by a comment and a line break, provided
    that lines are broken behind operators. *)
Definition broken (k : token) : bool := negb (flag F_ASSIGN k) && negb (s_break_binary S_) && q_comment q k && q_line q k.
(** From left to right. *)
Fixpoint show (x : expr) : list piece :=
  match x with
  | ENull => []
  | EUnary tk x | EPrefix tk x => Tk tk :: show x
  | EPostfix x tk => show x ++ [Tk tk]
  | EBinary l tk r =>
      let a := flag F_ASSIGN tk in
      let b := negb a && s_break_binary S_ in
      show l ++ opt_ (spaced tk) (if b then Ln else Sp) ++ [Tk tk] ++
      (if broken tk then [Brk] else opt_ (spaced tk) (if a || b then Sp else Ln)) ++ show r
  | EArg l tk r => show l ++ [Tk tk] ++ (if a_ruler S_ then [Col tk] else opt_ (negb (q_comma q tk)) Ln) ++ show r
  | ETernary c qm t colon f =>
      let g := if s_break_ternary S_ then Sp else Ln in
      show c ++ [Ln; Tk qm] ++ (if isnull t then [] else g :: show t ++ [Ln]) ++ map Tk (firstn 1 colon) ++ [g] ++ show f
  | EParens lp x rp => [Tk lp] ++ show x ++ map Tk (firstn 1 rp)
  | ESquares l lb x rb => show l ++ [Tk lb] ++ show x ++ map Tk (firstn 1 rb)
  | EField l tk r => show l ++ [Tk tk] ++ show r
  | ECall l lp x rp => show l ++ [Tk lp] ++ show x ++ map Tk (firstn 1 rp)
  | ECast lp t rp x => [Tk lp] ++ show t ++ map Tk (firstn 1 rp) ++ show x
  | ESizeof tk lp x rp =>
      let a := s_sizeof S_ in
      [Tk tk] ++ (match lp with [] => [if a then Open else Sp] | k :: _ => [Tk k] end) ++ show x ++
      (match rp with [] => opt_ a Close | k :: _ => [Tk k] end)
  | EConcat x ks => show x ++ flat_map (fun k => [Ln; Tk k]) ks
  | ELiteral tk => [Tk tk]
  | ERecover ks => [Rec ks]
  end.
(** Parentheses around everything may be dropped. *)
Definition shown (x : expr) : list piece :=
  match x with EParens _ y _ => if s_parens S_ then show y else show x | _ => show x end.
(** The caller may ask for a space or a line break before. *)
Definition shown_exec (x : expr) : list piece := opt_ (a_line S_) Ln ++ opt_ (a_hardline S_) Brk ++ shown x.
End Show.

(** Operands that are needed are there, and at most one closing token. *)
Fixpoint solid (x : expr) : Prop :=
  match x with
  | ENull | ELiteral _ | ERecover _ => True
  | EUnary _ x | EPrefix _ x | EPostfix x _ => solid x
  | EParens _ x rp => solid x /\ length rp <= 1
  | ESizeof _ lp x rp => solid x /\ length lp <= 1 /\ length rp <= 1
  | EBinary l _ r | EField l _ r => l <> ENull /\ solid l /\ solid r
  | ECall l _ r rp => l <> ENull /\ solid l /\ solid r /\ length rp <= 1
  | EArg l _ r => solid l /\ solid r
  | ESquares l _ r rb => solid l /\ solid r /\ length rb <= 1
  | ETernary c _ t colon f => c <> ENull /\ f <> ENull /\ solid c /\ solid t /\ solid f /\ length colon <= 1
  | ECast _ t rp x => solid t /\ solid x /\ length rp <= 1
  | EConcat x _ => x <> ENull /\ solid x
  end.

(** * Proofs *)

(** ** Trees that are read have the operands needed *)
Section Solid.
Variable stop : nat.
Variable tpeek : bool -> list token -> list token -> option nat.
Variable braces : list token -> list token -> option nat * bool.
Lemma recover_solid : forall s x s', recover tpeek braces s = (x, s') -> solid x.
Proof.
  intros s x s' H. unfold recover in H. repeat match type of H with context [match ?a with _ => _ end] => destruct a end; inversion H; exact Logic.I.
Qed.
Lemma bind_some : forall A C (a : option (A * st)) (f : A -> st -> option C) y, bind a f = Some y -> exists x s, a = Some (x, s) /\ f x s = Some y.
Proof. intros A C [[x s]|] f y H; [|discriminate]. eauto. Qed.
Lemma notnull : forall x, isnull x = false -> x <> ENull.
Proof. intros [] H; discriminate. Qed.
Lemma expect_len : forall t s, length (fst (expect t s)) <= 1.
Proof. intros t s. unfold expect. destruct (e_toks s) as [|k r]; [apply Nat.le_0_l|]. destruct (is t k); [apply Nat.le_refl|apply Nat.le_0_l]. Qed.
Lemma apply_solid : forall ex er tk lhs s x s', (forall pc s x s', ex pc s = Some (x, s') -> solid x) -> solid lhs ->
  (r_func er = FTernary -> lhs <> ENull) -> apply tpeek ex er tk lhs s = Some (x, s') -> solid x.
Proof.
  intros ex er tk lhs s x s' E L T H. unfold apply in H. destruct (r_func er) eqn:F; destruct (isnull lhs) eqn:N; try discriminate H; try (apply notnull in N);
    repeat match type of H with
    | Some _ = Some _ => inversion H; subst; clear H
    | bind _ _ = Some _ => let Q := fresh "Q" in apply bind_some in H; destruct H as (? & ? & Q & H); apply E in Q
    | (let (_, _) := expect ?a ?b in _) = Some _ => let Z := fresh "Z" in pose proof (expect_len a b) as Z; destruct (expect a b); cbn [fst] in Z
    | match recover_cast _ _ with _ => _ end = _ => destruct (recover_cast tpeek s)
    | (if next_is ?a ?b then _ else _) = Some _ => destruct (next_is a b)
    end; try (cbn [solid length]; rewrite ?firstn_length; intuition lia).
  - destruct (is T_COMMA tk); cbn [solid]; tauto.
  - exfalso. apply T; [reflexivity|]. destruct lhs; (reflexivity || discriminate N).
  - destruct (isnull x2) eqn:N1; cbn [solid]; [exact Logic.I|]. apply notnull in N1. tauto.
  - destruct lhs; cbn [solid] in *; tauto.
  - cbn [solid]. destruct (e_toks s); cbn [length]; intuition lia.
Qed.
Lemma no_unary_ternary : forall t er, find_rule true t = Some er -> r_func er <> FTernary.
Proof. intros t er H. destruct t; cbv in H; (discriminate H || (inversion H; discriminate)). Qed.
Lemma run_solid : forall fuel m s x s', (match m with Loop _ x => solid x /\ x <> ENull | Exec _ => True end) -> run stop tpeek braces fuel m s = Some (x, s') -> solid x.
Proof.
  induction fuel as [|f IH]; intros m s x s' M H; [discriminate|]. cbn [run] in H. destruct m as [pc|pc y].
  - destruct (peek stop s) as [k|]; [|inversion H; exact Logic.I].
    set (u := match find_rule true (ty k) with Some _ => if is T_IDENT k then recover tpeek braces s else (ENull, s) | None => recover tpeek braces s end) in H.
    assert (U : solid (fst u)).
    { unfold u. destruct (find_rule true (ty k)); [destruct (is T_IDENT k)|]; try exact Logic.I; destruct (recover tpeek braces s) eqn:R; exact (recover_solid _ _ _ R). }
    destruct u as [y s1]. cbn [fst] in U. destruct (isnull y) eqn:N.
    + destruct (find_rule true (ty k)) as [er|] eqn:ER; [|inversion H; exact Logic.I]. destruct (e_toks s1); [inversion H; exact Logic.I|].
      apply bind_some in H. destruct H as (z & s2 & A & H). apply apply_solid in A; [|intros pc' a b c R; exact (IH (Exec pc') _ _ _ Logic.I R)|exact Logic.I|intros F; exfalso; exact (no_unary_ternary _ _ ER F)].
      destruct (isnull z) eqn:NZ; [inversion H; exact Logic.I|]. apply (IH (Loop pc z) s2 x s'); [|exact H]. split; [exact A|]. apply notnull, NZ.
    + apply (IH (Loop pc y) s1 x s'); [|exact H]. split; [exact U|]. apply notnull, N.
  - destruct M as [M1 M2]. destruct (peek stop s) as [k|]; [|inversion H; subst; exact M1]. destruct (find_rule false (ty k)) as [er|]; [|inversion H; subst; exact M1].
    destruct (r_pc er <=? pc); [inversion H; subst; exact M1|].
    apply bind_some in H. destruct H as (z & s2 & A & H). apply apply_solid in A; [|intros pc' a b c R; exact (IH (Exec pc') _ _ _ Logic.I R)|exact M1|intros _; exact M2].
    destruct (isnull z || e_err s2) eqn:NZ; [inversion H; exact Logic.I|]. apply orb_false_iff in NZ. apply (IH (Loop pc z) s2 x s'); [|exact H]. split; [exact A|]. apply notnull, NZ.
Qed.
End Solid.

(** ** Building *)
Section Build.
Variable q : queries.
Variable D : docs.
Variable S_ : setting.
Definition pdoc (p : piece) : doc :=
  match p with
  | Tk k => tok D k
  | Sp => Literal (s2b " ")
  | Ln => DocModel.Line
  | Brk => Hardline
  | Col k => let '(i, s, t) := aligned D k in DocModel.Align i s t
  | Rec ks => rec D ks
  | Open => Literal (s2b "(")
  | Close => Literal (s2b ")")
  end.
Definition plvs (ps : list piece) : list doc := flat_map (fun p => leaves (pdoc p)) ps.

Variable good : doc -> Prop.
Variable gk : kind -> Prop.
Hypothesis good_concat : forall l, Forall good l -> good (Concat l).
Hypothesis good_wrap : forall k d, gk k -> good d -> good (wrap1 k d).
Hypothesis good_soft : good Softline.
Hypothesis gk_group : gk KGroup.
Hypothesis gk_indent : forall v, In v [INDENT_WIDTH; INDENT_PARENS; (- Z.of_nat (a_indent S_))%Z] -> gk (KIndent v).
Hypothesis gk_min : forall id i, i = 0 \/ i = a_indent S_ ->
  gk (KMinimize id [(INDENT_WIDTH, false); (Z.of_nat i, false)]) /\ gk (KMinimize id [(0%Z, false); (Z.of_nat i, true)]).
Local Notation grew := (grew good gk).
Definition ok (ps : list piece) : Prop := Forall (fun p => good (pdoc p)) ps.

(** What a computation adds. *)
Definition adds (f : point -> M point) (ps : list piece) : Prop :=
  forall p s, p < length (b_path s) -> wp (f p) (fun q s' => p <= q < length (b_path s') /\ grew p s (plvs ps) s') s.
Lemma plvs_app : forall a b, plvs (a ++ b) = plvs a ++ plvs b.
Proof. intros. apply flat_map_app. Qed.

(** Rules. *)
Lemma r_leaf : forall p0 s0 acc pc w p s (Q : unit -> bs -> Prop), grew p0 s0 (plvs acc) s -> p0 <= p -> p < length (b_path s) -> good (pdoc pc) ->
  (forall s', grew p0 s0 (plvs (acc ++ [pc])) s' -> p < length (b_path s') -> Q tt s') -> wp (leaf_weight (pdoc pc) w p) Q s.
Proof.
  intros p0 s0 acc pc w p s Q G L P GD K. eapply wp_leaf; try eassumption. intros s' G'. apply K. rewrite plvs_app. unfold plvs at 2. cbn [flat_map]. rewrite app_nil_r. exact G'.
Qed.
Lemma r_softline : forall p0 s0 acc p s (Q : unit -> bs -> Prop), grew p0 s0 (plvs acc) s -> p0 <= p -> p < length (b_path s) ->
  (forall s', grew p0 s0 (plvs acc) s' -> p < length (b_path s') -> Q tt s') -> wp (leaf Softline p) Q s.
Proof.
  intros p0 s0 acc p s Q G L P K. eapply wp_leaf; try eassumption. intros s' G'. apply K. cbn [leaves] in G'. rewrite app_nil_r in G'. exact G'.
Qed.
Lemma r_alloc : forall p0 s0 acc ks p s (Q : point -> bs -> Prop), grew p0 s0 (plvs acc) s -> p0 <= p -> p < length (b_path s) -> Forall gk ks ->
  (forall s', grew p0 s0 (plvs acc) s' -> S p < length (b_path s') -> Q (S p) s') -> wp (alloc ks p) Q s.
Proof. intros. eapply wp_alloc; eassumption. Qed.
Lemma r_align : forall i p0 s0 acc p s (Q : point -> bs -> Prop), grew p0 s0 (plvs acc) s -> p0 <= p -> p < length (b_path s) -> i = 0 \/ i = a_indent S_ ->
  (forall q s', grew p0 s0 (plvs acc) s' -> p <= q < length (b_path s') -> Q q s') -> wp (align i p) Q s.
Proof. intros i p0 s0 acc p s Q G L P I K. eapply wp_minimize; try eassumption; [intros id; apply (gk_min id i I)|]. intros s' G' P'. apply K; [exact G'|lia]. Qed.
Lemma r_align_disable : forall i p0 s0 acc p s (Q : point -> bs -> Prop), grew p0 s0 (plvs acc) s -> p0 <= p -> p < length (b_path s) -> i = 0 \/ i = a_indent S_ ->
  (forall q s', grew p0 s0 (plvs acc) s' -> p <= q < length (b_path s') -> Q q s') -> wp (align_disable i p) Q s.
Proof. intros i p0 s0 acc p s Q G L P I K. eapply wp_minimize; try eassumption; [intros id; apply (gk_min id i I)|]. intros s' G' P'. apply K; [exact G'|lia]. Qed.
Lemma r_call : forall p0 s0 acc ps f p s (Q : point -> bs -> Prop), grew p0 s0 (plvs acc) s -> p0 <= p -> p < length (b_path s) -> adds f ps ->
  (forall q s', grew p0 s0 (plvs (acc ++ ps)) s' -> p <= q < length (b_path s') -> Q q s') -> wp (f p) Q s.
Proof.
  intros p0 s0 acc ps f p s Q G L P F K. eapply wp_mono; [exact (F p s P)|]. intros q' s' [A B]. apply K; [|exact A]. rewrite plvs_app. eapply grew_trans; eassumption.
Qed.
Lemma r_soft : forall p0 s0 acc ps f w p s (Q : point -> bs -> Prop), grew p0 s0 (plvs acc) s -> p0 <= p -> p < length (b_path s) -> adds f ps ->
  (forall q s', grew p0 s0 (plvs (acc ++ ps)) s' -> p <= q < length (b_path s') -> Q q s') -> wp (soft S_ f w p) Q s.
Proof.
  intros p0 s0 acc ps f w p s Q G L P F K. unfold soft. destruct (a_nosoft S_); [eapply r_call; eassumption|].
  eapply (wp_soft good gk) with (c := fun m => (w <? SOFT_MAX) && (w <=? m)); try eassumption. rewrite <- plvs_app. exact K.
Qed.
Lemma r_if : forall A (c : bool) (m1 m2 : M A) (Q : A -> bs -> Prop) s, (c = true -> wp m1 Q s) -> (c = false -> wp m2 Q s) -> wp (if c then m1 else m2) Q s.
Proof. intros A [] m1 m2 Q s H1 H2; auto. Qed.

(** The document of an expression consists of its pieces. *)
Definition ushow (es : counts) (x : expr) : list piece := if c_depth es =? 0 then shown q S_ x else show q S_ x.
Lemma null_show : forall x, isnull x = true -> show q S_ x = [].
Proof. intros [] H; (reflexivity || discriminate H). Qed.
Lemma adds_maybe : forall x es, c_depth es <> 0 -> (x <> ENull -> adds (expr_doc q D S_ x es) (ushow es x)) ->
  adds (fun p => if isnull x then ret p else expr_doc q D S_ x es p) (show q S_ x).
Proof.
  intros x es N H p s P. destruct (isnull x) eqn:E.
  - rewrite null_show by exact E. apply wp_ret. split; [lia|]. apply grew_refl, P.
  - unfold ushow in H. destruct (c_depth es =? 0) eqn:Z; [apply Nat.eqb_eq in Z; lia|]. apply H; [apply notnull, E|exact P].
Qed.

(** Below the root. *)
Definition sub (x : expr) : Prop := forall es, c_depth es <> 0 ->
  adds (fun p => if isnull x then ret p else expr_doc q D S_ x es p) (show q S_ x) /\ (x <> ENull -> adds (expr_doc q D S_ x es) (show q S_ x)).
Lemma sub_of : forall x, ok (show q S_ x) -> (x <> ENull -> forall es, ok (ushow es x) -> adds (expr_doc q D S_ x es) (ushow es x)) -> sub x.
Proof.
  intros x O H es Z. assert (U : ushow es x = show q S_ x) by (unfold ushow; destruct (c_depth es =? 0) eqn:E; [apply Nat.eqb_eq in E; lia|reflexivity]).
  split.
  - apply adds_maybe; [exact Z|]. intros N. apply H; [exact N|]. rewrite U. exact O.
  - intros N. rewrite <- U. apply H; [exact N|]. rewrite U. exact O.
Qed.
Lemma r_col : forall p0 s0 acc k p s (Q : unit -> bs -> Prop), grew p0 s0 (plvs acc) s -> p0 <= p -> p < length (b_path s) -> good (pdoc (Col k)) ->
  (forall s', grew p0 s0 (plvs (acc ++ [Col k])) s' -> p < length (b_path s') -> Q tt s') -> wp (leaf (let '(i, s, t) := aligned D k in DocModel.Align i s t) p) Q s.
Proof. intros p0 s0 acc k p s Q G L P GD K. exact (r_leaf p0 s0 acc (Col k) 0 p s Q G L P GD K). Qed.

Ltac side := first [assumption | lia | (constructor; [first [assumption | exact gk_group | apply gk_indent; cbn [In]; tauto]|constructor]) | tauto].
Ltac finish := match goal with G : BuildProofs.grew _ _ ?p ?s0 (plvs ?a) ?s |- _ /\ BuildProofs.grew _ _ ?p ?s0 (plvs ?b) ?s =>
  split; [lia|]; replace b with a; [exact G|]; cbn [app]; rewrite <- ?app_assoc; cbn [app]; rewrite ?app_nil_r; try reflexivity end.
Ltac next := let s' := fresh "s" in let G := fresh "G" in let P := fresh "P" in intros s' G P.
Ltac step :=
  lazymatch goal with
  | |- wp (bnd _ _) _ _ => apply wp_bnd
  | |- wp (ret _) _ _ => apply wp_ret
  | |- wp (leaf_weight (pdoc _) _ _) _ ?s => match goal with G : BuildProofs.grew _ _ _ _ _ s |- _ => eapply r_leaf; [exact G|side|side|side|next] end
  | |- wp (token_ D ?k ?p) _ ?s => match goal with G : BuildProofs.grew _ _ _ _ _ s |- _ => change (token_ D k p) with (leaf_weight (pdoc (Tk k)) 0 p); eapply r_leaf; [exact G|side|side|side|next] end
  | |- wp (literal " " ?p) _ ?s => match goal with G : BuildProofs.grew _ _ _ _ _ s |- _ => change (literal " " p) with (leaf_weight (pdoc Sp) 0 p); eapply r_leaf; [exact G|side|side|side|next] end
  | |- wp (literal "(" ?p) _ ?s => match goal with G : BuildProofs.grew _ _ _ _ _ s |- _ => change (literal "(" p) with (leaf_weight (pdoc Open) 0 p); eapply r_leaf; [exact G|side|side|side|next] end
  | |- wp (literal ")" ?p) _ ?s => match goal with G : BuildProofs.grew _ _ _ _ _ s |- _ => change (literal ")" p) with (leaf_weight (pdoc Close) 0 p); eapply r_leaf; [exact G|side|side|side|next] end
  | |- wp (leaf DocModel.Line ?p) _ ?s => match goal with G : BuildProofs.grew _ _ _ _ _ s |- _ => change (leaf DocModel.Line p) with (leaf_weight (pdoc Ln) 0 p); eapply r_leaf; [exact G|side|side|side|next] end
  | |- wp (leaf Hardline ?p) _ ?s => match goal with G : BuildProofs.grew _ _ _ _ _ s |- _ => change (leaf Hardline p) with (leaf_weight (pdoc Brk) 0 p); eapply r_leaf; [exact G|side|side|side|next] end
  | |- wp (leaf_weight (rec D ?ks) ?w ?p) _ ?s => match goal with G : BuildProofs.grew _ _ _ _ _ s |- _ => change (rec D ks) with (pdoc (Rec ks)); eapply r_leaf; [exact G|side|side|side|next] end
  | |- wp (leaf Softline _) _ ?s => match goal with G : BuildProofs.grew _ _ _ _ _ s |- _ => eapply r_softline; [exact G|side|side|next] end
  | |- wp (alloc _ _) _ ?s => match goal with G : BuildProofs.grew _ _ _ _ _ s |- _ => eapply r_alloc; [exact G|side|side|side|next] end
  | |- wp (align _ _) _ ?s => match goal with G : BuildProofs.grew _ _ _ _ _ s |- _ => eapply r_align; [exact G|side|side|tauto|intros ?; next] end
  | |- wp (align_disable _ _) _ ?s => match goal with G : BuildProofs.grew _ _ _ _ _ s |- _ => eapply r_align_disable; [exact G|side|side|tauto|intros ?; next] end
  | |- wp (if isnull ?x then ret ?p else expr_doc q D S_ ?x ?es ?p) _ ?s =>
      match goal with
      | G : BuildProofs.grew _ _ ?p0 ?s0 (plvs ?acc) s, H : sub x |- _ => apply (r_call p0 s0 acc (show q S_ x) (fun pp => if isnull x then ret pp else expr_doc q D S_ x es pp) p); [exact G|side|side|refine (proj1 (H es _)); discriminate|intros ?; next]
      end
  | |- wp (expr_doc q D S_ ?x ?es ?p) _ ?s =>
      match goal with
      | G : BuildProofs.grew _ _ ?p0 ?s0 (plvs ?acc) s, H : sub x |- _ => apply (r_call p0 s0 acc (show q S_ x) (expr_doc q D S_ x es) p); [exact G|side|side|refine (proj2 (H es _) _); [discriminate|assumption]|intros ?; next]
      end
  | |- wp (soft _ (expr_doc _ _ _ ?x ?es) _ _) _ ?s =>
      match goal with
      | G : BuildProofs.grew _ _ ?p0 ?s0 (plvs ?acc) s, H : sub x |- _ => eapply (r_soft p0 s0 acc (show q S_ x)); [exact G|side|side|refine (proj2 (H es _) _); [discriminate|assumption]|intros ?; next]
      end
  | |- wp (leaf _ ?p) _ ?s => match goal with G : BuildProofs.grew _ _ _ _ _ s |- _ => eapply r_col; [exact G|side|side|side|next] end
  end.
Lemma r_rest : forall ks dc p0 s0 acc tmp s (Q : unit -> bs -> Prop), grew p0 s0 (plvs acc) s -> p0 <= dc -> dc <= tmp -> tmp < length (b_path s) ->
  ok (flat_map (fun k => [Ln; Tk k]) ks) ->
  (forall s', grew p0 s0 (plvs (acc ++ flat_map (fun k => [Ln; Tk k]) ks)) s' -> dc < length (b_path s') -> Q tt s') -> wp (concat_rest D ks dc tmp) Q s.
Proof.
  induction ks as [|k ks IH]; intros dc p0 s0 acc tmp s Q G L1 L2 P O K.
  - apply wp_ret, K; [|lia]. cbn [flat_map]. rewrite app_nil_r. exact G.
  - cbn [concat_rest flat_map app] in *. unfold ok in O. apply Forall_cons_iff in O. destruct O as [O1 O]. apply Forall_cons_iff in O. destruct O as [O2 O]. do 6 step.
    eapply IH; [eassumption|lia| |eassumption|exact O|]; [lia|]. intros s' G' P'. apply K; [|exact P']. rewrite <- !app_assoc in G'. exact G'.
Qed.
Ltac split_ok := unfold ok in *; cbn [show app firstn map tokens] in *; repeat match goal with
  | H : Forall _ (_ ++ _) |- _ => apply Forall_app in H; destruct H
  | H : Forall _ (_ :: _) |- _ => apply Forall_cons_iff in H; destruct H
  end.
Ltac subs := repeat match goal with
  | IH : solid ?x -> _, S : solid ?x, O : Forall _ (show q S_ ?x) |- _ => let H := fresh "SUB" in pose proof (sub_of x O (IH S)) as H; clear IH
  end.
Ltac go := intros p s P; let G := fresh "G" in pose proof (grew_refl good gk p s P) as G; change (@nil doc) with (plvs []) in G; repeat step; try finish.

Lemma adds_doc : forall x, solid x -> x <> ENull -> forall es, ok (ushow es x) -> adds (expr_doc q D S_ x es) (ushow es x).
Proof.
  induction x; intros S1 N es O; try congruence; cbn [solid] in S1; cbn [expr_doc];
   try (match goal with |- adds _ (ushow es ?y) => assert (U : ushow es y = show q S_ y) by (unfold ushow, shown; destruct (c_depth es =? 0); reflexivity) end; rewrite U in *; clear U).
  - (* unary *) split_ok. subs. go.
  - (* binary *) destruct S1 as (NL & S1 & S2). cbn [show] in *. unfold spaced, broken in *. unfold has_spaces. destruct (flag F_ASSIGN tk); [|destruct (s_break_binary S_)].
    + cbn [negb orb andb opt_] in *. split_ok. subs. destruct (isnull x2) eqn:N2; [rewrite (null_show _ N2) in *|]; (destruct (s_align_operands S_); [destruct (q_line q tk)|]); try (apply notnull in N2; destruct (1 <? _)); go.
    + cbn [negb orb andb] in *. destruct (negb (flag F_SPACE tk) || q_spaces q tk); cbn [opt_] in *; split_ok; subs; (destruct (s_align_operands S_)); go.
    + cbn [negb orb andb] in *. destruct (q_comment q tk && q_line q tk); destruct (negb (flag F_SPACE tk) || q_spaces q tk); cbn [opt_ negb andb] in *; split_ok; subs; destruct (isnull x2) eqn:N2; [rewrite (null_show _ N2) in *|apply notnull in N2|rewrite (null_show _ N2) in *|apply notnull in N2| rewrite (null_show _ N2) in *|apply notnull in N2|rewrite (null_show _ N2) in *|apply notnull in N2]; (destruct (s_align_operands S_)); go.
  - (* arg *) destruct S1 as (S1 & S2). cbn [show] in *. destruct (a_ruler S_); [|destruct (q_comma q tk)]; cbn [opt_ negb] in *; split_ok; subs; (destruct (isnull x1) eqn:N1; [rewrite (null_show _ N1) in *|apply notnull in N1]); (destruct (isnull x2) eqn:N2; [rewrite (null_show _ N2) in *|apply notnull in N2]); go.
  - (* ternary *) destruct S1 as (NC & NF & S1 & S2 & S3 & _). cbn [show] in *. destruct (s_break_ternary S_); (destruct (isnull x2) eqn:N2; [|apply notnull in N2]); destruct colon as [|k colon]; cbn [firstn map tokens] in *; split_ok; subs; try (destruct (s_align_operands S_)); go.
  - (* prefix *) split_ok. subs. go.
  - (* postfix *) split_ok. subs. go.
  - (* parens *) destruct S1 as (S1 & _). unfold ushow, shown in O |- *. cbn [c_depth]. change (S (c_depth es) =? 1) with (c_depth es =? 0). destruct (c_depth es =? 0); [destruct (s_parens S_) eqn:PAR|]; cbn [andb] in O |- *.
    + split_ok. subs. go.
    + destruct rp as [|k rp]; cbn [firstn map tokens] in *; split_ok; subs; (destruct (s_align_bracket S_); [|unfold indent_parens; destruct (0 <? _)]); go.
    + destruct rp as [|k rp]; cbn [firstn map tokens] in *; split_ok; subs; (destruct (s_align_bracket S_); [|unfold indent_parens; destruct (0 <? _)]); go.
  - (* squares *) destruct S1 as (S1 & S2 & _). cbn [show] in *. destruct rb as [|k rb]; cbn [firstn map tokens] in *; split_ok; subs; go.
  - (* field *) destruct S1 as (NL & S1 & S2). split_ok. subs. go.
  - (* call *) destruct S1 as (NL & S1 & S2 & _). cbn [c_ncalls c_depth c_nassign c_noparens]. generalize (1 <? S (c_ncalls es)). intros many_. cbn [show] in *.
    set (i := if (S (c_ncalls es) =? 1) && (a_align S_ =? 0) && negb (a_hardline S_) then 0 else a_indent S_). assert (I : i = 0 \/ i = a_indent S_) by (unfold i; destruct (_ && _); auto). clearbody i.
    destruct rp as [|k rp]; cbn [firstn map tokens] in *; split_ok; subs; (destruct (isnull x2) eqn:N2; [rewrite (null_show _ N2) in *|apply notnull in N2]); cbn [negb andb]; destruct many_; try (destruct (q_fold q k)); try (destruct (s_align_bracket S_)); try (destruct (q_line q lp)); go.
  - (* cast *) destruct S1 as (S1 & S2 & _). cbn [show] in *. destruct rp as [|k rp]; cbn [firstn map tokens] in *; split_ok; subs; go.
  - (* sizeof *) destruct S1 as (S1 & _). cbn [show] in *. destruct lp as [|k lp]; destruct rp as [|k' rp]; destruct (s_sizeof S_); cbn [opt_] in *; split_ok; subs; go.
  - (* concat *) destruct S1 as (NL & S1). cbn [c_ncalls]. split_ok. subs.
    generalize (s_align_operands S_ && (c_ncalls es =? 0) && existsb (q_prev_line q) (ex_tk x)). intros c. 
    destruct c; go; (eapply r_rest; [eassumption|lia|apply Nat.le_refl|lia|assumption|]); intros; apply wp_ret; finish.
  - (* literal *) split_ok. go.
  - (* recover *) split_ok. destruct (match ks with k :: _ => is T_LBRACE k | [] => false end); go.
Qed.

Hypothesis gk_exec : gk (KMaxlines 1) /\ gk KScope /\ gk KOptional.
Hypothesis gk_exec_indent : gk (KIndent (Z.of_nat (a_align S_))) /\ gk (KIndent (Z.of_nat (a_indent S_))).
Lemma adds_exec : forall x, solid x -> x <> ENull -> ok (shown_exec q S_ x) -> adds (expr_doc_exec q D S_ x) (shown_exec q S_ x).
Proof.
  intros x S1 N O. unfold expr_doc_exec, shown_exec in *. pose proof (adds_doc x S1 N (Counts 0 0 0 0)) as H. change (ushow (Counts 0 0 0 0) x) with (shown q S_ x) in H. destruct gk_exec as (E1 & E2 & E3). destruct gk_exec_indent as (E4 & E5).
  intros p s P. pose proof (grew_refl good gk p s P) as G. change (@nil doc) with (plvs []) in G.
  apply wp_bnd. eapply r_alloc; [exact G|lia|exact P| |next]. { repeat (constructor; [assumption|]). destruct (0 <? a_align S_); [|destruct (0 <? a_indent S_)]; repeat constructor; assumption. }
  destruct (a_line S_), (a_softline S_), (a_hardline S_); cbn [opt_] in *; unfold ok in O; repeat (apply Forall_app in O; destruct O as [?O O]);
   repeat match goal with H : Forall _ [_] |- _ => inversion H; subst; clear H end; repeat step; (eapply r_call; [eassumption|lia|lia|exact (H O)|intros ? s' G' P']);
   (split; [lia|]; match goal with G : BuildProofs.grew _ _ ?p ?s0 (plvs ?a) ?s |- BuildProofs.grew _ _ ?p ?s0 (plvs ?b) ?s => exact G end).
Qed.
End Build.
