(** What the parser reads and builds: rules for its functions. *)
From Verif Require Import Base TokenModel LexModel DocModel ExprModel ExprProofs ExprProps BuildModel BuildProofs ExprDocModel ExprDocProofs SynModel.
Local Close Scope Q_scope.
Local Open Scope nat_scope.

(** * Specification *)

(** [less q a b]: [b] is [a] without some semicolons, each of which follows or precedes
    another one, or follows a right brace.  [q]: whether the last token kept is one of
    these. *)
Definition stopper (k : token) : bool := is T_SEMI k || is T_RBRACE k.
Inductive less : bool -> list token -> list token -> Prop :=
| less_nil : forall q, less q [] []
| less_keep : forall q k a b, less (stopper k) a b -> less q (k :: a) (k :: b)
| less_drop : forall q k a b, is T_SEMI k = true -> q = true \/ next_is T_SEMI b = true -> less q a b -> less q (k :: a) b.
Definition shed : list token -> list token -> Prop := less false.

(** The parts of a statement: tokens, labels, a space, a place where a line may be broken,
    a line, an expression read from one state of the lexer up to another one, a document
    other than these (blanks).
    Lines go on at the indentation given. *)
Inductive item : Type :=
| T (k : token)
| TL (k : token)
| SP
| LN (z : Z)
| HL (z : Z)
| EX (stop : nat) (a : setting) (s : st) (x : expr) (s' : st)
| BL (d : doc).
(** The tokens of an item. *)
Definition ins (i : item) : list token :=
  match i with
  | T k | TL k => [k]
  | EX _ _ s _ s' => firstn (length (e_toks s) - length (e_toks s')) (e_toks s)
  | _ => []
  end.
Definition consumed (l : list item) : list token := flat_map ins l.

Section Spec.
Variable q : queries.
Variable D : docs.
Variable labelled : token -> doc.
(** The documents of an item and, for lines and labels, the indentation in force. *)
Definition any (l : list doc) : list (option Z * doc) := map (fun d => (None, d)) l.
Definition idoc (i : item) : list (option Z * doc) :=
  match i with
  | T k => any (leaves (tok D k))
  | TL k => map (fun a => (Some (fst a), snd a)) (ileaves 0 (labelled k))
  | SP => any [Literal (s2b " ")]
  | LN z => [(Some z, DocModel.Line)]
  | HL z => [(Some z, Hardline)]
  | EX _ a _ x _ => if isnull x then [] else any (plvs D (shown_exec q a x))
  | BL d => any (leaves d)
  end.
Definition idocs (l : list item) : list (option Z * doc) := flat_map idoc l.
Definition placed (a : Z * doc) (b : option Z * doc) : Prop := snd a = snd b /\ match fst b with Some z => fst a = z | None => True end.
Definition fits (ds : list (Z * doc)) (its : list item) : Prop := Forall2 placed ds (idocs its).
End Spec.

(** Tokens on a line. *)
Definition on_line (k : token) (l : list token) : bool := match l with n :: _ => lno k =? lno n | [] => false end.
(** In front of else and right braces. *)
Definition between (z : Z) (b : bool) : item := if b then SP else HL z.
Section Common.
(** Style options used for expressions. *)
Variable S_ : setting.
Variable tpeek : bool -> list token -> list token -> option nat.
Variable braces : list token -> list token -> option nat * bool.
Definition reads (ln : bool) (stop : nat) (a : setting) (s : st) (x : expr) (s' : st) : Prop :=
  expr_exec stop tpeek braces s = Some (x, s') /\ e_err s' = false /\ exists align indent, a = args S_ align indent ln.
(** IndentWidth *)
Variable iw : nat.
Definition deeper (z : Z) : Z := (z + Z.of_nat iw)%Z.
End Common.

(** All documents ([good]) and documents that nest others ([gk]). *)
Class okay (q : queries) (D : docs) (labelled : token -> doc) (iw : nat) (good : doc -> Prop) (gk : kind -> Prop) : Prop := {
  ok_good_concat : forall l, Forall good l -> good (Concat l);
  ok_good_wrap : forall k d, gk k -> good d -> good (wrap1 k d);
  ok_good_piece : forall p, good (pdoc D p);
  ok_good_label : forall k, good (labelled k);
  ok_good_soft : good Softline;
  ok_gk_simple : gk KGroup /\ gk (KMaxlines 1) /\ gk KScope /\ gk KOptional /\ gk KNoIndent;
  ok_gk_indent : forall v, gk (KIndent v);
  ok_gk_min : forall id ms, length ms = 2 -> gk (KMinimize id ms);
  ok_iw_small : (Z.of_nat iw < INDENT_WIDTH)%Z
}.

(** * Proofs *)

(** ** Semicolons left out *)
Lemma less_refl : forall a q, less q a a.
Proof. induction a as [|k a IH]; intros q; constructor. apply IH. Qed.
Lemma less_mono : forall a b, less false a b -> forall q, less q a b.
Proof.
  intros a b H. remember false as z eqn:Z. induction H as [z|z k a b H IH|z k a b K H0 H IH]; intros q; [constructor|constructor; exact H|].
  apply less_drop; [exact K|destruct H0; [congruence|tauto]|apply IH, Z].
Qed.
Lemma less_trans : forall q1 a b, less q1 a b -> forall q2 c, less q2 b c -> (q1 = true -> q2 = true \/ next_is T_SEMI c = true) -> less q2 a c.
Proof.
  induction 1 as [q|q k a b H IH|q k a b K H0 H IH]; intros q2 c H2 HQ; [exact H2| |].
  - inversion H2; subst.
    + apply less_keep. apply IH; [assumption|tauto].
    + apply less_drop; [assumption|assumption|]. apply IH; [assumption|]. tauto.
  - apply less_drop; [exact K| |apply IH; assumption].
    destruct H0 as [H0|H0]; [exact (HQ H0)|]. destruct b as [|k' b]; [discriminate|]. cbn [next_is] in H0. inversion H2; subst; [right; exact H0|assumption].
Qed.
Lemma shed_trans : forall a b c, shed a b -> shed b c -> shed a c.
Proof. intros a b c H1 H2. apply (less_trans _ _ _ H1 _ _ H2). discriminate. Qed.
Lemma shed_app : forall x a b, shed a b -> forall q, less q (x ++ a) (x ++ b).
Proof. intros x a b H. induction x as [|k x IH]; intros q; [apply less_mono, H|]. cbn [app]. constructor. apply IH. Qed.
Lemma less_length : forall q a b, less q a b -> length b <= length a.
Proof. induction 1; cbn [length]; lia. Qed.
Lemma consumed_app : forall a b, consumed (a ++ b) = consumed a ++ consumed b.
Proof. intros. apply flat_map_app. Qed.

Lemma idocs_app : forall q D labelled a b, idocs q D labelled (a ++ b) = idocs q D labelled a ++ idocs q D labelled b.
Proof. intros. apply flat_map_app. Qed.
Lemma snd_any : forall l, map snd (any l) = l.
Proof. intros l. unfold any. rewrite map_map. apply map_id. Qed.
Lemma fits_any : forall l l', map snd l' = l -> Forall2 placed l' (any l).
Proof. intros l l' <-. induction l' as [|[z d] l' IH]; [constructor|]. cbn [map]. constructor; [split; [reflexivity|exact Logic.I]|exact IH]. Qed.
Lemma fits_snd : forall q D labelled ds its, fits q D labelled ds its -> map snd ds = map snd (idocs q D labelled its).
Proof. intros q D labelled ds its H. unfold fits in H. induction H as [|[z d] b ds its' (A & _) H IH]; [reflexivity|]. cbn [map]. rewrite IH, <- A. reflexivity. Qed.
Lemma idocs_one : forall q D labelled a i, idocs q D labelled (a ++ [i]) = idocs q D labelled a ++ idoc q D labelled i.
Proof. intros. unfold idocs. rewrite flat_map_app. cbn [flat_map]. rewrite app_nil_r. reflexivity. Qed.

(** ** Pairs *)
Lemma pair_end_spec : forall a b l d r, pair_end a b d l = Some r -> exists pre k, l = pre ++ k :: r.
Proof.
  induction l as [|k l IH]; intros d r H; [discriminate|]. cbn [pair_end] in H. destruct (is T_EOF k); [discriminate|]. destruct (_ =? 0).
  - inversion H; subst. exists [], k. reflexivity.
  - apply IH in H. destruct H as (pre & k' & E). exists (k :: pre), k'. rewrite E. reflexivity.
Qed.
Lemma pair_end_close : forall a b l d r, pair_end a b d l = Some r -> (d = 0 -> next_is a l = true) -> exists pre k, l = pre ++ k :: r /\ is b k = true.
Proof.
  induction l as [|k l IH]; intros d r H N; [discriminate|]. cbn [pair_end] in H. destruct (is T_EOF k); [discriminate|]. cbn [next_is] in N. destruct (is a k) eqn:EA.
  - cbn [Nat.eqb] in H. apply IH in H; [|lia]. destruct H as (pre & k' & E & F). exists (k :: pre), k'. rewrite E. split; [reflexivity|exact F].
  - destruct (is b k) eqn:EB.
    + destruct (d - 1 =? 0) eqn:Z; [inversion H; subst; exists [], k; split; [reflexivity|exact EB]|]. apply IH in H; [|apply Nat.eqb_neq in Z; lia]. destruct H as (pre & k' & E & F). exists (k :: pre), k'. rewrite E. split; [reflexivity|exact F].
    + destruct (d =? 0) eqn:Z; [apply Nat.eqb_eq in Z; specialize (N Z); discriminate|]. apply IH in H; [|apply Nat.eqb_neq in Z; lia]. destruct H as (pre & k' & E & F). exists (k :: pre), k'. rewrite E. split; [reflexivity|exact F].
Qed.
Lemma if_pair_close : forall a b l r, if_pair a b l = Some r -> next_is a l = true /\ exists pre k, l = pre ++ k :: r /\ is b k = true.
Proof. intros a b l r H. unfold if_pair in H. destruct (next_is a l) eqn:N; [|discriminate]. split; [reflexivity|]. exact (pair_end_close _ _ _ _ _ H (fun _ => N)). Qed.

(** ** Semicolons on a line *)
Lemma same_line_spec : forall k l, exists pre r, l = pre ++ r /\ length pre = same_line k l /\ Forall (fun x => is T_SEMI x = true /\ lno x = lno k) pre /\ (next_is T_SEMI r = true -> on_line k r = false).
Proof.
  intros k. induction l as [|k' l IH]; [exists [], []; repeat split; constructor|]. cbn [same_line]. destruct (is T_SEMI k' && (lno k =? lno k')) eqn:E.
  - apply andb_true_iff in E. destruct E as [E1 E2]. apply Nat.eqb_eq in E2. destruct IH as (pre & r & A & B & C & D). exists (k' :: pre), r. split; [rewrite A at 1; reflexivity|]. cbn [length]. repeat split; [lia|constructor; auto|exact D].
  - exists [], (k' :: l). repeat split; [constructor|]. cbn [next_is on_line]. intros H. rewrite H in E. exact E.
Qed.

(** ** Rules *)
Section Rules.
Context {q : queries} {D : docs} {labelled : token -> doc} {iw : nat} {S_ : setting}.
(** What holds if an assertion fails, a document is added to that is closed, or the recursion
    does not end. *)
Context {loose : Prop}.
Context {good : doc -> Prop} {gk : kind -> Prop} {OK : okay q D labelled iw good gk}.
Let good_concat : forall l, Forall good l -> good (Concat l) := ok_good_concat.
Let good_wrap : forall k d, gk k -> good d -> good (wrap1 k d) := ok_good_wrap.
Let good_piece : forall p, good (pdoc D p) := ok_good_piece.
Let good_label : forall k, good (labelled k) := ok_good_label.
Let good_soft : good Softline := ok_good_soft.
Let gk_simple : gk KGroup /\ gk (KMaxlines 1) /\ gk KScope /\ gk KOptional /\ gk KNoIndent := ok_gk_simple.
Let gk_indent : forall v, gk (KIndent v) := ok_gk_indent.
Let gk_min : forall id ms, length ms = 2 -> gk (KMinimize id ms) := ok_gk_min.
Set Default Proof Using "OK good_concat good_wrap good_piece good_label good_soft gk_simple gk_indent gk_min".
Local Notation grewi := (grewi good gk).
Local Notation idocs := (idocs q D labelled).
Local Notation fits := (fits q D labelled).
Local Notation deeper := (deeper iw).

(** A place, and the indentation there. *)
Definition pt (z : Z) (p : point) (b : bs) : Prop := p < length (b_path b) /\ deep p b = z.

Definition pwp {X} (m : P X) (Q : X -> ps -> Prop) (s : ps) : Prop := match m s with Ok a s' => Q a s' | _ => loose end.
Lemma p_ret : forall X (a : X) (Q : X -> ps -> Prop) s, Q a s -> pwp (pret a) Q s.
Proof. intros. exact H. Qed.
Lemma p_bnd : forall X Y (m : P X) (f : X -> P Y) (Q : Y -> ps -> Prop) s, pwp m (fun a => pwp (f a) Q) s -> pwp (pbnd m f) Q s.
Proof. intros X Y m f Q s H. unfold pwp, pbnd in *. destruct (m s); exact H. Qed.
Lemma p_mono : forall X (m : P X) (Q R : X -> ps -> Prop) s, pwp m Q s -> (forall a s', Q a s' -> R a s') -> pwp m R s.
Proof. intros X m Q R s H K. unfold pwp in *. destruct (m s); auto. Qed.

(** [A p l0 b0 m acc held F l b]: since the tokens were [l0] and the document was [b0] at
    least [m] tokens were consumed; unless an error was raised the items [acc] were added
    below [p], the tokens [held] were consumed in addition, and [F]. *)
Definition A (p : point) (l0 : st) (b0 : bs) (m : nat) (acc : list item) (held : list token) (F : Prop) (l : st) (b : bs) : Prop :=
  m + length (e_toks l) <= length (e_toks l0) /\ exists ds, grewi p b0 ds b /\
  (e_err l = false -> e_err l0 = false /\ fits ds acc /\ shed (e_toks l0) (consumed acc ++ held ++ e_toks l) /\ F).
Lemma A_init : forall z p l b, pt z p b -> A p l b 0 [] [] True l b.
Proof. intros z p l b (H & _). split; [lia|]. exists []. split; [apply grewi_refl, H|]. intros E. repeat split; [exact E|constructor|apply less_refl]. Qed.
Lemma A_err : forall p l0 b0 m acc held F l b, A p l0 b0 m acc held F l b -> e_err l = true -> forall acc' held' F', A p l0 b0 m acc' held' F' l b.
Proof. intros p l0 b0 m acc held F l b (A1 & ds & A2 & _) E acc' held' F'. split; [exact A1|]. exists ds. split; [exact A2|]. rewrite E. discriminate. Qed.
Lemma A_fact : forall p l0 b0 m acc held (F F' : Prop) l b, A p l0 b0 m acc held F l b -> (e_err l = false -> F -> F') -> A p l0 b0 m acc held F' l b.
Proof. intros p l0 b0 m acc held F F' l b (A1 & ds & A2 & A3) H. split; [exact A1|]. exists ds. split; [exact A2|]. intros E. destruct (A3 E) as (B1 & B2 & B3 & B4). repeat split; auto. Qed.
Lemma A_len : forall p l0 b0 m acc held F l b, A p l0 b0 m acc held F l b -> m + length (e_toks l) <= length (e_toks l0).
Proof. intros p l0 b0 m acc held F l b (A1 & _). exact A1. Qed.
Lemma A_pt : forall z p l0 b0 m acc held F l b, A p l0 b0 m acc held F l b -> pt z p b0 -> pt z p b.
Proof. intros z p l0 b0 m acc held F l b (_ & ds & A2 & _) (P1 & P2). split; [apply A2|]. rewrite <- P2. exact (deep_grew good gk p p _ _ _ A2 (le_n p) P1). Qed.
Lemma pt_grew : forall z p q b ds b', grewi q b ds b' -> p <= q -> pt z p b -> pt z p b'.
Proof. intros z p q' b ds b' G L (P1 & P2). pose proof (deep_grew good gk p q' _ _ _ G L P1) as DE. destruct G as (_ & G & _). split; [lia|]. congruence. Qed.
Lemma pt_some : forall p b, p < length (b_path b) -> pt (deep p b) p b.
Proof using. intros p b H. split; [exact H|reflexivity]. Qed.
Lemma A_less : forall p l0 b0 m m' acc held F l b, A p l0 b0 m acc held F l b -> m' <= m -> A p l0 b0 m' acc held F l b.
Proof. intros p l0 b0 m m' acc held F l b (A1 & A2) H. split; [lia|exact A2]. Qed.
Lemma fits_app : forall a b x y, fits a x -> fits b y -> fits (a ++ b) (x ++ y).
Proof. intros a b x y H1 H2. unfold fits. rewrite idocs_app. apply Forall2_app; assumption. Qed.
Lemma fits_one : forall a b x i, fits a x -> Forall2 placed b (idoc q D labelled i) -> fits (a ++ b) (x ++ [i]).
Proof. intros a b x i H1 H2. unfold fits. rewrite idocs_one. apply Forall2_app; assumption. Qed.
Lemma A_trans : forall p l0 b0 m acc F l b p' m' its held F' l' b', A p l0 b0 m acc [] F l b -> p <= p' -> A p' l b m' its held F' l' b' ->
  A p l0 b0 (m + m') (acc ++ its) held (F /\ F') l' b'.
Proof.
  intros p l0 b0 m acc F l b p' m' its held F' l' b' (A1 & ds & A2 & A3) L (B1 & ds' & B2 & B3). split; [lia|]. exists (ds ++ ds'). split; [eapply grewi_trans; eassumption|].
  intros E. destruct (B3 E) as (C1 & C2 & C3 & C4). destruct (A3 C1) as (D1 & D2 & D3 & D4). repeat split; auto.
  - apply fits_app; assumption.
  - rewrite consumed_app, <- app_assoc. eapply shed_trans; [exact D3|]. cbn [app]. apply shed_app, C3.
Qed.
Lemma A_item : forall p l0 b0 m acc held held' i F l b ds', A p l0 b0 m acc held F l b -> held = ins i ++ held' ->
  forall p' b', p <= p' -> grewi p' b ds' b' -> Forall2 placed ds' (idoc q D labelled i) -> A p l0 b0 m (acc ++ [i]) held' F l b'.
Proof.
  intros p l0 b0 m acc held held' i F l b ds' (A1 & ds & A2 & A3) -> p' b' L G FI. split; [exact A1|]. exists (ds ++ ds'). split; [eapply grewi_trans; eassumption|].
  intros E. destruct (A3 E) as (D1 & D2 & D3 & D4). repeat split; auto.
  - apply fits_one; assumption.
  - rewrite consumed_app. unfold consumed at 2. cbn [flat_map]. rewrite app_nil_r, <- app_assoc. rewrite <- app_assoc in D3. exact D3.
Qed.

(** Places further up stay where they are. *)
Definition keeps (p : point) (b b' : bs) : Prop := forall z p', p' <= p -> pt z p' b -> pt z p' b'.
(** Building. *)
Lemma p_leaf : forall z p0 l0 b0 m acc held held' i d F l b p (Q : unit -> ps -> Prop), A p0 l0 b0 m acc held F l b -> p0 <= p -> pt z p b ->
  held = ins i ++ held' -> good d -> Forall2 placed (ileaves z d) (idoc q D labelled i) ->
  (forall b', A p0 l0 b0 m (acc ++ [i]) held' F l b' -> pt z p b' -> keeps p b b' -> Q tt (Ps l b')) -> pwp (bld (leaf d p)) Q (Ps l b).
Proof.
  intros z p0 l0 b0 m acc held held' i d F l b p Q HA L P H GD LD K. pose proof P as (P1 & P2). unfold pwp, bld. cbn [bd lx]. pose proof (leaf_stepi good gk good_concat good_wrap d 0 p b P1 GD) as W. unfold wp in W. unfold leaf. destruct (leaf_weight d 0 p b) as [[[] b']|]; [|destruct W].
  destruct W as (W1 & W2). rewrite P2 in W1. assert (KE : keeps p b b') by (intros z' p' LE PZ; eapply pt_grew; eassumption). apply K; [eapply A_item; eauto|apply KE; [apply le_n|exact P]|exact KE].
Qed.
Lemma p_emit_ : forall z p0 l0 b0 m acc held k F l b p (Q : unit -> ps -> Prop), A p0 l0 b0 m acc (k :: held) F l b -> p0 <= p -> pt z p b ->
  (forall b', A p0 l0 b0 m (acc ++ [T k]) held F l b' -> pt z p b' -> keeps p b b' -> Q tt (Ps l b')) -> pwp (emit D k p) Q (Ps l b).
Proof. intros. eapply p_leaf; try eassumption; [reflexivity|apply (good_piece (Tk k))|apply fits_any, snd_ileaves]. Qed.
Lemma p_emit : forall z p0 l0 b0 m acc held k F l b p (Q : unit -> ps -> Prop), A p0 l0 b0 m acc (k :: held) F l b -> p0 <= p -> pt z p b ->
  (forall b', A p0 l0 b0 m (acc ++ [T k]) held F l b' -> pt z p b' -> Q tt (Ps l b')) -> pwp (emit D k p) Q (Ps l b).
Proof. intros. eapply (p_leaf z _ _ _ _ _ _ held (T k)); [eassumption|eassumption|eassumption|reflexivity|apply (good_piece (Tk k))|apply fits_any, snd_ileaves|auto]. Qed.
Lemma p_space : forall z p0 l0 b0 m acc held F l b p (Q : unit -> ps -> Prop), A p0 l0 b0 m acc held F l b -> p0 <= p -> pt z p b ->
  (forall b', A p0 l0 b0 m (acc ++ [SP]) held F l b' -> pt z p b' -> Q tt (Ps l b')) -> pwp (space p) Q (Ps l b).
Proof. intros. eapply (p_leaf z _ _ _ _ _ _ held SP); [eassumption|eassumption|eassumption|reflexivity|apply (good_piece Sp)|apply fits_any, snd_ileaves|auto]. Qed.
Lemma p_line : forall z p0 l0 b0 m acc held F l b p (Q : unit -> ps -> Prop), A p0 l0 b0 m acc held F l b -> p0 <= p -> pt z p b ->
  (forall b', A p0 l0 b0 m (acc ++ [LN z]) held F l b' -> pt z p b' -> Q tt (Ps l b')) -> pwp (line p) Q (Ps l b).
Proof. intros. eapply (p_leaf z _ _ _ _ _ _ held (LN z)); [eassumption|eassumption|eassumption|reflexivity|apply (good_piece Ln)|repeat constructor|auto]. Qed.
Lemma p_hardline : forall z p0 l0 b0 m acc held F l b p (Q : unit -> ps -> Prop), A p0 l0 b0 m acc held F l b -> p0 <= p -> pt z p b ->
  (forall b', A p0 l0 b0 m (acc ++ [HL z]) held F l b' -> pt z p b' -> Q tt (Ps l b')) -> pwp (hardline p) Q (Ps l b).
Proof. intros. eapply (p_leaf z _ _ _ _ _ _ held (HL z)); [eassumption|eassumption|eassumption|reflexivity|apply (good_piece Brk)|repeat constructor|auto]. Qed.
Lemma p_between : forall z c p0 l0 b0 m acc held F l b p (Q : unit -> ps -> Prop), A p0 l0 b0 m acc held F l b -> p0 <= p -> pt z p b ->
  (forall b', A p0 l0 b0 m (acc ++ [between z c]) held F l b' -> pt z p b' -> Q tt (Ps l b')) -> pwp (if c then space p else hardline p) Q (Ps l b).
Proof. intros z []; intros; [eapply p_space|eapply p_hardline]; eassumption. Qed.
Lemma p_label : forall p0 l0 b0 m acc held k F l b p (Q : unit -> ps -> Prop), A p0 l0 b0 m acc (k :: held) F l b -> p0 <= p -> pt 0 p b ->
  (forall b', A p0 l0 b0 m (acc ++ [TL k]) held F l b' -> pt 0 p b' -> Q tt (Ps l b')) -> pwp (bld (leaf (labelled k) p)) Q (Ps l b).
Proof.
  intros. eapply (p_leaf 0 _ _ _ _ _ _ held (TL k)); [eassumption|eassumption|eassumption|reflexivity|apply good_label| |auto].
  cbn [idoc]. induction (ileaves 0 (labelled k)) as [|[z d] ds IH]; constructor; [split; reflexivity|exact IH].
Qed.
Lemma p_alloc : forall ks z p0 l0 b0 m acc held F l b p (Q : point -> ps -> Prop), A p0 l0 b0 m acc held F l b -> p0 <= p -> pt z p b -> Forall gk ks ->
  (forall b', A p0 l0 b0 m acc held F l b' -> pt (fold_left inner ks z) (S p) b' -> keeps p b b' -> Q (S p) (Ps l b')) -> pwp (bld (alloc ks p)) Q (Ps l b).
Proof.
  intros ks z p0 l0 b0 m acc held F l b p Q (A1 & ds & A2 & A3) L (P1 & P2) G K. unfold pwp, bld. cbn [bd lx].
  pose proof (alloc_stepi good gk good_concat good_wrap ks p b P1 G) as W. unfold wp in W. destruct (alloc ks p b) as [[r b']|]; [|destruct W].
  destruct W as (-> & W1 & W2 & W3). apply K; [|split; [lia|rewrite W3, P2; reflexivity]|intros z' p' LE PZ; eapply pt_grew; eassumption]. split; [exact A1|]. exists ds. split; [|exact A3]. rewrite <- (app_nil_r ds). eapply grewi_trans; eassumption.
Qed.
Lemma p_group : forall z p0 l0 b0 m acc held F l b p (Q : point -> ps -> Prop), A p0 l0 b0 m acc held F l b -> p0 <= p -> pt z p b ->
  (forall b', A p0 l0 b0 m acc held F l b' -> pt z (S p) b' -> Q (S p) (Ps l b')) -> pwp (group p) Q (Ps l b).
Proof. intros z p0 l0 b0 m acc held F l b p Q HA L P K. eapply p_alloc; [exact HA|exact L|exact P|constructor; [apply gk_simple|constructor]|auto]. Qed.
Lemma p_indent : forall z p0 l0 b0 m acc held F l b p (Q : point -> ps -> Prop), A p0 l0 b0 m acc held F l b -> p0 <= p -> pt z p b ->
  (forall b', A p0 l0 b0 m acc held F l b' -> pt (deeper z) (S p) b' -> Q (S p) (Ps l b')) -> pwp (indented iw p) Q (Ps l b).
Proof.
  intros z p0 l0 b0 m acc held F l b p Q HA L P K. eapply p_alloc; [exact HA|exact L|exact P|constructor; [apply gk_indent|constructor]|]. intros b' H1 P1 _. apply K; [exact H1|]. cbn [fold_left inner] in P1. replace (_ <? INDENT_WIDTH)%Z with true in P1 by (symmetry; apply Z.ltb_lt, ok_iw_small). exact P1.
Qed.
Ltac pp := match goal with
  | H : pt ?z ?p ?b |- pt ?z' ?p ?b => exact H
  | H : A ?p _ ?b0 _ _ _ _ _ ?b, P : pt _ ?p ?b0 |- pt _ ?p ?b => exact (A_pt _ _ _ _ _ _ _ _ _ _ H P)
  end.

(** Reading. *)
Lemma p_toks : forall (Q : list token -> ps -> Prop) l b, Q (e_toks l) (Ps l b) -> pwp toks Q (Ps l b).
Proof. intros. exact H. Qed.
Lemma A_take : forall p0 l0 b0 m acc held F l b k, A p0 l0 b0 m acc held F l b -> forall r, e_toks l = k :: r -> A p0 l0 b0 (S m) acc (held ++ [k]) F (take 1 l) b.
Proof.
  intros p0 l0 b0 m acc held F l b k (A1 & ds & A2 & A3) r E. split; [unfold take; cbn [e_toks]; rewrite E in *; cbn [length skipn] in *; lia|]. exists ds. split; [exact A2|].
  unfold take. cbn [e_err e_toks]. intros H. destruct (A3 H) as (B1 & B2 & B3 & B4). repeat split; auto. rewrite E in B3. rewrite E. cbn [skipn]. rewrite <- app_assoc. exact B3.
Qed.
Lemma p_lif : forall t p0 l0 b0 m acc held F l b (Q : option token -> ps -> Prop), A p0 l0 b0 m acc held F l b ->
  (forall k l', e_toks l = k :: e_toks l' -> is t k = true -> A p0 l0 b0 (S m) acc (held ++ [k]) F l' b -> Q (Some k) (Ps l' b)) ->
  (next_is t (e_toks l) = false -> Q None (Ps l b)) -> pwp (lif t) Q (Ps l b).
Proof.
  intros t p0 l0 b0 m acc held F l b Q HA K1 K2. unfold pwp, lif. cbn [lx]. destruct (e_toks l) as [|k r] eqn:E; [apply K2; reflexivity|]. cbn [next_is] in K2. destruct (is t k) eqn:EK; [|apply K2; reflexivity].
  apply K1; [unfold take; cbn [e_toks]; rewrite E; reflexivity|exact EK|]. eapply A_take; eassumption.
Qed.
Lemma A_bad : forall p0 l0 b0 m acc held F l b, A p0 l0 b0 m acc held F l b -> forall acc' held' F', A p0 l0 b0 m acc' held' F' (St (e_done l) (e_toks l) true) b.
Proof. intros p0 l0 b0 m acc held F l b (A1 & ds & A2 & _) acc' held' F'. split; [exact A1|]. exists ds. split; [exact A2|discriminate]. Qed.
Lemma p_expect : forall t p0 l0 b0 m acc held F l b (Q : option token -> ps -> Prop), A p0 l0 b0 m acc held F l b ->
  (forall k l', e_toks l = k :: e_toks l' -> is t k = true -> A p0 l0 b0 (S m) acc (held ++ [k]) F l' b -> Q (Some k) (Ps l' b)) ->
  (forall l', next_is t (e_toks l) = false -> e_toks l' = e_toks l -> e_err l' = true -> A p0 l0 b0 m [] [] False l' b -> Q None (Ps l' b)) -> pwp (lexpect t) Q (Ps l b).
Proof.
  intros t p0 l0 b0 m acc held F l b Q HA K1 K2. unfold lexpect. apply p_bnd. eapply p_lif; [exact HA| |]; cbn beta iota.
  - intros k l' E1 E2 HA'. apply p_ret. auto.
  - intros N. unfold pwp. apply K2; [exact N|reflexivity|reflexivity|]. eapply A_bad, HA.
Qed.
Definition some_token : token := Token (Tok T_EOF 0 (Own []) 0 0 0 0) [] [].
(** A token that is expected and emitted: an error is raised otherwise. *)
Lemma p_expect_opt_ : forall t X (K : unit -> P X) z p0 l0 b0 m acc F l b p (Q : X -> ps -> Prop), A p0 l0 b0 m acc [] F l b -> p0 <= p -> pt z p b ->
  (forall k l' b', A p0 l0 b0 m (acc ++ [T k]) [] (F /\ e_toks l = k :: e_toks l' /\ is t k = true) l' b' -> pt z p b' -> keeps p b b' -> pwp (K tt) Q (Ps l' b')) ->
  pwp (let! k := lexpect t in pbnd (emit_opt D k p) K) Q (Ps l b).
Proof.
  intros t X K z p0 l0 b0 m acc F l b p Q HA L P H. apply p_bnd. eapply p_expect; [exact HA| |]; cbn beta.
  - intros k l' E1 E2 HA'. apply p_bnd. cbn [emit_opt]. eapply p_emit_; [exact HA'|exact L|exact P|]. intros b' HB PB KB. apply (H k); [|exact PB|exact KB]. apply (A_less _ _ _ (S m) m); [|lia]. eapply A_fact; [exact HB|]. auto.
  - intros l' _ _ E HA'. apply p_bnd. cbn [emit_opt]. apply p_ret. apply (H some_token); [|exact P|intros z' p' _ PZ; exact PZ]. eapply A_err; eassumption.
Qed.
Lemma p_expect_opt : forall t X (K : unit -> P X) z p0 l0 b0 m acc F l b p (Q : X -> ps -> Prop), A p0 l0 b0 m acc [] F l b -> p0 <= p -> pt z p b ->
  (forall k l' b', A p0 l0 b0 m (acc ++ [T k]) [] (F /\ e_toks l = k :: e_toks l' /\ is t k = true) l' b' -> pt z p b' -> pwp (K tt) Q (Ps l' b')) ->
  pwp (let! k := lexpect t in pbnd (emit_opt D k p) K) Q (Ps l b).
Proof. intros. eapply p_expect_opt_; eauto. Qed.

(** Results. *)
Definition post (G : list token -> list item -> list token -> Prop) (N : list token -> list item -> st -> Prop) (p : point) (l : st) (b : bs) (r : ret_) (s' : ps) : Prop :=
  match r with
  | GOOD => e_err (lx s') = false /\ exists its, A p l b 0 its [] (G (e_toks l) its (e_toks (lx s'))) (lx s') (bd s')
  | NONE => e_err (lx s') = false /\ exists its, A p l b 0 its [] (N (e_toks l) its (lx s')) (lx s') (bd s')
  | FAIL => e_err (lx s') = true /\ A p l b 0 [] [] False (lx s') (bd s')
  end.
Lemma p_call : forall c G N z p p0 l0 b0 m acc F l b (Q : ret_ -> ps -> Prop), pwp c (post G N p l b) (Ps l b) -> A p0 l0 b0 m acc [] F l b -> p0 <= p -> pt z p b ->
  (forall its l' b', e_err l' = false -> A p0 l0 b0 m (acc ++ its) [] (F /\ G (e_toks l) its (e_toks l')) l' b' -> pt z p b' -> Q GOOD (Ps l' b')) ->
  (forall its l' b', e_err l' = false -> A p0 l0 b0 m (acc ++ its) [] (F /\ N (e_toks l) its l') l' b' -> pt z p b' -> Q NONE (Ps l' b')) ->
  (forall l' b', e_err l' = true -> A p0 l0 b0 m [] [] False l' b' -> pt z p b' -> Q FAIL (Ps l' b')) -> pwp c Q (Ps l b).
Proof.
  intros c G N z p p0 l0 b0 m acc F l b Q H HA L P K1 K2 K3. eapply p_mono; [exact H|]. intros r [l' b'] PO. unfold post in PO. cbn [lx bd] in PO. destruct r; destruct PO as (E & PO).
  - destruct PO as (its & PO). apply (K1 its); [exact E| |exact (A_pt _ _ _ _ _ _ _ _ _ _ PO P)]. pose proof (A_trans _ _ _ _ _ _ _ _ _ _ _ _ _ _ _ HA L PO) as X. rewrite Nat.add_0_r in X. exact X.
  - destruct PO as (its & PO). apply (K2 its); [exact E| |exact (A_pt _ _ _ _ _ _ _ _ _ _ PO P)]. pose proof (A_trans _ _ _ _ _ _ _ _ _ _ _ _ _ _ _ HA L PO) as X. rewrite Nat.add_0_r in X. exact X.
  - apply K3; [exact E| |exact (A_pt _ _ _ _ _ _ _ _ _ _ PO P)]. pose proof (A_trans _ _ _ _ _ _ _ _ _ _ _ _ _ _ _ HA L PO) as X. rewrite Nat.add_0_r in X. eapply A_err; eassumption.
Qed.
Lemma post_bad : forall G N p0 l0 b0 m acc held F l b, A p0 l0 b0 m acc held F l b -> e_err l = true -> post G N p0 l0 b0 FAIL (Ps l b).
Proof. intros. split; [assumption|]. cbn [lx bd]. apply (A_less _ _ _ m 0); [|lia]. eapply A_err; eassumption. Qed.
Lemma p_good : forall (G : list token -> list item -> list token -> Prop) (N : list token -> list item -> st -> Prop) p0 l0 b0 m acc (F : Prop) l b, A p0 l0 b0 m acc [] F l b -> (F -> G (e_toks l0) acc (e_toks l)) -> pwp good_ (post G N p0 l0 b0) (Ps l b).
Proof.
  intros G N p0 l0 b0 m acc F l b HA H. unfold pwp, good_. cbn [lx]. destruct (e_err l) eqn:E; [eapply post_bad; eassumption|]. split; [exact E|]. exists acc. cbn [lx bd]. apply (A_less _ _ _ m 0); [|lia]. eapply A_fact; [exact HA|auto].
Qed.
Lemma p_none : forall (G : list token -> list item -> list token -> Prop) (N : list token -> list item -> st -> Prop) p0 l0 b0 m acc (F : Prop) l b, A p0 l0 b0 m acc [] F l b -> (F -> N (e_toks l0) acc l) -> pwp none_ (post G N p0 l0 b0) (Ps l b).
Proof.
  intros G N p0 l0 b0 m acc F l b HA H. unfold pwp, none_. cbn [lx]. destruct (e_err l) eqn:E; [eapply post_bad; eassumption|]. split; [exact E|]. exists acc. cbn [lx bd]. apply (A_less _ _ _ m 0); [|lia]. eapply A_fact; [exact HA|auto].
Qed.
Lemma p_fail : forall G N p0 l0 b0 m acc held F l b, A p0 l0 b0 m acc held F l b -> pwp fail_ (post G N p0 l0 b0) (Ps l b).
Proof. intros. unfold pwp, fail_. cbn [lx bd]. eapply post_bad; [|reflexivity]. exact (A_bad _ _ _ _ _ _ _ _ _ H [] [] False). Qed.

(** What is removed later on. *)
Definition after_mark (p : point) (n : nat) (b b1 : bs) : Prop :=
  exists d lo f r, good d /\ b_path b = lo ++ f :: r /\ length lo = p /\ n = length (f_kids (whole f r)) /\ leaf_weight d 0 p b = Some (tt, b1).
Lemma p_marked : forall X c (K : nat -> P X) z p0 l0 b0 m acc F l b p (Q : X -> ps -> Prop), A p0 l0 b0 m acc [] F l b -> p0 <= p -> pt z p b ->
  (forall n b1, after_mark p n b b1 -> A p0 l0 b0 m (acc ++ [between z c]) [] F l b1 -> pt z p b1 -> pwp (K n) Q (Ps l b1)) ->
  pwp (let! n := bld (mark p) in pbnd (if c then space p else hardline p) (fun _ => K n)) Q (Ps l b).
Proof.
  intros X c K z p0 l0 b0 m acc F l b p Q HA L P H. apply p_bnd. unfold pwp at 1, bld at 1. cbn [bd lx].
  assert (W : wp (mark p) (fun n b' => b' = b /\ exists lo f r, b_path b = lo ++ f :: r /\ length lo = p /\ n = length (f_kids (whole f r))) b) by (apply wp_mark; [exact (proj1 P)|]; intros lo f r E1 E2; split; [reflexivity|eauto 6]).
  unfold wp in W. destruct (mark p b) as [[n b']|]; [|destruct W]. destruct W as (-> & lo & f & r & E1 & E2 & E3). apply p_bnd.
  assert (X1 : exists b1, leaf_weight (if c then Literal (s2b " ") else Hardline) 0 p b = Some (tt, b1)).
  { pose proof (leaf_stepi good gk good_concat good_wrap (if c then Literal (s2b " ") else Hardline) 0 p b (proj1 P)) as W. unfold wp in W. destruct (leaf_weight _ 0 p b) as [[[] b1]|]; [eauto|]. destruct W. destruct c; [apply (good_piece Sp)|apply (good_piece Brk)]. }
  destruct X1 as (b1 & X1). assert (X2 : after_mark p n b b1). { exists (if c then Literal (s2b " ") else Hardline), lo, f, r. repeat split; auto. destruct c; [apply (good_piece Sp)|apply (good_piece Brk)]. }
  eapply (p_mono _ _ (fun _ s' => s' = Ps l b1 /\ A p0 l0 b0 m (acc ++ [between z c]) [] F l b1 /\ pt z p b1)); [|intros [] s' (-> & Y1 & Y2); eapply H; eassumption].
  assert (Z : pwp (if c then space p else hardline p) (fun _ s' => exists b', s' = Ps l b' /\ A p0 l0 b0 m (acc ++ [between z c]) [] F l b' /\ pt z p b') (Ps l b)) by (eapply p_between; [exact HA|exact L|pp|eauto]).
  unfold pwp in *. replace ((if c then space p else hardline p) (Ps l b)) with (Ok tt (Ps l b1)) in *.
  - destruct Z as (b' & Z1 & Z2 & Z3). inversion Z1; subst. auto.
  - destruct c; unfold space, hardline, literal, bld, leaf; cbn [bd lx]; rewrite X1; reflexivity.
Qed.
Lemma p_remove : forall p0 l0 b0 m acc F l b p n b1 m' its held F' l' b2 (Q : unit -> ps -> Prop), A p0 l0 b0 m acc [] F l b -> p0 <= p -> after_mark p n b b1 -> A p l b1 m' its held F' l' b2 ->
  (forall b', A p0 l0 b0 (m + m') (acc ++ its) held (F /\ F') l' b' -> Q tt (Ps l' b')) -> pwp (bld (remove_at p n)) Q (Ps l' b2).
Proof.
  intros p0 l0 b0 m acc F l b p n b1 m' its held F' l' b2 Q HA L (d & lo & f & r & GD & E1 & E2 & -> & E4) (B1 & ds' & B2 & B3) K.
  unfold pwp, bld. cbn [bd lx].
  assert (W : wp (remove_at p (length (f_kids (whole f r)))) (fun _ b' => grewi p b ds' b') b2) by (apply (wp_remove good gk good_concat good_wrap d 0 p b ds' _ lo f r b1 b2); auto).
  unfold wp in W. destruct (remove_at p _ b2) as [[[] b']|]; [|destruct W]. apply K. eapply A_trans; [exact HA|exact L|]. split; [exact B1|eauto].
Qed.
Lemma post_good : forall (G : list token -> list item -> list token -> Prop) (N : list token -> list item -> st -> Prop) p0 l0 b0 m acc (F : Prop) l b, A p0 l0 b0 m acc [] F l b -> e_err l = false -> (F -> G (e_toks l0) acc (e_toks l)) -> post G N p0 l0 b0 GOOD (Ps l b).
Proof. intros G N p0 l0 b0 m acc F l b HA E H. split; [exact E|]. exists acc. cbn [lx bd]. apply (A_less _ _ _ m 0); [|lia]. eapply A_fact; [exact HA|auto]. Qed.
Lemma post_none : forall (G : list token -> list item -> list token -> Prop) (N : list token -> list item -> st -> Prop) p0 l0 b0 m acc (F : Prop) l b, A p0 l0 b0 m acc [] F l b -> e_err l = false -> (F -> N (e_toks l0) acc l) -> post G N p0 l0 b0 NONE (Ps l b).
Proof. intros G N p0 l0 b0 m acc F l b HA E H. split; [exact E|]. exists acc. cbn [lx bd]. apply (A_less _ _ _ m 0); [|lia]. eapply A_fact; [exact HA|auto]. Qed.

Lemma post_pt : forall z G N p l b r s', post G N p l b r s' -> pt z p b -> pt z p (bd s').
Proof. intros z G N p l b r s' PO P. destruct r; destruct PO as (_ & PO); [destruct PO as (? & PO)|destruct PO as (? & PO)|]; exact (A_pt _ _ _ _ _ _ _ _ _ _ PO P). Qed.

Context {tpeek : bool -> list token -> list token -> option nat} {braces : list token -> list token -> option nat * bool}.
Local Notation reads := (reads S_ tpeek braces).
(** Expressions. *)
Lemma exec_solid : forall stop s x s', expr_exec stop tpeek braces s = Some (x, s') -> x <> ENull -> solid x /\ e_err s' = false.
Proof using.
  intros stop s x s' H N. unfold expr_exec in H. destruct (run stop tpeek braces _ (Exec 0) s) as [[y s1]|] eqn:R; [|discriminate]. inversion H; subst. destruct (e_err s') eqn:E; [congruence|]. split; [|reflexivity]. exact (run_solid _ _ _ _ (Exec 0) _ _ _ Logic.I R).
Qed.
Lemma exec_err : forall stop s x s', expr_exec stop tpeek braces s = Some (x, s') -> e_err s = true -> e_err s' = true.
Proof using.
  intros stop s x s' H E. unfold expr_exec in H. destruct (2 * length (e_toks s) + 2) as [|f] eqn:Z; [clear - Z; lia|]. cbn [run] in H. unfold peek in H. rewrite E in H. cbn [orb] in H. destruct (e_toks s); inversion H; subst; exact E.
Qed.
Definition read (stop : nat) (l : st) (x : expr) (l' : st) : Prop := expr_exec stop tpeek braces l = Some (x, l') /\ e_err l' = false.
Lemma A_expr : forall stop a p0 l0 b0 m acc F l b x l' p b', A p0 l0 b0 m acc [] F l b -> expr_exec stop tpeek braces l = Some (x, l') -> p0 <= p ->
  grew good gk p b (if isnull x then [] else plvs D (shown_exec q a x)) b' -> A p0 l0 b0 m (acc ++ [EX stop a l x l']) [] (F /\ read stop l x l') l' b'.
Proof.
  intros stop a p0 l0 b0 m acc F l b x l' p b' (A1 & ds & A2 & A3) E L (ips & G & GE). destruct (C52_tokens _ _ _ _ _ _ E) as (ks & T1 & _ & _).
  split; [rewrite T1, app_length in A1; lia|]. exists (ds ++ ips). split; [eapply grewi_trans; eassumption|]. intros EE.
  assert (EL : e_err l = false). { destruct (e_err l) eqn:Z; [|reflexivity]. rewrite (exec_err _ _ _ _ E Z) in EE. discriminate. }
  destruct (A3 EL) as (B1 & B2 & B3 & B4). repeat split; auto.
  - apply fits_one; [exact B2|]. cbn [idoc]. destruct (isnull x); [destruct ips; [constructor|discriminate]|apply fits_any, GE].
  - rewrite consumed_app. unfold consumed at 2. cbn [flat_map ins]. rewrite app_nil_r, <- app_assoc. cbn [app] in *. replace (firstn _ (e_toks l) ++ e_toks l') with (e_toks l); [exact B3|].
    rewrite T1 at 3. rewrite T1, app_length, Nat.add_sub, firstn_app, Nat.sub_diag, firstn_all, app_nil_r. reflexivity.
Qed.
Lemma p_expr_any : forall stop a z p0 l0 b0 m acc F l b p (Q : ret_ * point -> ps -> Prop), A p0 l0 b0 m acc [] F l b -> p0 <= p -> pt z p b ->
  (forall x e ze l' b', A p0 l0 b0 m (acc ++ [EX stop a l x l']) [] (F /\ read stop l x l') l' b' -> e_err l' = false -> p <= e -> pt ze e b' -> pt z p b' ->
     Q (if isnull x then NONE else GOOD, e) (Ps l' b')) ->
  (forall l', e_err l' = true -> A p0 l0 b0 m [] [] False l' b -> Q (FAIL, p) (Ps l' b)) -> pwp (parser_expr q D tpeek braces stop a p) Q (Ps l b).
Proof.
  intros stop a z p0 l0 b0 m acc F l b p Q HA L P K1 K2. unfold pwp, parser_expr. cbn [lx bd]. destruct (C52_total stop tpeek braces l) as (x & l' & E). rewrite E. destruct (isnull x) eqn:N.
  - assert (x = ENull) by (destruct x; (reflexivity || discriminate N)). subst x. pose proof (A_expr stop a _ _ _ _ _ _ _ _ _ _ p b HA E L (grew_refl good gk p b (proj1 P))) as HB. destruct (e_err l') eqn:EE.
    + apply K2; [exact EE|]. eapply A_err; eassumption.
    + apply (K1 ENull p z); [exact HB|exact EE|lia|exact P|exact P].
  - assert (NN : x <> ENull) by (intros ->; discriminate N). destruct (exec_solid _ _ _ _ E NN) as [S1 EE].
    assert (W : adds D good gk (expr_doc_exec q D a x) (shown_exec q a x)).
    { apply adds_exec; auto; try apply gk_simple; try (intros; apply gk_indent); try (intros; split; apply gk_min; reflexivity); try (split; apply gk_indent).
      - repeat split; apply gk_simple.
      - apply Forall_forall. intros p' _. apply good_piece. }
    specialize (W p b (proj1 P)). unfold wp in W. destruct (expr_doc_exec q D a x p b) as [[e b']|]; [|destruct W]. destruct W as (W1 & W2). rewrite EE.
    pose proof (A_expr stop a _ _ _ _ _ _ _ _ x l' p b' HA E L) as HB. rewrite N in HB. specialize (K1 x e (deep e b') l' b' (HB W2) EE (proj1 W1) (pt_some _ _ (proj2 W1))). rewrite N in K1. apply K1. destruct W2 as (ips & W2 & _). eapply pt_grew; [exact W2|apply le_n|exact P].
Qed.
Lemma p_expr : forall stop a z p0 l0 b0 m acc F l b p (Q : ret_ * point -> ps -> Prop), A p0 l0 b0 m acc [] F l b -> p0 <= p -> pt z p b -> (exists al ind, a = args S_ al ind (a_line a)) ->
  (forall x e ze l' b', A p0 l0 b0 m (acc ++ [EX stop a l x l']) [] (F /\ reads (a_line a) stop a l x l') l' b' -> e_err l' = false -> p <= e -> pt ze e b' -> pt z p b' ->
     Q (if isnull x then NONE else GOOD, e) (Ps l' b')) ->
  (forall l', e_err l' = true -> A p0 l0 b0 m [] [] False l' b -> Q (FAIL, p) (Ps l' b)) -> pwp (parser_expr q D tpeek braces stop a p) Q (Ps l b).
Proof.
  intros stop a z p0 l0 b0 m acc F l b p Q HA L P AH K1 K2. eapply p_expr_any; [exact HA|exact L|exact P| |exact K2]. intros x e ze l' b' H1. apply K1. eapply A_fact; [exact H1|]. intros _ (Y & Y1 & Y2). split; [exact Y|]. split; [exact Y1|]. split; [exact Y2|exact AH].
Qed.
End Rules.
Unset Default Proof Using.
Arguments pwp loose {X} m Q s.
Arguments A : clear implicits.
Arguments read : clear implicits.
Arguments post : clear implicits.
Ltac pp := match goal with
  | H : pt ?z ?p ?b |- pt ?z' ?p ?b => exact H
  | H : A _ _ _ _ _ ?p _ ?b0 _ _ _ _ _ ?b, P : pt _ ?p ?b0 |- pt _ ?p ?b => exact (A_pt _ _ _ _ _ _ _ _ _ _ H P)
  end.
