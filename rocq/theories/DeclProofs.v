(** Declarations, functions and files: rules and proofs.  [B]: since a state, parts were added
    below a place that are tokens in order and blanks ([proper]). *)
From Verif Require Import Base TokenModel LexModel UtilModel DocModel DocProofs DocFit DocProps ExprModel ExprProofs ExprProps BuildModel BuildProofs ExprDocModel ExprDocProofs ExprDocProps SynModel RunProofs SynProofs SynProps DeclModel.
Local Close Scope Q_scope.
Local Open Scope nat_scope.

(** Expressions consist of at least a token if types and braces do. *)
Lemma expr_eats : forall stop tpeek braces s x s', (forall d l n, tpeek false d l = Some n -> 0 < n) -> (forall d l n e, braces d l = (Some n, e) -> 0 < n) ->
  expr_exec stop tpeek braces s = Some (x, s') -> x <> ENull -> length (e_toks s') < length (e_toks s).
Proof.
  intros stop tpeek braces s x s' HT HB H N. destruct (exec_out _ _ _ _ _ _ H) as (x0 & R & E). destruct (e_err s'); [congruence|]. subst x0.
  assert (MO : forall c s x s', rel stop tpeek braces c s x s' -> length (e_toks s') <= length (e_toks s)).
  { intros c t y t' RR. destruct (rel_adv _ _ _ _ _ _ _ RR) as (ks & A & _). rewrite A, app_length. lia. }
  inversion R as [| pc s0 k x1 s1 y s2 P F RE NE L | | pc s0 k er s1 tk r x1 s2 y s3 P F RE TK AP NE L | | | | | | | | | | | | | | | | | | | | ]; subst; try congruence.
  - apply MO in L. unfold peek in P. destruct (e_toks s) as [|k' r] eqn:ET; [discriminate|]. unfold recover in RE. rewrite ET in RE. destruct (tpeek false (e_done s) (k' :: r)) as [n|] eqn:TP.
    + apply HT in TP. destruct (_ || _) in RE; [|inversion RE; congruence]. inversion RE; subst. unfold take in L. cbn [e_toks] in L. rewrite ET, skipn_length in L. cbn [length] in *. lia.
    + assert (T1 : length (e_toks (take 1 s)) < length (k' :: r)) by (unfold take; cbn [e_toks]; rewrite ET; cbn [skipn length]; lia).
      destruct (flag F_BINARY k'); [destruct (_ || _) in RE; inversion RE; subst; lia|]. destruct (is T_LBRACE k').
      * destruct (braces (e_done s) (k' :: r)) as [[n|] e] eqn:BR; [|inversion RE; congruence]. apply HB in BR. inversion RE; subst. unfold take in L. cbn [e_toks] in L. rewrite ET, skipn_length in L. cbn [length] in *. lia.
      * destruct (is T_COMMA k'); [inversion RE; subst; lia|inversion RE; congruence].
  - apply MO in L. apply MO in AP. unfold take in AP. cbn [e_toks] in AP. rewrite TK in AP. cbn [skipn] in AP.
    assert (LE : length (e_toks s1) <= length (e_toks s)); [|rewrite TK in LE; cbn [length] in LE; lia].
    destruct (is T_IDENT k); [|subst; lia]. apply recover_adv in RE. destruct RE as (c & RE & _). rewrite RE, app_length. lia.
Qed.

Lemma less_same : forall q a b, less q a b -> length b = length a -> a = b.
Proof. induction 1 as [q|q k a b H IH|q k a b _ _ H IH]; intros E; cbn [length] in *; [reflexivity|f_equal; apply IH; lia|]. apply less_length in H. lia. Qed.
Lemma many_drop : forall l, less true l (many T_SEMI l).
Proof. induction l as [|k l IH]; [constructor|]. cbn [many]. destruct (is T_SEMI k) eqn:E; [|apply less_refl]. apply less_drop; [exact E|left; reflexivity|exact IH]. Qed.
Lemma shed_trim : forall x k l, is T_SEMI k = true -> forall q, less q (x ++ k :: l) (x ++ k :: many T_SEMI l).
Proof. induction x as [|y x IH]; intros k l K q; cbn [app]; constructor; [|apply IH, K]. unfold stopper. rewrite K. apply many_drop. Qed.
Lemma many_length : forall t l, length (many t l) <= length l.
Proof. induction l as [|k l IH]; [apply le_n|]. cbn [many]. destruct (is t k); cbn [length]; lia. Qed.
Lemma change_dead : forall u p fs, length fs <= p -> change p u fs = None.
Proof. induction p as [|p IH]; intros [|f fs] H; cbn [change length] in *; try reflexivity; [lia|]. rewrite IH by lia. reflexivity. Qed.

Section Decl.
Variable q : queries.
Variable D : docs.
Variable labelled : token -> doc.
Variable iw cw : nat.
Variable S_ : setting.
Variable width : bs -> point -> nat.
Variable tpeek : bool -> list token -> list token -> option nat.
Variable braces : list token -> list token -> option nat * bool.
Variable O : asks.
Variable Y : layout.
Variable good : doc -> Prop.
Variable gk : kind -> Prop.
Hypothesis OK : okay q D labelled iw good gk.
Hypothesis types_some : forall d l n, tpeek false d l = Some n -> 0 < n.
Hypothesis braces_some : forall d l n e, braces d l = (Some n, e) -> 0 < n.
Hypothesis gap_good : forall k, good (Literal (o_gap O k)).
Hypothesis gap_blank : forall k, strip (o_gap O k) = [].
Set Default Proof Using "All".

Local Notation A := (A q D labelled good gk).
Local Notation live p b := (p < length (b_path b)).
Local Notation pwp := (pwp True).
Definition B (p0 : point) (l0 : st) (b0 : bs) (c : bool) (held : list token) (l : st) (b : bs) : Prop :=
  exists acc, A p0 l0 b0 0 acc held (Forall (proper S_) acc /\ (c = true -> consumed acc ++ held <> [])) l b.
Lemma B_init : forall p l b, live p b -> B p l b false [] l b.
Proof. intros p l b H. exists []. eapply A_fact; [eapply A_init, pt_some, H|]. intros _ _. split; [constructor|discriminate]. Qed.
Lemma B_live : forall p0 l0 b0 c h l b, B p0 l0 b0 c h l b -> live p0 b.
Proof. intros p0 l0 b0 c h l b (acc & _ & ds & G & _). apply G. Qed.
Lemma B_len : forall p0 l0 b0 c h l b, B p0 l0 b0 c h l b -> length (e_toks l) <= length (e_toks l0).
Proof. intros p0 l0 b0 c h l b (acc & L & _). exact L. Qed.
Lemma B_false : forall p0 l0 b0 c h l b, B p0 l0 b0 c h l b -> B p0 l0 b0 false h l b.
Proof. intros p0 l0 b0 c h l b (acc & H). exists acc. eapply A_fact; [exact H|]. intros _ (F & _). split; [exact F|discriminate]. Qed.
Lemma B_true : forall p0 l0 b0 c h l b, B p0 l0 b0 true h l b -> B p0 l0 b0 c h l b.
Proof. intros p0 l0 b0 c h l b (acc & H). exists acc. eapply A_fact; [exact H|]. intros _ (F & F'). auto. Qed.
Lemma B_err : forall p0 l0 b0 c h l b, B p0 l0 b0 c h l b -> e_err l = true -> forall c' h', B p0 l0 b0 c' h' l b.
Proof. intros p0 l0 b0 c h l b (acc & H) E c' h'. exists []. eapply A_err; eassumption. Qed.
Lemma B_trans : forall p0 l0 b0 c l b p c' h l' b', B p0 l0 b0 c [] l b -> p0 <= p -> B p l b c' h l' b' -> B p0 l0 b0 (c' || c) h l' b'.
Proof.
  intros p0 l0 b0 c l b p c' h l' b' (acc & H) L (acc' & H'). exists (acc ++ acc'). pose proof (A_trans _ _ _ _ _ _ _ _ _ _ _ _ _ _ _ H L H') as X. eapply A_fact; [exact X|]. intros _ ((F1 & F2) & F3 & F4). split; [apply Forall_app; auto|].
  rewrite consumed_app. rewrite app_nil_r in F2. intros E. destruct c'; [specialize (F4 eq_refl)|specialize (F2 E)].
  - intros Z. rewrite <- app_assoc in Z. apply app_eq_nil in Z. tauto.
  - intros Z. rewrite <- app_assoc in Z. apply app_eq_nil in Z. tauto.
Qed.
(** Nothing was read. *)
Lemma B_same : forall p0 l0 b0 c l b p c' l' b', B p0 l0 b0 c [] l b -> p0 <= p -> B p l b c' [] l' b' -> length (e_toks l') = length (e_toks l) -> B p0 l0 b0 c [] l' b.
Proof.
  intros p0 l0 b0 c l b p c' l' b' (acc & A1 & ds & A2 & A3) L (acc' & B1 & ds' & B2 & B3) E. exists acc. split; [lia|]. exists ds. split; [exact A2|]. intros EE. destruct (B3 EE) as (C1 & C2 & C3 & _). destruct (A3 C1) as (D1 & D2 & D3 & D4 & D5).
  assert (Z : e_toks l = e_toks l').
  { cbn [app] in C3. pose proof (less_length _ _ _ C3) as LL. rewrite app_length in LL. assert (N : consumed acc' = []) by (apply length_zero_iff_nil; lia). rewrite N in C3. cbn [app] in C3. apply (less_same _ _ _ C3). exact E. }
  rewrite <- Z. auto.
Qed.
(** An error was raised, all documents added are removed again. *)
Lemma B_undo : forall p0 l0 b0 c l b l', B p0 l0 b0 c [] l b -> e_err l' = true -> length (e_toks l') <= length (e_toks l0) -> forall c', B p0 l0 b0 c' [] l' b.
Proof. intros p0 l0 b0 c l b l' (acc & _ & ds & A2 & _) E LE c'. exists []. split; [exact LE|]. exists ds. split; [exact A2|]. rewrite E. discriminate. Qed.
Lemma B_bad : forall p0 l0 b0 c h l b, B p0 l0 b0 c h l b -> forall c' h', B p0 l0 b0 c' h' (St (e_done l) (e_toks l) true) b.
Proof. intros p0 l0 b0 c h l b (acc & H) c' h'. exists []. eapply A_bad, H. Qed.

(** ** Rules *)
Lemma b_leaf : forall i d p0 l0 b0 c held held' l b p (Q : unit -> ps -> Prop), B p0 l0 b0 c held l b -> p0 <= p -> held = ins i ++ held' -> good d -> proper S_ i -> idoc q D labelled i = any (leaves d) ->
  (forall b', B p0 l0 b0 c held' l b' -> live p b' -> Q tt (Ps l b')) -> pwp (bld (leaf d p)) Q (Ps l b).
Proof.
  intros i d p0 l0 b0 c held held' l b p Q (acc & HA) L HH GD PR ID K. destruct (le_lt_dec (length (b_path b)) p) as [DE|LI].
  - unfold RunProofs.pwp, bld, leaf, leaf_weight. cbn [bd]. rewrite (change_dead _ _ _ DE). exact Logic.I.
  - eapply (p_leaf (deep p b)); [exact HA|exact L|apply pt_some, LI|exact HH|exact GD|rewrite ID; apply fits_any, snd_ileaves|]. intros b' H1 P1 _. apply K; [|apply P1]. exists (acc ++ [i]). eapply A_fact; [exact H1|]. intros _ (F1 & F2). split; [apply Forall_app; split; [exact F1|constructor; [exact PR|constructor]]|].
    intros E. specialize (F2 E). rewrite HH in F2. rewrite consumed_app. unfold consumed at 2. cbn [flat_map]. rewrite app_nil_r, <- app_assoc. exact F2.
Qed.
Lemma b_emit : forall p0 l0 b0 c k held l b p (Q : unit -> ps -> Prop), B p0 l0 b0 c (k :: held) l b -> p0 <= p ->
  (forall b', B p0 l0 b0 c held l b' -> live p b' -> Q tt (Ps l b')) -> pwp (emit D k p) Q (Ps l b).
Proof. intros p0 l0 b0 c k held l b p Q H L K. eapply (b_leaf (T k)); [exact H|exact L|reflexivity|apply (ok_good_piece (okay := OK) (Tk k))|exact Logic.I|reflexivity|exact K]. Qed.
Definition bare (d : doc) : Prop := good d /\ printable d /\ strip (doc_text d) = [].
Lemma b_bare : forall d p0 l0 b0 c held l b p (Q : unit -> ps -> Prop), bare d -> B p0 l0 b0 c held l b -> p0 <= p ->
  (forall b', B p0 l0 b0 c held l b' -> live p b' -> Q tt (Ps l b')) -> pwp (bld (leaf d p)) Q (Ps l b).
Proof. intros d p0 l0 b0 c held l b p Q (G & PR) H L K. eapply (b_leaf (BL d)); [exact H|exact L|reflexivity|exact G|exact PR|reflexivity|exact K]. Qed.
Lemma bare_sp : bare (Literal (s2b " ")).
Proof. split; [apply (ok_good_piece (okay := OK) Sp)|]. split; [split; [exact Logic.I|reflexivity]|reflexivity]. Qed.
Lemma bare_line : bare DocModel.Line.
Proof. split; [apply (ok_good_piece (okay := OK) Ln)|]. split; [split; [exact Logic.I|reflexivity]|reflexivity]. Qed.
Lemma bare_hard : bare Hardline.
Proof. split; [apply (ok_good_piece (okay := OK) Brk)|]. split; [split; [exact Logic.I|reflexivity]|reflexivity]. Qed.
Lemma bare_soft : bare Softline.
Proof. split; [apply (ok_good_soft (okay := OK))|]. split; [split; [exact Logic.I|reflexivity]|reflexivity]. Qed.
Lemma bare_col : forall k, bare (let '(i, s, t) := aligned D k in DocModel.Align i s t).
Proof. intros k. split; [exact (ok_good_piece (okay := OK) (Col k))|]. destruct (aligned D k) as [[i s] t]. split; [split; [exact Logic.I|reflexivity]|]. unfold doc_text. cbn [texts fst map concat snd]. try reflexivity. Qed.
Lemma bare_gap : forall k, bare (Literal (o_gap O k)).
Proof. intros k. split; [apply gap_good|]. split; [split; [exact Logic.I|reflexivity]|]. unfold doc_text. cbn [texts fst map concat snd]. unfold DocProofs.text_of. destruct (_ && _); cbn [map snd concat]; rewrite ?app_nil_r; [apply gap_blank|reflexivity]. Qed.
Lemma b_alloc : forall ks p0 l0 b0 c held l b p (Q : point -> ps -> Prop), Forall gk ks -> B p0 l0 b0 c held l b -> p0 <= p ->
  (forall b', B p0 l0 b0 c held l b' -> live (S p) b' -> Q (S p) (Ps l b')) -> pwp (bld (alloc ks p)) Q (Ps l b).
Proof.
  intros ks p0 l0 b0 c held l b p Q G (acc & HA) L K. destruct (le_lt_dec (length (b_path b)) p) as [DE|LI].
  - unfold RunProofs.pwp, bld, alloc. cbn [bd]. rewrite (change_dead _ _ _ DE). exact Logic.I.
  - eapply (p_alloc ks (deep p b)); [exact HA|exact L|apply pt_some, LI|exact G|]. intros b' H1 P1 _. apply K; [|apply P1]. exists acc. exact H1.
Qed.
Lemma b_minimize : forall ms p0 l0 b0 c held l b p (Q : point -> ps -> Prop), length ms = 2 -> B p0 l0 b0 c held l b -> p0 <= p ->
  (forall b', B p0 l0 b0 c held l b' -> live (S p) b' -> Q (S p) (Ps l b')) -> pwp (bld (minimize ms p)) Q (Ps l b).
Proof.
  intros ms p0 l0 b0 c held l b p Q G H L K. change (pwp (bld (alloc [KMinimize (b_id b) ms] p)) Q (Ps l (Bs (b_path b) (S (b_id b))))). eapply b_alloc; [|exact H|exact L|exact K]. constructor; [apply (ok_gk_min (okay := OK)), G|constructor].
Qed.
Lemma gk_one : forall k, gk k -> Forall gk [k].
Proof. intros. constructor; [assumption|constructor]. Qed.
Lemma b_group : forall p0 l0 b0 c held l b p (Q : point -> ps -> Prop), B p0 l0 b0 c held l b -> p0 <= p -> (forall b', B p0 l0 b0 c held l b' -> live (S p) b' -> Q (S p) (Ps l b')) -> pwp (group p) Q (Ps l b).
Proof. intros. eapply b_alloc; try eassumption. apply gk_one, (ok_gk_simple (okay := OK)). Qed.
Lemma b_optional : forall p0 l0 b0 c held l b p (Q : point -> ps -> Prop), B p0 l0 b0 c held l b -> p0 <= p -> (forall b', B p0 l0 b0 c held l b' -> live (S p) b' -> Q (S p) (Ps l b')) -> pwp (optional p) Q (Ps l b).
Proof. intros. eapply b_alloc; try eassumption. apply gk_one, (ok_gk_simple (okay := OK)). Qed.
Lemma b_indented : forall n p0 l0 b0 c held l b p (Q : point -> ps -> Prop), B p0 l0 b0 c held l b -> p0 <= p -> (forall b', B p0 l0 b0 c held l b' -> live (S p) b' -> Q (S p) (Ps l b')) -> pwp (indented n p) Q (Ps l b).
Proof. intros. eapply b_alloc; try eassumption. apply gk_one, (ok_gk_indent (okay := OK)). Qed.
Lemma b_optional_indent : forall z p0 l0 b0 c held l b p (Q : point -> ps -> Prop), B p0 l0 b0 c held l b -> p0 <= p -> (forall b', B p0 l0 b0 c held l b' -> live (S p) b' -> Q (S p) (Ps l b')) -> pwp (bld (alloc [KOptional; KIndent z] p)) Q (Ps l b).
Proof. intros. eapply b_alloc; try eassumption. constructor; [apply (ok_gk_simple (okay := OK))|apply gk_one, (ok_gk_indent (okay := OK))]. Qed.
Lemma b_space : forall p0 l0 b0 c held l b p (Q : unit -> ps -> Prop), B p0 l0 b0 c held l b -> p0 <= p -> (forall b', B p0 l0 b0 c held l b' -> live p b' -> Q tt (Ps l b')) -> pwp (space p) Q (Ps l b).
Proof. intros. eapply b_bare; try eassumption. apply bare_sp. Qed.
Lemma b_line : forall p0 l0 b0 c held l b p (Q : unit -> ps -> Prop), B p0 l0 b0 c held l b -> p0 <= p -> (forall b', B p0 l0 b0 c held l b' -> live p b' -> Q tt (Ps l b')) -> pwp (line p) Q (Ps l b).
Proof. intros. eapply b_bare; try eassumption. apply bare_line. Qed.
Lemma b_hardline : forall p0 l0 b0 c held l b p (Q : unit -> ps -> Prop), B p0 l0 b0 c held l b -> p0 <= p -> (forall b', B p0 l0 b0 c held l b' -> live p b' -> Q tt (Ps l b')) -> pwp (hardline p) Q (Ps l b).
Proof. intros. eapply b_bare; try eassumption. apply bare_hard. Qed.
Lemma b_softline : forall p0 l0 b0 c held l b p (Q : unit -> ps -> Prop), B p0 l0 b0 c held l b -> p0 <= p -> (forall b', B p0 l0 b0 c held l b' -> live p b' -> Q tt (Ps l b')) -> pwp (softline p) Q (Ps l b).
Proof. intros. eapply b_bare; try eassumption. apply bare_soft. Qed.
Lemma b_column : forall k p0 l0 b0 c held l b p (Q : unit -> ps -> Prop), B p0 l0 b0 c held l b -> p0 <= p -> (forall b', B p0 l0 b0 c held l b' -> live p b' -> Q tt (Ps l b')) -> pwp (column D k p) Q (Ps l b).
Proof. intros. eapply b_bare; try eassumption. apply bare_col. Qed.
Lemma b_gap : forall k p0 l0 b0 c held l b p (Q : unit -> ps -> Prop), B p0 l0 b0 c held l b -> p0 <= p -> (forall b', B p0 l0 b0 c held l b' -> live p b' -> Q tt (Ps l b')) -> pwp (bld (leaf (Literal (o_gap O k)) p)) Q (Ps l b).
Proof. intros. eapply b_bare; try eassumption. apply bare_gap. Qed.

Lemma B_take : forall p0 l0 b0 c held l b k r, B p0 l0 b0 c held l b -> e_toks l = k :: r -> B p0 l0 b0 true (held ++ [k]) (take 1 l) b.
Proof.
  intros p0 l0 b0 c held l b k r (acc & H) E. exists acc. apply (A_less _ _ _ 1 0); [|lia]. eapply A_fact; [eapply A_take; eassumption|]. intros _ (F & _). split; [exact F|]. intros _ Z. rewrite app_assoc in Z. apply app_eq_nil in Z. destruct Z; discriminate.
Qed.
Lemma b_lif : forall t p0 l0 b0 c held l b (Q : option token -> ps -> Prop), B p0 l0 b0 c held l b ->
  (forall k l', e_toks l = k :: e_toks l' -> is t k = true -> B p0 l0 b0 true (held ++ [k]) l' b -> Q (Some k) (Ps l' b)) -> (next_is t (e_toks l) = false -> Q None (Ps l b)) -> pwp (lif t) Q (Ps l b).
Proof.
  intros t p0 l0 b0 c held l b Q H K1 K2. unfold RunProofs.pwp, lif. cbn [lx]. destruct (e_toks l) as [|k r] eqn:E; [apply K2; reflexivity|]. cbn [next_is] in K2. destruct (is t k) eqn:EK; [|apply K2; reflexivity].
  apply K1; [unfold take; cbn [e_toks]; rewrite E; reflexivity|exact EK|]. eapply B_take; eassumption.
Qed.
Lemma b_lif_flags : forall f p0 l0 b0 c held l b (Q : option token -> ps -> Prop), B p0 l0 b0 c held l b ->
  (forall k l', B p0 l0 b0 true (held ++ [k]) l' b -> Q (Some k) (Ps l' b)) -> Q None (Ps l b) -> pwp (lif_flags f) Q (Ps l b).
Proof.
  intros f p0 l0 b0 c held l b Q H K1 K2. unfold RunProofs.pwp, lif_flags. cbn [lx]. destruct (e_toks l) as [|k r] eqn:E; [exact K2|]. destruct (flag f k) eqn:EK; [|exact K2]. apply K1. eapply B_take; eassumption.
Qed.
Lemma b_pop : forall p0 l0 b0 c held l b (Q : option token -> ps -> Prop), B p0 l0 b0 c held l b ->
  (forall k l', B p0 l0 b0 true (held ++ [k]) l' b -> Q (Some k) (Ps l' b)) -> Q None (Ps l b) -> pwp pop Q (Ps l b).
Proof.
  intros p0 l0 b0 c held l b Q H K1 K2. unfold RunProofs.pwp, pop. cbn [lx]. destruct (e_toks l) as [|k r] eqn:E; [exact K2|]. destruct (is T_EOF k) eqn:EK; [exact K2|]. apply K1. eapply B_take; eassumption.
Qed.
Lemma b_lexpect : forall t p0 l0 b0 c held l b (Q : option token -> ps -> Prop), B p0 l0 b0 c held l b ->
  (forall k l', e_toks l = k :: e_toks l' -> is t k = true -> B p0 l0 b0 true (held ++ [k]) l' b -> Q (Some k) (Ps l' b)) ->
  (forall l', e_err l' = true -> B p0 l0 b0 true [] l' b -> Q None (Ps l' b)) -> pwp (lexpect t) Q (Ps l b).
Proof.
  intros t p0 l0 b0 c held l b Q H K1 K2. unfold lexpect. apply p_bnd. eapply b_lif; [exact H| |]; cbn beta iota.
  - intros k l' E1 E2 HB. apply p_ret. auto.
  - intros N. unfold RunProofs.pwp. cbn [lx bd]. apply K2; [reflexivity|]. eapply B_bad, H.
Qed.
Lemma b_expect : forall t p0 l0 b0 c l b p (Q : unit -> ps -> Prop), B p0 l0 b0 c [] l b -> p0 <= p -> live p b ->
  (forall l' b', B p0 l0 b0 true [] l' b' -> live p b' -> Q tt (Ps l' b')) -> pwp (expect D t p) Q (Ps l b).
Proof.
  intros t p0 l0 b0 c l b p Q H L LI K. unfold expect. apply p_bnd. eapply b_lexpect; [exact H| |]; cbn beta.
  - intros k l' _ _ H1. cbn [emit_opt]. eapply b_emit; [exact H1|exact L|]. intros b' H2 L2. auto.
  - intros l' _ H1. cbn [emit_opt]. apply p_ret. auto.
Qed.
Lemma b_emit_opt : forall k p0 l0 b0 c l b p (Q : unit -> ps -> Prop), B p0 l0 b0 c (match k with Some k => [k] | None => [] end) l b -> p0 <= p -> live p b ->
  (forall b', B p0 l0 b0 c [] l b' -> live p b' -> Q tt (Ps l b')) -> pwp (emit_opt D k p) Q (Ps l b).
Proof. intros [k|] p0 l0 b0 c l b p Q H L LI K; cbn [emit_opt]; [eapply b_emit; eassumption|]. apply p_ret. auto. Qed.
(** A token that may be there, then emitted. *)
Lemma b_lif_opt : forall t X p0 l0 b0 c l b p (K : option token -> P X) Q, B p0 l0 b0 c [] l b -> p0 <= p -> live p b ->
  (forall k l' b', B p0 l0 b0 c [] l' b' -> live p b' -> pwp (K k) Q (Ps l' b')) -> pwp (pbnd (lif t) (fun k => pbnd (emit_opt D k p) (fun _ => K k))) Q (Ps l b).
Proof.
  intros t X p0 l0 b0 c l b p K Q H L LI HK. apply p_bnd. eapply b_lif; [exact H| |]; cbn beta.
  - intros k l' _ _ H1. apply p_bnd. cbn [emit_opt app] in *. eapply b_emit; [exact H1|exact L|]. intros b' H2 L2. apply HK; [apply B_true, H2|exact L2].
  - intros _. apply p_bnd. cbn [emit_opt]. apply p_ret. apply HK; assumption.
Qed.
Lemma b_lexpect_opt : forall t X p0 l0 b0 c l b p (K : option token -> P X) Q, B p0 l0 b0 c [] l b -> p0 <= p -> live p b ->
  (forall k l' b', B p0 l0 b0 true [] l' b' -> live p b' -> pwp (K k) Q (Ps l' b')) -> pwp (pbnd (lexpect t) (fun k => pbnd (emit_opt D k p) (fun _ => K k))) Q (Ps l b).
Proof.
  intros t X p0 l0 b0 c l b p K Q H L LI HK. apply p_bnd. eapply b_lexpect; [exact H| |]; cbn beta.
  - intros k l' _ _ H1. apply p_bnd. cbn [emit_opt app] in *. eapply b_emit; [exact H1|exact L|]. intros b' H2 L2. apply HK; assumption.
  - intros l' _ H1. apply p_bnd. cbn [emit_opt]. apply p_ret. apply HK; assumption.
Qed.
Lemma b_lif2 : forall t t' X p0 l0 b0 c l b (K : option token -> P X) Q, B p0 l0 b0 c [] l b -> (forall k l', B p0 l0 b0 true [k] l' b -> pwp (K (Some k)) Q (Ps l' b)) -> pwp (K None) Q (Ps l b) ->
  pwp (pbnd (lif t) (fun k => pbnd (match k with Some k => pret (Some k) | None => lif t' end) K)) Q (Ps l b).
Proof.
  intros t t' X p0 l0 b0 c l b K Q H K1 K2. apply p_bnd. eapply b_lif; [exact H| |]; cbn beta iota; [intros k l' _ _ H1|intros _]; apply p_bnd; [apply p_ret; apply K1, H1|]. eapply b_lif; [exact H| |]; [intros k l' _ _ H1; apply K1, H1|intros _; exact K2].
Qed.
Lemma b_lif3 : forall t t' t2 X p0 l0 b0 c l b (K : option token -> P X) Q, B p0 l0 b0 c [] l b -> (forall k l', B p0 l0 b0 true [k] l' b -> pwp (K (Some k)) Q (Ps l' b)) -> pwp (K None) Q (Ps l b) ->
  pwp (pbnd (lif t) (fun k => pbnd (match k with Some k => pret (Some k) | None => lif t' end) (fun k => pbnd (match k with Some k => pret (Some k) | None => lif t2 end) K))) Q (Ps l b).
Proof.
  intros t t' t2 X p0 l0 b0 c l b K Q H K1 K2. eapply b_lif2; [exact H| |]; [intros k l' H1|]; apply p_bnd; cbn beta iota; [apply p_ret; apply K1, H1|]. eapply b_lif; [exact H| |]; [intros k l' _ _ H1; apply K1, H1|intros _; exact K2].
Qed.
Lemma b_emit_at : forall k (h : handle) p0 l0 b0 c held l b (Q : unit -> ps -> Prop), B p0 l0 b0 c (k :: held) l b -> p0 <= fst h ->
  (forall b', B p0 l0 b0 c held l b' -> live (fst h) b' -> Q tt (Ps l b')) -> pwp (emit_at D true k h) Q (Ps l b).
Proof. intros k h p0 l0 b0 c held l b Q H L K. unfold RunProofs.pwp, emit_at. destruct (eq_sig _ _); [|exact Logic.I]. eapply (b_emit _ _ _ _ k held); eassumption. Qed.
Lemma b_attempt : forall X (g : X -> bool) m (Q : X -> ps -> Prop) l b, pwp m (fun a s' => Q a (if g a then s' else Ps (lx s') b)) (Ps l b) -> pwp (attempt g m) Q (Ps l b).
Proof. intros X g m Q l b H. unfold RunProofs.pwp, attempt in *. cbn [bd] in *. destruct (m (Ps l b)) as [a s'| |]; auto. destruct (g a); exact H. Qed.
Lemma b_expr : forall stop a p0 l0 b0 c l b p (Q : ret_ * point -> ps -> Prop), s_parens a = s_parens S_ -> s_sizeof a = s_sizeof S_ -> B p0 l0 b0 c [] l b -> p0 <= p -> live p b ->
  (forall e l' b', B p0 l0 b0 true [] l' b' -> p <= e -> live e b' -> Q (GOOD, e) (Ps l' b')) ->
  (forall e l' b', e_err l' = false -> B p0 l0 b0 c [] l' b' -> p <= e -> live e b' -> Q (NONE, e) (Ps l' b')) ->
  (forall l', e_err l' = true -> B p0 l0 b0 true [] l' b -> Q (FAIL, p) (Ps l' b)) -> pwp (parser_expr q D tpeek braces stop a p) Q (Ps l b).
Proof.
  intros stop a p0 l0 b0 c l b p Q P1 P2 (acc & HA) L LI K1 K2 K3. eapply (p_expr_any stop a (deep p b)); [exact HA|exact L|apply pt_some, LI| |].
  - intros x e ze l' b' H1 E LE PE _. assert (PR : read tpeek braces stop l x l' -> proper S_ (EX stop a l x l')) by (intros H; eapply read_proper; eassumption).
    destruct (isnull x) eqn:N; [apply K2; [exact E| |exact LE|apply PE]|apply K1; [|exact LE|apply PE]]; exists (acc ++ [EX stop a l x l']); (eapply A_fact; [exact H1|]); intros _ ((F1 & F2) & F3); rewrite ?app_nil_r, consumed_app in *.
    + split; [apply Forall_app; auto|]. intros Z X. apply app_eq_nil in X. apply (F2 Z), X.
    + split; [apply Forall_app; auto|]. intros _ X. apply app_eq_nil in X. destruct X as [_ X]. unfold consumed in X. cbn [flat_map ins] in X. rewrite app_nil_r in X.
      assert (NN : x <> ENull) by (intros ->; discriminate N). pose proof (expr_eats _ _ _ _ _ _ types_some braces_some (proj1 F3) NN) as LT. apply (f_equal (@length token)) in X. rewrite firstn_length in X. cbn [length] in X. lia.
  - intros l' E H1. apply K3; [exact E|]. exists []. eapply A_err; eassumption.
Qed.
Lemma argx_parens : forall i s h n r, s_parens (argx S_ i s h n r) = s_parens S_. Proof. reflexivity. Qed.
Lemma argx_sizeof : forall i s h n r, s_sizeof (argx S_ i s h n r) = s_sizeof S_. Proof. reflexivity. Qed.
Lemma b_merge : forall (Inv : bs -> Prop) m (Q : unit -> ps -> Prop) l b, pwp m (fun _ s' => lx s' = l /\ Inv (bd s')) (Ps l b) -> (forall b', Inv b' -> Q tt (Ps l b')) -> pwp m Q (Ps l b).
Proof. intros Inv m Q l b H K. eapply p_mono; [exact H|]. intros [] [l' b'] (E & I). cbn [lx bd] in *. subst l'. auto. Qed.
Lemma b_good : forall (Q : ret_ -> ps -> Prop) l b, (e_err l = false -> Q GOOD (Ps l b)) -> (e_err l = true -> Q FAIL (Ps l b)) -> pwp good_ Q (Ps l b).
Proof. intros Q l b K1 K2. unfold RunProofs.pwp, good_. cbn [lx]. destruct (e_err l); auto. Qed.
Lemma b_none : forall (Q : ret_ -> ps -> Prop) l b, (e_err l = false -> Q NONE (Ps l b)) -> (e_err l = true -> Q FAIL (Ps l b)) -> pwp none_ Q (Ps l b).
Proof. intros Q l b K1 K2. unfold RunProofs.pwp, none_. cbn [lx]. destruct (e_err l); auto. Qed.
Lemma b_fail : forall (Q : ret_ -> ps -> Prop) p0 l0 b0 c held l b, B p0 l0 b0 c held l b -> (forall l', e_err l' = true -> B p0 l0 b0 true [] l' b -> Q FAIL (Ps l' b)) -> pwp fail_ Q (Ps l b).
Proof. intros Q p0 l0 b0 c held l b H K. unfold RunProofs.pwp, fail_. cbn [lx bd]. apply K; [reflexivity|eapply B_bad, H]. Qed.
Lemma b_state : forall (Q : st -> ps -> Prop) l b, Q l (Ps l b) -> pwp state Q (Ps l b).
Proof. intros. exact H. Qed.
Lemma b_back : forall (Q : option token -> ps -> Prop) l b, Q (hd_error (e_done l)) (Ps l b) -> pwp back Q (Ps l b).
Proof. intros. exact H. Qed.
Lemma b_widthof : forall (Q : nat -> ps -> Prop) p l b, (forall n, Q n (Ps l b)) -> pwp (widthof width p) Q (Ps l b).
Proof. intros. unfold RunProofs.pwp, widthof. auto. Qed.
Lemma b_hold : forall (Q : handle -> ps -> Prop) p l b, (forall h : handle, fst h = p -> Q h (Ps l b)) -> pwp (hold p) Q (Ps l b).
Proof. intros. unfold RunProofs.pwp, hold. auto. Qed.

(** ** Results *)
Definition U (p0 : point) (l0 : st) (b0 : bs) (c : bool) (p : point) (s' : ps) : Prop := B p0 l0 b0 c [] (lx s') (bd s') /\ live p (bd s').
Definition R (p0 : point) (l0 : st) (b0 : bs) (c : bool) (p : point) (l : st) (b : bs) (r : ret_) (s' : ps) : Prop :=
  match r with
  | GOOD => e_err (lx s') = false /\ U p0 l0 b0 c p s'
  | NONE => e_err l = false /\ s' = Ps l b
  | FAIL => e_err (lx s') = true /\ U p0 l0 b0 true p s'
  end.
Definition held_by (p : point) (h : option handle) : Prop := match h with Some h => p <= fst h | None => True end.

#[local] Hint Unfold R U held_by : dd.
Ltac red1 := cbn beta iota; cbn [fst snd is_good is_fail isSome opt_is negb andb orb app length] in *.
Ltac old := repeat match goal with H : B ?p0 ?l0 ?b0 _ _ ?l ?b, H' : B ?p0 ?l0 ?b0 _ _ ?l' ?b' |- RunProofs.pwp _ _ _ (Ps ?l' ?b') => assert_fails (constr_eq H H'); clear H end.
Ltac in2 := intros ? ? ?; red1; old.
Ltac in3 := intros ? ? ? ?; red1; old.
Ltac inds := repeat first [apply Forall_nil | apply Forall_cons; [apply (ok_gk_indent (okay := OK))|] | match goal with |- Forall _ (match ?x with _ => _ end) => destruct x end].
Ltac st := match goal with
  | |- RunProofs.pwp _ (pbnd (pbnd _ _) _) _ _ => apply p_bnd
  | |- RunProofs.pwp _ (pbnd (lif _) (fun k => pbnd (emit_opt _ k _) _)) _ _ => eapply b_lif_opt; [eassumption|lia|lia|]; intros; red1; old
  | |- RunProofs.pwp _ (pbnd (lexpect _) (fun k => pbnd (emit_opt _ k _) _)) _ _ => eapply b_lexpect_opt; [eassumption|lia|lia|]; intros; red1; old
  | |- RunProofs.pwp _ (pbnd _ _) _ _ => apply p_bnd
  | |- RunProofs.pwp _ (pret _) _ _ => apply p_ret; red1
  | |- RunProofs.pwp _ toks _ _ => apply p_toks; red1
  | |- RunProofs.pwp _ state _ _ => apply b_state; red1
  | |- RunProofs.pwp _ back _ _ => apply b_back; red1
  | |- RunProofs.pwp _ (widthof _ _) _ _ => apply b_widthof; intros ?; red1
  | |- RunProofs.pwp _ (hold _) _ _ => apply b_hold; intros ? ?; red1
  | |- RunProofs.pwp _ out_of_fuel _ _ => exact Logic.I
  | |- RunProofs.pwp _ (fun _ => Bad) _ _ => exact Logic.I
  | |- RunProofs.pwp _ (emit _ _ _) _ _ => eapply b_emit; [eassumption|lia|in2]
  | |- RunProofs.pwp _ (emit_at _ _ _ _) _ _ => eapply b_emit_at; [eassumption|lia|in2]
  | |- RunProofs.pwp _ (group _) _ _ => eapply b_group; [eassumption|lia|in2]
  | |- RunProofs.pwp _ (optional _) _ _ => eapply b_optional; [eassumption|lia|in2]
  | |- RunProofs.pwp _ (indented _ _) _ _ => eapply b_indented; [eassumption|lia|in2]
  | |- RunProofs.pwp _ (bld (alloc [KOptional; KIndent _] _)) _ _ => eapply b_optional_indent; [eassumption|lia|in2]
  | |- RunProofs.pwp _ (bld (minimize _ _)) _ _ => eapply b_minimize; [reflexivity|eassumption|lia|in2]
  | |- RunProofs.pwp _ (bld (alloc [KGroup; KIndent _] _)) _ _ => eapply b_alloc; [apply Forall_cons; [apply (ok_gk_simple (okay := OK))|inds]|eassumption|lia|in2]
  | |- RunProofs.pwp _ (bld (alloc _ _)) _ _ => eapply b_alloc; [inds|eassumption|lia|in2]
  | |- RunProofs.pwp _ (space _) _ _ => eapply b_space; [eassumption|lia|in2]
  | |- RunProofs.pwp _ (line _) _ _ => eapply b_line; [eassumption|lia|in2]
  | |- RunProofs.pwp _ (hardline _) _ _ => eapply b_hardline; [eassumption|lia|in2]
  | |- RunProofs.pwp _ (softline _) _ _ => eapply b_softline; [eassumption|lia|in2]
  | |- RunProofs.pwp _ (column _ _ _) _ _ => eapply b_column; [eassumption|lia|in2]
  | |- RunProofs.pwp _ (bld (leaf (Literal (o_gap _ _)) _)) _ _ => eapply b_gap; [eassumption|lia|in2]
  | |- RunProofs.pwp _ (expect _ _ _) _ _ => eapply b_expect; [eassumption|lia|lia|in3]
  | |- RunProofs.pwp _ (lif _) _ _ => eapply b_lif; [eassumption|intros; red1; old|intros; red1]
  | |- RunProofs.pwp _ (lif_flags _) _ _ => eapply b_lif_flags; [eassumption|intros; red1; old|intros; red1]
  | |- RunProofs.pwp _ pop _ _ => eapply b_pop; [eassumption|intros; red1; old|intros; red1]
  | |- RunProofs.pwp _ (lexpect _) _ _ => eapply b_lexpect; [eassumption|intros; red1; old|intros; red1; old]
  | |- RunProofs.pwp _ (parser_expr _ _ _ _ _ _ _) _ _ => eapply b_expr; [try reflexivity|try reflexivity|eassumption|lia|lia|intros; red1; old|intros; red1; old|intros; red1; old]
  | |- RunProofs.pwp _ good_ _ _ => apply b_good; intros ?; red1
  | |- RunProofs.pwp _ none_ _ _ => apply b_none; intros ?; red1
  | |- RunProofs.pwp _ fail_ _ _ => eapply b_fail; [eassumption|intros; red1]
  | |- RunProofs.pwp _ (if ?c then _ else _) _ _ => destruct c eqn:?
  | |- RunProofs.pwp _ (match ?x with _ => _ end) _ _ => destruct x eqn:?
  end.
Ltac bb := first [eassumption | eapply B_true; eassumption | eapply B_false; eassumption | eapply B_err; eassumption].
Ltac fin := autounfold with dd in *; red1; cbn [lx bd] in *; repeat match goal with |- _ /\ _ => split | |- _ -> _ => intros ? end; try discriminate; try bb; try lia; try reflexivity; try assumption; try exact Logic.I.
(** What may or may not add blanks below [p]. *)
Ltac merge p := try apply p_bnd; match goal with H : B ?p0 ?l0 ?b0 ?c ?h ?l ?b |- RunProofs.pwp _ _ _ (Ps ?l ?b) => eapply (b_merge (fun b' => B p0 l0 b0 c h l b' /\ live p b')); [repeat st; fin|intros ? (? & ?); clear H; red1] end.
Ltac call_ lem := eapply p_mono; [eapply lem; solve [fin]|]; let r := fresh "r" in let l := fresh "ll" in let b := fresh "bb" in intros r [l b]; autounfold with dd; red1; cbn [lx bd].
Ltac ret_of H := match type of H with
  | match ?r with GOOD => _ | NONE => _ | FAIL => _ end => destruct r; red1; destruct H as (? & H); [destruct H as (? & ?)| |destruct H as (? & ?)]
  end.

Definition attrs_ok (p0 : point) (l0 : st) (b0 : bs) (c : bool) (p : point) (r : ret_ * option handle) (s' : ps) : Prop :=
  U p0 l0 b0 c p s' /\ fst r <> NONE /\ (fst r = FAIL -> e_err (lx s') = true) /\ (fst r = GOOD -> e_err (lx s') = false) /\ held_by p (snd r).
#[local] Hint Unfold attrs_ok : dd.
Lemma attrs_spec : forall f ln e n hard p out p0 l0 b0 c l b, B p0 l0 b0 c [] l b -> p0 <= p -> live p b -> held_by p out ->
  pwp (attrs q D cw S_ tpeek braces f ln e n hard p out) (attrs_ok p0 l0 b0 c p) (Ps l b).
Proof.
  induction f as [|f IH]; intros ln e n hard p out p0 l0 b0 c l b H L LI HO; [exact Logic.I|]. cbn [attrs].
  eapply b_lif2; [eassumption|intros; red1; old|red1].
  - merge p. repeat st; first [apply IH; solve [fin]|solve [fin]].
  - repeat st; fin.
Qed.
Lemma attributes_spec : forall f func ln p p0 l0 b0 c l b, B p0 l0 b0 c [] l b -> p0 <= p -> live p b ->
  pwp (attributes q D cw S_ tpeek braces f func ln p) (fun r s' => R p0 l0 b0 c p l b (fst r) s' /\ held_by p (snd r)) (Ps l b).
Proof.
  intros f func ln p p0 l0 b0 c l b H L LI. unfold attributes. repeat st; try solve [fin].
  eapply p_mono; [apply attrs_spec; solve [fin]|]. intros [r h] [ll bb] (HU & HN & HF & HG & HH). fin; [|destruct h; lia]. destruct HU as (HU1 & HU2). destruct r; [specialize (HG eq_refl)|congruence|specialize (HF eq_refl)]; fin.
Qed.

(** ** Assembly *)
Lemma operand_doc_spec : forall p p0 l0 b0 c l b, B p0 l0 b0 c [] l b -> p0 <= p ->
  pwp (asm_operand_doc p) (fun r s' => lx s' = l /\ U p0 l0 b0 c r s' /\ p < r) (Ps l b).
Proof. intros p p0 l0 b0 c l b H L. unfold asm_operand_doc. st. st. st. st. st. merge (S p). repeat st. fin. Qed.
Lemma operand_cpp_spec : forall p p0 l0 b0 c l b, B p0 l0 b0 c [] l b -> p0 <= p ->
  pwp (asm_operand_cpp q D S_ tpeek braces p) (fun r s' => U p0 l0 b0 c p s') (Ps l b).
Proof.
  intros p p0 l0 b0 c l b H L. unfold asm_operand_cpp. st. call_ operand_doc_spec. intros (-> & (X0 & X1) & X2). clear H. repeat st; fin.
Qed.
Lemma operand_spec : forall p p0 l0 b0 c l b, B p0 l0 b0 c [] l b -> p0 <= p -> live p b ->
  pwp (asm_operand q D S_ tpeek braces p) (fun r s' => U p0 l0 b0 c p s') (Ps l b).
Proof.
  intros p p0 l0 b0 c l b H L LI. unfold asm_operand. st. st. st; [|st; [apply operand_cpp_spec; assumption|repeat st; fin]].
  st. call_ operand_doc_spec. intros (-> & (X0 & X1) & X2). clear H. clear Heqb1 LI. rename r into e.
  st. eapply (p_mono _ _ (fun k s' => match k with Some k => B p0 l0 b0 true [k] (lx s') (bd s') | None => B p0 l0 b0 c [] (lx s') (bd s') end /\ bd s' = bb)). { st; fin. }
  intros k [l1 b1] (Y1 & Y2). red1. cbn [lx bd] in *. subst b1. clear X0. st.
  eapply (p_mono _ _ (fun _ s' => U p0 l0 b0 c e s')). { destruct k; red1; repeat st; fin. }
  intros _ [l2 b2] (Z1 & Z2). red1. cbn [lx bd] in *. clear Y1. st.
  eapply (p_mono _ _ (fun k s' => match k with Some k => B p0 l0 b0 true [k] (lx s') (bd s') | None => B p0 l0 b0 c [] (lx s') (bd s') end /\ bd s' = b2)). { st; fin. }
  clear k. intros k [l3 b3] (Y1 & Y2). red1. cbn [lx bd] in *. subst b3. clear Z1. st.
  eapply (p_mono _ _ (fun _ s' => U p0 l0 b0 c e s')). { destruct k; red1; repeat st; fin. }
  intros _ [l4 b4] (Z1 & Z3). red1. cbn [lx bd] in *. clear Y1. repeat st; fin.
Qed.
Lemma operands_spec : forall f p n p0 l0 b0 c l b, B p0 l0 b0 c [] l b -> p0 <= p -> live p b ->
  pwp (asm_operands q D S_ tpeek braces f p n) (fun r s' => U p0 l0 b0 c p s') (Ps l b).
Proof.
  induction f as [|f IH]; intros p n p0 l0 b0 c l b H L LI; [exact Logic.I|]. cbn [asm_operands]. st. call_ operand_spec. intros (X1 & X2). st; [apply IH; fin|]. st. fin.
Qed.
Lemma qualifiers_spec : forall f p last p0 l0 b0 c l b, B p0 l0 b0 c [] l b -> p0 <= p -> live p b ->
  pwp (asm_qualifiers D f p last) (fun r s' => U p0 l0 b0 c p s') (Ps l b).
Proof.
  induction f as [|f IH]; intros p last p0 l0 b0 c l b H L LI; [exact Logic.I|]. cbn [asm_qualifiers].
  eapply b_lif3; [eassumption|intros; red1; old|red1]; repeat st; [apply IH; fin|fin].
Qed.
Lemma part_spec : forall f ln o cur p0 l0 b0 c l b, B p0 l0 b0 c [] l b -> p0 <= o -> o <= cur -> live cur b ->
  pwp (asm_part q D S_ tpeek braces f ln o cur) (fun r s' => U p0 l0 b0 c (snd r) s' /\ o <= snd r) (Ps l b).
Proof.
  intros f ln o cur p0 l0 b0 c l b H L LE LI. unfold asm_part. st. st.
  - st. st. merge (S o). st. st. st. st. st. call_ operands_spec. intros (X1 & X2). st. fin.
  - st. fin.
Qed.
Lemma list_spec : forall ln o cur p0 l0 b0 c l b, B p0 l0 b0 c [] l b -> p0 <= o -> o <= cur -> live cur b ->
  pwp (asm_list q D S_ tpeek braces ln o cur) (fun r s' => U p0 l0 b0 c (snd r) s' /\ o <= snd r) (Ps l b).
Proof.
  intros ln o cur p0 l0 b0 c l b H L LE LI. unfold asm_list. st. st.
  - st. st. merge (S o). st. st. st. st. merge (S o). repeat st; fin.
  - st. fin.
Qed.
Lemma asm_spec : forall f p p0 l0 b0 c l b, B p0 l0 b0 c [] l b -> p0 <= p -> live p b ->
  pwp (asm q D cw S_ tpeek braces O f p) (fun r s' => R p0 l0 b0 true p l b r s' /\ (r = NONE -> next_is T_ASSEMBLY (e_toks l) = false)) (Ps l b).
Proof.
  intros f p p0 l0 b0 c l b H L LI. unfold asm. st. st. st; [|repeat st; fin]. st. st. st. st. st. call_ qualifiers_spec. intros (X1 & X2). old.
  merge (S p). st. st. st. st. st. st. st. st.
  - st. call_ part_spec. intros ((Y1 & Y2) & Y3). old. st. call_ part_spec. intros ((Y4 & Y5) & Y6). old. st. call_ list_spec. intros ((Y7 & Y8) & Y9). old.
    st; [|repeat st; fin]. st. call_ list_spec. intros ((Y10 & Y11) & Y12). old. repeat st; fin.
  - repeat st; fin.
  - repeat st; fin.
Qed.
Lemma stmt_asm_spec : forall f p p0 l0 b0 c l b, B p0 l0 b0 c [] l b -> p0 <= p -> live p b ->
  pwp (stmt_asm q D cw S_ tpeek braces O f p) (fun r s' => R p0 l0 b0 true p l b r s' /\ (r = NONE -> next_is T_ASSEMBLY (e_toks l) = false)) (Ps l b).
Proof.
  intros f p p0 l0 b0 c l b H L LI. unfold stmt_asm. st. call_ asm_spec. intros (X & XN). ret_of X; old; repeat st; fin.
Qed.
Lemma root_asm_spec : forall f p p0 l0 b0 c l b, B p0 l0 b0 c [] l b -> p0 <= p -> live p b ->
  pwp (root_asm q D cw S_ tpeek braces O f p) (R p0 l0 b0 true p l b) (Ps l b).
Proof.
  intros f p p0 l0 b0 c l b H L LI. unfold root_asm. st. call_ stmt_asm_spec. intros (X & _). ret_of X; old; repeat st; fin.
Qed.

(** ** Types and arguments of functions *)
Lemma arg_tokens_spec : forall f rp pv p p0 l0 b0 c l b, B p0 l0 b0 c [] l b -> p0 <= p -> live p b ->
  pwp (arg_tokens q D cw S_ tpeek braces f rp pv p) (fun _ s' => U p0 l0 b0 c p s') (Ps l b).
Proof.
  induction f as [|f IH]; intros rp pv p p0 l0 b0 c l b H L LI; [exact Logic.I|]. cbn [arg_tokens]. st. st. st; [repeat st; fin|]. st. call_ attributes_spec. intros (X & _).
  assert (K : B p0 l0 b0 c [] ll bb /\ live p bb) by (destruct (fst r); destruct X as (X1 & X2); [destruct X2; fin|inversion X2; subst; fin|destruct X2; fin]). clear H X. destruct K as (K1 & K2).
  st; [repeat st; fin|]. st. st; [repeat st; fin|]. st. st. st; [repeat st; fin|]. st. st; [|repeat st; fin]. merge p. st. st. apply IH; fin.
Qed.
Definition arg_ok (p0 : point) (l0 : st) (b0 : bs) (c : bool) (p : point) (h : option handle) (s' : ps) : Prop := U p0 l0 b0 c p s' /\ held_by p h.
#[local] Hint Unfold arg_ok : dd.
Section Rec.
Variable rec : dtype -> point -> P ret_.
Hypothesis rec_spec : forall ty p p0 l0 b0 c l b, B p0 l0 b0 c [] l b -> p0 <= p -> live p b -> pwp (rec ty p) (fun _ s' => U p0 l0 b0 c p s') (Ps l b).
Lemma func_arg_spec : forall f rp p p0 l0 b0 c l b, B p0 l0 b0 c [] l b -> p0 <= p -> live p b ->
  pwp (func_arg q D cw S_ tpeek braces O f rec rp p) (fun r s' => arg_ok p0 l0 b0 c p (snd r) s') (Ps l b).
Proof.
  intros f rp p p0 l0 b0 c l b H L LI. unfold func_arg. st. st. st; [|repeat st; fin]. st. st. st. st. st. st. st. call_ attributes_spec. intros (X & X0).
  assert (K : B p0 l0 b0 c [] ll bb /\ live (S (S p)) bb) by (destruct (fst r); destruct X as (X1 & X2); [destruct X2; fin|inversion X2; subst; fin|destruct X2; fin]). destruct K as (K1 & K2).
  apply p_bnd. eapply (b_merge (fun b' => B p0 l0 b0 c [] ll b' /\ live (S (S p)) b')); [|intros ? (Z1 & Z2)].
  { clear X. clear H0. destruct r as [[] [h|]]; red1; repeat st; fin. }
  red1. clear X K1 H0. st. call_ rec_spec. intros (Y1 & Y2). old. st; [|repeat st; fin]. st. st. st. st. st. st. merge (S (S (S p))). st. call_ arg_tokens_spec. intros (W1 & W2). st. fin.
Qed.
Lemma func_args_spec : forall f rp p out p0 l0 b0 c l b, B p0 l0 b0 c [] l b -> p0 <= p -> live p b -> held_by p out ->
  pwp (func_args q D cw S_ tpeek braces O f rec rp p out) (arg_ok p0 l0 b0 c p) (Ps l b).
Proof.
  induction f as [|f IH]; intros rp p out p0 l0 b0 c l b H L LI HO; [exact Logic.I|]. cbn [func_args]. st. call_ func_arg_spec. intros ((X1 & X2) & X3). st; [apply IH; fin|st; fin].
Qed.
End Rec.
Lemma type_tokens_spec : forall args, (forall n p p0 l0 b0 c l b, B p0 l0 b0 c [] l b -> p0 <= p -> live p b -> pwp (args n p) (fun _ s' => U p0 l0 b0 c p s') (Ps l b)) ->
  forall f ty align p p0 l0 b0 c l b, B p0 l0 b0 c [] l b -> p0 <= p -> live p b -> pwp (type_tokens q D cw S_ width tpeek braces f args ty align p) (fun _ s' => U p0 l0 b0 c p s') (Ps l b).
Proof.
  intros args HA. induction f as [|f IH]; intros ty align p p0 l0 b0 c l b H L LI; [exact Logic.I|]. cbn [type_tokens]. st. st; [|exact Logic.I]. st. st. st.
  - st. st. st. eapply (p_mono _ _ (fun w s' => s' = Ps l' b')); [repeat st; reflexivity|]. intros w s' ->. red1. st. st. st. call_ HA. intros (X1 & X2). old. repeat st; fin.
  - st. st. st. st. st.
    eapply (p_mono _ _ (fun x s' => U p0 l0 b0 true (snd x) s' /\ p <= snd x)). { repeat st; fin. }
    intros [r e] [ll bb] ((X1 & X2) & X3). red1. cbn [lx bd] in *. old. st; [|st; fin]. st. st. st; [repeat st; fin|]. merge e. st; [repeat st; fin|]. merge e. apply IH; fin.
Qed.
Lemma ptype_spec : forall f rl ty p p0 l0 b0 c l b, B p0 l0 b0 c [] l b -> p0 <= p -> live p b ->
  pwp (ptype q D cw S_ width tpeek braces O f rl ty p) (fun _ s' => U p0 l0 b0 c p s') (Ps l b).
Proof.
  induction f as [|f IH]; intros rl ty p p0 l0 b0 c l b H L LI; [exact Logic.I|]. cbn [ptype]. st. st. st; [|exact Logic.I]. apply type_tokens_spec; [|assumption|assumption|assumption].
  intros. st. call_ (func_args_spec (ptype q D cw S_ width tpeek braces O f false) (IH false)). intros ((X1 & X2) & _). st. fin.
Qed.

(** ** Initializers in braces *)
Lemma field1_spec : forall e p p0 l0 b0 c l b, B p0 l0 b0 c [] l b -> p0 <= p -> live p b ->
  pwp (field1 q D S_ tpeek braces e p) (fun _ s' => U p0 l0 b0 c p s') (Ps l b).
Proof. intros e p p0 l0 b0 c l b H L LI. unfold field1. repeat st; fin. Qed.
Lemma fields_spec : forall f e p n p0 l0 b0 c l b, B p0 l0 b0 c [] l b -> p0 <= p -> live p b ->
  pwp (fields q D S_ tpeek braces f e p n) (fun _ s' => U p0 l0 b0 c p s') (Ps l b).
Proof.
  induction f as [|f IH]; intros e p n p0 l0 b0 c l b H L LI; [exact Logic.I|]. cbn [fields]. st. call_ field1_spec. intros (X1 & X2). st; [apply IH; fin|st; fin|st; fin].
Qed.
Lemma field_spec : forall f e rb ind p p0 l0 b0 c l b, B p0 l0 b0 c [] l b -> p0 <= p -> live p b ->
  pwp (field q D S_ tpeek braces f e rb ind p) (fun _ s' => U p0 l0 b0 c p s') (Ps l b).
Proof. intros f e rb ind p p0 l0 b0 c l b H L LI. unfold field. st. call_ fields_spec. intros (X1 & X2). old. repeat st; fin. Qed.
Section Braces.
Variable rec : point -> P ret_.
Hypothesis rec_spec : forall p p0 l0 b0 c l b, B p0 l0 b0 c [] l b -> p0 <= p -> live p b -> pwp (rec p) (fun _ s' => U p0 l0 b0 c p s') (Ps l b).
Lemma elem_spec : forall f e n ind cache p p0 l0 b0 c l b, B p0 l0 b0 c [] l b -> p0 <= p -> live p b ->
  pwp (elem q D S_ tpeek braces f rec e n ind cache p) (fun r s' => U p0 l0 b0 c (snd (fst r)) s' /\ p <= snd (fst r)) (Ps l b).
Proof.
  intros f e n ind cache p p0 l0 b0 c l b H L LI. unfold elem. st. st. st; [st; call_ field_spec; intros (X1 & X2); st; fin|]. st; [st; call_ rec_spec; intros (X1 & X2); st; fin|].
  st. st. repeat st; fin.
Qed.
Lemma items_spec : forall f fl al n ind p i cache p0 l0 b0 c l b, B p0 l0 b0 c [] l b -> p0 <= p -> p <= i -> live p b ->
  pwp (items q D S_ tpeek braces O f rec fl al n ind p i cache) (fun r s' => U p0 l0 b0 c (snd r) s' /\ p <= snd r) (Ps l b).
Proof.
  induction f as [|f IH]; intros fl al n ind p i cache p0 l0 b0 c l b H L LE LI; [exact Logic.I|]. cbn [items]. st. st. st; [repeat st; fin|]. st; [repeat st; fin|]. st; [repeat st; fin|].
  st. st. st. call_ elem_spec. intros ((X1 & X2) & X3). old. st; [|repeat st; fin]. st.
  eapply (p_mono _ _ (fun k s' => match k with Some k => B p0 l0 b0 true [k] (lx s') (bd s') | None => B p0 l0 b0 c [] (lx s') (bd s') end /\ bd s' = bb)). { st; fin. }
  intros k [l' b2] (Y1 & Y2). red1. cbn [lx bd] in *. subst b2. clear X1. st.
  eapply (p_mono _ _ (fun _ s' => U p0 l0 b0 c (snd (fst r)) s')). { destruct k; red1; repeat st; fin. }
  intros _ [l2 b2] (Z1 & Z2). red1. cbn [lx bd] in *. clear Y1. st.
  - st. eapply (p_mono _ _ (fun _ s' => U p0 l0 b0 c (S i) s')). { destruct k; red1; repeat st; fin. } intros _ [l3 b3] (W1 & W2). apply IH; fin.
  - st. st. st. st. clear Heqb1 Heqb2 Heqb3 LI. repeat st; match goal with |- RunProofs.pwp _ _ _ _ => apply IH; fin | |- _ => fin end.
Qed.
End Braces.
Lemma braces_head_spec : forall fl lb ind parent p p0 l0 b0 c l b, B p0 l0 b0 c [] l b -> p0 <= p -> live p b ->
  pwp (braces_head q width O fl lb ind parent p) (fun r s' => U p0 l0 b0 c r s' /\ p <= r) (Ps l b).
Proof.
  intros fl lb ind parent p p0 l0 b0 c l b H L LI. unfold braces_head. st; [repeat st; fin|]. merge p. repeat st; fin.
Qed.
Lemma pbraces_spec : forall f fl ind parent p p0 l0 b0 c l b, B p0 l0 b0 c [] l b -> p0 <= p -> live p b ->
  pwp (pbraces q D S_ width tpeek braces O f fl ind parent p) (fun _ s' => U p0 l0 b0 c p s') (Ps l b).
Proof.
  induction f as [|f IH]; intros fl ind parent p p0 l0 b0 c l b H L LI; [exact Logic.I|]. cbn [pbraces]. st. st. st; [|repeat st; fin]. st. st. st. st; [|repeat st; fin]. st. st. st. st. st.
  eapply (p_mono _ _ (fun r s' => U p0 l0 b0 true (snd r) s' /\ p <= snd r)).
  { st; [st; merge (S p); st; fin|]. st. call_ braces_head_spec. intros ((X1 & X2) & X3). old. eapply p_mono; [apply items_spec; [intros; apply IH; fin|solve [fin]..]|]. intros r3 [l3 b3] ((Y1 & Y2) & Y3). fin. }
  intros [r e] [l3 b3] ((Y1 & Y2) & Y3). red1. cbn [lx bd] in *. old. st; [|repeat st; fin]. st. st. st. st. merge e. repeat st; fin.
Qed.

(** ** Declarations *)
Lemma R_U : forall p0 l0 b0 c c' p l b r s', R p0 l0 b0 c' p l b r s' -> B p0 l0 b0 c [] l b -> live p b -> U p0 l0 b0 (match r with NONE => c | FAIL => true | GOOD => c' end) p s'.
Proof. intros p0 l0 b0 c c' p l b [] s' H HB LI; cbn [R] in H; [apply H| |apply H]. destruct H as (_ & ->). split; assumption. Qed.
Lemma R_U' : forall p0 l0 b0 c p l b r s', R p0 l0 b0 true p l b r s' -> B p0 l0 b0 c [] l b -> live p b -> U p0 l0 b0 c p s'.
Proof. intros p0 l0 b0 c p l b r s' H HB LI. pose proof (R_U _ _ _ _ _ _ _ _ _ _ H HB LI) as (X1 & X2). split; [destruct r; bb|exact X2]. Qed.
Lemma attributes_u : forall f func ln p p0 l0 b0 c l b, B p0 l0 b0 c [] l b -> p0 <= p -> live p b ->
  pwp (attributes q D cw S_ tpeek braces f func ln p) (fun r s' => U p0 l0 b0 c p s' /\ held_by p (snd r)) (Ps l b).
Proof.
  intros f func ln p p0 l0 b0 c l b H L LI. eapply p_mono; [eapply attributes_spec; eassumption|]. intros r s' (X & X0). split; [|exact X0]. pose proof (R_U _ _ _ _ _ _ _ _ _ _ X H LI) as (X1 & X2). split; [destruct (fst r); bb|exact X2].
Qed.
Lemma asm_u : forall f p p0 l0 b0 c l b, B p0 l0 b0 c [] l b -> p0 <= p -> live p b -> pwp (asm q D cw S_ tpeek braces O f p) (fun _ s' => U p0 l0 b0 c p s') (Ps l b).
Proof. intros f p p0 l0 b0 c l b H L LI. eapply p_mono; [eapply asm_spec; eassumption|]. intros r s' (X & _). eapply R_U'; eassumption. Qed.
(** What was not accepted is removed. *)
Lemma attempt_R : forall p0 l0 b0 c c' dc i l b b1 r s', R p0 l0 b0 c' i l b1 r s' -> B p0 l0 b0 c [] l b -> live dc b -> dc <= i -> is_good r = false ->
  (r = NONE /\ e_err l = false /\ lx s' = l) \/ (r = FAIL /\ e_err (lx s') = true /\ U p0 l0 b0 true dc (Ps (lx s') b)).
Proof.
  intros p0 l0 b0 c c' dc i l b b1 [] [l' b'] H HB LI LE G; cbn [R] in H; [discriminate|left|right].
  - destruct H as (H1 & H2). inversion H2; subst. auto.
  - destruct H as (H1 & H2 & H3). cbn [lx bd] in *. split; [reflexivity|]. split; [exact H1|]. split; [|exact LI]. cbn [lx bd]. eapply B_undo; [exact HB|exact H1|]. eapply B_len, H2.
Qed.
Lemma attempt_U : forall p0 l0 b0 c c' dc i l b b1 r s', R p0 l0 b0 c' i l b1 r s' -> B p0 l0 b0 c [] l b -> live dc b -> dc <= i -> c' = true \/ c' = c ->
  U p0 l0 b0 c dc (if is_good r then s' else Ps (lx s') b).
Proof.
  intros p0 l0 b0 c c' dc i l b b1 r s' T HB LI LE C. destruct (is_good r) eqn:G.
  - destruct r; try discriminate. destruct T as (_ & T1 & T2). split; [|lia]. destruct C as [E|E]; subst c'; bb.
  - eapply attempt_R in T; [|exact HB|exact LI|exact LE|exact G]. destruct T as [(_ & _ & T2)|(_ & _ & T2 & T3)]; [rewrite T2; split; assumption|]. split; [eapply B_true, T2|exact T3].
Qed.
Lemma storages_spec : forall f p p0 l0 b0 c l b, B p0 l0 b0 c [] l b -> p0 <= p -> live p b -> pwp (storages D f p) (fun _ s' => U p0 l0 b0 c p s') (Ps l b).
Proof. induction f as [|f IH]; intros p p0 l0 b0 c l b H L LI; [exact Logic.I|]. cbn [storages]. st. st; [|st; fin]. st. st. st. st. apply IH; fin. Qed.
Lemma cpp_x_spec : forall f p p0 l0 b0 c l b, B p0 l0 b0 c [] l b -> p0 <= p -> live p b -> pwp (cpp_x q D S_ tpeek braces O f p) (R p0 l0 b0 true p l b) (Ps l b).
Proof.
  intros f p p0 l0 b0 c l b H L LI. unfold cpp_x. st. st. st; [|repeat st; fin]. st. st. st. call_ storages_spec. intros (X1 & X2). old. st. st; [merge (S p)| |]; repeat st; fin.
Qed.
Lemma cdefs_spec : forall p p0 l0 b0 c l b, B p0 l0 b0 c [] l b -> p0 <= p -> live p b -> pwp (cdefs D O p) (R p0 l0 b0 true p l b) (Ps l b).
Proof. intros p p0 l0 b0 c l b H L LI. unfold cdefs. repeat st; fin. Qed.
Lemma decl_root_spec : forall p p0 l0 b0 c l b, B p0 l0 b0 c [] l b -> p0 <= p -> live p b -> pwp (decl_root D p) (R p0 l0 b0 true p l b) (Ps l b).
Proof. intros p p0 l0 b0 c l b H L LI. unfold decl_root. repeat st; fin. Qed.
Lemma bit_field_spec : forall p p0 l0 b0 c l b, B p0 l0 b0 c [] l b -> p0 <= p -> live p b -> pwp (bit_field D Y p) (fun _ s' => U p0 l0 b0 c p s') (Ps l b).
Proof. intros p p0 l0 b0 c l b H L LI. unfold bit_field. repeat st; fin. Qed.
Lemma init_pair_spec : forall t t' p p0 l0 b0 c l b, B p0 l0 b0 c [] l b -> p0 <= p -> live p b -> pwp (init_pair q D S_ tpeek braces t t' p) (fun _ s' => U p0 l0 b0 c p s') (Ps l b).
Proof. intros t t' p p0 l0 b0 c l b H L LI. unfold init_pair. repeat st; fin. Qed.
Lemma init1_spec : forall f out p p0 l0 b0 c l b, B p0 l0 b0 c [] l b -> p0 <= p -> live p b -> held_by p0 out ->
  pwp (init1 q D cw S_ tpeek braces O Y f out p) (fun r s' => U p0 l0 b0 c p s' /\ held_by p0 (snd r)) (Ps l b).
Proof.
  intros f out p p0 l0 b0 c l b H L LI HO. unfold init1. st. st; [st; st; st; st; merge p; repeat st; fin|]. st. st.
  st; [st; call_ init_pair_spec; intros (X1 & X2); st; fin|]. st; [st; call_ init_pair_spec; intros (X1 & X2); st; fin|].
  st. call_ bit_field_spec. intros (X1 & X2). old. st; [st; fin|]. st. st; [repeat st; fin|]. st. st; [repeat st; fin|].
  st. call_ attributes_u. intros ((K1 & K2) & K3). destruct r0 as [a h]. red1. clear X1.
  clear Heqb1 Heqb0 Heqb2 H H0 X2 LI. st; [st; st; merge p; repeat st; destruct h; fin|]. st. st. st; [|repeat st; fin]. st. st. st. call_ asm_u. intros (Z1 & Z2). st. fin.
Qed.
Lemma init_assign_spec : forall f spc semi dc out p p0 l0 b0 c l b, B p0 l0 b0 c [] l b -> p0 <= p -> live p b -> held_by p0 out ->
  pwp (init_assign q D iw cw S_ width tpeek braces O f spc semi dc out p) (fun r s' => U p0 l0 b0 c p s' /\ held_by p0 (snd r)) (Ps l b).
Proof.
  intros f spc semi dc out p p0 l0 b0 c l b H L LI HO. unfold init_assign. st. st; [|repeat st; fin]. merge p. st. st. st. st. st. st. st. st. st.
  - st. call_ pbraces_spec. intros (X1 & X2). old. repeat st; fin.
  - repeat st; fin.
Qed.
Lemma inits_spec : forall f spc semi dc p concat out n p0 l0 b0 c l b, B p0 l0 b0 c [] l b -> p0 <= p -> p0 <= concat -> live concat b -> held_by p0 out ->
  pwp (inits q D iw cw S_ width tpeek braces O Y f spc semi dc p concat out n) (fun r s' => B p0 l0 b0 c [] (lx s') (bd s') /\ held_by p0 (snd r)) (Ps l b).
Proof.
  induction f as [|f IH]; intros spc semi dc p concat out n p0 l0 b0 c l b H L LC LI HO; [exact Logic.I|]. cbn [inits]. st. st. st; [st; fin|]. st.
  eapply (p_mono _ _ (fun k s' => match k with Some k => B p0 l0 b0 true [k] (lx s') (bd s') | None => B p0 l0 b0 c [] (lx s') (bd s') end /\ bd s' = b)). { st; fin. }
  intros k [l1 b1] (Y1 & Y2). red1. cbn [lx bd] in *. subst b1. clear H. st.
  eapply (p_mono _ _ (fun e s' => U p0 l0 b0 c e s' /\ p0 <= e)). { destruct k; red1; repeat st; fin. }
  intros e [l2 b2] ((Z1 & Z2) & Z3). red1. cbn [lx bd] in *. clear Y1 LI LC k. st. call_ init1_spec. intros ((X1 & X2) & X3). old. st.
  eapply (p_mono _ _ (fun r s' => U p0 l0 b0 c e s' /\ held_by p0 (snd r))). { st; [st; fin|call_ init_assign_spec; intros W; exact W|st; fin]. }
  intros r1 [l3 b3] ((W1 & W2) & W3). red1. cbn [lx bd] in *. clear X1. st; [apply IH; fin|st; fin].
Qed.
Lemma b_reset : forall X (m : P X) (Q : X -> ps -> Prop) n l b b', (length (e_toks l) = n -> pwp m Q (Ps l b)) -> pwp (fun s' => if true && negb (length (e_toks (lx s')) =? n) then Bad else m (Ps (lx s') b)) Q (Ps l b').
Proof. intros X m Q n l b b' H. unfold RunProofs.pwp in *. cbn [lx andb]. destruct (Nat.eqb_spec (length (e_toks l)) n) as [E|E]; cbn [negb]; [exact (H E)|exact Logic.I]. Qed.
Lemma decl_init_spec : forall f spc semi dc p0 l0 b0 c l b, B p0 l0 b0 c [] l b -> p0 <= dc -> live dc b ->
  pwp (decl_init q D iw cw S_ width tpeek braces O Y true f spc semi dc) (fun r s' => U p0 l0 b0 c dc s' /\ held_by dc (snd r)) (Ps l b).
Proof.
  intros f spc semi dc p0 l0 b0 c l b H L LI.
  assert (H0 : B dc l b false [] l b) by (apply B_init, LI).
  change (pwp (let! p := bld (alloc (match e_toks l with k :: _ => match o_ruler O k with Some v => [KIndent v] | None => [] end | [] => [] end) dc) in
     let! concat := group p in
     let! n := inits q D iw cw S_ width tpeek braces O Y f spc semi dc p concat None 0 in
     if fst n =? 0 then
       fun s' => if true && negb (length (e_toks (lx s')) =? length (e_toks l)) then Bad
                 else (let! r := good_ in pret (r, snd n)) (Ps (lx s') b)
     else let! r := good_ in pret (r, snd n)) (fun r s' => U p0 l0 b0 c dc s' /\ held_by dc (snd r)) (Ps l b)).
  st. st; [repeat st..|]. st. st. st. eapply p_mono; [eapply (inits_spec _ _ _ _ _ _ _ _ dc l b false); solve [fin]|]. intros [n h] [l2 b2] (X1 & X2). red1. cbn [lx bd] in *. st.
  - apply b_reset. intros E. assert (K : B p0 l0 b0 c [] l2 b) by (eapply B_same; eassumption). repeat st; fin.
  - assert (K : B p0 l0 b0 c [] l2 b2) by (apply (B_trans _ _ _ _ _ _ _ false _ _ _ H L X1)). pose proof (B_live _ _ _ _ _ _ _ X1). repeat st; fin.
Qed.
Lemma B_trim : forall p0 l0 b0 c k l b, is T_SEMI k = true -> B p0 l0 b0 c [k] l b -> B p0 l0 b0 c [k] (St (e_done l) (many T_SEMI (e_toks l)) (e_err l)) b.
Proof.
  intros p0 l0 b0 c k l b EK (acc & A1 & ds & A2 & A3). exists acc. split; [cbn [e_toks]; pose proof (many_length T_SEMI (e_toks l)); lia|]. exists ds. split; [exact A2|]. cbn [e_err e_toks]. intros E. destruct (A3 E) as (C1 & C2 & C3 & C4 & C5). repeat split; auto.
  unfold shed in *. eapply less_trans; [exact C3| |discriminate]. cbn [app]. apply shed_trim, EK.
Qed.
Lemma decl_end_spec : forall fl concat out p0 l0 b0 c l b ll bb, B p0 l0 b0 c [] l b -> p0 <= concat -> live concat b -> held_by concat out ->
  pwp (decl_end D true fl concat out) (R p0 l0 b0 true concat ll bb) (Ps l b).
Proof.
  intros fl concat out p0 l0 b0 c l b ll bb H L LI HO. unfold decl_end. st. st; [|repeat st; fin]. st. st.
  eapply (p_mono _ _ (fun _ s' => B p0 l0 b0 true [k] (lx s') (bd s'))). { st; [|st; fin]. st. st. unfold RunProofs.pwp, set_toks. cbn [lx bd]. apply B_trim; assumption. }
  intros _ [l2 b2] X. red1. cbn [lx bd] in *. old. destruct out as [h|]; red1; autounfold with dd in HO; repeat st; fin.
Qed.
Section Decls.
Variable dec : point -> P ret_.
Hypothesis dec_spec : forall p p0 l0 b0 c l b, B p0 l0 b0 c [] l b -> p0 <= p -> live p b -> pwp (dec p) (R p0 l0 b0 true p l b) (Ps l b).
Lemma decl_braces_spec : forall w p p0 l0 b0 c l b, B p0 l0 b0 c [] l b -> p0 <= p -> live p b -> pwp (decl_braces D iw dec w p) (fun _ s' => U p0 l0 b0 c p s') (Ps l b).
Proof.
  intros w p p0 l0 b0 c l b H L LI. unfold decl_braces. st. st. st; [|repeat st; fin]. st.
  eapply (p_mono _ _ (fun k s' => match k with Some k => B p0 l0 b0 true [k] (lx s') (bd s') | None => B p0 l0 b0 true [] (lx s') (bd s') end /\ bd s' = b)). { st; fin. }
  intros k [l2 b1] (Y1 & Y2). red1. cbn [lx bd] in *. subst b1. clear H. st.
  eapply (p_mono _ _ (fun _ s' => U p0 l0 b0 true p s')). { destruct k; red1; repeat st; fin. }
  intros _ [l3 b3] (Z1 & Z2). red1. cbn [lx bd] in *. clear Y1. st. st. st. st. st. call_ dec_spec. intros X. ret_of X; try (inversion X; subst; clear X); old; repeat st; fin.
Qed.
Lemma proto_ptr_spec : forall f p p0 l0 b0 c l b, B p0 l0 b0 c [] l b -> p0 <= p -> live p b -> pwp (proto_ptr q D cw S_ width tpeek braces O f p) (fun _ s' => U p0 l0 b0 c p s') (Ps l b).
Proof.
  intros f p p0 l0 b0 c l b H L LI. unfold proto_ptr. st. st. st. st. st. st. st. st. st; [|st; fin]. st. st. st. call_ (func_args_spec _ (ptype_spec f false)). intros ((X1 & X2) & _). old. repeat st; fin.
Qed.
Lemma proto_args_spec : forall f dc p p0 l0 b0 c l b, B p0 l0 b0 c [] l b -> p0 <= dc -> dc <= p -> live p b ->
  pwp (proto_args q D cw S_ width tpeek braces O true f dc p) (fun h s' => U p0 l0 b0 c dc s' /\ held_by dc h) (Ps l b).
Proof.
  intros f dc p p0 l0 b0 c l b H L LE LI. unfold proto_args. st. st. st; [|st; fin]. st. st. st. st. st.
  eapply (p_mono _ _ (fun h s' => U p0 l0 b0 true dc s' /\ held_by dc h)).
  { st; [|repeat st; fin]. st. eapply (p_mono _ _ (fun i s' => U p0 l0 b0 true i s' /\ dc <= i)). { repeat st; fin. }
    intros i [l2 b2] ((X1 & X2) & X3). red1. cbn [lx bd] in *. old. call_ (func_args_spec _ (ptype_spec f false)). intros ((Y1 & Y2) & Y3). fin. destruct r; fin. }
  intros h [l2 b2] ((X1 & X2) & X3). red1. cbn [lx bd] in *. old. autounfold with dd in X3. repeat st; fin.
Qed.
Lemma func_proto_spec : forall f impl rl ty ptr dc p0 l0 b0 c l b, B p0 l0 b0 c [] l b -> p0 <= dc -> live dc b ->
  pwp (func_proto q D iw cw S_ width tpeek braces O Y true f dec impl rl ty ptr dc) (fun r s' => U p0 l0 b0 c dc s' /\ held_by dc (snd r)) (Ps l b).
Proof.
  intros f impl rl ty ptr dc p0 l0 b0 c l b H L LI. unfold func_proto. cbv zeta. st. call_ attributes_u. intros ((K1 & K2) & K3). clear H LI. destruct r as [a h]. red1.
  st; [repeat st; fin|]. apply p_bnd. eapply (b_merge (fun b' => B p0 l0 b0 c [] ll b' /\ live dc b')); [repeat st; fin|]. intros b2 (Z1 & Z2). red1. clear K1 K2 K3.
  st. call_ ptype_spec. intros (Y1 & Y2). old. st; [repeat st; fin|]. st. call_ attributes_u. intros ((K1 & K2) & K3). clear Y1 Y2. destruct r0 as [a2 h2]. red1.
  st; [repeat st; fin|]. merge dc. merge dc. st. st. st.
  eapply (p_mono _ _ (fun _ s' => U p0 l0 b0 c (S dc) s')). { st; [call_ proto_ptr_spec; intros W; exact W|repeat st; fin]. }
  intros ok [l5 b5] (W1 & W2). red1. cbn [lx bd] in *. old. st; [repeat st; fin|]. st. call_ proto_args_spec. intros ((V1 & V2) & V3). old. st; [|repeat st; fin].
  pose proof (fun _ : True => V1) as V0. st. apply b_attempt. st. st. st. st. eapply p_mono; [eapply dec_spec; solve [fin]|]. intros r4 [l6 b6] T.
  assert (K : U p0 l0 b0 c dc (if is_good r4 then Ps l6 b6 else Ps (lx (Ps l6 b6)) bb2)) by (eapply attempt_U; [exact T|exact (V0 Logic.I)|exact V2|lia|left; reflexivity]).
  destruct (if is_good r4 then Ps l6 b6 else Ps (lx (Ps l6 b6)) bb2) as [l7 b7]. destruct K as (J3 & J4). cbn [lx bd] in *. clear T V0 V2. repeat match goal with H : B _ _ _ _ _ ?l _ |- RunProofs.pwp _ _ _ (Ps ?l' _) => assert_fails (constr_eq l l'); clear H end.
  pose proof (fun _ : True => J3) as V0. st. apply b_attempt. st. st. eapply p_mono; [eapply attributes_spec; solve [fin]|]. intros [r5 h5] [l8 b8] (T & T0). red1.
  assert (K : U p0 l0 b0 c dc (if is_good r5 then Ps l8 b8 else Ps (lx (Ps l8 b8)) b7)) by (eapply attempt_U; [exact T|exact (V0 Logic.I)|exact J4|lia|right; reflexivity]).
  destruct (if is_good r5 then Ps l8 b8 else Ps (lx (Ps l8 b8)) b7) as [l9 b9]. destruct K as (K5 & K6). cbn [lx bd] in *. autounfold with dd in *. destruct r5, h5; repeat st; fin.
Qed.
Lemma func_decl_spec : forall f p p0 l0 b0 c l b, B p0 l0 b0 c [] l b -> p0 <= p -> live p b -> pwp (func_decl q D iw cw S_ width tpeek braces O Y true f dec p) (R p0 l0 b0 true p l b) (Ps l b).
Proof.
  intros f p p0 l0 b0 c l b H L LI. unfold func_decl. st. st. st; [repeat st; fin| |repeat st; fin]. st. st. st. call_ func_proto_spec. intros ((X1 & X2) & X3). old. destruct r as [r h]. red1. autounfold with dd in X3. repeat st; fin.
Qed.
Lemma R_down : forall p0 l0 b0 c p p' l b r s', R p0 l0 b0 c p' l b r s' -> p <= p' -> R p0 l0 b0 c p l b r s'.
Proof. intros p0 l0 b0 c p p' l b [] s' H LE; cbn [R] in *; [destruct H as (H1 & H2 & H3)|exact H|destruct H as (H1 & H2 & H3)]; repeat split; auto; lia. Qed.
Lemma decl_type_spec : forall f fl cpp ty p p0 l0 b0 c l b, B p0 l0 b0 c [] l b -> p0 <= p -> live p b -> pwp (decl_type q D iw cw S_ width tpeek braces O Y true f dec fl cpp ty p) (R p0 l0 b0 true p l b) (Ps l b).
Proof.
  intros f fl cpp ty p p0 l0 b0 c l b H L LI. unfold decl_type. st. st. st; [|apply (func_decl_spec f p p0 l0 b0 c); fin|repeat st; fin]. st. st. st. call_ ptype_spec. intros (X1 & X2). old. st; [repeat st; fin|]. st. st. st.
  { eapply p_mono; [eapply (decl_end_spec _ _ _ _ _ _ _ _ _ l b); solve [fin]|]. intros r2 s2 T. eapply R_down; [exact T|lia]. }
  st. eapply (p_mono _ _ (fun _ s' => U p0 l0 b0 c (S p) s')).
  { st; [call_ decl_braces_spec; intros W; exact W|]. st; [call_ decl_braces_spec; intros W; exact W|]. st; [|st; fin]. st; [|repeat st; fin]. merge (S p). st. call_ pbraces_spec. intros (W1 & W2). old. repeat st; fin. }
  intros r1 [l3 b3] (W1 & W2). red1. cbn [lx bd] in *. old. st; [repeat st; fin|]. st. st. st; [|repeat st; fin]. st. call_ decl_init_spec. intros ((V1 & V2) & V3). old. st; [|repeat st; fin].
  eapply p_mono; [eapply (decl_end_spec _ _ _ _ _ _ _ _ _ l b); solve [fin]|]. intros r2 s2 T. eapply R_down; [exact T|lia].
Qed.
Lemma decl2_spec : forall f fl p p0 l0 b0 c l b, B p0 l0 b0 c [] l b -> p0 <= p -> live p b -> pwp (decl2 q D iw cw S_ width tpeek braces O Y true f dec fl p) (R p0 l0 b0 true p l b) (Ps l b).
Proof.
  intros f fl p p0 l0 b0 c l b H L LI. unfold decl2. st. eapply p_mono; [eapply cdefs_spec; eassumption|]. intros r1 [l1 b1] X. st; [destruct r1; try discriminate; destruct X as (X1 & X2 & X3); repeat st; fin|].
  assert (K : (l1 = l /\ b1 = b) \/ (e_err l1 = true /\ U p0 l0 b0 true p (Ps l1 b1))) by (destruct r1; try discriminate; destruct X as (X1 & X2); [left; inversion X2; auto|right; auto]).
  assert (K1 : B p0 l0 b0 c [] l1 b1 /\ live p b1) by (destruct K as [(-> & ->)|(_ & X1 & X2)]; fin). destruct K1 as (K1 & K2).
  st. eapply (p_mono _ _ (R p0 l0 b0 true p l1 b1)); [st; [apply (decl_root_spec p p0 l0 b0 c); assumption|repeat st; fin]|]. intros r2 [l2 b2] Y2. st; [destruct r2; try discriminate; destruct Y2 as (X1 & X2 & X3); repeat st; fin|].
  assert (K' : (l2 = l /\ b2 = b) \/ (e_err l2 = true /\ U p0 l0 b0 true p (Ps l2 b2))).
  { destruct r2; try discriminate; destruct Y2 as (X1 & X2); [|right; auto]. inversion X2; subst. exact K. }
  assert (K1' : B p0 l0 b0 c [] l2 b2 /\ live p b2) by (destruct K' as [(-> & ->)|(_ & X1 & X2)]; fin). destruct K1' as (K1' & K2'). clear X K Y2 K1 K2.
  assert (E : forall r s', R p0 l0 b0 true p l2 b2 r s' -> R p0 l0 b0 true p l b r s').
  { intros r s' T. destruct K' as [(-> & ->)|(K' & _)]; [exact T|]. destruct r; [exact T|destruct T; congruence|exact T]. }
  st. st. st; [eapply p_mono; [eapply decl_type_spec; eassumption|exact E]|]. st; [eapply p_mono; [eapply decl_type_spec; eassumption|exact E]|]. eapply p_mono; [eapply cpp_x_spec; eassumption|exact E].
Qed.
End Decls.
Lemma decls_spec : forall d2 fl, (forall p p0 l0 b0 c l b, B p0 l0 b0 c [] l b -> p0 <= p -> live p b -> pwp (d2 p) (R p0 l0 b0 true p l b) (Ps l b)) ->
  forall f p any p0 l0 b0 c l b, B p0 l0 b0 c [] l b -> p0 <= p -> live p b -> (any = true -> c = true) ->
  pwp (decls O f d2 fl p any) (fun r s' => if r then U p0 l0 b0 true p s' else any = false /\ ((e_err l = false /\ s' = Ps l b) \/ (e_err (lx s') = true /\ U p0 l0 b0 true p s'))) (Ps l b).
Proof.
  intros d2 fl HD. induction f as [|f IH]; intros p any p0 l0 b0 c l b H L LI HC; [exact Logic.I|]. cbn [decls]. pose proof (fun _ : True => H) as V0. st. apply b_attempt. merge p. eapply p_mono; [eapply HD; eassumption|]. intros r [l2 b2] T.
  destruct (is_good r) eqn:G.
  - destruct r; try discriminate. destruct T as (T0 & T1 & T2). cbn [lx bd] in *. st. st. st. st. st; [st; fin|]. eapply p_mono; [eapply IH; [exact T1|exact L|exact T2|auto]|]. intros [] s' X; [exact X|]. destruct X; discriminate.
  - eapply attempt_R in T; [|exact (V0 Logic.I)|exact LI|apply le_n|exact G]. st. cbn [lx] in *. destruct T as [(_ & T1 & T2)|(_ & T1 & T2 & T3)].
    + subst l2. destruct any; [|auto]. rewrite (HC eq_refl) in V0. split; [exact (V0 Logic.I)|exact LI].
    + destruct any; [split; assumption|]. split; [reflexivity|]. right. split; [exact T1|split; assumption].
Qed.
Lemma decl_spec : forall f fl p p0 l0 b0 c l b, B p0 l0 b0 c [] l b -> p0 <= p -> live p b -> pwp (decl q D iw cw S_ width tpeek braces O Y true f fl p) (R p0 l0 b0 true p l b) (Ps l b).
Proof.
  induction f as [|f IH]; intros fl p p0 l0 b0 c l b H L LI; [exact Logic.I|]. cbn [decl]. pose proof (fun _ : True => H) as V0. st. apply b_attempt. st. st. st.
  eapply p_mono; [eapply (decls_spec (decl2 q D iw cw S_ width tpeek braces O Y true f (decl q D iw cw S_ width tpeek braces O Y true f (Dflags false false false false)) fl) fl); [intros; eapply decl2_spec; [apply IH|eassumption|eassumption|eassumption]|eassumption|lia|lia|discriminate]|].
  intros any [l2 b2] T. destruct any; red1.
  - destruct T as (T1 & T2). cbn [lx bd] in *. old. merge (S p). st. repeat st; fin.
  - destruct T as (_ & T). st. st. apply p_ret. red1. destruct T as [(T1 & T2)|(T1 & T2 & T3)].
    + inversion T2; subst. cbn [lx]. st; cbn [R]; [auto|congruence].
    + cbn [lx bd] in *. assert (K : B p0 l0 b0 true [] l2 b) by (eapply B_undo; [exact (V0 Logic.I)|exact T1|eapply B_len, T2]). st; [congruence|fin].
Qed.

(** ** Statements, functions and files *)
Variable openbsd : bool.
Variable expr_peek : list token -> list token -> option nat.
Variable loop_stmt : list token -> list token -> bool.
Definition declares (w : what) (z : Z) (l : list token) (its : list item) (l' : list token) : Prop := consumed its <> [] /\ Forall (proper S_) its.
Lemma R_post : forall w z p l b r s', R p l b true p l b r s' -> live p b -> (w = WAsm -> r = NONE -> next_is T_ASSEMBLY (e_toks l) = false) -> post q D labelled good gk (declares w z) (nothing w l) p l b r s'.
Proof.
  intros w z p l b r s' H LI N. destruct r; cbn [R] in H.
  - destruct H as (H1 & (acc & H2) & _). split; [exact H1|]. exists acc. eapply A_fact; [exact H2|]. intros _ (F1 & F2). split; [|exact F1]. rewrite app_nil_r in F2. auto.
  - destruct H as (H1 & ->). split; [exact H1|]. exists []. cbn [lx bd]. eapply A_fact; [eapply A_init, pt_some, LI|]. intros _ _. repeat split. auto.
  - destruct H as (H1 & (acc & H2) & _). split; [exact H1|]. eapply A_err; eassumption.
Qed.
Lemma within_spec : forall f w z p l b, pt z p b -> pwp (within q D iw cw S_ width tpeek braces O Y true f w p) (post q D labelled good gk (declares w z) (nothing w l) p l b) (Ps l b).
Proof.
  intros f w z p l b (LI & _). pose proof (B_init p l b LI) as H. destruct w as [trim|]; cbn [within].
  - eapply p_mono; [eapply decl_spec; [exact H|apply le_n|exact LI]|]. intros r s' X. apply R_post; [exact X|exact LI|discriminate].
  - eapply p_mono; [eapply stmt_asm_spec; [exact H|apply le_n|exact LI]|]. intros r s' (X & X0). apply R_post; [exact X|exact LI|auto].
Qed.
Lemma within_asm : forall f p s, next_is T_ASSEMBLY (e_toks (lx s)) = false -> within q D iw cw S_ width tpeek braces O Y true f WAsm p s = none_ s.
Proof. intros f p s H. cbn [within]. unfold stmt_asm, asm, pbnd, toks. rewrite H. unfold none_. destruct (e_err (lx s)); reflexivity. Qed.
Lemma body_spec : forall f p p0 l0 b0 c l b, B p0 l0 b0 c [] l b -> p0 <= p -> live p b ->
  pwp (body q D iw cw S_ width tpeek braces O Y true labelled openbsd expr_peek loop_stmt f p) (fun r s' => U p0 l0 b0 (is_good (fst r) || c) p s') (Ps l b).
Proof.
  intros f p p0 l0 b0 c l b H L LI. unfold body.
  eapply p_mono; [eapply (parser_block_spec q D labelled iw cw openbsd S_ width tpeek braces _ expr_peek loop_stmt _ declares (OK := OK) (within_spec f) (within_asm f) (fun w z l its l' X => proj1 X)), (pt_some _ _ LI)|].
  intros [r e] [l2 b2] (X & Y1 & Y2 & _). red1. cbn [lx bd] in *. split; [|cbn [bd]; lia]. cbn [lx bd]. destruct r; destruct X as (X1 & X2); red1; cbn [lx bd] in *.
  - destruct X2 as (its & X2). apply (B_trans _ _ _ _ _ _ _ true _ _ _ H L). exists its. eapply A_fact; [exact X2|]. intros _ G. split; [eapply stm_proper; [|eapply S_block, G]; intros w z l' its' l'' Z; apply Z|]. intros _. rewrite app_nil_r. eapply blk_consumes, G.
  - destruct X2 as (its & X2). apply (B_trans _ _ _ _ _ _ _ false _ _ _ H L). exists its. eapply A_fact; [exact X2|]. intros _ (G & _). subst its. split; [constructor|discriminate].
  - apply (B_trans _ _ _ _ _ _ _ false _ _ _ H L). exists []. eapply A_err; eassumption.
Qed.
Lemma func_impl_spec : forall f p p0 l0 b0 c l b, B p0 l0 b0 c [] l b -> p0 <= p -> live p b ->
  pwp (func_impl q D iw cw S_ width tpeek braces O Y true labelled openbsd expr_peek loop_stmt f p) (R p0 l0 b0 true p l b) (Ps l b).
Proof.
  intros f p p0 l0 b0 c l b H L LI. unfold func_impl. st. st. st; [repeat st; fin|repeat st; fin|]. st.
  eapply p_mono; [eapply func_proto_spec; [intros; eapply decl_spec; eassumption|eassumption|lia|lia]|]. intros r [l2 b2] ((X1 & X2) & _). red1. cbn [lx bd] in *. old.
  st; [repeat st; fin|]. st. st. st; [repeat st; fin|]. merge p. st. call_ body_spec. intros (Y1 & Y2). old. st; [repeat st; fin|]. replace (is_good (fst r0)) with true in Y1 by (destruct (fst r0); (reflexivity || discriminate)). red1. st. st. st. st. merge p. repeat st; fin.
Qed.
Section Extern.
Variable root : point -> P ret_.
Hypothesis root_spec : forall p p0 l0 b0 c l b, B p0 l0 b0 c [] l b -> p0 <= p -> live p b -> pwp (root p) (R p0 l0 b0 true p l b) (Ps l b).
Lemma roots_spec : forall f n p p0 l0 b0 c l b, B p0 l0 b0 c [] l b -> p0 <= p -> live p b -> pwp (roots f root n p) (fun r s' => U p0 l0 b0 c p s' /\ r <> NONE /\ (r = FAIL -> e_err (lx s') = true)) (Ps l b).
Proof.
  induction f as [|f IH]; intros n p p0 l0 b0 c l b H L LI; [exact Logic.I|]. cbn [roots]. st. st. st; [st; fin|]. st. call_ root_spec. intros X. ret_of X.
  - apply IH; [bb|exact L|assumption].
  - inversion X; subst. st. fin.
  - st. fin.
Qed.
Lemma extern_spec : forall f p p0 l0 b0 c l b, B p0 l0 b0 c [] l b -> p0 <= p -> live p b -> pwp (extern D f root p) (R p0 l0 b0 true p l b) (Ps l b).
Proof.
  intros f p p0 l0 b0 c l b H L LI. unfold extern. st. st. st; [|repeat st; fin]. st; [|repeat st; fin]. st. st. st. st. st. st. st. st. st. st. st. st. st. call_ roots_spec. intros ((X1 & X2) & X3 & X4). old. destruct r; red1; [|congruence|st; fin; auto].
  repeat st; fin.
Qed.
End Extern.
Lemma or_none_spec : forall r m p0 l0 b0 c p l b s1, R p0 l0 b0 true p l b r s1 -> B p0 l0 b0 c [] l b -> p0 <= p -> live p b -> pwp m (R p0 l0 b0 true p l b) (Ps l b) -> pwp (or_none r m) (R p0 l0 b0 true p l b) s1.
Proof. intros r m p0 l0 b0 c p l b s1 H HB L LI HM. destruct r; cbn [or_none]; [apply p_ret; exact H| |apply p_ret; exact H]. destruct H as (_ & ->). exact HM. Qed.
Lemma root_spec : forall f p p0 l0 b0 c l b, B p0 l0 b0 c [] l b -> p0 <= p -> live p b ->
  pwp (root_ q D iw cw S_ width tpeek braces O Y true labelled openbsd expr_peek loop_stmt f p) (R p0 l0 b0 true p l b) (Ps l b).
Proof.
  induction f as [|f IH]; intros p p0 l0 b0 c l b H L LI; [exact Logic.I|]. cbn [root_]. st. eapply p_mono; [eapply decl_spec; eassumption|]. intros r1 s1 X1.
  st. eapply p_mono; [eapply or_none_spec; [exact X1|eassumption|lia|lia|eapply func_impl_spec; eassumption]|]. intros r2 s2 X2.
  st. eapply p_mono; [eapply or_none_spec; [exact X2|eassumption|lia|lia|eapply extern_spec; [exact IH|eassumption..]]|]. intros r3 s3 X3.
  st. eapply p_mono; [eapply or_none_spec; [exact X3|eassumption|lia|lia|eapply root_asm_spec; eassumption]|]. intros r4 s4 X4.
  eapply or_none_spec; [exact X4|eassumption|lia|lia|]. st. fin.
Qed.
Lemma exec_spec : forall f p p0 l0 b0 c l b, B p0 l0 b0 c [] l b -> p0 <= p -> live p b -> e_err l = false ->
  pwp (exec q D iw cw S_ width tpeek braces O Y true labelled openbsd expr_peek loop_stmt f p)
    (fun r s' => r = GOOD -> e_err (lx s') = false /\ exists k, is T_EOF k = true /\ (exists a, shed (e_toks l0) (a ++ k :: e_toks (lx s'))) /\ B p0 l0 b0 true (match k_pre k with [] => [k] | _ => [] end) (lx s') (bd s')) (Ps l b).
Proof.
  induction f as [|f IH]; intros p p0 l0 b0 c l b H L LI E; [exact Logic.I|]. cbn [exec]. st. unfold RunProofs.pwp at 1, lif. cbn [lx bd]. destruct (e_toks l) as [|k r] eqn:ET; [|destruct (is T_EOF k) eqn:EK].
  2: { assert (K : B p0 l0 b0 true [k] (take 1 l) b) by (apply (B_take _ _ _ c [] _ _ _ _ H ET)). assert (E' : e_err (take 1 l) = false) by exact E. assert (SH : exists a, shed (e_toks l0) (a ++ k :: e_toks (take 1 l))) by (destruct H as (acc & _ & ds & _ & A3); destruct (A3 E) as (_ & _ & A4 & _); exists (consumed acc); unfold take; cbn [e_toks]; rewrite ET in *; exact A4). old. st. st.
    - apply p_ret, p_ret. intros _. split; [exact E'|]. exists k. split; [exact EK|]. split; [exact SH|]. rewrite Heql1. exact K.
    - eapply b_emit; [exact K|exact L|]. intros. apply p_ret. intros _. split; [exact E'|]. exists k. split; [exact EK|]. split; [exact SH|]. rewrite Heql1. assumption. }
  all: apply p_bnd; eapply b_alloc; [inds|eassumption|lia|in2]; apply p_bnd; (eapply p_mono; [eapply root_spec; [eassumption|lia|lia]|]); intros [] [l2 b2] X; cbn [is_good]; [|st; discriminate..];
    destruct X as (X1 & X2 & X3); cbn [lx bd] in *; apply IH with (c := true); [exact X2|exact L|lia|exact X1].
Qed.
End Decl.
