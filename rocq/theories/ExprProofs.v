(** Proof part of the expression model: expr_exec1 as a relation. *)
From Verif Require Import Base TokenModel LexModel ExprModel.

Lemma ttype_eqb_spec : forall a b, ttype_eqb a b = true <-> a = b.
Proof. intros a b. split; [|intros <-; destruct a; reflexivity]. intros H. destruct a, b; try reflexivity; vm_compute in H; discriminate. Qed.
Lemma is_eq : forall t k, is t k = true <-> ty k = t.
Proof. intros. apply ttype_eqb_spec. Qed.
Lemma isnull_eq : forall x, isnull x = true -> x = ENull.
Proof. intros []; try discriminate; reflexivity. Qed.

(** The tokens consumed between two states. *)
Definition adv (s s' : st) (c : list token) : Prop := e_toks s = c ++ e_toks s' /\ e_done s' = rev c ++ e_done s.
Lemma adv_refl : forall s, adv s s [].
Proof. split; reflexivity. Qed.
Lemma adv_trans : forall a b c x y, adv a b x -> adv b c y -> adv a c (x ++ y).
Proof. intros a b c x y [H1 H2] [H3 H4]. split; [rewrite H1, H3, app_assoc; reflexivity|rewrite H4, H2, rev_app_distr, app_assoc; reflexivity]. Qed.
Lemma adv_take : forall n s, adv s (take n s) (firstn n (e_toks s)).
Proof. intros. split; cbn [take e_toks e_done]; [symmetry; apply firstn_skipn|reflexivity]. Qed.
Lemma adv_length : forall s s' c, adv s s' c -> length (e_toks s) = length c + length (e_toks s').
Proof. intros s s' c [H _]. rewrite H, app_length. reflexivity. Qed.
Lemma take1 : forall s k r, e_toks s = k :: r -> take 1 s = St (k :: e_done s) r (e_err s).
Proof. intros s k r H. unfold take. rewrite H. reflexivity. Qed.

Lemma expect_adv : forall t s ks s', expect t s = (ks, s') -> adv s s' ks.
Proof.
  intros t s ks s' H. unfold expect in H. destruct (e_toks s) as [|k r] eqn:E.
  - injection H as <- <-. split; cbn [e_toks e_done]; [rewrite E|]; reflexivity.
  - destruct (is t k); injection H as <- <-.
    + rewrite (take1 _ _ _ E). split; cbn [e_toks e_done]; [exact E|reflexivity].
    + split; cbn [e_toks e_done]; [exact E|reflexivity].
Qed.
Lemma expect_err : forall t s ks s', expect t s = (ks, s') -> e_err s' = false -> e_err s = false /\ exists k, ks = [k] /\ ty k = t.
Proof.
  intros t s ks s' H E. unfold expect in H. destruct (e_toks s) as [|k r] eqn:T.
  - injection H as <- <-. discriminate E.
  - destruct (is t k) eqn:I; injection H as <- <-; [|discriminate E]. split; [exact E|]. exists k. split; [reflexivity|apply is_eq, I].
Qed.
Lemma expect_ok : forall t d k r, ty k = t -> expect t (St d (k :: r) false) = ([k], St (k :: d) r false).
Proof. intros t d k r H. unfold expect. cbn [e_toks]. apply is_eq in H. rewrite H. reflexivity. Qed.

Section Rel.
Variable stop : nat.
Variable tpeek : bool -> list token -> list token -> option nat.
Variable braces : list token -> list token -> option nat * bool.
Notation peek := (peek stop).
Notation recover := (recover tpeek braces).
Notation recover_cast := (recover_cast tpeek).
Notation apply := (apply tpeek).
Notation run := (run stop tpeek braces).

Inductive call : Set := CExec (pc : nat) | CLoop (pc : nat) (x : expr) | CApply (er : rule) (tk : token) (lhs : expr).

Definition binary_pc (er : rule) : nat := if r_rassoc er then r_pc er - 1 else r_pc er.

Inductive rel : call -> st -> expr -> st -> Prop :=
| R_end : forall pc s, peek s = None -> rel (CExec pc) s ENull s
| R_rec : forall pc s k x s1 y s2, peek s = Some k -> (find_rule true (ty k) = None \/ ty k = T_IDENT) ->
    recover s = (x, s1) -> x <> ENull -> rel (CLoop pc x) s1 y s2 -> rel (CExec pc) s y s2
| R_fail : forall pc s k s1, peek s = Some k -> find_rule true (ty k) = None -> recover s = (ENull, s1) -> rel (CExec pc) s ENull s1
| R_op : forall pc s k er s1 tk r x s2 y s3, peek s = Some k -> find_rule true (ty k) = Some er ->
    (if is T_IDENT k then recover s = (ENull, s1) else s1 = s) -> e_toks s1 = tk :: r ->
    rel (CApply er tk ENull) (take 1 s1) x s2 -> x <> ENull -> rel (CLoop pc x) s2 y s3 -> rel (CExec pc) s y s3
| R_op_null : forall pc s k er s1 tk r s2, peek s = Some k -> find_rule true (ty k) = Some er ->
    (if is T_IDENT k then recover s = (ENull, s1) else s1 = s) -> e_toks s1 = tk :: r ->
    rel (CApply er tk ENull) (take 1 s1) ENull s2 -> rel (CExec pc) s ENull s2
| R_op_end : forall pc s k er s1, peek s = Some k -> find_rule true (ty k) = Some er ->
    (if is T_IDENT k then recover s = (ENull, s1) else s1 = s) -> e_toks s1 = [] -> rel (CExec pc) s ENull s1
| R_stop : forall pc x s, (forall k er, peek s = Some k -> find_rule false (ty k) = Some er -> r_pc er <= pc) -> rel (CLoop pc x) s x s
| R_more : forall pc x s k er y s1 z s2, peek s = Some k -> find_rule false (ty k) = Some er -> pc < r_pc er ->
    rel (CApply er k x) (take 1 s) y s1 -> y <> ENull -> e_err s1 = false -> rel (CLoop pc y) s1 z s2 -> rel (CLoop pc x) s z s2
| R_more_null : forall pc x s k er y s1, peek s = Some k -> find_rule false (ty k) = Some er -> pc < r_pc er ->
    rel (CApply er k x) (take 1 s) y s1 -> (y = ENull \/ e_err s1 = true) -> rel (CLoop pc x) s ENull s1
| A_literal : forall er tk s, r_func er = FLiteral -> rel (CApply er tk ENull) s (ELiteral tk) s
| A_binary : forall er tk l s r s1, r_func er = FBinary -> l <> ENull -> rel (CExec (binary_pc er)) s r s1 ->
    rel (CApply er tk l) s (if is T_COMMA tk then EArg l tk r else EBinary l tk r) s1
| A_concat : forall er tk l s, r_func er = FConcat -> l <> ENull ->
    rel (CApply er tk l) s (match l with EConcat x ks => EConcat x (ks ++ [tk]) | _ => EConcat l [tk] end) s
| A_field : forall er tk l s r s1, r_func er = FField -> l <> ENull -> rel (CExec (r_pc er)) s r s1 -> rel (CApply er tk l) s (EField l tk r) s1
| A_cast : forall er tk s n rp s1 x s2, r_func er = FParens -> recover_cast s = Some n -> expect T_RPAREN (take n s) = (rp, s1) ->
    rel (CExec (r_pc er)) s1 x s2 -> rel (CApply er tk ENull) s (ECast tk (ERecover (firstn n (e_toks s))) rp x) s2
| A_parens : forall er tk s x s1 rp s2, r_func er = FParens -> recover_cast s = None -> rel (CExec 0) s x s1 ->
    expect T_RPAREN s1 = (rp, s2) -> rel (CApply er tk ENull) s (EParens tk x rp) s2
| A_call : forall er tk l s x s1 rp s2, r_func er = FParens -> l <> ENull -> rel (CExec 0) s x s1 ->
    expect T_RPAREN s1 = (rp, s2) -> rel (CApply er tk l) s (ECall l tk x rp) s2
| A_prefix : forall er tk s x s1, r_func er = FPrepost -> rel (CExec (r_pc er)) s x s1 -> rel (CApply er tk ENull) s (EPrefix tk x) s1
| A_postfix : forall er tk l s, r_func er = FPrepost -> l <> ENull -> rel (CApply er tk l) s (EPostfix l tk) s
| A_sizeof : forall er tk s lp r x s1 rp s2, r_func er = FSizeof -> e_toks s = lp :: r -> ty lp = T_LPAREN ->
    rel (CExec 0) (take 1 s) x s1 -> expect T_RPAREN s1 = (rp, s2) -> rel (CApply er tk ENull) s (ESizeof tk [lp] x rp) s2
| A_sizeof_bare : forall er tk s x s1, r_func er = FSizeof -> next_is T_LPAREN (e_toks s) = false ->
    rel (CExec (r_pc er)) s x s1 -> rel (CApply er tk ENull) s (ESizeof tk [] x []) s1
| A_squares : forall er tk l s x s1 rb s2, r_func er = FSquares -> l <> ENull -> rel (CExec 0) s x s1 ->
    expect T_RSQUARE s1 = (rb, s2) -> rel (CApply er tk l) s (ESquares l tk x rb) s2
| A_ternary : forall er tk l s t s1 c s2 f s3, r_func er = FTernary -> rel (CExec 0) s t s1 -> expect T_COLON s1 = (c, s2) ->
    rel (CExec 1) s2 f s3 -> f <> ENull -> rel (CApply er tk l) s (ETernary l tk t c f) s3
| A_ternary_null : forall er tk l s t s1 c s2 s3, r_func er = FTernary -> rel (CExec 0) s t s1 -> expect T_COLON s1 = (c, s2) ->
    rel (CExec 1) s2 ENull s3 -> rel (CApply er tk l) s ENull s3
| A_unary : forall er tk s x s1, r_func er = FUnary -> rel (CExec (r_pc er)) s x s1 -> rel (CApply er tk ENull) s (EUnary tk x) s1.

Definition to_call (m : mode) : call := match m with Exec pc => CExec pc | Loop pc x => CLoop pc x end.

Lemma bind_inv : forall {A C} (a : option (A * st)) (f : A -> st -> option C) r, bind a f = Some r -> exists x s, a = Some (x, s) /\ f x s = Some r.
Proof. intros A C [[x s]|] f r H; [|discriminate H]. exists x, s. split; [reflexivity|exact H]. Qed.

Lemma apply_rel : forall f er tk l s x s', (forall m s x s', run f m s = Some (x, s') -> rel (to_call m) s x s') ->
  apply (fun pc => run f (Exec pc)) er tk l s = Some (x, s') -> rel (CApply er tk l) s x s'.
Proof.
  intros f er tk l s x s' IH H. unfold ExprModel.apply in H. destruct (r_func er) eqn:F; destruct (isnull l) eqn:N; try discriminate H;
    try (apply isnull_eq in N; subst l); try (assert (NL : l <> ENull) by (intros ->; discriminate N)).
  - injection H as <- <-. apply A_literal, F.
  - apply bind_inv in H. destruct H as (r & s1 & R & H). injection H as <- <-. apply IH in R. apply A_binary; assumption.
  - apply bind_inv in H. destruct H as (t & s1 & R & H). destruct (expect T_COLON s1) as [c s2] eqn:E. apply bind_inv in H. destruct H as (g & s3 & R' & H). apply IH in R. apply IH in R'. destruct (isnull g) eqn:G; injection H as <- <-.
    + apply isnull_eq in G. subst g. exact (A_ternary_null _ _ _ _ _ _ _ _ _ F R E R').
    + apply (A_ternary _ _ _ _ _ _ _ _ _ _ F R E R'). intros ->. discriminate G.
  - apply bind_inv in H. destruct H as (t & s1 & R & H). destruct (expect T_COLON s1) as [c s2] eqn:E. apply bind_inv in H. destruct H as (g & s3 & R' & H). apply IH in R. apply IH in R'. destruct (isnull g) eqn:G; injection H as <- <-.
    + apply isnull_eq in G. subst g. exact (A_ternary_null _ _ _ _ _ _ _ _ _ F R E R').
    + apply (A_ternary _ _ _ _ _ _ _ _ _ _ F R E R'). intros ->. discriminate G.
  - injection H as <- <-. apply A_concat; assumption.
  - apply bind_inv in H. destruct H as (r & s1 & R & H). injection H as <- <-. apply IH in R. apply A_unary; assumption.
  - apply bind_inv in H. destruct H as (r & s1 & R & H). injection H as <- <-. apply IH in R. apply A_prefix; assumption.
  - injection H as <- <-. apply A_postfix; assumption.
  - destruct (next_is T_LPAREN (e_toks s)) eqn:X.
    + destruct (e_toks s) as [|lp r] eqn:T; [discriminate X|]. cbn [next_is] in X. apply is_eq in X.
      apply bind_inv in H. destruct H as (y & s1 & R & H). destruct (expect T_RPAREN s1) as [rp s2] eqn:E. injection H as <- <-. apply IH in R. exact (A_sizeof _ _ _ _ _ _ _ _ _ F T X R E).
    + apply bind_inv in H. destruct H as (y & s1 & R & H). injection H as <- <-. apply IH in R. apply A_sizeof_bare; assumption.
  - destruct (recover_cast s) as [n|] eqn:C.
    + destruct (expect T_RPAREN (take n s)) as [rp s1] eqn:E. apply bind_inv in H. destruct H as (y & s2 & R & H). injection H as <- <-. apply IH in R. exact (A_cast _ _ _ _ _ _ _ _ F C E R).
    + apply bind_inv in H. destruct H as (y & s1 & R & H). destruct (expect T_RPAREN s1) as [rp s2] eqn:E. injection H as <- <-. apply IH in R. exact (A_parens _ _ _ _ _ _ _ F C R E).
  - apply bind_inv in H. destruct H as (y & s1 & R & H). destruct (expect T_RPAREN s1) as [rp s2] eqn:E. injection H as <- <-. apply IH in R. exact (A_call _ _ _ _ _ _ _ _ F NL R E).
  - apply bind_inv in H. destruct H as (y & s1 & R & H). destruct (expect T_RSQUARE s1) as [rp s2] eqn:E. injection H as <- <-. apply IH in R. exact (A_squares _ _ _ _ _ _ _ _ F NL R E).
  - apply bind_inv in H. destruct H as (r & s1 & R & H). injection H as <- <-. apply IH in R. apply A_field; assumption.
Qed.

Lemma run_rel : forall f m s x s', run f m s = Some (x, s') -> rel (to_call m) s x s'.
Proof.
  induction f as [|f IH]; intros m s x s' H; [discriminate H|]. destruct m as [pc|pc l]; cbn [ExprModel.run to_call] in *.
  - destruct (peek s) as [k|] eqn:P; [|injection H as <- <-; apply R_end, P].
    destruct (find_rule true (ty k)) as [er|] eqn:F.
    + destruct (if is T_IDENT k then recover s else (ENull, s)) as [y s1] eqn:R.
      destruct (isnull y) eqn:N.
      * apply isnull_eq in N. subst y.
        assert (Q : if is T_IDENT k then recover s = (ENull, s1) else s1 = s) by (destruct (is T_IDENT k); [exact R|injection R as <-; reflexivity]).
        destruct (e_toks s1) as [|tk r] eqn:T; [injection H as <- <-; exact (R_op_end _ _ _ _ _ P F Q T)|].
        apply bind_inv in H. destruct H as (z & s2 & A & H). apply (apply_rel _ _ _ _ _ _ _ IH) in A.
        destruct (isnull z) eqn:Z.
        -- injection H as <- <-. apply isnull_eq in Z. subst z. exact (R_op_null _ _ _ _ _ _ _ _ P F Q T A).
        -- apply IH in H. assert (Z' : z <> ENull) by (intros ->; discriminate Z). exact (R_op _ _ _ _ _ _ _ _ _ _ _ P F Q T A Z' H).
      * assert (N' : y <> ENull) by (intros ->; discriminate N). destruct (is T_IDENT k) eqn:I; [|injection R as <- _; discriminate N].
        apply IH in H. apply is_eq in I. exact (R_rec _ _ _ _ _ _ _ P (or_intror I) R N' H).
    + destruct (recover s) as [y s1] eqn:R. destruct (isnull y) eqn:N.
      * apply isnull_eq in N. subst y. injection H as <- <-. exact (R_fail _ _ _ _ P F R).
      * assert (N' : y <> ENull) by (intros ->; discriminate N). apply IH in H. exact (R_rec _ _ _ _ _ _ _ P (or_introl F) R N' H).
  - destruct (peek s) as [k|] eqn:P; [|injection H as <- <-; apply R_stop; intros k er K; congruence].
    destruct (find_rule false (ty k)) as [er|] eqn:F; [|injection H as <- <-; apply R_stop; intros k' er K K'; congruence].
    destruct (r_pc er <=? pc) eqn:L.
    { injection H as <- <-. apply R_stop. intros k' er' K K'. assert (k' = k) by congruence. subst k'. assert (er' = er) by congruence. subst er'. apply Nat.leb_le, L. }
    apply Nat.leb_gt in L. apply bind_inv in H. destruct H as (y & s1 & A & H). apply (apply_rel _ _ _ _ _ _ _ IH) in A.
    destruct (isnull y) eqn:N; cbn [orb] in H.
    { injection H as <- <-. apply isnull_eq in N. exact (R_more_null _ _ _ _ _ _ _ P F L A (or_introl N)). }
    assert (N' : y <> ENull) by (intros ->; discriminate N). destruct (e_err s1) eqn:E.
    { injection H as <- <-. exact (R_more_null _ _ _ _ _ _ _ P F L A (or_intror E)). }
    apply IH in H. exact (R_more _ _ _ _ _ _ _ _ _ P F L A N' E H).
Qed.

(** More fuel gives the same result. *)
Lemma apply_mono : forall (g h : nat -> st -> option (expr * st)) er tk l s r, (forall pc s r, g pc s = Some r -> h pc s = Some r) ->
  apply g er tk l s = Some r -> apply h er tk l s = Some r.
Proof.
  intros g h er tk l s r M H. unfold ExprModel.apply in *.
  assert (B : forall C pc s (k : expr -> st -> option C) r, bind (g pc s) k = Some r -> bind (h pc s) k = Some r).
  { intros C pc s0 k r0 K. apply bind_inv in K. destruct K as (x & s1 & G & K). rewrite (M _ _ _ G). exact K. }
  destruct (r_func er); destruct (isnull l); try discriminate H; try exact H; try (apply B; exact H).
  - apply bind_inv in H. destruct H as (t & s1 & G & H). rewrite (M _ _ _ G). cbn [bind]. destruct (expect T_COLON s1) as [c s2]. apply B. exact H.
  - apply bind_inv in H. destruct H as (t & s1 & G & H). rewrite (M _ _ _ G). cbn [bind]. destruct (expect T_COLON s1) as [c s2]. apply B. exact H.
  - destruct (next_is T_LPAREN (e_toks s)); apply B; exact H.
  - destruct (recover_cast s) as [n|]; [destruct (expect T_RPAREN (take n s)) as [rp s1]|]; apply B; exact H.
Qed.
Lemma run_mono1 : forall f m s r, run f m s = Some r -> run (S f) m s = Some r.
Proof.
  induction f as [|f IH]; intros m s r H; [discriminate H|].
  assert (A : forall er tk l s r, apply (fun pc => run f (Exec pc)) er tk l s = Some r -> apply (fun pc => run (S f) (Exec pc)) er tk l s = Some r).
  { intros. eapply apply_mono; [|eassumption]. cbv beta. intros. apply IH. assumption. }
  destruct m as [pc|pc l]; cbn [ExprModel.run] in H; remember (S f) as g; cbn [ExprModel.run].
  - destruct (peek s) as [k|]; [|exact H].
    destruct (match find_rule true (ty k) with Some _ => if is T_IDENT k then recover s else (ENull, s) | None => recover s end) as [y s1].
    destruct (isnull y); [|apply IH, H]. destruct (find_rule true (ty k)) as [er|]; [|exact H].
    destruct (e_toks s1) as [|tk q]; [exact H|]. apply bind_inv in H. destruct H as (z & s2 & G & H). rewrite (A _ _ _ _ _ G). cbn [bind].
    destruct (isnull z); [exact H|apply IH, H].
  - destruct (peek s) as [k|]; [|exact H]. destruct (find_rule false (ty k)) as [er|]; [|exact H]. destruct (r_pc er <=? pc); [exact H|].
    apply bind_inv in H. destruct H as (z & s2 & G & H). rewrite (A _ _ _ _ _ G). cbn [bind]. destruct (isnull z || e_err s2); [exact H|apply IH, H].
Qed.
Lemma run_mono : forall f g m s r, f <= g -> run f m s = Some r -> run g m s = Some r.
Proof. intros f g m s r L H. induction L; [exact H|]. apply run_mono1, IHL. Qed.

Definition done_in (f : nat) (c : call) (s : st) (x : expr) (s' : st) : Prop :=
  match c with
  | CExec pc => run f (Exec pc) s = Some (x, s')
  | CLoop pc l => run f (Loop pc l) s = Some (x, s')
  | CApply er tk l => apply (fun pc => run f (Exec pc)) er tk l s = Some (x, s')
  end.
Lemma done_mono : forall f g c s x s', f <= g -> done_in f c s x s' -> done_in g c s x s'.
Proof.
  intros f g c s x s' L H. destruct c; cbn [done_in] in *; try (apply (run_mono f g); assumption).
  eapply apply_mono; [|eassumption]. intros pc s0 r. apply run_mono, L.
Qed.
Lemma apply_more : forall f g er tk l s r, f <= g -> apply (fun pc => run f (Exec pc)) er tk l s = Some r -> apply (fun pc => run g (Exec pc)) er tk l s = Some r.
Proof. intros f g er tk l s r L H. eapply apply_mono; [|eassumption]. intros pc s0 r0. apply run_mono, L. Qed.
Lemma null_false : forall x, x <> ENull -> isnull x = false.
Proof. intros [] H; try reflexivity. contradiction. Qed.

Lemma rel_run : forall c s x s', rel c s x s' -> exists f, done_in f c s x s'.
Proof.
  intros c s x s' H. induction H; cbn [done_in] in *.
  - exists 1. cbn [ExprModel.run]. rewrite H. reflexivity.
  - destruct IHrel as [f IH]. exists (S f). cbn [ExprModel.run]. rewrite H. destruct (find_rule true (ty k)) eqn:F.
    + destruct H0 as [H0|H0]; [discriminate H0|]. apply is_eq in H0. rewrite H0, H1, (null_false _ H2). exact IH.
    + rewrite H1, (null_false _ H2). exact IH.
  - exists 1. cbn [ExprModel.run]. rewrite H, H0, H1. reflexivity.
  - destruct IHrel1 as [f I1], IHrel2 as [g I2]. exists (S (f + g)). cbn [ExprModel.run]. rewrite H, H0.
    assert (E : (if is T_IDENT k then recover s else (ENull, s)) = (ENull, s1)) by (destruct (is T_IDENT k); [exact H1|rewrite H1; reflexivity]).
    rewrite E. cbn [isnull]. rewrite H2. rewrite (apply_more f (f + g) _ _ _ _ _ (Nat.le_add_r f g) I1). cbn [bind]. rewrite (null_false _ H4). apply (run_mono g); [lia|exact I2].
  - destruct IHrel as [f I1]. exists (S f). cbn [ExprModel.run]. rewrite H, H0.
    assert (E : (if is T_IDENT k then recover s else (ENull, s)) = (ENull, s1)) by (destruct (is T_IDENT k); [exact H1|rewrite H1; reflexivity]).
    rewrite E. cbn [isnull]. rewrite H2. rewrite I1. reflexivity.
  - exists 1. cbn [ExprModel.run]. rewrite H, H0.
    assert (E : (if is T_IDENT k then recover s else (ENull, s)) = (ENull, s1)) by (destruct (is T_IDENT k); [exact H1|rewrite H1; reflexivity]).
    rewrite E. cbn [isnull]. rewrite H2. reflexivity.
  - exists 1. cbn [ExprModel.run]. destruct (peek s) as [k|]; [|reflexivity]. destruct (find_rule false (ty k)) as [er|] eqn:F; [|reflexivity].
    assert (L := H _ _ eq_refl F). apply Nat.leb_le in L. rewrite L. reflexivity.
  - destruct IHrel1 as [f I1], IHrel2 as [g I2]. exists (S (f + g)). cbn [ExprModel.run]. rewrite H, H0. apply Nat.leb_gt in H1. rewrite H1.
    rewrite (apply_more f (f + g) _ _ _ _ _ (Nat.le_add_r f g) I1). cbn [bind]. rewrite (null_false _ H3), H4. apply (run_mono g); [lia|exact I2].
  - destruct IHrel as [f I1]. exists (S f). cbn [ExprModel.run]. rewrite H, H0. apply Nat.leb_gt in H1. rewrite H1. rewrite I1. cbn [bind].
    destruct H3 as [Q|Q]; rewrite Q; [reflexivity|rewrite orb_true_r; reflexivity].
  - exists 0. unfold ExprModel.apply. rewrite H. reflexivity.
  - destruct IHrel as [f I]. exists f. unfold ExprModel.apply. rewrite H, (null_false _ H0). fold (binary_pc er). rewrite I. reflexivity.
  - exists 0. unfold ExprModel.apply. rewrite H, (null_false _ H0). reflexivity.
  - destruct IHrel as [f I]. exists f. unfold ExprModel.apply. rewrite H, (null_false _ H0), I. reflexivity.
  - destruct IHrel as [f I]. exists f. unfold ExprModel.apply. rewrite H. cbn [isnull]. rewrite H0, H1, I. reflexivity.
  - destruct IHrel as [f I]. exists f. unfold ExprModel.apply. rewrite H. cbn [isnull]. rewrite H0, I. cbn [bind]. rewrite H2. reflexivity.
  - destruct IHrel as [f I]. exists f. unfold ExprModel.apply. rewrite H, (null_false _ H0), I. cbn [bind]. rewrite H2. reflexivity.
  - destruct IHrel as [f I]. exists f. unfold ExprModel.apply. rewrite H. cbn [isnull]. rewrite I. reflexivity.
  - exists 0. unfold ExprModel.apply. rewrite H, (null_false _ H0). reflexivity.
  - destruct IHrel as [f I]. exists f. unfold ExprModel.apply. rewrite H, H0. cbn [isnull next_is]. apply is_eq in H1. rewrite H1, I. cbn [bind]. rewrite H3. reflexivity.
  - destruct IHrel as [f I]. exists f. unfold ExprModel.apply. rewrite H, H0. cbn [isnull]. rewrite I. reflexivity.
  - destruct IHrel as [f I]. exists f. unfold ExprModel.apply. rewrite H, (null_false _ H0), I. cbn [bind]. rewrite H2. reflexivity.
  - destruct IHrel1 as [n1 I1], IHrel2 as [n2 I2]. exists (n1 + n2). unfold ExprModel.apply. rewrite H.
    apply (run_mono _ (n1 + n2)) in I1; [|lia]. apply (run_mono _ (n1 + n2)) in I2; [|lia]. rewrite I1. cbn [bind]. rewrite H1, I2. cbn [bind]. rewrite (null_false _ H3). destruct (isnull l); reflexivity.
  - destruct IHrel1 as [n1 I1], IHrel2 as [n2 I2]. exists (n1 + n2). unfold ExprModel.apply. rewrite H.
    apply (run_mono _ (n1 + n2)) in I1; [|lia]. apply (run_mono _ (n1 + n2)) in I2; [|lia]. rewrite I1. cbn [bind]. rewrite H1, I2. destruct (isnull l); reflexivity.
  - destruct IHrel as [f I]. exists f. unfold ExprModel.apply. rewrite H. cbn [isnull]. rewrite I. reflexivity.
Qed.

Lemma recover_adv : forall s x s', recover s = (x, s') -> exists c, adv s s' c.
Proof.
  intros s x s' H. unfold ExprModel.recover in H.
  assert (T : forall n, exists c, adv s (take n s) c) by (intros n; eexists; apply adv_take).
  assert (R : exists c, adv s s c) by (exists []; apply adv_refl).
  destruct (tpeek false (e_done s) (e_toks s)) as [n|].
  - destruct (_ || _) in H; injection H as <- <-; auto.
  - destruct (e_toks s) as [|k r] eqn:E; [injection H as <- <-; auto|].
    destruct (flag F_BINARY k); [destruct (_ || _) in H; injection H as <- <-; auto|].
    destruct (is T_LBRACE k).
    { destruct (braces (e_done s) (k :: r)) as [[n|] e]; injection H as <- <-; auto. exists []. split; cbn [e_toks e_done]; [exact E|reflexivity]. }
    destruct (is T_COMMA k); injection H as <- <-; auto.
Qed.

Lemma rel_adv : forall c s x s', rel c s x s' -> exists ks, adv s s' ks.
Proof.
  intros c s x s' H. induction H;
    repeat match goal with
    | H : exists _, adv _ _ _ |- _ => destruct H as [? ?]
    | H : recover _ = _ |- _ => apply recover_adv in H
    | H : expect _ _ = _ |- _ => apply expect_adv in H
    | H : (if is T_IDENT ?k then recover ?s = (ENull, ?s1) else ?s1 = ?s) |- _ =>
        assert (exists q, adv s s1 q) by (destruct (is T_IDENT k); [apply recover_adv in H; exact H|subst s1; exists []; apply adv_refl]); clear H
    end; try (exists []; apply adv_refl); eauto using adv_trans, adv_take.
Qed.

(** Which functions the table names where. *)
Lemma unary_func : forall t er, find_rule true t = Some er -> match r_func er with FLiteral | FUnary | FPrepost | FSizeof | FParens => True | _ => False end.
Proof. intros t er H. destruct t; vm_compute in H; try discriminate H; injection H as <-; exact I. Qed.
Lemma binary_func : forall t er, find_rule false t = Some er -> match r_func er with FLiteral | FUnary | FSizeof => False | _ => True end.
Proof. intros t er H. destruct t; vm_compute in H; try discriminate H; injection H as <-; exact I. Qed.

Definition need (m : mode) (s : st) : nat := match m with Exec _ => 2 * length (e_toks s) + 2 | Loop _ _ => 2 * length (e_toks s) + 1 end.
Lemma apply_total : forall f er tk l s, (forall pc s, need (Exec pc) s <= f -> exists r, run f (Exec pc) s = Some r) -> 2 * length (e_toks s) + 2 <= f ->
  (match r_func er with FLiteral | FUnary | FSizeof => isnull l = true | FParens | FPrepost => True | _ => isnull l = false end) ->
  exists r, apply (fun pc => run f (Exec pc)) er tk l s = Some r.
Proof.
  intros f er tk l s T L W.
  assert (B : forall C pc s' (k : expr -> st -> option C), length (e_toks s') <= length (e_toks s) -> (forall x s1, length (e_toks s1) <= length (e_toks s) -> exists r, k x s1 = Some r) -> exists r, bind (run f (Exec pc) s') k = Some r).
  { intros C pc s' k Q K. destruct (T pc s') as [[x s1] R]; [cbn [need]; lia|]. rewrite R. cbn [bind]. apply K. apply run_rel, rel_adv in R. destruct R as [c R]. apply adv_length in R. lia. }
  assert (TK : forall n, length (e_toks (take n s)) <= length (e_toks s)) by (intros n; cbn [take e_toks]; rewrite skipn_length; lia).
  assert (EX : forall t s', exists c s1, expect t s' = (c, s1) /\ length (e_toks s1) <= length (e_toks s')).
  { intros t s'. destruct (expect t s') as [c s1] eqn:E. exists c, s1. split; [reflexivity|]. apply expect_adv, adv_length in E. lia. }
  unfold ExprModel.apply. destruct (r_func er); try rewrite W; try (eexists; reflexivity); try (apply B; [lia|]; intros; eexists; reflexivity).
  - apply B; [lia|]. intros x s1 Q. destruct (EX T_COLON s1) as (c & s2 & -> & Q'). apply B; [lia|]. intros; eexists; reflexivity.
  - destruct (isnull l); [|eexists; reflexivity]. apply B; [lia|]. intros; eexists; reflexivity.
  - destruct (next_is T_LPAREN (e_toks s)).
    + apply B; [apply TK|]. intros x s1 Q. destruct (EX T_RPAREN s1) as (c & s2 & -> & Q'). eexists; reflexivity.
    + apply B; [lia|]. intros; eexists; reflexivity.
  - destruct (isnull l).
    + destruct (recover_cast s) as [n|].
      * destruct (EX T_RPAREN (take n s)) as (c & s2 & -> & Q'). specialize (TK n). apply B; [lia|]. intros; eexists; reflexivity.
      * apply B; [lia|]. intros x s1 Q. destruct (EX T_RPAREN s1) as (c & s2 & -> & Q'). eexists; reflexivity.
    + apply B; [lia|]. intros x s1 Q. destruct (EX T_RPAREN s1) as (c & s2 & -> & Q'). eexists; reflexivity.
  - apply B; [lia|]. intros x s1 Q. destruct (EX T_RSQUARE s1) as (c & s2 & -> & Q'). eexists; reflexivity.
Qed.

Lemma peek_toks : forall s k, peek s = Some k -> exists r, e_toks s = k :: r /\ e_err s = false /\ length (e_toks s) <> stop /\ ty k <> T_EOF.
Proof.
  intros s k H. unfold ExprModel.peek in H. destruct (e_toks s) as [|j r]; [discriminate H|]. destruct (_ || _ || _) eqn:E; [discriminate H|]. injection H as ->.
  apply orb_false_iff in E. destruct E as [E E3]. apply orb_false_iff in E. destruct E as [E1 E2]. apply Nat.eqb_neq in E2. exists r. repeat split; try assumption. intros Q. apply is_eq in Q. congruence.
Qed.

Lemma run_total : forall f m s, need m s <= f -> (match m with Loop _ x => x <> ENull | _ => True end) -> exists r, run f m s = Some r.
Proof.
  induction f as [|f IH]; intros m s L W; [destruct m; cbn [need] in L; lia|].
  assert (AP : forall er tk l s, 2 * length (e_toks s) + 2 <= f -> (match r_func er with FLiteral | FUnary | FSizeof => isnull l = true | FParens | FPrepost => True | _ => isnull l = false end) ->
    exists r, apply (fun pc => run f (Exec pc)) er tk l s = Some r).
  { intros er tk l s0 Q. apply apply_total; [|exact Q]. intros pc s1 Q'. apply IH; [exact Q'|exact I]. }
  destruct m as [pc|pc x]; cbn [ExprModel.run need] in *.
  - destruct (peek s) as [k|] eqn:P; [|eexists; reflexivity]. destruct (peek_toks _ _ P) as (r & T & _).
    destruct (find_rule true (ty k)) as [er|] eqn:F.
    + destruct (if is T_IDENT k then recover s else (ENull, s)) as [y s1] eqn:R.
      assert (exists c, adv s s1 c) as [c A] by (destruct (is T_IDENT k); [exact (recover_adv _ _ _ R)|injection R as _ <-; exists []; apply adv_refl]).
      apply adv_length in A. destruct (isnull y) eqn:N.
      * destruct (e_toks s1) as [|tk q] eqn:T1; [eexists; reflexivity|]. cbn [length] in A.
        destruct (AP er tk ENull (take 1 s1)) as [[z s2] G].
        { rewrite (take1 _ _ _ T1). cbn [e_toks]. lia. }
        { pose proof (unary_func _ _ F). destruct (r_func er); try contradiction; reflexivity. }
        rewrite G. cbn [bind]. destruct (isnull z) eqn:Z; [eexists; reflexivity|]. apply (apply_rel _ _ _ _ _ _ _ (run_rel f)), rel_adv in G. destruct G as [c' G]. apply adv_length in G.
        rewrite (take1 _ _ _ T1) in G. cbn [e_toks] in G. apply IH; [cbn [need]; lia|intros ->; discriminate Z].
      * apply IH; [cbn [need]; lia|intros ->; discriminate N].
    + destruct (recover s) as [y s1] eqn:R. destruct (recover_adv _ _ _ R) as [c A]. apply adv_length in A. destruct (isnull y) eqn:N; [eexists; reflexivity|]. apply IH; [cbn [need]; lia|intros ->; discriminate N].
  - destruct (peek s) as [k|] eqn:P; [|eexists; reflexivity]. destruct (peek_toks _ _ P) as (r & T & _). destruct (find_rule false (ty k)) as [er|] eqn:F; [|eexists; reflexivity].
    destruct (r_pc er <=? pc); [eexists; reflexivity|]. rewrite T in L. cbn [length] in L.
    destruct (AP er k x (take 1 s)) as [[z s2] G].
    { rewrite (take1 _ _ _ T). cbn [e_toks]. lia. }
    { pose proof (binary_func _ _ F). pose proof (null_false _ W). destruct (r_func er); try contradiction; assumption || exact I. }
    rewrite G. cbn [bind]. destruct (isnull z) eqn:Z; [eexists; reflexivity|]. destruct (e_err s2); [eexists; reflexivity|]. cbn [orb].
    apply (apply_rel _ _ _ _ _ _ _ (run_rel f)), rel_adv in G. destruct G as [c' G]. apply adv_length in G. rewrite (take1 _ _ _ T) in G. cbn [e_toks] in G. apply IH; [cbn [need]; lia|intros ->; discriminate Z].
Qed.

(** expr_exec is decided by the relation. *)
Lemma exec_rel : forall s x s', run (2 * length (e_toks s) + 2) (Exec 0) s = Some (x, s') <-> rel (CExec 0) s x s'.
Proof.
  intros s x s'. split; [apply (run_rel _ (Exec 0))|]. intros R. apply rel_run in R. destruct R as [f R]. cbn [done_in] in R.
  destruct (run_total (2 * length (e_toks s) + 2) (Exec 0) s (le_n _) I) as [r G]. rewrite G. f_equal.
  apply (run_mono _ (f + (2 * length (e_toks s) + 2))) in G; [|lia]. apply (run_mono _ (f + (2 * length (e_toks s) + 2))) in R; [|lia]. congruence.
Qed.

(** An identifier is not consumed by expr_recover without being used. *)
Lemma recover_ident : forall s k r s1, e_toks s = k :: r -> recover s = (ENull, s1) ->
  e_toks s1 = e_toks s /\ e_done s1 = e_done s \/
  (flag F_BINARY k = true /\ back_if T_LPAREN (e_done s) || back_if T_COMMA (e_done s) = false).
Proof.
  intros s k r s1 E H. unfold ExprModel.recover in H. rewrite E in H.
  destruct (tpeek false (e_done s) (k :: r)) as [n|].
  - destruct (_ || _) in H; [discriminate H|]. injection H as <-. rewrite E. auto.
  - destruct (flag F_BINARY k); [destruct (back_if T_LPAREN (e_done s) || back_if T_COMMA (e_done s)); [discriminate H|]; auto|].
    destruct (is T_LBRACE k).
    { destruct (braces (e_done s) (k :: r)) as [[n|] e]; [discriminate H|]. injection H as <-. rewrite E. auto. }
    destruct (is T_COMMA k); [discriminate H|]. injection H as <-. rewrite E. auto.
Qed.
Lemma recover_yield : forall s x s1, recover s = (x, s1) -> x <> ENull -> exists ks, adv s s1 ks /\ x = ERecover ks.
Proof.
  intros s x s1 H N. unfold ExprModel.recover in H.
  assert (T : forall n, exists ks, adv s (take n s) ks /\ ERecover (firstn n (e_toks s)) = ERecover ks) by (intros n; eexists; split; [apply adv_take|reflexivity]).
  destruct (tpeek false (e_done s) (e_toks s)) as [n|].
  - destruct (_ || _) in H; injection H as <- <-; [apply T|contradiction].
  - destruct (e_toks s) as [|k r] eqn:E; [injection H as <- <-; contradiction|]. assert (T1 := T 1). cbn [firstn] in T1.
    destruct (flag F_BINARY k); [destruct (_ || _) in H; injection H as <- <-; [exact T1|contradiction]|].
    destruct (is T_LBRACE k).
    { destruct (braces (e_done s) (k :: r)) as [[n|] e]; injection H as <- <-; [apply T|contradiction]. }
    destruct (is T_COMMA k); injection H as <- <-; [exact T1|contradiction].
Qed.
Lemma recover_err : forall s x s1, recover s = (x, s1) -> e_err s = true -> e_err s1 = true.
Proof.
  intros s x s1 H E. unfold ExprModel.recover in H. destruct (tpeek false (e_done s) (e_toks s)) as [n|].
  - destruct (_ || _) in H; injection H as <- <-; exact E.
  - destruct (e_toks s) as [|k r]; [injection H as <- <-; exact E|].
    destruct (flag F_BINARY k); [destruct (_ || _) in H; injection H as <- <-; exact E|].
    destruct (is T_LBRACE k).
    { destruct (braces (e_done s) (k :: r)) as [[n|] e]; injection H as <- <-; [exact E|]. cbn [e_err]. rewrite E. reflexivity. }
    destruct (is T_COMMA k); injection H as <- <-; exact E.
Qed.
(** Errors stay. *)
Lemma rel_err : forall c s x s', rel c s x s' -> e_err s' = false -> e_err s = false.
Proof.
  assert (R : forall s x s1, recover s = (x, s1) -> e_err s1 = false -> e_err s = false).
  { intros s x s1 H E. destruct (e_err s) eqn:Q; [|reflexivity]. rewrite (recover_err _ _ _ H Q) in E. exact E. }
  assert (X : forall t s ks s', expect t s = (ks, s') -> e_err s' = false -> e_err s = false) by (intros t s ks s' H E; apply (expect_err _ _ _ _ H E)).
  intros c s x s' H. induction H; intros E; cbn [take e_err] in *; eauto.
  - assert (Q : e_err s1 = false) by auto. destruct (is T_IDENT k); [eauto|subst s1; exact Q].
  - assert (Q : e_err s1 = false) by auto. destruct (is T_IDENT k); [eauto|subst s1; exact Q].
  - destruct (is T_IDENT k); [eauto|subst s1; exact E].
  - apply IHrel in E. exact (X _ _ _ _ H1 E).
Qed.
End Rel.
