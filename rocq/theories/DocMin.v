(** The choice among candidate indentations (DocModel.exec_minimize). *)
From Verif Require Import Base StrModel UtilModel UtilProofs DocModel DocProofs DocEmit DocFit.

(** ** Specification *)
(** No candidate is forced. *)
Fixpoint noforce (d : doc) : Prop :=
  match d with
  | Concat l => fold_right (fun d P => noforce d /\ P) True l
  | Group d | Indent _ d | NoIndent d | Optional d | Scope d | Maxlines _ d => noforce d
  | Minimize _ ms d => Forall (fun m => snd m = false) ms /\ noforce d
  | _ => True
  end.
Definition quiet (st : dstate) : Prop := (forall id i, o_force st id i = false) /\ o_mforce st = None.

(** The cost of a candidate with [fst p] lines and [snd p] exceeding columns: both in
    proportion to the largest among the candidates [ps] (over a common denominator). *)
Definition cost (ps : list (nat * Z)) (p : nat * Z) : Z :=
  let L := Z.max 1 (fold_right Z.max 0%Z (map (fun p => Z.of_nat (fst p)) ps)) in
  let X := Z.max 1 (fold_right Z.max 0%Z (map snd ps)) in
  (Z.of_nat (fst p) * X + snd p * L)%Z.

(** Where executing candidate [i] starts from. *)
Definition trial_start (i : nat) (st : dstate) : dstate :=
  set_idx (Some i) (set_mforce None (set_sexceeds 0%Z (set_slines 0 st))).

(** ** Selection *)
Lemma max_nat_Z : forall (ps : list (nat * Z)), Z.of_nat (fold_right Nat.max 0 (map fst ps)) =
  fold_right Z.max 0%Z (map (fun p => Z.of_nat (fst p)) ps).
Proof. induction ps as [|p ps IH]; cbn [map fold_right]; auto. rewrite Nat2Z.inj_max, IH. auto. Qed.

Lemma fold_max_ge : forall l x, In x l -> (x <= fold_right Z.max 0 l)%Z.
Proof.
  induction l as [|y l IH]; cbn [In fold_right]; intros x H; [contradiction|].
  destruct H as [->|H]; [lia|]. specialize (IH x H). lia.
Qed.

Lemma penalty_cost : forall ps p q, Forall (fun p => (0 <= snd p)%Z) ps -> In p ps -> In q ps ->
  let nl := fold_right Nat.max 0 (map fst ps) in
  let nx := fold_right Z.max 0%Z (map snd ps) in
  Qle_bool (penalty nl nx p) (penalty nl nx q) = (cost ps p <=? cost ps q)%Z.
Proof.
  intros ps p q Hpos Hp Hq nl nx.
  assert (HL : forall x, In x ps -> (Z.of_nat (fst x) <= Z.of_nat nl)%Z).
  { intros x Hx. unfold nl. rewrite max_nat_Z. apply fold_max_ge. apply (in_map (fun p => Z.of_nat (fst p))); auto. }
  assert (HX : forall x, In x ps -> (0 <= snd x <= nx)%Z).
  { intros x Hx. rewrite Forall_forall in Hpos. split; auto. unfold nx. apply fold_max_ge. apply in_map; auto. }
  assert (E : forall x, In x ps -> (penalty nl nx x == (cost ps x # 2 * Z.to_pos (Z.max 1 (Z.of_nat nl)) * Z.to_pos (Z.max 1 nx)))%Q).
  { intros x Hx. unfold penalty, cost. rewrite <- max_nat_Z. fold nl nx.
    assert (Ea : ((if 0 <? nl then Z.of_nat (fst x) # Pos.of_nat nl else 0) == (Z.of_nat (fst x) # Z.to_pos (Z.max 1 (Z.of_nat nl))))%Q).
    { destruct (Nat.ltb_spec 0 nl) as [Hl|Hl].
      - replace (Z.max 1 (Z.of_nat nl)) with (Z.of_nat nl) by lia. unfold Qeq. cbn. f_equal.
        rewrite Z2Pos.id by lia. rewrite <- positive_nat_Z, Nat2Pos.id by lia. auto.
      - specialize (HL x Hx). replace (Z.of_nat (fst x)) with 0%Z by lia. unfold Qeq. cbn. lia. }
    assert (Eb : ((if (0 <? nx)%Z then snd x # Z.to_pos nx else 0) == (snd x # Z.to_pos (Z.max 1 nx)))%Q).
    { destruct (Z.ltb_spec 0 nx) as [Hl|Hl].
      - replace (Z.max 1 nx) with nx by lia. reflexivity.
      - specialize (HX x Hx). replace (snd x) with 0%Z by lia. unfold Qeq. cbn. lia. }
    rewrite Ea, Eb. unfold Qeq, Qdiv, Qplus, Qmult, Qinv. cbn [Qnum Qden].
    set (A := Z.max 1 (Z.of_nat nl)). set (B := Z.max 1 nx). assert (HA : (0 < A)%Z) by (unfold A; lia). assert (HB : (0 < B)%Z) by (unfold B; lia).
    rewrite !Pos2Z.inj_mul. rewrite (Z2Pos.id A), (Z2Pos.id B) by auto. ring. }
  assert (El : forall a b c d : Q, (a == c)%Q -> (b == d)%Q -> Qle_bool a b = Qle_bool c d).
  { intros a b c d H1 H2. apply eq_true_iff_eq. rewrite !Qle_bool_iff, H1, H2. reflexivity. }
  rewrite (El _ _ _ _ (E p Hp) (E q Hq)). apply eq_true_iff_eq. rewrite Qle_bool_iff, Z.leb_le. unfold Qle. cbn [Qnum Qden].
  split; intros H; [eapply Z.mul_le_mono_pos_r; [|exact H]; lia|].
  apply Z.mul_le_mono_nonneg_r; auto. lia.
Qed.

(** [pick] takes the first forced one, else the first smallest one. *)
Lemma pick_spec : forall force ps i best b,
  pick force i ps best = Some b ->
  (forall b0 q, best = Some (b0, q) -> b0 < i) ->
  (b >= i /\ b < i + length ps /\ force b = true /\ (forall j, i <= j < b -> force j = false)) \/
  ((forall j, i <= j < i + length ps -> force j = false) /\
   exists q, ((b < i /\ best = Some (b, q)) \/ (b >= i /\ nth_error ps (b - i) = Some q)) /\
     (forall b0 q0, best = Some (b0, q0) -> (q <= q0)%Q /\ (b >= i -> ~ (q0 <= q)%Q)) /\
     (forall j p, nth_error ps j = Some p -> (q <= p)%Q /\ (i + j < b -> ~ (p <= q)%Q))).
Proof.
  intros force. induction ps as [|p ps IH]; intros i best b E Hb; cbn [pick] in E.
  - destruct best as [[b0 q0]|]; [|discriminate]. inv E. right. split; [intros j Hj; cbn in Hj; lia|].
    exists q0. specialize (Hb b q0 eq_refl). repeat split; try (left; auto; fail).
    + inv H. apply Qle_refl.
    + inv H. lia.
    + destruct j; discriminate.
    + destruct j; discriminate.
  - destruct (force i) eqn:Ef.
    { inv E. left. cbn. repeat split; auto; try lia. }
    set (tk := match best with Some (_, m) => negb (Qle_bool m p) | None => true end) in E.
    assert (Hforce : (b >= S i /\ b < S i + length ps /\ force b = true /\ (forall j, S i <= j < b -> force j = false)) ->
      b >= i /\ b < i + length (p :: ps) /\ force b = true /\ (forall j, i <= j < b -> force j = false)).
    { intros (H1 & H2 & H3 & H4). cbn [length]. repeat split; auto; try lia. intros j Hj.
      destruct (Nat.eq_dec j i) as [->|Hne]; auto. apply H4. lia. }
    assert (Hnof : (forall j, S i <= j < S i + length ps -> force j = false) -> (forall j, i <= j < i + length (p :: ps) -> force j = false)).
    { intros H j Hj. cbn [length] in Hj. destruct (Nat.eq_dec j i) as [->|Hne]; auto. apply H. lia. }
    destruct tk eqn:Et.
    + apply IH in E. 2:{ intros b0 q H. inv H. lia. }
      destruct E as [E | (N & q & Hq & H1 & H2)]; [left; auto|right]. split; [auto|]. exists q.
      destruct (H1 i p eq_refl) as (P1 & P2). repeat split.
      * right. destruct Hq as [(Hq & E) | (Hq & E)].
        -- inv E. split; auto. rewrite Nat.sub_diag. reflexivity.
        -- split; [lia|]. replace (b - i) with (S (b - S i)) by lia. auto.
      * subst best. unfold tk in Et. apply negb_true_iff in Et.
        assert (~ (q0 <= p)%Q) by (intros H; apply Qle_bool_iff in H; congruence).
        apply Qnot_le_lt in H. eapply Qle_trans; [exact P1|]. apply Qlt_le_weak; auto.
      * intros _ Hle. subst best. unfold tk in Et. apply negb_true_iff in Et.
        assert (H : Qle_bool q0 p = true) by (apply Qle_bool_iff; eapply Qle_trans; eauto). congruence.
      * destruct j; cbn in H; [inv H; auto|]. eapply H2; eauto.
      * intros Hlt. destruct j; cbn in H; [inv H; apply P2; lia|]. eapply H2; eauto. lia.
    + destruct best as [[b0 q0]|]; [|discriminate]. unfold tk in Et. apply negb_false_iff in Et. apply Qle_bool_iff in Et.
      apply IH in E. 2:{ intros b1 q H. inv H. specialize (Hb b1 q eq_refl). lia. }
      destruct E as [E | (N & q & Hq & H1 & H2)]; [left; auto|right]. split; [auto|]. exists q.
      destruct (H1 b0 q0 eq_refl) as (P1 & P2). repeat split.
      * destruct Hq as [(Hq & E) | (Hq & E)].
        -- left. inv E. specialize (Hb b q eq_refl). auto.
        -- right. split; [lia|]. replace (b - i) with (S (b - S i)) by lia. auto.
      * inv H. auto.
      * inv H. intros Hge. destruct (Nat.eq_dec b i) as [->|Hne].
        -- destruct Hq as [(Hq & E) | (Hq & E)]; [|lia]. inv E. specialize (Hb i q eq_refl). lia.
        -- apply P2. lia.
      * destruct j; cbn in H; [inv H; eapply Qle_trans; eauto|]. eapply H2; eauto.
      * intros Hlt. destruct j; cbn in H.
        -- inv H. intros Hle. apply P2; [lia|]. eapply Qle_trans; eauto.
        -- eapply H2; eauto. lia.
Qed.

Section Min.
Variable limit : nat.
Variable usetabs : bool.
Notation exec := (doc_exec1 limit usetabs).

(** What the candidates measure: executing each of them from the same state. *)
Definition measure (d : doc) (st : dstate) (im : nat * (Z * bool)) : nat * Z :=
  let st' := exec (Indent (fst (snd im)) d) (trial_start (fst im) st) in (o_slines st', o_sexceeds st').
Definition measures (ms : list (Z * bool)) (d : doc) (st : dstate) : list (nat * Z) :=
  map (measure d st) (combine (seq 0 (length ms)) ms).

(** ** Without forced candidates no flag is ever set *)
Definition same (st st' : dstate) : Prop :=
  o_force st' = o_force st /\ o_mforce st' = o_mforce st /\ ((0 <= o_sexceeds st)%Z -> (0 <= o_sexceeds st')%Z).
Lemma same_refl : forall st, same st st. Proof. repeat split; auto. Qed.
Lemma same_trans : forall a b c, same a b -> same b c -> same a c.
Proof. intros a b c (H1 & H2 & H3) (K1 & K2 & K3). repeat split; try congruence; auto. Qed.
Lemma same_quiet : forall a b, same a b -> quiet a -> quiet b.
Proof. intros a b (H1 & H2 & _) (Q1 & Q2). split; [rewrite H1; auto|congruence]. Qed.

Lemma same_indent1 : forall n t st, same st (print_indent1 n t st).
Proof. intros. unfold print_indent1. destruct (strindent _ _ _). repeat split; auto. Qed.
Lemma same_indent : forall n st, same st (print_indent usetabs n st).
Proof. intros. unfold print_indent. destruct (_ <? _); [apply same_indent1|]. apply (same_indent1 n usetabs (set_pre n st)). Qed.
Lemma same_trim : forall st, same st (trim_spaces st).
Proof. intros. unfold trim_spaces. destruct (trim_loop _ _). repeat split; auto. Qed.
Lemma same_column : forall s st, same st (doc_column limit s st).
Proof. intros. unfold doc_column. repeat split; auto. intros _. cbn. apply Z.mod_pos_bound. lia. Qed.

Lemma same_now : forall s ind pend m st, same st (print_now limit usetabs s ind pend m st).
Proof.
  intros. unfold print_now.
  assert (Hp : forall st0 st1, same st0 st1 -> same st0 (doc_column limit s (if m then st1 else put s st1))).
  { intros st0 st1 H. eapply same_trans; [|apply same_column]. destruct m; exact H. }
  destruct (is_newline s).
  - destruct (_ <=? _); [apply same_refl|].
    set (st2 := if negb pend && _ then _ else _).
    assert (H2 : same st st2) by (unfold st2; destruct (_ && _); repeat split; auto).
    set (st4 := match o_mforce (trim_spaces st2) with Some _ => _ | None => _ end).
    assert (H4 : same st st4).
    { eapply same_trans; [exact H2|]. eapply same_trans; [apply same_trim|]. unfold st4. destruct (o_mforce _); repeat split; auto. }
    destruct ind; [eapply same_trans; [|apply same_indent]|]; apply Hp; auto.
  - apply Hp. repeat split; auto.
Qed.
Lemma same_print : forall s ind st, same st (fst (doc_print limit usetabs s ind st)).
Proof.
  intros. unfold doc_print.
  set (st1 := if is_newline s && is_mute st then set_muteline true st else st).
  assert (H1 : same st st1) by (unfold st1; destruct (_ && _); repeat split; auto).
  destruct (o_newline st1).
  - destruct (beq s [SP]); [exact H1|].
    set (st2 := if is_mute st then _ else _).
    assert (H2 : same st st2) by (eapply same_trans; [exact H1|]; unfold st2; destruct (is_mute st); repeat split; auto).
    destruct (is_newline s); cbn [fst].
    + eapply same_trans; [exact H2|]. apply same_now.
    + eapply same_trans; [exact H2|]. eapply same_trans; [apply same_now|]. apply same_now.
  - cbn [fst]. eapply same_trans; [exact H1|]. apply same_now.
Qed.

Definition calm (k : dstate -> dstate) : Prop := forall st, quiet st -> same st (k st).
Lemma calm_indent : forall v k, calm k -> calm (exec_indent usetabs v k).
Proof.
  intros v k Hk st Hq. unfold exec_indent. destruct (is_indent INDENT_PARENS v).
  { destruct (parens_align st); [exact (Hk (set_parens (S (o_parens st)) st) Hq)|exact (Hk st Hq)]. }
  destruct (is_indent INDENT_FORCE v).
  { eapply same_trans; [apply same_indent|]. apply Hk. eapply same_quiet; [apply same_indent|auto]. }
  repeat match goal with |- context [if ?b then _ else _] => destruct b end;
    match goal with |- context [k ?s] => exact (Hk s Hq) end.
Qed.

Lemma forced_no : forall id ms i st, Forall (fun m => snd m = false) ms -> quiet st -> forced id ms i st = false.
Proof.
  intros id ms i st H (Q1 & Q2). unfold forced. destruct (nth_error ms i) as [[v b]|] eqn:E; auto.
  apply nth_error_In in E. rewrite Forall_forall in H. specialize (H _ E). cbn in H. subst b. rewrite Q1. auto.
Qed.
Lemma minimize1_eq : forall id ms k i st v b, Forall (fun m => snd m = false) ms -> quiet st ->
  nth_error ms i = Some (v, b) -> minimize1 usetabs id ms k i st = exec_indent usetabs v k st.
Proof. intros. unfold minimize1. rewrite H1, forced_no; auto. Qed.

Lemma quiet_start : forall st i, quiet st -> quiet (trial_start i st).
Proof. intros st i (Q1 & Q2). split; auto. Qed.

(** Trying candidates changes nothing and measures what executing them measures. *)
Lemma try_all_quiet : forall n id ms d sn, Forall (fun m => snd m = false) ms -> calm (exec d) -> wf n d ->
  n = length ms -> quiet sn -> idx_ok (fun _ => True) n sn ->
  forall is, Forall (fun i => i < n) is ->
  try_all usetabs id ms (exec d) sn is sn =
  (map (fun i => measure d sn (i, nth i ms (0%Z, false))) is, sn).
Proof.
  intros n id ms d sn HF Hk Hwf Hn Hq Hi. induction is as [|i is IH]; intros Hall; cbn [try_all map]; auto.
  inv Hall. fold (trial_start i sn).
  destruct (nth_error ms i) as [[v b]|] eqn:E; [|apply nth_error_None in E; lia].
  rewrite (minimize1_eq id ms (exec d) i (trial_start i sn) v b HF (quiet_start sn i Hq) E).
  set (st1 := exec_indent usetabs v (exec d) (trial_start i sn)).
  assert (S1 : same (trial_start i sn) st1) by (apply calm_indent; auto; apply quiet_start; auto).
  destruct S1 as (F1 & F2 & F3). cbn [trial_start] in F1, F2. rewrite F2. cbn [o_mforce set_idx set_mforce].
  assert (B1 : o_bad st1 = o_bad sn).
  { assert (G : good (fun _ _ => True) True True (fun _ => True) (length ms) (Indent v d) (exec (Indent v d))).
    { apply good_any. exact Hwf. }
    destruct (G (trial_start i sn)) as (_ & _ & _ & GB); [|exact GB]. split; [intros j Hj; cbn in Hj; inv Hj; auto|auto]. }
  change (o_force (set_idx (Some i) (set_mforce None (set_sexceeds 0 (set_slines 0 sn))))) with (o_force sn) in F1.
  rewrite F1, B1. change (o_mforce (trial_start i sn)) with (@None nat).
  change (o_force (trial_start i sn)) with (o_force sn). cbv iota. replace (set_dbad (o_bad sn) (set_force (o_force sn) sn)) with sn by (destruct sn; reflexivity).
  rewrite IH by auto. f_equal. f_equal. unfold measure. cbn [fst snd]. rewrite (nth_error_nth ms i _ E). reflexivity.
Qed.

Lemma map_combine_seq : forall (ms : list (Z * bool)) (f : nat * (Z * bool) -> nat * Z) k0 pre, k0 = length pre ->
  map (fun i => f (i, nth i (pre ++ ms) (0%Z, false))) (seq k0 (length ms)) = map f (combine (seq k0 (length ms)) ms).
Proof.
  induction ms as [|m ms IH]; intros f k0 pre E; cbn [length seq map combine]; auto. f_equal.
  - subst k0. rewrite app_nth2, Nat.sub_diag by lia. reflexivity.
  - specialize (IH f (S k0) (pre ++ [m])). rewrite <- app_assoc in IH. apply IH. rewrite app_length. cbn. lia.
Qed.

Lemma noforce_concat : forall l, fold_right (fun d P => noforce d /\ P) True l <-> Forall noforce l.
Proof.
  induction l as [|d l IH]; cbn [fold_right]; split; intros H; auto.
  - destruct H. constructor; auto. apply IH; auto.
  - inv H. split; auto. apply IH; auto.
Qed.

Lemma calm_minimize1 : forall id ms k i, Forall (fun m => snd m = false) ms -> calm k -> calm (minimize1 usetabs id ms k i).
Proof.
  intros id ms k i HF Hk st Hq. destruct (nth_error ms i) as [[v b]|] eqn:E.
  - rewrite (minimize1_eq _ _ _ _ _ _ _ HF Hq E). apply calm_indent; auto.
  - unfold minimize1. rewrite E. repeat split; auto.
Qed.
Lemma try_all_same : forall id ms k sn, Forall (fun m => snd m = false) ms -> calm k -> quiet sn ->
  forall is st, same sn st -> same sn (snd (try_all usetabs id ms k sn is st)).
Proof.
  intros id ms k sn HF Hk Hq. induction is as [|i is IH]; intros st Hs; cbn [try_all]; auto.
  fold (trial_start i st). pose proof (calm_minimize1 id ms k i HF Hk (trial_start i st) (quiet_start _ _ (same_quiet _ _ Hs Hq))) as H1.
  set (st1 := minimize1 _ _ _ _ _ _) in *. destruct H1 as (F1 & F2 & F3).
  replace (o_mforce st1) with (@None nat) by (rewrite F2; auto).
  specialize (IH (set_dbad (o_bad st1) (set_force (o_force st1) sn))).
  destruct (try_all _ _ _ _ _ _ _) as [ps st2]. cbn [snd] in *. apply IH. split; [|split; auto].
  cbn. rewrite F1. destruct Hs as (H & _). exact H.
Qed.

Lemma same_align_tabs : forall fuel n st, same st (align_tabs fuel n st).
Proof.
  induction fuel as [|fuel IH]; intros [|n] st; cbn [align_tabs]; try apply same_refl.
  eapply same_trans; [apply same_indent1|apply IH].
Qed.

Lemma exec_calm : forall d, noforce d -> calm (exec d).
Proof.
  induction d using doc_ind'; intros Hn; cbn [noforce] in Hn; intros st Hq; cbn [doc_exec1];
    try (repeat split; auto; fail).
  - apply noforce_concat in Hn. revert st Hq. induction l as [|d l IHl]; intros st Hq; cbn [fold_left]; [apply same_refl|].
    inv H. inv Hn. pose proof (H2 H1 st Hq) as Hd. eapply same_trans; [exact Hd|]. apply IHl; auto. eapply same_quiet; eauto.
  - destruct (match o_mode st with MUNGE => _ | BREAK => _ end); [apply IHd; auto|].
    match goal with |- context [exec d ?s] => exact (IHd Hn s Hq) end.
  - apply calm_indent; auto.
  - eapply same_trans; [apply same_trim|].
    exact (IHd Hn (set_pre 0 (set_cur 0 (trim_spaces st))) (same_quiet _ _ (same_trim st) Hq)).
  - unfold exec_align. destruct c; [eapply same_trans; [apply same_align_tabs|]|]; apply same_indent1.
  - apply same_print.
  - unfold exec_verbatim. destruct (is_mute st); [apply same_refl|]. set (isblock := _ && _).
    set (st2 := if isblock && _ then _ else _).
    assert (H2 : same st st2) by (eapply same_trans; [apply same_trim|]; unfold st2; clearbody isblock;
      destruct (isblock && (0 <? o_col (trim_spaces st))); repeat split; auto).
    assert (H3 : same st (fst (doc_print limit usetabs s false st2))) by (eapply same_trans; [exact H2|apply same_print]).
    destruct (_ || _); auto. eapply same_trans; [exact H3|apply same_indent].
  - destruct (o_mode st); [apply same_print|]. pose proof (same_print [SP] true st) as H.
    destruct (doc_print limit usetabs [SP] true st) as [st1 [|]]; exact H.
  - destruct (o_mode st); [apply same_print|apply same_refl].
  - apply same_print.
  - destruct (_ <? _); repeat split; auto.
  - unfold exec_mute. repeat match goal with |- context [if ?b then _ else _] => destruct b end; repeat split; auto.
  - unfold exec_mute. repeat match goal with |- context [if ?b then _ else _] => destruct b end; repeat split; auto.
  - pose proof (IHd Hn (set_optline (S (o_optline st)) st) Hq) as H. destruct (_ <=? _); exact H.
  - destruct Hn as (HF & Hn). specialize (IHd Hn). unfold exec_minimize. destruct (o_idx st) as [i|].
    + apply calm_minimize1; auto.
    + pose proof (try_all_same id ms (exec d) st HF IHd Hq (seq 0 (length ms)) st (same_refl st)) as HS.
      destruct (try_all _ _ _ _ _ _ _) as [ps st1]. cbn [snd] in HS.
      destruct (best_of _ ps) as [b|].
      * pose proof (calm_minimize1 id ms (exec d) b HF IHd (set_idx (Some b) st1) (same_quiet _ _ HS Hq)) as HM.
        eapply same_trans; [exact HS|]. exact HM.
      * exact HS.
  - exact (IHd Hn (set_slines 0 st) Hq).
  - exact (IHd Hn (set_maxlines n st) Hq).
Qed.

Lemma measure_nonneg : forall d st im, noforce d -> quiet st -> (0 <= snd (measure d st im))%Z.
Proof.
  intros d st im Hn Hq. unfold measure. cbn [snd].
  apply (exec_calm (Indent (fst (snd im)) d) Hn (trial_start (fst im) st) (quiet_start _ _ Hq)). cbn. lia.
Qed.

(** Executing a minimizer is executing the cheapest candidate, the first of those. *)
Theorem minimize_best : forall n id ms d st, wf n (Minimize id ms d) -> noforce (Minimize id ms d) ->
  quiet st -> o_idx st = None ->
  exists b v, nth_error ms b = Some (v, false) /\
    exec (Minimize id ms d) st = set_idx None (exec (Indent v d) (set_idx (Some b) st)) /\
    let ps := measures ms d st in
    exists p, nth_error ps b = Some p /\
    forall j q, nth_error ps j = Some q -> (cost ps p <= cost ps q)%Z /\ (j < b -> (cost ps p < cost ps q)%Z).
Proof.
  intros n id ms d st (W1 & W2 & W3) (HF & Hn) Hq Hi. cbn [doc_exec1]. unfold exec_minimize. rewrite Hi.
  rewrite (try_all_quiet n id ms d st HF (exec_calm d Hn) W3 (eq_sym W1) Hq).
  2:{ split; [congruence|auto]. }
  2:{ apply Forall_forall. intros i Hin. apply in_seq in Hin. lia. }
  assert (EM : map (fun i => measure d st (i, nth i ms (0%Z, false))) (seq 0 (length ms)) = measures ms d st).
  { unfold measures. apply (map_combine_seq ms (measure d st) 0 []). reflexivity. }
  rewrite EM. set (ps := measures ms d st) in *.
  assert (Lps : length ps = n). { unfold ps, measures. rewrite map_length, combine_length, seq_length. lia. }
  assert (Hpos : Forall (fun p => (0 <= snd p)%Z) ps).
  { apply Forall_forall. intros p Hp. unfold ps, measures in Hp. apply in_map_iff in Hp. destruct Hp as (im & <- & _).
    apply measure_nonneg; auto. }
  clear EM. clearbody ps. unfold best_of.
  set (qs := map _ ps). assert (Lq : length qs = n) by (unfold qs; rewrite map_length; lia).
  destruct (pick_some (fun i => forced id ms i st) qs 0 None) as (b & H1 & H2).
  { right. destruct qs; [simpl in Lq; lia|discriminate]. }
  { discriminate. }
  rewrite H1. cbn [Nat.add] in H2.
  destruct (nth_error ms b) as [[v fl]|] eqn:Eb; [|apply nth_error_None in Eb; lia].
  assert (fl = false). { apply nth_error_In in Eb. rewrite Forall_forall in HF. apply (HF _ Eb). } subst fl.
  exists b, v. split; auto. split.
  { f_equal. apply minimize1_eq with (b := false); auto. }
  apply pick_spec in H1; [|discriminate]. destruct H1 as [(_ & _ & H3 & _) | (_ & q & Hb & _ & Hmin)].
  { rewrite forced_no in H3; auto. discriminate. }
  destruct Hb as [(Hb & _) | (_ & Hb)]; [lia|]. rewrite Nat.sub_0_r in Hb.
  unfold qs in Hb. rewrite nth_error_map in Hb. destruct (nth_error ps b) as [p|] eqn:Ep; [|discriminate]. cbn in Hb. inv Hb.
  exists p. split; auto. intros j r Hj.
  assert (Hjq : nth_error qs j = Some (penalty (fold_right Nat.max 0 (map fst ps)) (fold_right Z.max 0%Z (map snd ps)) r)).
  { unfold qs. rewrite nth_error_map, Hj. reflexivity. }
  destruct (Hmin _ _ Hjq) as (M1 & M2). apply nth_error_In in Ep, Hj. split.
  - apply Qle_bool_iff in M1. rewrite penalty_cost in M1; auto. apply Z.leb_le; auto.
  - intros Hlt. assert (M3 := M2 Hlt). apply Z.nle_gt. intros Hle. apply M3. apply Qle_bool_iff. rewrite penalty_cost; auto.
    apply Z.leb_le; auto.
Qed.
End Min.
