(** Blank skipping: what lexer_eat_spaces, lexer_eat_lines and
    lexer_eat_lines_and_spaces consume. *)
From Verif Require Import Base StrModel StrProofs UtilModel UtilProofs TokenModel LexModel LexSpec LexRefine.


Lemma sp_bl : forall c, sp c -> bl c.
Proof. unfold sp, bl; tauto. Qed.
Lemma lw_bl : forall c, lw c -> bl c.
Proof. unfold lw, bl; tauto. Qed.

Lemma code_eq : forall a b : byte, (code a <= code b <= code a)%N -> b = a.
Proof.
  intros x y Hxy. unfold code in Hxy.
  rewrite <- (ascii_N_embedding x), <- (ascii_N_embedding y). f_equal. lia.
Qed.

Lemma in_ranges_space : forall c, in_ranges c space_ranges = true <-> sp c.
Proof.
  intros c. rewrite in_ranges_code by (repeat constructor; vm_compute; auto).
  unfold space_ranges, sp. split.
  - intros H. inv H; [left; apply code_eq; auto|].
    inv H1; [right; left; apply code_eq; auto|].
    inv H0; [right; right; apply code_eq; auto|]. inv H1.
  - intros [ -> | [ -> | -> ] ]; [apply IR_here|apply IR_later, IR_here|apply IR_later, IR_later, IR_here]; lia.
Qed.


Section Blank.
Variable inp : bytes.
Notation L := (length inp).
Notation vinp := (vinp inp).

Lemma slice_beyond : forall a b, L <= a -> slice inp a b = [].
Proof. intros. unfold slice. rewrite skipn_all2 by auto. apply firstn_nil. Qed.

Lemma Forall_slice_app : forall (P : byte -> Prop) a b c, a <= b -> b <= c ->
  Forall P (slice inp a b) -> Forall P (slice inp b c) -> Forall P (slice inp a c).
Proof. intros. rewrite <- (slice_app inp a b c) by auto. apply Forall_app; auto. Qed.

Lemma Forall_slice_sub : forall (P : byte -> Prop) a b c d, a <= b -> b <= c -> c <= d ->
  Forall P (slice inp a d) -> Forall P (slice inp b c).
Proof.
  intros. rewrite <- (slice_app inp a b d), <- (slice_app inp b c d) in H2 by lia.
  apply Forall_app in H2. destruct H2 as [_ H2]. apply Forall_app in H2. tauto.
Qed.

Lemma Forall_slice_nth : forall (P : byte -> Prop) a b i c,
  Forall P (slice inp a b) -> a <= i < b -> nth_error inp i = Some c -> P c.
Proof.
  intros. apply (Forall_slice_sub P a i (S i) b) in H; try lia.
  rewrite (slice_cons _ _ _ _ (Nat.lt_succ_diag_r i) H1) in H. inv H; auto.
Qed.

(** ** Spaces *)
Lemma p_spaces_spec : forall v, v <= S L ->
  v <= p_spaces inp v <= Nat.max v L /\ Forall sp (slice inp v (p_spaces inp v)) /\
  (forall c, nth_error inp (p_spaces inp v) = Some c -> ~ sp c).
Proof.
  intros v Hv. unfold p_spaces. split; [apply p_match_le; auto|]. unfold p_match.
  set (p := fun c => in_ranges c space_ranges). split.
  - unfold slice. replace (v + span_len p (skipn v inp) - v) with (span_len p (skipn v inp)) by lia.
    eapply Forall_impl; [|apply span_len_all]. intros c Hc. apply in_ranges_space; auto.
  - intros c Hc. rewrite <- nth_error_skipn_add in Hc. apply span_len_stop in Hc.
    intros Hsp. apply in_ranges_space in Hsp. unfold p in Hc. congruence.
Qed.

(** ** Lines *)
(** No newline can be reached from [b] through line white-space. *)
Definition no_line (b : nat) : Prop :=
  forall e, b <= e -> Forall lw (slice inp b e) -> nth_error inp e <> Some NL.

Lemma lw_dec : forall c, ((c =c CR) = true \/ (c =c NL) = true \/ (c =c SP) = true \/ (c =c TAB) = true) <-> lw c.
Proof. intros. rewrite !eqb_true. unfold lw. tauto. Qed.

Lemma count_slice_S : forall a b c, a <= b -> nth_error inp b = Some c ->
  count_occ_b NL (slice inp a (S b)) = count_occ_b NL (slice inp a b) + (if c =c NL then 1 else 0).
Proof.
  intros. rewrite (slice_S _ _ _ _ H H0). rewrite count_app. simpl. lia.
Qed.

Lemma p_lines_loop_spec : forall l cur best n thr n' b', cur <= S L -> l = skipn cur vinp ->
  best <= cur -> Forall lw (slice inp best cur) -> count_occ_b NL (slice inp best cur) = 0 ->
  p_lines_loop l cur best n thr = (n', b') ->
  best <= b' <= Nat.max best L /\ Forall lw (slice inp best b') /\
  n' = n + count_occ_b NL (slice inp best b') /\
  (b' = best \/ best < b' /\ nth_error inp (pred b') = Some NL) /\
  (n' = thr /\ n < n' \/ no_line b').
Proof.
  induction l as [|c r IH]; cbn [p_lines_loop]; intros cur best n thr n' b' Hcur Hl Hb Hlw Hcnt H.
  - inv H. rewrite slice_nil. simpl.
    assert (cur = S L). { symmetry in Hl. apply skipn_vinp_nil in Hl. apply vinp_none in Hl; auto. }
    subst. repeat split; auto; try lia.
    right. intros e He HF Hnth.
    destruct (Nat.lt_ge_cases e (S L)).
    + pose proof (Forall_slice_nth (fun _ => True) b' (S L) e NL) as _.
      assert (Hsub : slice inp b' (S L) = slice inp b' e ++ slice inp e (S L)) by (symmetry; apply slice_app; lia).
      rewrite Hsub, count_app in Hcnt. rewrite (slice_cons inp e (S L) NL) in Hcnt; auto. simpl in Hcnt. lia.
    + assert (e < L) by (apply nth_error_Some; congruence). lia.
  - symmetry in Hl. destruct (skipn_vinp_cons _ _ _ _ Hl) as (Hc & Hr).
    pose proof (vinp_some _ _ _ Hc) as HcL.
    assert (Hstop : ~ lw c -> no_line best).
    { intros Hnlw e He HF Hnth. destruct (Nat.lt_trichotomy e cur) as [Hlt|[->|Hgt]].
      - assert (Hsub : slice inp best cur = slice inp best e ++ slice inp e cur) by (symmetry; apply slice_app; lia).
        rewrite Hsub, count_app in Hcnt. rewrite (slice_cons inp e cur NL) in Hcnt; auto. simpl in Hcnt. lia.
      - apply inp_vinp in Hnth. rewrite Hc in Hnth. inv Hnth. apply Hnlw. unfold lw; auto.
      - assert (e < L) by (apply nth_error_Some; congruence).
        apply Hnlw. apply (Forall_slice_nth lw best e cur c HF); [lia|].
        rewrite <- vinp_lt; auto; lia. }
    assert (Hstep : lw c -> (c =c NL) = false -> Forall lw (slice inp best (S cur)) /\
       count_occ_b NL (slice inp best (S cur)) = 0 /\ S cur <= S L).
    { intros Hclw HcNL. assert (Hi : nth_error inp cur = Some c).
      { apply vinp_inp; auto. unfold lw in Hclw. intros ->. intuition discriminate. }
      rewrite (count_slice_S _ _ _ Hb Hi), HcNL, Hcnt. rewrite (slice_S _ _ _ _ Hb Hi).
      repeat split; auto; try lia. apply Forall_app; auto. }
    destruct (c =c CR) eqn:ECR.
    { apply eqb_true in ECR; subst c. destruct Hstep as (H1 & H2 & H3); [unfold lw; auto|auto|].
      eapply IH in H; eauto. }
    destruct (c =c NL) eqn:ENL.
    { apply eqb_true in ENL; subst c.
      assert (Hi : nth_error inp cur = Some NL) by (apply vinp_inp; [auto|discriminate]).
      assert (HlwS : Forall lw (slice inp best (S cur))).
      { rewrite (slice_S _ _ _ _ Hb Hi). apply Forall_app; split; auto. constructor; [unfold lw; auto|auto]. }
      assert (HcS : count_occ_b NL (slice inp best (S cur)) = 1).
      { rewrite (count_slice_S _ _ _ Hb Hi), Hcnt. auto. }
      assert (HL' : cur < L) by (apply nth_error_Some; congruence).
      destruct (Nat.eqb_spec (S n) thr).
      - injection H as <- <-. rewrite HcS. repeat split; auto; try lia. right; split; [lia|exact Hi].
      - eapply IH in H; eauto; try lia.
        + destruct H as (H1 & H2 & H3 & H4 & H5).
          assert (Happ : slice inp best b' = slice inp best (S cur) ++ slice inp (S cur) b')
            by (symmetry; apply slice_app; lia).
          rewrite Happ, count_app, HcS. repeat split; auto; try lia.
          * apply Forall_app; auto.
          * right. split; [lia|]. destruct H4 as [->|[_ H4]]; auto.
          * destruct H5; auto. left; lia.
        + rewrite slice_nil; auto.
        + rewrite slice_nil; auto. }
    destruct (negb (c =c SP) && negb (c =c TAB)) eqn:EST.
    { injection H as <- <-. rewrite slice_nil. simpl. repeat split; auto; try lia.
      right. apply Hstop. rewrite <- lw_dec. rewrite ECR, ENL.
      apply andb_true_iff in EST. destruct EST as [E1 E2]. apply negb_true_iff in E1, E2. rewrite E1, E2.
      intuition discriminate. }
    assert (Hclw : lw c).
    { apply lw_dec. apply andb_false_iff in EST. rewrite !negb_false_iff in EST. tauto. }
    destruct (Hstep Hclw eq_refl) as (H1 & H2 & H3).
    eapply IH in H; eauto.
Qed.

Lemma p_lines_spec : forall thr v, v <= S L ->
  let '(n, b) := p_lines inp thr v in
  v <= b <= Nat.max v L /\ Forall lw (slice inp v b) /\
  (b = v \/ v < b /\ nth_error inp (pred b) = Some NL) /\
  (let k := count_occ_b NL (slice inp v b) in
   n = (if (k =? 0) || (k <? thr) then 0 else k) /\
   (k = thr /\ 0 < k \/ no_line b)).
Proof.
  intros thr v Hv. unfold p_lines.
  destruct (p_lines_loop (skipn v vinp) v v 0 thr) as [n b] eqn:E.
  apply p_lines_loop_spec in E; auto; try (rewrite slice_nil; auto).
  destruct E as (H1 & H2 & H3 & H4 & H5). simpl in H3. subst n. auto 10.
Qed.

(** With threshold 0 every reachable newline is consumed. *)
Lemma p_lines0_spec : forall v, v <= S L ->
  let '(n, b) := p_lines inp 0 v in
  v <= b <= Nat.max v L /\ Forall lw (slice inp v b) /\
  (n = 0 /\ b = v \/ 0 < n /\ v < b /\ nth_error inp (pred b) = Some NL) /\
  n = count_occ_b NL (slice inp v b) /\ no_line b.
Proof.
  intros v Hv. pose proof (p_lines_spec 0 v Hv) as H. destruct (p_lines inp 0 v) as [n b].
  destruct H as (H1 & H2 & H3 & H4 & H5). cbv zeta in *.
  set (k := count_occ_b NL (slice inp v b)) in *.
  assert (Hn : n = k) by (destruct k; simpl in *; auto). rewrite Hn. clear H4 Hn n.
  repeat split; auto; try lia.
  - destruct H3 as [->|[H3 H6]].
    + left. unfold k. rewrite slice_nil. auto.
    + right. split; auto. unfold k. destruct b; [lia|].
      simpl in H6. rewrite (slice_S inp v b NL) by (auto; lia). rewrite count_app. simpl. lia.
  - destruct H5 as [[H5 H6]|H5]; [lia|auto].
Qed.

(** ** Lines and spaces *)
Definition els_post (v s v' s' : nat) : Prop :=
  v <= v' <= Nat.max v L /\ Forall bl (slice inp v v') /\
  (forall c, nth_error inp v' = Some c -> ~ sp c) /\ no_line v' /\
  (s' = s /\ Forall sp (slice inp v v') \/
   v < s' <= v' /\ nth_error inp (pred s') = Some NL /\ Forall sp (slice inp s' v')).

Lemma p_els_loop_spec : forall fuel v s got v' s', v <= S L -> L - v < fuel ->
  (got = true -> forall c, nth_error inp v = Some c -> ~ sp c) ->
  p_els_loop inp fuel v s got = (v', s') -> els_post v s v' s'.
Proof.
  induction fuel; intros v s got v' s' Hv Hf Hg H; [lia|]. cbn [p_els_loop] in H.
  pose proof (p_lines0_spec v Hv) as Hl. destruct (p_lines inp 0 v) as [n v1].
  destruct Hl as (H1 & H2 & H3 & H4 & H5).
  assert (Hv1 : v1 <= S L) by lia.
  destruct (Nat.eqb_spec n 0) as [->|Hn]; cbn [andb] in H.
  - destruct H3 as [[_ ->]|[? _]]; [|lia].
    destruct got.
    + inv H. unfold els_post. rewrite slice_nil. repeat split; auto; try lia.
    + destruct (p_spaces_spec v Hv) as (S1 & S2 & S3).
      destruct (Nat.eqb_spec (p_spaces inp v) v) as [Heq|Hne].
      * inv H. rewrite Heq in *. unfold els_post. rewrite slice_nil. repeat split; auto; try lia.
      * eapply IHfuel in H; eauto; try lia.
        destruct H as (E1 & E2 & E3 & E4 & E5).
        unfold els_post. repeat split; auto; try lia.
        -- eapply (Forall_slice_app bl v (p_spaces inp v) v'); auto; try lia.
           eapply Forall_impl; [apply sp_bl|]; auto.
        -- destruct E5 as [[-> E5]|E5].
           ++ left. split; auto. eapply (Forall_slice_app sp v (p_spaces inp v) v'); auto; lia.
           ++ right. destruct E5 as (? & ? & ?). repeat split; auto; lia.
  - destruct H3 as [[? _]|(_ & H3 & H3')]; [lia|].
    destruct (p_spaces_spec v1 Hv1) as (S1 & S2 & S3).
    destruct (Nat.eqb_spec (p_spaces inp v1) v1) as [Heq|Hne].
    + inv H. rewrite Heq in *. unfold els_post. repeat split; auto; try lia.
      eapply Forall_impl; [apply lw_bl|]; auto.
    + eapply IHfuel in H; eauto; try lia.
      destruct H as (E1 & E2 & E3 & E4 & E5).
      unfold els_post. repeat split; auto; try lia.
      * eapply (Forall_slice_app bl v v1 v'); auto; try lia.
        -- eapply Forall_impl; [apply lw_bl|]; auto.
        -- eapply (Forall_slice_app bl v1 (p_spaces inp v1) v'); auto; try lia.
           eapply Forall_impl; [apply sp_bl|]; auto.
      * right. destruct E5 as [[-> E5]|E5].
        -- repeat split; auto; try lia. eapply (Forall_slice_app sp v1 (p_spaces inp v1) v'); auto; lia.
        -- destruct E5 as (? & ? & ?). repeat split; auto; lia.
Qed.

Lemma p_els_spec : forall v s, v <= S L -> els_post v s (fst (p_els inp v s)) (snd (p_els inp v s)).
Proof.
  intros v s Hv. unfold p_els. destruct (p_els_loop inp (FUEL inp) v s false) as [v' s'] eqn:E.
  eapply p_els_loop_spec in E; eauto. 
  - unfold FUEL; lia.
  - discriminate.
Qed.

(** The position does not depend on [s]. *)
Lemma p_els_loop_fst : forall fuel v s1 s2 got,
  fst (p_els_loop inp fuel v s1 got) = fst (p_els_loop inp fuel v s2 got).
Proof.
  induction fuel; intros v s1 s2 got; cbn [p_els_loop]; auto.
  destruct (p_lines inp 0 v) as [n v1]. destruct (_ && got); auto.
  destruct (p_spaces inp v1 =? v1); auto.
Qed.
Lemma p_els_fst : forall v s1 s2, fst (p_els inp v s1) = fst (p_els inp v s2).
Proof. intros. apply p_els_loop_fst. Qed.

(** On a line of spaces it skips just the spaces. *)
Lemma p_els_at_spaces : forall v s c, v <= S L ->
  nth_error inp (p_spaces inp v) = Some c -> ~ bl c ->
  p_els inp v s = (p_spaces inp v, s).
Proof.
  intros v s c Hv Hc Hbl. destruct (p_spaces_spec v Hv) as (S1 & S2 & S3).
  pose proof (p_els_spec v s Hv) as (E1 & E2 & E3 & E4 & E5).
  destruct (p_els inp v s) as [v' s'] eqn:E. cbn [fst snd] in *.
  assert (Hi : p_spaces inp v < L) by (apply nth_error_Some; congruence).
  assert (Hle : v' <= p_spaces inp v).
  { destruct (Nat.le_gt_cases v' (p_spaces inp v)); auto. exfalso. apply Hbl.
    eapply Forall_slice_nth; [exact E2| |exact Hc]. lia. }
  assert (Hge : p_spaces inp v <= v').
  { destruct (Nat.le_gt_cases (p_spaces inp v) v'); auto. exfalso.
    destruct (nth_error inp v') as [x|] eqn:Ex.
    - apply (E3 x); auto. eapply Forall_slice_nth; [exact S2| |exact Ex]. lia.
    - apply nth_error_None in Ex. lia. }
  assert (v' = p_spaces inp v) by lia. subst v'. f_equal.
  destruct E5 as [[-> _]|(H1 & H2 & _)]; auto. exfalso.
  assert (Hsp : sp NL). { eapply Forall_slice_nth; [exact S2| |exact H2]. lia. }
  unfold sp in Hsp. intuition discriminate.
Qed.
End Blank.
