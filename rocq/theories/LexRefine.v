(** Refinement of the stateful reader by functions on positions.

    A reader state is determined by a single number, the virtual position [v]: the
    buffer is thought of as followed by one NUL byte (the byte lexer_getc makes up
    at the end of the buffer), [v <= length inp] means offset [v] without the EOF
    flag and [v = S (length inp)] means the EOF flag is set. *)
From Verif Require Import Base StrModel StrProofs UtilModel UtilProofs TokenModel LexModel.

Lemma count_app : forall c a b, count_occ_b c (a ++ b) = count_occ_b c a + count_occ_b c b.
Proof. induction a; simpl; intros; auto. rewrite IHa; lia. Qed.

Section Positions.
Variable inp : bytes.

Definition vinp : bytes := inp ++ [NUL].
Notation L := (length inp).

Definition clamp (v : nat) : nat := Nat.min v L.
(** Number of newlines before an offset. *)
Definition nlc (o : nat) : nat := count_occ_b NL (firstn o inp).
Definition mkst (v : nat) : lstate := St (clamp v) (S (nlc (clamp v))) (L <? v).

(** Entry [i] of the line table is the offset at which line [i+1] starts. *)
Definition lines_ok (lines : list nat) : Prop :=
  forall i lo, nth_error lines i = Some lo ->
  lo <= L /\ nlc lo = i /\ (lo = 0 \/ nth_error inp (pred lo) = Some NL).

Definition R (lx : lexer) (v : nat) : Prop :=
  l_st lx = mkst v /\ v <= S L /\ lines_ok (l_lines lx) /\
  nlc (clamp v) < length (l_lines lx) /\ l_bad lx = false.

Lemma R_intro : forall lx v, l_st lx = mkst v -> v <= S L -> lines_ok (l_lines lx) ->
  nlc (clamp v) < length (l_lines lx) -> l_bad lx = false -> R lx v.
Proof. unfold R; auto. Qed.

Lemma nlc_S : forall o c, nth_error inp o = Some c -> nlc (S o) = nlc o + (if c =c NL then 1 else 0).
Proof.
  intros. unfold nlc. rewrite (firstn_S_nth _ _ _ H), count_app. simpl. lia.
Qed.

Lemma nlc_add : forall a b, a <= b -> nlc b = nlc a + count_occ_b NL (slice inp a b).
Proof.
  intros. unfold nlc, slice. rewrite <- count_app. f_equal.
  rewrite <- (firstn_skipn a (firstn b inp)). f_equal.
  - rewrite firstn_firstn. f_equal; lia.
  - rewrite skipn_firstn_comm. auto.
Qed.

Lemma nlc_mono : forall a b, a <= b -> nlc a <= nlc b.
Proof. intros. rewrite (nlc_add a b); lia. Qed.

Lemma clamp_le : forall v, clamp v <= L.
Proof. unfold clamp; lia. Qed.
Lemma clamp_id : forall v, v <= L -> clamp v = v.
Proof. unfold clamp; lia. Qed.
Lemma clamp_mono : forall a b, a <= b -> clamp a <= clamp b.
Proof. unfold clamp; lia. Qed.

Lemma vinp_length : length vinp = S L.
Proof. unfold vinp. rewrite app_length; simpl; lia. Qed.

Lemma vinp_lt : forall v, v < L -> nth_error vinp v = nth_error inp v.
Proof. intros. unfold vinp. apply nth_error_app1; auto. Qed.
Lemma vinp_L : nth_error vinp L = Some NUL.
Proof. unfold vinp. rewrite nth_error_app2, Nat.sub_diag; auto. Qed.
Lemma vinp_none : forall v, v <= S L -> nth_error vinp v = None -> v = S L.
Proof. intros v H H0. apply nth_error_None in H0. rewrite vinp_length in H0. lia. Qed.
Lemma vinp_some : forall v c, nth_error vinp v = Some c -> v <= L.
Proof. intros. assert (v < length vinp) by (apply nth_error_Some; congruence). rewrite vinp_length in *; lia. Qed.
Lemma vinp_inp : forall v c, nth_error vinp v = Some c -> c <> NUL -> nth_error inp v = Some c.
Proof.
  intros. pose proof (vinp_some _ _ H). destruct (Nat.eq_dec v L).
  - subst. rewrite vinp_L in H. congruence.
  - rewrite <- vinp_lt; auto; lia.
Qed.
Lemma inp_vinp : forall v c, nth_error inp v = Some c -> nth_error vinp v = Some c.
Proof.
  intros. assert (v < L) by (apply nth_error_Some; congruence). rewrite vinp_lt; auto.
Qed.

Lemma skipn_vinp_cons : forall v c r, skipn v vinp = c :: r -> nth_error vinp v = Some c /\ r = skipn (S v) vinp.
Proof.
  intros v c r H. assert (nth_error vinp v = Some c) by (rewrite nth_error_skipn, H; auto).
  split; auto. rewrite (skipn_cons _ _ _ H0) in H. congruence.
Qed.
Lemma skipn_vinp_nil : forall v, skipn v vinp = [] -> nth_error vinp v = None.
Proof. intros v H. rewrite nth_error_skipn, H; auto. Qed.

Lemma R_init : R lexer_init 0.
Proof.
  apply R_intro; try reflexivity; try (simpl; lia); [|change (0 < 1); lia].
  intros i lo H. destruct i as [|[|i]]; simpl in H; inv H. split; [apply Nat.le_0_l|]. split; [reflexivity|left; reflexivity].
Qed.

Lemma getc_some : forall lx v c, R lx v -> nth_error vinp v = Some c ->
  exists lx', getc inp lx = (Some c, lx') /\ R lx' (S v).
Proof.
  intros lx v c (Hst & Hv & Hl & Hn & Hb) Hc.
  pose proof (vinp_some _ _ Hc) as HvL.
  unfold getc, lexer_eof, off. rewrite Hst. cbn [s_off s_eof s_lno mkst].
  rewrite clamp_id in * by lia.
  destruct (Nat.eqb_spec v L) as [->|Hne].
  - rewrite vinp_L in Hc. inv Hc. rewrite Nat.ltb_irrefl.
    eexists; split; eauto. apply R_intro; unfold set_state, mkst; cbn [l_st l_lines l_bad]; auto.
    + replace (clamp (S L)) with L by (unfold clamp; lia).
      replace (L <? S L) with true by (symmetry; apply Nat.ltb_lt; lia). auto.
    + replace (clamp (S L)) with L by (unfold clamp; lia). auto.
  - assert (Hi : nth_error inp v = Some c) by (rewrite <- vinp_lt; auto; lia).
    rewrite Hi. pose proof (nlc_S _ _ Hi) as HS.
    assert (HE : (L <? S v) = (L <? v)).
    { replace (L <? v) with false by (symmetry; apply Nat.ltb_ge; lia). apply Nat.ltb_ge; lia. }
    assert (HC : clamp (S v) = S v) by (apply clamp_id; lia).
    destruct (c =c NL) eqn:EN.
    + eexists; split; [reflexivity|]. unfold line_alloc, set_state, off; cbn [l_st l_lines l_bad s_off].
      destruct (Nat.ltb_spec (S (S (nlc v)) - 1) (length (l_lines lx))).
      * apply R_intro; cbn [l_st l_lines l_bad]; auto; try lia.
        -- unfold mkst. rewrite HC, HE, HS. f_equal; lia.
        -- rewrite HC, HS. lia.
      * assert (HLn : length (l_lines lx) = S (nlc v)) by lia.
        apply R_intro; cbn [l_st l_lines l_bad]; auto; try lia.
        -- unfold mkst. rewrite HC, HE, HS. f_equal; lia.
        -- intros i lo H0. destruct (Nat.lt_ge_cases i (length (l_lines lx))).
           ++ rewrite nth_error_app1 in H0 by auto. apply Hl in H0; tauto.
           ++ rewrite nth_error_app2 in H0 by auto.
              destruct (i - length (l_lines lx)) as [|k] eqn:Ek; simpl in H0; [|destruct k; discriminate].
              inv H0. repeat split; try lia. right. simpl. apply eqb_true in EN; subst; auto.
        -- rewrite HC, HS, app_length; simpl; lia.
    + eexists; split; [reflexivity|]. apply R_intro; unfold set_state; cbn [l_st l_lines l_bad]; auto; try lia.
      * unfold mkst. rewrite HC, HE, HS. f_equal; lia.
      * rewrite HC, HS. lia.
Qed.

Lemma getc_none : forall lx v, R lx v -> nth_error vinp v = None -> getc inp lx = (None, lx).
Proof.
  intros lx v (Hst & Hv & Hl & Hn & Hb) Hc.
  pose proof (vinp_none _ Hv Hc); subst.
  unfold getc, lexer_eof, off. rewrite Hst. cbn [s_off s_eof s_lno mkst].
  replace (clamp (S L)) with L by (unfold clamp; lia). rewrite Nat.eqb_refl.
  replace (L <? S L) with true by (symmetry; apply Nat.ltb_lt; lia). auto.
Qed.

Definition p_unget (v : nat) : nat := if L <? v then v else pred v.

Lemma p_unget_S : forall v, v < L -> p_unget (S v) = v.
Proof. intros. unfold p_unget. replace (L <? S v) with false by (symmetry; apply Nat.ltb_ge; lia). auto. Qed.
Lemma p_unget_le : forall v, p_unget v <= v.
Proof. intros. unfold p_unget. destruct (L <? v); lia. Qed.

Lemma set_state_R : forall lx v a, R lx v -> a <= v -> R (set_state lx (mkst a)) a.
Proof.
  intros lx v a (Hst & Hv & Hl & Hn & Hb) Ha.
  apply R_intro; unfold set_state; cbn [l_st l_lines l_bad]; auto; try lia.
  eapply Nat.le_lt_trans; [|exact Hn]. apply nlc_mono, clamp_mono; auto.
Qed.

Lemma set_state_bad : forall lx st, l_bad (set_state lx st) = l_bad lx.
Proof. reflexivity. Qed.

Lemma ungetc_R : forall lx v, R lx (S v) -> R (ungetc inp lx) (p_unget (S v)).
Proof.
  intros lx v HR. pose proof HR as (Hst & Hv & Hl & Hn & Hb).
  unfold ungetc, p_unget. rewrite Hst. cbn [s_off s_eof s_lno mkst].
  destruct (Nat.ltb_spec L (S v)).
  - auto.
  - rewrite clamp_id by lia.
    destruct (nth_error inp v) as [c|] eqn:Hc.
    + replace (St v (if c =c NL then S (nlc (S v)) - 1 else S (nlc (S v))) false) with (mkst v).
      * simpl pred. eapply set_state_R; eauto.
      * unfold mkst. rewrite clamp_id by lia. rewrite (nlc_S _ _ Hc).
        replace (L <? v) with false by (symmetry; apply Nat.ltb_ge; lia).
        destruct (c =c NL); f_equal; lia.
    + apply nth_error_None in Hc. lia.
Qed.

Lemma R_st : forall lx v, R lx v -> l_st lx = mkst v.
Proof. intros lx v H; apply H. Qed.
Lemma R_off : forall lx v, R lx v -> off lx = clamp v.
Proof. intros lx v H. unfold off. rewrite (R_st _ _ H). auto. Qed.
Lemma R_le : forall lx v, R lx v -> v <= S L.
Proof. intros lx v H; apply H. Qed.
Lemma R_bad : forall lx v, R lx v -> l_bad lx = false.
Proof. intros lx v H; apply H. Qed.
Lemma R_eof : forall lx v, R lx v -> lexer_eof inp lx = (L <=? v).
Proof.
  intros lx v H. unfold lexer_eof. rewrite (R_off _ _ H). unfold clamp.
  destruct (Nat.leb_spec L v), (Nat.eqb_spec (Nat.min v L) L); auto; lia.
Qed.

(** ** Matching spans *)
Definition p_match (ranges : bytes) (v : nat) : nat :=
  v + span_len (fun c => in_ranges c ranges) (skipn v inp).

Lemma p_match_le : forall r v, v <= S L -> v <= p_match r v <= Nat.max v L.
Proof.
  intros. unfold p_match. pose proof (span_len_le (fun c => in_ranges c r) (skipn v inp)).
  rewrite skipn_length in *. lia.
Qed.

Lemma span_no_nl : forall p (l : bytes), p NL = false -> count_occ_b NL (firstn (span_len p l) l) = 0.
Proof.
  induction l; simpl; intros; auto. destruct (p a) eqn:E; auto. simpl. rewrite IHl by auto.
  destruct (a =c NL) eqn:E2; auto. apply eqb_true in E2; subst; congruence.
Qed.

Lemma lexer_match_R : forall lx v ranges, R lx v -> in_ranges NL ranges = false ->
  exists lx', lexer_match inp lx ranges = (span_len (fun c => in_ranges c ranges) (skipn v inp), lx') /\
  R lx' (p_match ranges v).
Proof.
  intros lx v ranges HR HN. pose proof HR as (Hst & Hv & Hl & Hn & Hb).
  unfold lexer_match, KS_str_match_default. rewrite match_default_from_span.
  rewrite Hst. cbn [s_off s_lno s_eof mkst plus].
  assert (E : span_len (fun c => in_ranges c ranges) (skipn (clamp v) inp) =
              span_len (fun c => in_ranges c ranges) (skipn v inp)).
  { unfold clamp. destruct (Nat.le_gt_cases v L).
    - replace (Nat.min v L) with v by lia; auto.
    - rewrite (skipn_all2 inp) by lia. rewrite (skipn_all2 inp) by lia. auto. }
  rewrite E. eexists; split; eauto.
  assert (E2 : St (clamp v + span_len (fun c => in_ranges c ranges) (skipn v inp)) (S (nlc (clamp v))) (L <? v)
    = mkst (p_match ranges v)).
  { unfold mkst, p_match. set (n := span_len _ _).
    pose proof (span_len_le (fun c => in_ranges c ranges) (skipn v inp)) as HS. fold n in HS.
    rewrite skipn_length in HS.
    assert (EC : clamp (v + n) = clamp v + n) by (unfold clamp; lia). rewrite EC.
    f_equal.
    - f_equal. rewrite (nlc_add (clamp v) (clamp v + n)) by lia.
      unfold slice. replace (clamp v + n - clamp v) with n by lia.
      unfold n. rewrite <- E. rewrite span_no_nl; auto.
    - destruct (Nat.ltb_spec L v), (Nat.ltb_spec L (v + n)); auto; lia. }
  rewrite E2. pose proof (p_match_le ranges v Hv).
  apply R_intro; unfold set_state; cbn [l_st l_lines l_bad]; auto; try lia.
  replace (nlc (clamp (p_match ranges v))) with (nlc (clamp v)); auto.
  unfold mkst in E2. inversion E2. auto.
Qed.

Definition p_spaces (v : nat) : nat := p_match space_ranges v.

Lemma eat_spaces_R : forall lx v, R lx v ->
  exists lx', eat_spaces inp lx = (negb (p_spaces v =? v), lx') /\ R lx' (p_spaces v).
Proof.
  intros lx v HR. unfold eat_spaces.
  destruct (lexer_match_R lx v space_ranges HR eq_refl) as (lx' & E & HR').
  rewrite E. unfold p_spaces. set (n := span_len _ _) in *.
  assert (EP : p_match space_ranges v = v + n) by reflexivity.
  destruct (Nat.eqb_spec n 0).
  - replace (p_match space_ranges v =? v) with true by (symmetry; apply Nat.eqb_eq; lia).
    eexists; split; eauto. replace (p_match space_ranges v) with v by lia. auto.
  - replace (p_match space_ranges v =? v) with false by (symmetry; apply Nat.eqb_neq; lia). eauto.
Qed.

(** ** Hard lines *)
(** Remaining bytes, current position, position after the last newline, newlines. *)
Fixpoint p_lines_loop (l : bytes) (cur best n thr : nat) : nat * nat :=
  match l with
  | [] => (n, best)
  | c :: r =>
      if c =c CR then p_lines_loop r (S cur) best n thr
      else if c =c NL then
        if S n =? thr then (S n, S cur) else p_lines_loop r (S cur) (S cur) (S n) thr
      else if negb (c =c SP) && negb (c =c TAB) then (n, best)
      else p_lines_loop r (S cur) best n thr
  end.

Definition p_lines (thr v : nat) : nat * nat :=
  let '(n, b) := p_lines_loop (skipn v vinp) v v 0 thr in
  (if (n =? 0) || (n <? thr) then 0 else n, b).

Lemma eat_lines_loop_R : forall fuel lx v best n thr, R lx v -> best <= v ->
  length (skipn v vinp) < fuel ->
  exists lx' v', let '(n', b') := p_lines_loop (skipn v vinp) v best n thr in
    eat_lines_loop inp fuel lx (mkst best) n thr = (lx', mkst b', n') /\
    R lx' v' /\ b' <= v'.
Proof.
  induction fuel; intros lx v best n thr HR Hb Hf; [lia|]. cbn [eat_lines_loop].
  destruct (skipn v vinp) as [|c r] eqn:Es.
  - cbn [p_lines_loop]. rewrite (getc_none _ _ HR (skipn_vinp_nil _ Es)). eauto.
  - destruct (skipn_vinp_cons _ _ _ Es) as (Hc & ->).
    destruct (getc_some _ _ _ HR Hc) as (lx1 & E & HR1). rewrite E. cbn [p_lines_loop].
    assert (Hf' : length (skipn (S v) vinp) < fuel) by (cbn [length] in Hf; lia).
    destruct (c =c CR) eqn:E1; [apply IHfuel; auto|].
    destruct (c =c NL) eqn:E2.
    + destruct (S n =? thr).
      * rewrite (R_st _ _ HR1). eauto.
      * rewrite (R_st _ _ HR1). apply IHfuel; auto.
    + destruct (negb (c =c SP) && negb (c =c TAB)).
      * pose proof (ungetc_R _ _ HR1). eexists _, _. split; [reflexivity|]. split; eauto.
        unfold p_unget. destruct (L <? S v); simpl; lia.
      * apply IHfuel; auto.
Qed.

Lemma eat_lines_R : forall lx v thr, R lx v -> exists lx',
  eat_lines inp lx thr = (fst (p_lines thr v), lx') /\ R lx' (snd (p_lines thr v)).
Proof.
  intros lx v thr HR. unfold eat_lines, p_lines. rewrite (R_st _ _ HR).
  assert (Hf : length (skipn v vinp) < FUEL inp).
  { rewrite skipn_length, vinp_length. unfold FUEL. lia. }
  destruct (eat_lines_loop_R (FUEL inp) lx v v 0 thr HR (le_n _) Hf) as (lx' & v' & H).
  destruct (p_lines_loop (skipn v vinp) v v 0 thr) as [n b].
  destruct H as (H1 & H2 & H3). rewrite H1.
  destruct ((n =? 0) || (n <? thr)); cbn [fst snd]; eauto using set_state_R.
Qed.

(** ** Lines and spaces *)
Fixpoint p_els_loop (fuel v s : nat) (got : bool) : nat * nat :=
  match fuel with
  | 0 => (v, s)
  | S f =>
    let '(n, v1) := p_lines 0 v in
    if (n =? 0) && got then (v1, s)
    else
      let s1 := if n =? 0 then s else v1 in
      let v2 := p_spaces v1 in
      if v2 =? v1 then (v2, s1) else p_els_loop f v2 s1 true
  end.
Definition p_els (v s : nat) : nat * nat := p_els_loop (FUEL inp) v s false.

Lemma p_lines_loop_ge : forall l cur best n thr, best <= cur ->
  best <= snd (p_lines_loop l cur best n thr) <= cur + length l.
Proof.
  induction l as [|c r IH]; cbn [p_lines_loop]; intros cur best n thr H; [simpl; lia|].
  destruct (c =c CR).
  { specialize (IH (S cur) best n thr). simpl length. lia. }
  destruct (c =c NL).
  { destruct (S n =? thr); [simpl; lia|]. specialize (IH (S cur) (S cur) (S n) thr). simpl length. lia. }
  destruct (_ && _); [simpl; lia|]. specialize (IH (S cur) best n thr). simpl length. lia.
Qed.

Lemma p_lines_ge : forall thr v, v <= snd (p_lines thr v).
Proof.
  intros. unfold p_lines. pose proof (p_lines_loop_ge (skipn v vinp) v v 0 thr).
  destruct (p_lines_loop _ _ _ _ _); simpl in *. lia.
Qed.
Lemma p_spaces_ge : forall v, v <= p_spaces v.
Proof. intros. unfold p_spaces, p_match. lia. Qed.

Lemma els_loop_R : forall fuel lx v s got, R lx v -> s <= v -> L - v < fuel ->
  exists lx', eat_lines_and_spaces_loop inp fuel lx (mkst s) got =
    (lx', mkst (snd (p_els_loop fuel v s got))) /\
  R lx' (fst (p_els_loop fuel v s got)) /\
  snd (p_els_loop fuel v s got) <= fst (p_els_loop fuel v s got) /\
  v <= fst (p_els_loop fuel v s got).
Proof.
  induction fuel; intros lx v s got HR Hs Hf; [lia|]. cbn [eat_lines_and_spaces_loop p_els_loop].
  destruct (eat_lines_R lx v 0 HR) as (lx1 & E1 & HR1). rewrite E1.
  pose proof (p_lines_ge 0 v) as Hge.
  destruct (p_lines 0 v) as [n v1] eqn:Ep. cbn [fst snd] in *.
  destruct ((n =? 0) && got).
  - exists lx1. cbn [fst snd]. split; [reflexivity|]. split; [exact HR1|lia].
  - destruct (eat_spaces_R lx1 v1 HR1) as (lx2 & E2 & HR2). rewrite E2.
    pose proof (p_spaces_ge v1) as Hge2.
    assert (Hst : (if n =? 0 then mkst s else l_st lx1) = mkst (if n =? 0 then s else v1)).
    { destruct (n =? 0); auto. apply R_st; auto. }
    rewrite Hst.
    destruct (Nat.eqb_spec (p_spaces v1) v1) as [Heq|Hneq]; cbn [negb].
    + exists lx2. cbn [fst snd]. split; [reflexivity|]. split; [exact HR2|]. destruct (n =? 0); lia.
    + pose proof (R_le _ _ HR2). pose proof (p_match_le space_ranges v1 (R_le _ _ HR1)).
      fold (p_spaces v1) in H0.
      destruct (IHfuel lx2 (p_spaces v1) (if n =? 0 then s else v1) true) as (lx3 & E3 & HR3 & H3 & H4).
      * auto.
      * destruct (n =? 0); lia.
      * lia.
      * exists lx3. split; [exact E3|]. split; [exact HR3|lia].
Qed.

Lemma els_R : forall lx v s, R lx v -> s <= v ->
  exists lx', eat_lines_and_spaces inp lx (mkst s) = (lx', mkst (snd (p_els v s))) /\
  R lx' (fst (p_els v s)) /\ snd (p_els v s) <= fst (p_els v s) /\ v <= fst (p_els v s).
Proof.
  intros lx v s HR Hs. unfold eat_lines_and_spaces, p_els.
  apply els_loop_R; auto. unfold FUEL. lia.
Qed.

Lemma display_col_line : forall lo o, lo <= o -> (lo = 0 \/ nth_error inp (pred lo) = Some NL) ->
  display_col (slice inp lo o) 0 = display_col (firstn o inp) 0.
Proof.
  intros lo o Hle Hlo.
  assert (E : firstn o inp = firstn lo inp ++ slice inp lo o).
  { unfold slice. rewrite <- (firstn_skipn lo (firstn o inp)). f_equal.
    - rewrite firstn_firstn. f_equal; lia.
    - rewrite skipn_firstn_comm. auto. }
  rewrite E, display_col_app. f_equal.
  destruct Hlo as [->|H]; auto. destruct lo as [|k]; auto. simpl in H.
  rewrite (firstn_S_nth _ _ _ H), display_col_app. reflexivity.
Qed.

Definition p_slice (a b : nat) : option bytes :=
  if clamp b - clamp a =? 0 then None else Some (slice inp (clamp a) (clamp b)).
Lemma buffer_slice_R : forall lx v a, R lx v -> buffer_slice inp lx (mkst a) = p_slice a v.
Proof. intros lx v a HR. unfold buffer_slice, p_slice. rewrite (R_off _ _ HR). reflexivity. Qed.

Definition p_find (a b : nat) : option keyword :=
  match p_slice a b with None => None | Some key => find_keyword1 key end.
Lemma find_keyword_R : forall lx v a, R lx v -> find_keyword inp lx (mkst a) = p_find a v.
Proof. intros lx v a HR. unfold find_keyword, p_find. rewrite (buffer_slice_R _ _ _ HR). reflexivity. Qed.

Definition p_find_cpp (a b : nat) : ttype :=
  match p_slice a b with
  | None => T_CPP
  | Some key =>
      match find (fun '(_, s) => beq (s2b s) key) cpp_names with Some (t, _) => t | None => T_CPP end
  end.
Lemma find_cpp_R : forall lx v a, R lx v -> find_cpp inp lx (mkst a) = p_find_cpp a v.
Proof. intros lx v a HR. unfold find_cpp, p_find_cpp. rewrite (buffer_slice_R _ _ _ HR). reflexivity. Qed.

(** Reading one byte: [getc_cases lx HR] destructs on the byte at the position. *)
Ltac getc_cases HR c :=
  let Hc := fresh "Hc" in let lx' := fresh "lx" in let E := fresh "E" in let HR' := fresh "HR" in
  match type of HR with
  | R ?lx ?v =>
      destruct (nth_error vinp v) as [c|] eqn:Hc;
      [destruct (getc_some _ _ _ HR Hc) as (lx' & E & HR'); rewrite E
      |rewrite (getc_none _ _ HR Hc)]
  end.

Definition is_at (v : nat) (c : byte) : bool :=
  match nth_error vinp v with Some x => x =c c | None => false end.

Definition p_ellipsis (v a : nat) : option keyword * nat :=
  if is_at v "." && is_at (S v) "." then (p_find a (S (S v)), S (S v)) else (None, v).

Lemma ellipsis_R : forall lx v a, R lx v -> exists lx',
  ellipsis inp lx (mkst a) = (fst (p_ellipsis v a), lx') /\ R lx' (snd (p_ellipsis v a)).
Proof.
  intros lx v a HR. unfold ellipsis, p_ellipsis, is_at. rewrite (R_st _ _ HR).
  getc_cases HR c1.
  - destruct (c1 =c "."); cbn [andb].
    + getc_cases HR0 c2.
      * destruct (c2 =c ".").
        -- rewrite (find_keyword_R _ _ _ HR1). eexists; split; [reflexivity|]; auto.
        -- eexists; split; eauto. eapply set_state_R; eauto; lia.
      * eexists; split; eauto. eapply set_state_R; eauto; lia.
    + eexists; split; eauto. eapply set_state_R; eauto; lia.
  - eexists; split; eauto. eapply set_state_R; eauto; lia.
Qed.

(** ** Operators *)
Fixpoint p_kwloop (fuel v a : nat) (pv : option keyword) : option keyword * nat :=
  match fuel with
  | 0 => (None, v)
  | S f =>
    match p_find a v with
    | None => (pv, p_unget v)
    | Some tmp =>
      if negb (has_flag (kw_flags tmp) F_AMBIGUOUS) then (Some tmp, v)
      else
        let continue (v : nat) :=
          match nth_error vinp v with
          | None => (Some tmp, v)
          | Some _ => p_kwloop f (S v) a (Some tmp)
          end in
        if ttype_eqb (kw_type tmp) T_PERIOD then
          match nth_error vinp v with
          | None => (None, v)
          | Some peek =>
              if isdigit peek then (None, S v)
              else match p_ellipsis (p_unget (S v)) a with
                   | (Some e, v2) => (Some e, v2)
                   | (None, v2) => continue v2
                   end
          end
        else continue v
    end
  end.

Lemma p_ellipsis_ge : forall v a, v <= snd (p_ellipsis v a).
Proof. intros. unfold p_ellipsis. destruct (_ && _); simpl; lia. Qed.
Lemma p_unget_ge : forall v, v <= p_unget (S v).
Proof. intros. unfold p_unget. destruct (L <? S v); simpl; lia. Qed.

Lemma keyword_loop_R : forall fuel lx v a pv, R lx v -> a < v -> S L - v < fuel ->
  exists lx', keyword_loop inp fuel lx (mkst a) pv = (fst (p_kwloop fuel v a pv), lx') /\
  R lx' (snd (p_kwloop fuel v a pv)) /\ a <= snd (p_kwloop fuel v a pv).
Proof.
  induction fuel; intros lx v a pv HR Ha Hf; [lia|]. cbn [keyword_loop p_kwloop].
  rewrite (find_keyword_R _ _ _ HR).
  destruct (p_find a v) as [tmp|].
  2:{ destruct v as [|v']; [lia|]. eexists; split; [reflexivity|].
      split; [apply ungetc_R; auto|]. cbn [snd]. pose proof (p_unget_ge v'). lia. }
  destruct (has_flag (kw_flags tmp) F_AMBIGUOUS); cbn [negb].
  2:{ eexists; split; [reflexivity|]. split; auto. simpl; lia. }
  assert (Hcont : forall lxc vc, R lxc vc -> v <= vc -> exists lx',
    (match getc inp lxc with
     | (None, lx1) => (Some tmp, lx1)
     | (Some _, lx1) => keyword_loop inp fuel lx1 (mkst a) (Some tmp)
     end) = (fst (match nth_error vinp vc with
          | None => (Some tmp, vc)
          | Some _ => p_kwloop fuel (S vc) a (Some tmp)
          end), lx') /\
    R lx' (snd (match nth_error vinp vc with
          | None => (Some tmp, vc)
          | Some _ => p_kwloop fuel (S vc) a (Some tmp)
          end)) /\ a <= snd (match nth_error vinp vc with
          | None => (Some tmp, vc)
          | Some _ => p_kwloop fuel (S vc) a (Some tmp)
          end)).
  { intros lxc vc HRc Hvc. getc_cases HRc c.
    - pose proof (vinp_some _ _ Hc). apply IHfuel; auto; lia.
    - eexists; split; [reflexivity|]. split; auto. simpl; lia. }
  destruct (ttype_eqb (kw_type tmp) T_PERIOD).
  - pose proof HR as HRv. getc_cases HRv peek.
    + destruct (isdigit peek).
      * eexists; split; [reflexivity|]. split; auto. simpl; lia.
      * pose proof (ungetc_R _ _ HR0) as HRu. pose proof (p_unget_ge v) as Hug.
        destruct (ellipsis_R _ _ a HRu) as (lx2 & E2 & HR2). rewrite E2.
        pose proof (p_ellipsis_ge (p_unget (S v)) a) as Hge.
        destruct (p_ellipsis (p_unget (S v)) a) as [[e|] v2]; cbn [fst snd] in *.
        -- eexists; split; [reflexivity|]. split; auto. lia.
        -- apply Hcont; auto; lia.
    + eexists; split; [reflexivity|]. split; auto. simpl; lia.
  - apply Hcont; auto.
Qed.

(** ** Comments *)
Definition p_peek_c99 (v : nat) : bool :=
  is_at (p_spaces v) "/" && is_at (S (p_spaces v)) "/".

Lemma peek_c99_R : forall lx v, R lx v -> exists lx',
  peek_c99_comment inp lx = (p_peek_c99 v, lx') /\ R lx' v.
Proof.
  intros lx v HR. unfold peek_c99_comment, p_peek_c99, is_at. rewrite (R_st _ _ HR).
  destruct (eat_spaces_R _ _ HR) as (lx0 & E0 & HR0). rewrite E0. pose proof (p_spaces_ge v).
  getc_cases HR0 c1.
  - destruct (c1 =c "/"); cbn [andb].
    + getc_cases HR1 c2.
      * eexists; split; [reflexivity|]. eapply set_state_R; eauto; lia.
      * eexists; split; [reflexivity|]. eapply set_state_R; eauto; lia.
    + eexists; split; [reflexivity|]. eapply set_state_R; eauto; lia.
  - eexists; split; [reflexivity|]. eapply set_state_R; eauto; lia.
Qed.

Fixpoint p_c99 (l : bytes) (v : nat) : bool * nat :=
  match l with
  | [] => (false, v)
  | c :: r => if c =c NL then if p_peek_c99 (S v) then (true, S v) else (false, p_unget (S v))
              else p_c99 r (S v)
  end.

Lemma fuel_skipn : forall v, length (skipn v vinp) < FUEL inp.
Proof. intros. rewrite skipn_length, vinp_length. unfold FUEL. lia. Qed.

Lemma c99_loop_R : forall fuel lx v, R lx v -> length (skipn v vinp) < fuel -> exists lx',
  c99_loop inp fuel lx = (fst (p_c99 (skipn v vinp) v), lx') /\ R lx' (snd (p_c99 (skipn v vinp) v)).
Proof.
  induction fuel; intros lx v HR Hf; [lia|]. cbn [c99_loop].
  destruct (skipn v vinp) as [|c r] eqn:Es.
  - cbn [p_c99]. rewrite (getc_none _ _ HR (skipn_vinp_nil _ Es)). eauto.
  - destruct (skipn_vinp_cons _ _ _ Es) as (Hc & ->).
    destruct (getc_some _ _ _ HR Hc) as (lx1 & E & HR1). rewrite E. cbn [p_c99].
    assert (Hf' : length (skipn (S v) vinp) < fuel) by (cbn [length] in Hf; lia).
    destruct (c =c NL).
    + destruct (peek_c99_R _ _ HR1) as (lx2 & E2 & HR2). rewrite E2.
      destruct (p_peek_c99 (S v)); eauto. eexists; split; [reflexivity|]. apply ungetc_R; auto.
    + apply IHfuel; auto.
Qed.

Fixpoint p_block (l : bytes) (v : nat) (ch : byte) (oneline : bool) : bool * nat :=
  match l with
  | [] => (oneline, v)
  | c :: r => if (ch =c "*") && (c =c "/") then (oneline, S v)
              else p_block r (S v) c (if ch =c NL then false else oneline)
  end.

Lemma block_loop_R : forall fuel lx v ch ol, R lx v -> length (skipn v vinp) < fuel -> exists lx',
  block_loop inp fuel lx ch ol = (fst (p_block (skipn v vinp) v ch ol), lx') /\
  R lx' (snd (p_block (skipn v vinp) v ch ol)).
Proof.
  induction fuel; intros lx v ch ol HR Hf; [lia|]. cbn [block_loop].
  destruct (skipn v vinp) as [|c r] eqn:Es.
  - cbn [p_block]. rewrite (getc_none _ _ HR (skipn_vinp_nil _ Es)). eauto.
  - destruct (skipn_vinp_cons _ _ _ Es) as (Hc & ->).
    destruct (getc_some _ _ _ HR Hc) as (lx1 & E & HR1). rewrite E. cbn [p_block].
    assert (Hf' : length (skipn (S v) vinp) < fuel) by (cbn [length] in Hf; lia).
    destruct ((ch =c "*") && (c =c "/")); eauto.
Qed.

(** Start of the comment, [oneline], [c99], end. *)
Fixpoint p_again (fuel v : nat) (block : bool) (s : nat) (oneline : bool)
  : option (nat * bool * bool * nat) :=
  match fuel with
  | 0 => None
  | S f =>
    let '(v1, s1) := if block then p_els v s else (p_spaces v, s) in
    if is_at v1 "/" then
      if is_at (S v1) "/" then
        match p_c99 (skipn (S (S v1)) vinp) (S (S v1)) with
        | (true, v2) => p_again f v2 block s1 false
        | (false, v2) => Some (s1, oneline, true, v2)
        end
      else if is_at (S v1) "*" then
        let '(ol, v2) := p_block (skipn (S (S v1)) vinp) (S (S v1)) NUL oneline in
        Some (s1, ol, false, v2)
      else None
    else None
  end.

Lemma p_c99_ge : forall l v, v <= snd (p_c99 l v).
Proof.
  induction l as [|c r IH]; cbn [p_c99]; intros v; [simpl; lia|].
  destruct (c =c NL).
  - destruct (p_peek_c99 (S v)); simpl; [lia|apply p_unget_ge].
  - specialize (IH (S v)). lia.
Qed.
Lemma p_block_ge : forall l v ch ol, v <= snd (p_block l v ch ol).
Proof.
  induction l as [|c r IH]; cbn [p_block]; intros v ch ol; [simpl; lia|].
  destruct (_ && _); [simpl; lia|]. specialize (IH (S v) c (if ch =c NL then false else ol)). lia.
Qed.

Lemma R_exists : forall v, v <= S L -> exists lx, R lx v.
Proof.
  induction v as [|v IH]; intros Hv.
  - eexists; apply R_init.
  - destruct IH as (lx & HR); [lia|].
    destruct (nth_error vinp v) as [c|] eqn:Hc.
    + destruct (getc_some _ _ _ HR Hc) as (lx' & _ & HR'). eauto.
    + apply vinp_none in Hc; lia.
Qed.

Lemma p_els_R_le : forall v s, v <= S L -> s <= v ->
  snd (p_els v s) <= fst (p_els v s) /\ v <= fst (p_els v s).
Proof.
  intros v s Hv Hs.
  destruct (R_exists v Hv) as (lx & HR). destruct (els_R _ _ _ HR Hs) as (_ & _ & _ & H). exact H.
Qed.

Lemma comment_again_R : forall fuel lx v block s ol, R lx v -> s <= v -> S L - v < fuel -> 
  exists lx' v', comment_again inp fuel lx block (mkst s) ol =
    (match p_again fuel v block s ol with
     | Some (s', ol', c99, _) => Some (mkst s', ol', c99)
     | None => None
     end, lx') /\ R lx' v' /\ v <= v' /\
  (forall s' ol' c99 e, p_again fuel v block s ol = Some (s', ol', c99, e) -> v' = e /\ s' <= e).
Proof.
  induction fuel; intros lx v block s ol HR Hs Hf; [lia|]. cbn [comment_again p_again].
  assert (Hpre : exists lx1, (if block then eat_lines_and_spaces inp lx (mkst s)
                       else (snd (eat_spaces inp lx), mkst s)) =
     (lx1, mkst (snd (if block then p_els v s else (p_spaces v, s)))) /\
     R lx1 (fst (if block then p_els v s else (p_spaces v, s))) /\
     snd (if block then p_els v s else (p_spaces v, s)) <= fst (if block then p_els v s else (p_spaces v, s)) /\
     v <= fst (if block then p_els v s else (p_spaces v, s))).
  { destruct block.
    - apply els_R; auto.
    - destruct (eat_spaces_R _ _ HR) as (lx0 & E0 & HR0). rewrite E0. cbn [fst snd].
      pose proof (p_spaces_ge v). eexists; split; [reflexivity|]. split; auto. lia. }
  destruct Hpre as (lx1 & E1 & HR1 & Hs1 & Hv1). rewrite E1.
  destruct (if block then p_els v s else (p_spaces v, s)) as [v1 s1]. cbn [fst snd] in *.
  unfold is_at.
  getc_cases HR1 c1.
  2:{ eexists _, _. split; [reflexivity|]. split; eauto. split; auto. discriminate. }
  destruct (c1 =c "/"); cbn [negb].
  2:{ eexists _, _. split; [reflexivity|]. split; eauto. split; [lia|]. discriminate. }
  getc_cases HR0 c2.
  2:{ eexists _, _. split; [reflexivity|]. split; eauto. split; [lia|]. discriminate. }
  pose proof (vinp_some _ _ Hc0) as Hle.
  destruct (c2 =c "/").
  { destruct (c99_loop_R (FUEL inp) _ _ HR2 (fuel_skipn _)) as (lx4 & E4 & HR4). rewrite E4.
    pose proof (p_c99_ge (skipn (S (S v1)) vinp) (S (S v1))) as Hge.
    destruct (p_c99 (skipn (S (S v1)) vinp) (S (S v1))) as [[|] v2]; cbn [fst snd] in *.
    - destruct (IHfuel lx4 v2 block s1 false HR4) as (lx5 & v5 & H5a & H5b & H5c & H5d); [lia|lia|].
      eexists _, _. split; [exact H5a|]. split; [exact H5b|]. split; [lia|exact H5d].
    - eexists _, _. split; [reflexivity|]. split; [exact HR4|]. split; [lia|].
      intros s' ol' c99 e H. inv H. split; auto; lia. }
  destruct (c2 =c "*").
  { destruct (block_loop_R (FUEL inp) _ _ NUL ol HR2 (fuel_skipn _)) as (lx4 & E4 & HR4). rewrite E4.
    pose proof (p_block_ge (skipn (S (S v1)) vinp) (S (S v1)) NUL ol) as Hge.
    destruct (p_block (skipn (S (S v1)) vinp) (S (S v1)) NUL ol) as [ol' v2]; cbn [fst snd] in *.
    eexists _, _. split; [reflexivity|]. split; [exact HR4|]. split; [lia|].
    intros s' ol'' c99 e H. inv H. split; auto; lia. }
  eexists _, _. split; [reflexivity|]. split; eauto. split; [lia|]. discriminate.
Qed.

Definition p_comment_end (block : bool) (e : nat) : nat :=
  if block then snd (p_lines 2 (p_spaces e)) else e.
Definition p_after (block : bool) (e : nat) : nat := if block then snd (p_lines 0 e) else e.

Lemma p_comment_end_ge : forall block e, e <= p_comment_end block e.
Proof.
  intros. unfold p_comment_end. destruct block; auto. pose proof (p_spaces_ge e).
  pose proof (p_lines_ge 2 (p_spaces e)). lia.
Qed.

(** ** Preprocessor directives *)
Fixpoint p_cpp_loop (l : bytes) (v : nat) (ch : byte) (comment : bool) : nat :=
  match l with
  | [] => v
  | c :: r =>
      if (ch =c "/") && (c =c "*") then p_cpp_loop r (S v) c true
      else if comment && ((ch =c "*") && (c =c "/")) then p_cpp_loop r (S v) c false
      else if negb comment && (negb (ch =c BSL) && (c =c NL)) then p_unget (S v)
      else p_cpp_loop r (S v) c comment
  end.

Lemma cpp_loop_R : forall fuel lx v ch comment, R lx v -> length (skipn v vinp) < fuel ->
  R (cpp_loop inp fuel lx ch comment) (p_cpp_loop (skipn v vinp) v ch comment).
Proof.
  induction fuel; intros lx v ch comment HR Hf; [lia|]. cbn [cpp_loop].
  destruct (skipn v vinp) as [|c r] eqn:Es.
  - cbn [p_cpp_loop]. rewrite (getc_none _ _ HR (skipn_vinp_nil _ Es)). eauto.
  - destruct (skipn_vinp_cons _ _ _ Es) as (Hc & ->).
    destruct (getc_some _ _ _ HR Hc) as (lx1 & E & HR1). rewrite E. cbn [p_cpp_loop].
    assert (Hf' : length (skipn (S v) vinp) < fuel) by (cbn [length] in Hf; lia).
    destruct (_ && _); auto. destruct (_ && _); auto. destruct (_ && _); auto.
    apply ungetc_R; auto.
Qed.

Lemma p_cpp_loop_ge : forall l v ch c, v <= p_cpp_loop l v ch c.
Proof.
  induction l as [|x r IH]; cbn [p_cpp_loop]; intros v ch c; auto.
  destruct (_ && _); [specialize (IH (S v) x true); lia|].
  destruct (_ && _); [specialize (IH (S v) x false); lia|].
  destruct (_ && _); [apply p_unget_ge|]. specialize (IH (S v) x c). lia.
Qed.

(** ** Literals, identifiers and everything else *)
Fixpoint p_quote (l : bytes) (v : nat) (delim pch : byte) : bool * nat :=
  match l with
  | [] => (false, v)
  | ch :: r =>
      if (pch =c BSL) && (ch =c BSL) then p_quote r (S v) delim NUL
      else if negb (pch =c BSL) && (ch =c delim) then (true, S v)
      else p_quote r (S v) delim ch
  end.

Lemma quote_loop_R : forall fuel lx v delim pch, R lx v -> length (skipn v vinp) < fuel -> exists lx',
  quote_loop inp fuel lx delim pch = (fst (p_quote (skipn v vinp) v delim pch), lx') /\
  R lx' (snd (p_quote (skipn v vinp) v delim pch)).
Proof.
  induction fuel; intros lx v delim pch HR Hf; [lia|]. cbn [quote_loop].
  destruct (skipn v vinp) as [|c r] eqn:Es.
  - cbn [p_quote]. rewrite (getc_none _ _ HR (skipn_vinp_nil _ Es)). eauto.
  - destruct (skipn_vinp_cons _ _ _ Es) as (Hc & ->).
    destruct (getc_some _ _ _ HR Hc) as (lx1 & E & HR1). rewrite E. cbn [p_quote].
    assert (Hf' : length (skipn (S v) vinp) < fuel) by (cbn [length] in Hf; lia).
    destruct (_ && _); auto. destruct (_ && _); eauto.
Qed.

Lemma p_quote_ge : forall l v d p, v <= snd (p_quote l v d p).
Proof.
  induction l as [|c r IH]; cbn [p_quote]; intros v d p; [simpl; lia|].
  destruct (_ && _); [specialize (IH (S v) d NUL); lia|].
  destruct (_ && _); [simpl; lia|]. specialize (IH (S v) d c). lia.
Qed.

Fixpoint p_num (l : bytes) (v : nat) : bool * nat :=
  match l with
  | [] => (false, v)
  | ch :: r => if isnum ch then p_num r (S v) else (true, p_unget (S v))
  end.

Lemma num_loop_R : forall fuel lx v, R lx v -> length (skipn v vinp) < fuel -> exists lx',
  num_loop inp fuel lx = (fst (p_num (skipn v vinp) v), lx') /\ R lx' (snd (p_num (skipn v vinp) v)).
Proof.
  induction fuel; intros lx v HR Hf; [lia|]. cbn [num_loop].
  destruct (skipn v vinp) as [|c r] eqn:Es.
  - cbn [p_num]. rewrite (getc_none _ _ HR (skipn_vinp_nil _ Es)). eauto.
  - destruct (skipn_vinp_cons _ _ _ Es) as (Hc & ->).
    destruct (getc_some _ _ _ HR Hc) as (lx1 & E & HR1). rewrite E. cbn [p_num].
    assert (Hf' : length (skipn (S v) vinp) < fuel) by (cbn [length] in Hf; lia).
    destruct (isnum c); auto. eexists; split; [reflexivity|]. apply ungetc_R; auto.
Qed.

Lemma p_num_ge : forall l v, v <= snd (p_num l v).
Proof.
  induction l as [|c r IH]; cbn [p_num]; intros v; [simpl; lia|].
  destruct (isnum c); [specialize (IH (S v)); lia|apply p_unget_ge].
Qed.

(** The effective first byte and the position after it (skipping an L before a quote). *)
Definition p_wide (v : nat) (ch0 : byte) : byte * nat :=
  if ch0 =c "L" then
    match nth_error vinp (S v) with
    | Some peek => if (peek =c DQ) || (peek =c SQ) then (peek, S (S v)) else (ch0, p_unget (S (S v)))
    | None => (ch0, p_unget (S v))
    end
  else (ch0, S v).

Lemma p_wide_ge : forall v c, v <= L -> nth_error vinp v = Some c -> c <> NUL \/ True -> S v <= snd (p_wide v c).
Proof.
  intros v c Hv Hc _. unfold p_wide. destruct (c =c "L") eqn:E; [|simpl; lia].
  apply eqb_true in E; subst.
  assert (v <> L). { intros ->. rewrite vinp_L in Hc. discriminate. }
  destruct (nth_error vinp (S v)) eqn:E1.
  - destruct (_ || _); simpl; [lia|apply p_unget_ge].
  - apply vinp_none in E1; lia.
Qed.

(** ** Progress of comments and directives *)
Lemma p_els_loop_s : forall fuel v s got, s <= v ->
  s <= snd (p_els_loop fuel v s got).
Proof.
  induction fuel; intros v s got Hs; cbn [p_els_loop]; [simpl; lia|].
  pose proof (p_lines_ge 0 v) as Hge. destruct (p_lines 0 v) as [n v1]. cbn [snd] in Hge.
  destruct (_ && got); [simpl; lia|]. pose proof (p_spaces_ge v1).
  assert (Hs1 : s <= (if n =? 0 then s else v1) <= p_spaces v1) by (destruct (n =? 0); lia).
  destruct (p_spaces v1 =? v1); [simpl; lia|].
  specialize (IHfuel (p_spaces v1) (if n =? 0 then s else v1) true). lia.
Qed.
Lemma p_els_s : forall v s, s <= v -> s <= snd (p_els v s).
Proof. intros; apply p_els_loop_s; auto. Qed.

Lemma is_at_some : forall v c, is_at v c = true -> nth_error vinp v = Some c.
Proof.
  unfold is_at. intros. destruct (nth_error vinp v); [|discriminate]. apply eqb_true in H. subst; auto.
Qed.
Lemma is_at_lt : forall v c, is_at v c = true -> c <> NUL -> v < L.
Proof.
  intros. apply is_at_some in H. apply vinp_inp in H; auto. apply nth_error_Some. congruence.
Qed.

Lemma p_again_gt : forall fuel v block s ol s' ol' c99 e, v <= S L -> s <= v ->
  p_again fuel v block s ol = Some (s', ol', c99, e) -> v < e /\ s <= s' /\ s' < e.
Proof.
  induction fuel; intros v block s ol s' ol' c99 e Hv Hs H; [discriminate|]. cbn [p_again] in H.
  assert (Hpre : s <= snd (if block then p_els v s else (p_spaces v, s)) /\
    snd (if block then p_els v s else (p_spaces v, s)) <= fst (if block then p_els v s else (p_spaces v, s)) /\
     v <= fst (if block then p_els v s else (p_spaces v, s))).
  { destruct block.
    - split; [apply p_els_s; auto|apply p_els_R_le; auto].
    - cbn [fst snd]. pose proof (p_spaces_ge v). lia. }
  destruct (if block then p_els v s else (p_spaces v, s)) as [v1 s1]. cbn [fst snd] in Hpre.
  destruct (is_at v1 "/") eqn:E1; [|discriminate].
  apply is_at_lt in E1; [|discriminate].
  destruct (is_at (S v1) "/") eqn:E2.
  - pose proof (p_c99_ge (skipn (S (S v1)) vinp) (S (S v1))) as Hge.
    destruct (p_c99 (skipn (S (S v1)) vinp) (S (S v1))) as [[|] v2] eqn:Ep; cbn [snd] in Hge.
    + assert (Hb : forall l v b, p_c99 l v = (true, b) -> v + length l >= b).
      { clear. induction l as [|c r IH]; cbn [p_c99]; intros v b H; [discriminate|].
        cbn [length]. destruct (c =c NL).
        - destruct (p_peek_c99 (S v)); inv H. lia.
        - apply IH in H. lia. }
      apply Hb in Ep. rewrite skipn_length, vinp_length in Ep.
      apply IHfuel in H; try lia.
    + inv H. lia.
  - destruct (is_at (S v1) "*"); [|discriminate].
    pose proof (p_block_ge (skipn (S (S v1)) vinp) (S (S v1)) NUL ol) as Hge.
    destruct (p_block (skipn (S (S v1)) vinp) (S (S v1)) NUL ol) as [ol2 v2]. cbn [snd] in Hge.
    inv H. lia.
Qed.

Lemma p_after_ge : forall block e, e <= p_after block e.
Proof. intros. unfold p_after. destruct block; auto. apply p_lines_ge. Qed.

End Positions.

Section Refine.
Variable inp : bytes.
Variable in_diff : nat -> bool.
Variable trim : bytes -> option bytes.
Variable align : bytes -> option bytes.
Notation L := (length inp).
Notation vinp := (vinp inp).
Notation clamp := (clamp inp).
Notation nlc := (nlc inp).
Notation mkst := (mkst inp).
Notation lines_ok := (lines_ok inp).
Notation R := (R inp).
Notation p_unget := (p_unget inp).
Notation p_match := (p_match inp).
Notation p_spaces := (p_spaces inp).
Notation p_lines := (p_lines inp).
Notation p_els_loop := (p_els_loop inp).
Notation p_els := (p_els inp).
Notation p_slice := (p_slice inp).
Notation p_find := (p_find inp).
Notation p_find_cpp := (p_find_cpp inp).
Notation is_at := (is_at inp).
Notation p_ellipsis := (p_ellipsis inp).
Notation p_kwloop := (p_kwloop inp).
Notation p_peek_c99 := (p_peek_c99 inp).
Notation p_c99 := (p_c99 inp).
Notation p_again := (p_again inp).
Notation p_comment_end := (p_comment_end inp).
Notation p_after := (p_after inp).
Notation p_cpp_loop := (p_cpp_loop inp).
Notation p_num := (p_num inp).
Notation p_wide := (p_wide inp).
Notation R_intro := (R_intro inp).
Notation nlc_S := (nlc_S inp).
Notation nlc_add := (nlc_add inp).
Notation nlc_mono := (nlc_mono inp).
Notation clamp_le := (clamp_le inp).
Notation clamp_id := (clamp_id inp).
Notation clamp_mono := (clamp_mono inp).
Notation vinp_length := (vinp_length inp).
Notation vinp_lt := (vinp_lt inp).
Notation vinp_L := (vinp_L inp).
Notation vinp_none := (vinp_none inp).
Notation vinp_some := (vinp_some inp).
Notation vinp_inp := (vinp_inp inp).
Notation inp_vinp := (inp_vinp inp).
Notation skipn_vinp_cons := (skipn_vinp_cons inp).
Notation skipn_vinp_nil := (skipn_vinp_nil inp).
Notation R_init := (R_init inp).
Notation getc_some := (getc_some inp).
Notation getc_none := (getc_none inp).
Notation p_unget_S := (p_unget_S inp).
Notation p_unget_le := (p_unget_le inp).
Notation set_state_R := (set_state_R inp).
Notation ungetc_R := (ungetc_R inp).
Notation R_st := (R_st inp).
Notation R_off := (R_off inp).
Notation R_le := (R_le inp).
Notation R_bad := (R_bad inp).
Notation R_eof := (R_eof inp).
Notation p_match_le := (p_match_le inp).
Notation lexer_match_R := (lexer_match_R inp).
Notation eat_spaces_R := (eat_spaces_R inp).
Notation eat_lines_loop_R := (eat_lines_loop_R inp).
Notation eat_lines_R := (eat_lines_R inp).
Notation p_lines_ge := (p_lines_ge inp).
Notation p_spaces_ge := (p_spaces_ge inp).
Notation els_loop_R := (els_loop_R inp).
Notation els_R := (els_R inp).
Notation display_col_line := (display_col_line inp).
Notation buffer_slice_R := (buffer_slice_R inp).
Notation find_keyword_R := (find_keyword_R inp).
Notation find_cpp_R := (find_cpp_R inp).
Notation ellipsis_R := (ellipsis_R inp).
Notation p_ellipsis_ge := (p_ellipsis_ge inp).
Notation p_unget_ge := (p_unget_ge inp).
Notation keyword_loop_R := (keyword_loop_R inp).
Notation peek_c99_R := (peek_c99_R inp).
Notation fuel_skipn := (fuel_skipn inp).
Notation c99_loop_R := (c99_loop_R inp).
Notation block_loop_R := (block_loop_R inp).
Notation p_c99_ge := (p_c99_ge inp).
Notation R_exists := (R_exists inp).
Notation p_els_R_le := (p_els_R_le inp).
Notation comment_again_R := (comment_again_R inp).
Notation p_comment_end_ge := (p_comment_end_ge inp).
Notation cpp_loop_R := (cpp_loop_R inp).
Notation p_cpp_loop_ge := (p_cpp_loop_ge inp).
Notation quote_loop_R := (quote_loop_R inp).
Notation num_loop_R := (num_loop_R inp).
Notation p_num_ge := (p_num_ge inp).
Notation p_wide_ge := (p_wide_ge inp).
Notation p_els_loop_s := (p_els_loop_s inp).
Notation p_els_s := (p_els_s inp).
Notation is_at_some := (is_at_some inp).
Notation is_at_lt := (is_at_lt inp).
Notation p_again_gt := (p_again_gt inp).
Notation p_after_ge := (p_after_ge inp).
(** Reading one byte: [getc_cases lx HR] destructs on the byte at the position. *)
Ltac getc_cases HR c :=
  let Hc := fresh "Hc" in let lx' := fresh "lx" in let E := fresh "E" in let HR' := fresh "HR" in
  match type of HR with
  | R ?lx ?v =>
      destruct (nth_error vinp v) as [c|] eqn:Hc;
      [destruct (getc_some _ _ _ HR Hc) as (lx' & E & HR'); rewrite E
      |rewrite (getc_none _ _ HR Hc)]
  end.

(** ** Emitting tokens *)
Definition p_tok (ty : ttype) (fl : N) (str : option bytes) (a b : nat) : tok :=
  Tok ty (if in_diff (S (nlc (clamp a))) then N.lor fl F_DIFF else fl)
      (match str with Some s => Own s | None => Src (clamp a) (clamp b - clamp a) end)
      (clamp a) (clamp b) (S (nlc (clamp a))) (S (display_col (firstn (clamp a) inp) 0)).

Lemma emit_R : forall lx v a ty fl str, R lx v -> a <= v ->
  emit inp in_diff lx (mkst a) ty fl str = (p_tok ty fl str a v, lx).
Proof.
  intros lx v a ty fl str HR Ha. pose proof HR as (Hst & Hv & Hl & Hn & Hb).
  unfold emit, p_tok. cbn [s_off s_lno s_eof mkst]. rewrite (R_off _ _ HR).
  unfold column. cbn [s_lno s_off mkst].
  assert (nlc (clamp a) < length (l_lines lx)).
  { eapply Nat.le_lt_trans; [|exact Hn]. apply nlc_mono, clamp_mono; auto. }
  destruct (nth_error (l_lines lx) (nlc (clamp a))) as [lo|] eqn:Elo.
  - apply Hl in Elo as Elo'. destruct Elo' as (H1 & H2 & H3).
    destruct (Nat.leb_spec lo (clamp a)).
    + rewrite colwidth_spec by lia. simpl minus. rewrite display_col_line by auto. reflexivity.
    + exfalso. destruct H3 as [->|H3]; [lia|]. destruct lo as [|k]; [lia|]. simpl in H3.
      pose proof (nlc_S _ _ H3) as HS. rewrite eqb_refl in HS.
      pose proof (nlc_mono (clamp a) k). lia.
  - apply nth_error_None in Elo. lia.
Qed.

Definition p_keyword (v : nat) : option tok * nat :=
  let v0 := fst (p_els v v) in
  match nth_error vinp v0 with
  | None => (None, v0)
  | Some _ =>
      match p_kwloop (FUEL inp) (S v0) v0 None with
      | (None, _) => (None, v0)
      | (Some k, v2) => (Some (p_tok (kw_type k) (kw_flags k) (Some (kw_str k)) v0 v2), v2)
      end
  end.

Lemma clang_keyword_R : forall lx v, R lx v -> exists lx',
  clang_keyword inp in_diff lx = (fst (p_keyword v), lx') /\ R lx' (snd (p_keyword v)).
Proof.
  intros lx v HR. unfold clang_keyword, p_keyword. rewrite (R_st _ _ HR).
  destruct (els_R lx v v HR (le_n _)) as (lx0 & E0 & HR0 & H0 & H0'). rewrite E0.
  set (v0 := fst (p_els v v)) in *. rewrite (R_st _ _ HR0).
  getc_cases HR0 c.
  - pose proof (vinp_some _ _ Hc).
    destruct (keyword_loop_R (FUEL inp) lx1 (S v0) v0 None HR1) as (lx2 & E2 & HR2 & H2); [lia|unfold FUEL; lia|].
    rewrite E2. destruct (p_kwloop _ _ _ _) as [[k|] v2]; cbn [fst snd] in *.
    + rewrite (emit_R _ _ _ _ _ _ HR2) by auto. eauto.
    + eexists; split; [reflexivity|]. eapply set_state_R; eauto.
  - eauto.
Qed.

(** Start, end of the token, and next position. *)
Definition p_comment_tok (s e : nat) (oneline c99 : bool) : tok :=
  let t := p_tok T_COMMENT (if c99 then F_COMMENT_C99 else 0%N) None s e in
  let raw := text_bytes inp (t_str t) in
  let t1 := if oneline then set_flags t (N.lor (t_flags t) (sense_clang_format raw)) else t in
  match trim raw with Some b => set_str t1 (Own b) | None => t1 end.

Definition p_comment (v : nat) (block : bool) : option tok * nat :=
  match p_again (FUEL inp) v block v true with
  | None => (None, v)
  | Some (s, oneline, c99, e) =>
      let e1 := p_comment_end block e in
      (Some (p_comment_tok s e1 oneline c99), p_after block e1)
  end.

Lemma read_comment_R : forall lx v block, R lx v -> exists lx',
  read_comment inp in_diff trim lx block = (fst (p_comment v block), lx') /\ R lx' (snd (p_comment v block)).
Proof.
  intros lx v block HR. unfold read_comment, p_comment. rewrite (R_st _ _ HR).
  destruct (comment_again_R (FUEL inp) lx v block v true HR (le_n _)) as (lx1 & v1 & E1 & HR1 & Hv1 & H1).
  { unfold FUEL; lia. }
  rewrite E1. destruct (p_again (FUEL inp) v block v true) as [[[[s ol] c99] e]|].
  2:{ eexists; split; [reflexivity|]. eapply set_state_R; eauto. }
  destruct (H1 _ _ _ _ eq_refl) as [-> Hse].
  assert (H2 : exists lx2, (if block then snd (eat_lines inp (snd (eat_spaces inp lx1)) 2) else lx1) = lx2 /\
    R lx2 (p_comment_end block e)).
  { unfold p_comment_end. destruct block; [|eauto].
    destruct (eat_spaces_R _ _ HR1) as (lxa & Ea & HRa). rewrite Ea. cbn [snd].
    destruct (eat_lines_R _ _ 2 HRa) as (lxb & Eb & HRb). rewrite Eb. cbn [snd]. eauto. }
  destruct H2 as (lx2 & E2 & HR2). rewrite E2. pose proof (p_comment_end_ge block e).
  rewrite (emit_R _ _ _ _ _ _ HR2) by lia. cbv zeta.
  eexists; split; [reflexivity|]. cbn [snd]. unfold p_after. destruct block; auto.
  destruct (eat_lines_R _ _ 0 HR2) as (lxb & Eb & HRb). rewrite Eb. auto.
Qed.

Definition p_cpp_tok (s e : nat) (type : ttype) : tok :=
  let t := p_tok type F_CPP None s e in
  if ttype_eqb type T_CPP_DEFINE then
    match align (text_bytes inp (t_str t)) with Some b => set_str t (Own b) | None => t end
  else t.

Definition p_cpp (v : nat) : option tok * nat :=
  let '(v1, s) := p_els v v in
  if is_at v1 "#" then
    let v3 := p_spaces (S v1) in
    let v4 := p_match (s2b "az") v3 in
    let v5 := p_cpp_loop (skipn v4 vinp) v4 NUL false in
    let v6 := snd (p_lines 2 v5) in
    (Some (p_cpp_tok s v6 (p_find_cpp v3 v4)), snd (p_lines 0 v6))
  else (None, v).

Lemma read_cpp_R : forall lx v, R lx v -> exists lx',
  read_cpp inp in_diff align lx = (fst (p_cpp v), lx') /\ R lx' (snd (p_cpp v)).
Proof.
  intros lx v HR. unfold read_cpp, p_cpp. rewrite (R_st _ _ HR).
  destruct (els_R lx v v HR (le_n _)) as (lx1 & E1 & HR1 & H1 & H1'). rewrite E1.
  destruct (p_els v v) as [v1 s]. cbn [fst snd] in *. unfold is_at.
  getc_cases HR1 c.
  2:{ eexists; split; [reflexivity|]. eapply set_state_R; eauto. }
  destruct (c =c "#"); cbn [negb].
  2:{ eexists; split; [reflexivity|]. eapply set_state_R; eauto. }
  destruct (eat_spaces_R _ _ HR0) as (lx3 & E3 & HR3). rewrite E3. cbv zeta.
  rewrite (R_st _ _ HR3).
  destruct (lexer_match_R _ _ (s2b "az") HR3 eq_refl) as (lx4 & E4 & HR4). rewrite E4.
  rewrite (find_cpp_R _ _ _ HR4).
  pose proof (cpp_loop_R (FUEL inp) _ _ NUL false HR4 (fuel_skipn _)) as HR5.
  destruct (eat_lines_R _ _ 2 HR5) as (lx6 & E6 & HR6). rewrite E6. cbn [snd].
  pose proof (p_spaces_ge (S v1)). pose proof (p_match_le (s2b "az") _ (R_le _ _ HR3)).
  set (v4 := p_match (s2b "az") (p_spaces (S v1))) in *.
  pose proof (p_cpp_loop_ge (skipn v4 vinp) v4 NUL false).
  pose proof (p_lines_ge 2 (p_cpp_loop (skipn v4 vinp) v4 NUL false)).
  rewrite (emit_R _ _ _ _ _ _ HR6) by lia.
  destruct (eat_lines_R _ _ 0 HR6) as (lx7 & E7 & HR7). rewrite E7. cbn [snd].
  eexists; split; [reflexivity|]. auto.
Qed.

Definition p_other (v : nat) : tok * nat :=
  match nth_error vinp v with
  | None => (p_tok T_EOF 0%N None v v, v)
  | Some ch0 =>
    let '(ch, v2) := p_wide v ch0 in
    if (ch =c DQ) || (ch =c SQ) then
      match p_quote (skipn v2 vinp) v2 ch ch with
      | (false, v3) => (p_tok T_EOF 0%N None v v3, v3)
      | (true, v3) => (p_tok (if ch =c DQ then T_STRING else T_LITERAL) 0%N None v v3, v3)
      end
    else if isdigit ch || (ch =c ".") then
      match p_num (skipn v2 vinp) v2 with
      | (false, v3) => (p_tok T_EOF 0%N None v v3, v3)
      | (true, v3) => (p_tok T_LITERAL 0%N None v v3, v3)
      end
    else if isalpha ch || (ch =c "_") then
      let v3 := p_match ident_ranges v2 in
      match p_find v v3 with
      | Some k => (p_tok (kw_type k) (kw_flags k) (Some (kw_str k)) v v3, v3)
      | None => (p_tok T_IDENT 0%N None v v3, v3)
      end
    else if L <=? v2 then (p_tok T_EOF 0%N None v v2, v2)
    else (p_tok T_NONE 0%N None v v2, v2)
  end.

Lemma read_other_R : forall lx v, R lx v -> exists lx',
  read_other inp in_diff lx = (fst (p_other v), lx') /\ R lx' (snd (p_other v)) /\ v <= snd (p_other v).
Proof.
  intros lx v HR. unfold read_other, p_other. rewrite (R_st _ _ HR).
  getc_cases HR ch0.
  2:{ rewrite (emit_R _ _ _ _ _ _ HR) by lia. eauto. }
  pose proof (p_wide_ge v ch0 (vinp_some _ _ Hc) Hc (or_intror I)) as Hw.
  assert (Hwide : exists lx2, (if ch0 =c "L" then
        match getc inp lx0 with
        | (Some peek, lx1') =>
            if (peek =c DQ) || (peek =c SQ) then (peek, lx1') else (ch0, ungetc inp lx1')
        | (None, lx1') => (ch0, ungetc inp lx1')
        end
      else (ch0, lx0)) = (fst (p_wide v ch0), lx2) /\ R lx2 (snd (p_wide v ch0))).
  { unfold p_wide. destruct (ch0 =c "L"); [|eauto].
    getc_cases HR0 peek.
    - destruct (_ || _); [eauto|]. eexists; split; [reflexivity|]. apply ungetc_R; auto.
    - eexists; split; [reflexivity|]. apply ungetc_R; auto. }
  destruct Hwide as (lx2 & E2 & HR2). rewrite E2.
  destruct (p_wide v ch0) as [ch v2]. cbn [fst snd] in *.
  destruct ((ch =c DQ) || (ch =c SQ)).
  { destruct (quote_loop_R (FUEL inp) _ _ ch ch HR2 (fuel_skipn _)) as (lx3 & E3 & HR3). rewrite E3.
    pose proof (p_quote_ge (skipn v2 vinp) v2 ch ch).
    destruct (p_quote (skipn v2 vinp) v2 ch ch) as [[|] v3]; cbn [fst snd] in *;
      rewrite (emit_R _ _ _ _ _ _ HR3) by lia; (eexists; split; [reflexivity|]; split; [exact HR3|cbn [snd]; lia]). }
  destruct (isdigit ch || (ch =c ".")).
  { destruct (num_loop_R (FUEL inp) _ _ HR2 (fuel_skipn _)) as (lx3 & E3 & HR3). rewrite E3.
    pose proof (p_num_ge (skipn v2 vinp) v2).
    destruct (p_num (skipn v2 vinp) v2) as [[|] v3]; cbn [fst snd] in *;
      rewrite (emit_R _ _ _ _ _ _ HR3) by lia; (eexists; split; [reflexivity|]; split; [exact HR3|cbn [snd]; lia]). }
  destruct (isalpha ch || (ch =c "_")).
  { destruct (lexer_match_R _ _ ident_ranges HR2 eq_refl) as (lx3 & E3 & HR3). rewrite E3.
    pose proof (p_match_le ident_ranges v2 (R_le _ _ HR2)).
    rewrite (find_keyword_R _ _ _ HR3). cbv zeta.
    destruct (p_find v (p_match ident_ranges v2)); rewrite (emit_R _ _ _ _ _ _ HR3) by lia;
      (eexists; split; [reflexivity|]; split; [exact HR3|cbn [snd]; lia]). }
  rewrite (R_eof _ _ HR2). destruct (L <=? v2); rewrite (emit_R _ _ _ _ _ _ HR2) by lia;
      (eexists; split; [reflexivity|]; split; [exact HR2|cbn [snd]; lia]).
Qed.

Lemma p_comment_gt : forall v block t v', v <= S L -> p_comment v block = (Some t, v') -> v < v'.
Proof.
  intros v block t v' Hv H. unfold p_comment in H.
  destruct (p_again (FUEL inp) v block v true) as [[[[s ol] c99] e]|] eqn:E; [|discriminate].
  apply p_again_gt in E; auto. inversion H; subst.
  pose proof (p_comment_end_ge block e). pose proof (p_after_ge block (p_comment_end block e)). lia.
Qed.
Lemma p_comment_none : forall v block v', p_comment v block = (None, v') -> v' = v.
Proof.
  intros v block v' H. unfold p_comment in H.
  destruct (p_again (FUEL inp) v block v true) as [[[[s ol] c99] e]|] eqn:E; congruence.
Qed.

Lemma p_cpp_gt : forall v t v', v <= S L -> p_cpp v = (Some t, v') -> v < v'.
Proof.
  intros v t v' Hv H. unfold p_cpp in H.
  destruct (p_els_R_le v v Hv (le_n _)) as (H1 & H2).
  destruct (p_els v v) as [v1 s]. cbn [fst snd] in *.
  destruct (is_at v1 "#") eqn:E; [|discriminate]. cbv zeta in H. apply (f_equal snd) in H. cbn [snd] in H. subst v'.
  pose proof (p_spaces_ge (S v1)).
  set (v3 := p_spaces (S v1)) in *.
  assert (v3 <= p_match (s2b "az") v3) by (unfold p_match; lia).
  set (v4 := p_match (s2b "az") v3) in *.
  pose proof (p_cpp_loop_ge (skipn v4 vinp) v4 NUL false).
  set (v5 := p_cpp_loop (skipn v4 vinp) v4 NUL false) in *.
  pose proof (p_lines_ge 2 v5). pose proof (p_lines_ge 0 (snd (p_lines 2 v5))). lia.
Qed.
Lemma p_cpp_none : forall v v', p_cpp v = (None, v') -> v' = v.
Proof.
  intros v v' H. unfold p_cpp in H. destruct (p_els v v) as [v1 s].
  destruct (is_at v1 "#"); congruence.
Qed.

(** ** Prefixes *)
Hypothesis trim_nl : forall b b', trim b = Some b' -> exists c, b = c ++ [NL].

Definition p_prefix (v : nat) (prefixes : list tok) : option (list tok) * nat :=
  match p_comment v true with
  | (Some comment, v1) =>
      (Some (match rev prefixes with
       | pv :: before =>
           if ttype_eqb (t_type pv) T_COMMENT && (t_lno comment =? t_lno pv) then
             match prolong pv comment with
             | Some pv' => rev before ++ [pv']
             | None => prefixes ++ [comment]
             end
           else prefixes ++ [comment]
       | [] => [comment]
       end), v1)
  | (None, _) =>
      match p_cpp v with
      | (Some cpp, v2) => (Some (prefixes ++ [cpp]), v2)
      | (None, _) => (None, v)
      end
  end.

(** A comment that may still be continued on its line refers to the input. *)
Definition Pinv (prefixes : list tok) (v : nat) : Prop :=
  forall pv before, rev prefixes = pv :: before -> t_type pv = T_COMMENT ->
  t_lno pv <= S (nlc (clamp v)) /\
  (t_lno pv = S (nlc (clamp v)) -> exists l, t_str pv = Src (t_off pv) l /\ t_off pv + l <= clamp v).

Lemma p_tok_lno : forall ty fl str a b, t_lno (p_tok ty fl str a b) = S (nlc (clamp a)).
Proof. reflexivity. Qed.

Lemma comment_tok_fields : forall s e ol c99,
  let t := p_comment_tok s e ol c99 in
  t_type t = T_COMMENT /\ t_off t = clamp s /\ t_end t = clamp e /\ t_lno t = S (nlc (clamp s)) /\
  t_str t = match trim (slice inp (clamp s) (clamp s + (clamp e - clamp s))) with
            | Some b => Own b | None => Src (clamp s) (clamp e - clamp s) end.
Proof.
  intros s e ol c99. unfold p_comment_tok. cbv zeta. cbn [t_str p_tok text_bytes].
  destruct (trim _); destruct ol; cbn; auto 10.
Qed.

Lemma Pinv_comment : forall s e ol c99 v', s <= e -> e <= v' ->
  let t := p_comment_tok s e ol c99 in
  t_lno t <= S (nlc (clamp v')) /\
  (t_lno t = S (nlc (clamp v')) -> t_str t = Src (clamp s) (clamp e - clamp s)).
Proof.
  intros s e ol c99 v' Hse Hev t.
  destruct (comment_tok_fields s e ol c99) as (Ht & Ho & He & Hl & Hstr). fold t in Ht, Ho, He, Hl, Hstr.
  pose proof (clamp_mono _ _ Hse). pose proof (clamp_mono _ _ Hev).
  pose proof (nlc_mono _ _ H). pose proof (nlc_mono _ _ H0).
  split; [lia|]. intros Heq. rewrite Hstr.
  destruct (trim _) as [b|] eqn:Et; auto. exfalso.
  apply trim_nl in Et. destruct Et as (c & Et).
  replace (clamp s + (clamp e - clamp s)) with (clamp e) in Et by lia.
  pose proof (nlc_add (clamp s) (clamp e) H) as Hadd. rewrite Et, count_app in Hadd.
  simpl in Hadd. lia.
Qed.

Lemma read_prefix_R : forall lx v prefixes, R lx v -> Pinv prefixes v -> exists lx',
  read_prefix inp in_diff trim align lx prefixes = (fst (p_prefix v prefixes), lx') /\
  R lx' (snd (p_prefix v prefixes)) /\
  (forall ps, fst (p_prefix v prefixes) = Some ps ->
     v < snd (p_prefix v prefixes) /\ Pinv ps (snd (p_prefix v prefixes))) /\
  (fst (p_prefix v prefixes) = None -> snd (p_prefix v prefixes) = v).
Proof.
  intros lx v prefixes HR HP. pose proof (R_le _ _ HR) as HvL. unfold read_prefix, p_prefix.
  destruct (read_comment_R lx v true HR) as (lx1 & E1 & HR1). rewrite E1.
  destruct (p_comment v true) as [[comment|] v1] eqn:Ec; cbn [fst snd] in *.
  - pose proof (p_comment_gt _ _ _ _ HvL Ec) as Hgt.
    (* shape of the comment *)
    assert (Hshape : exists s e ol c99, v <= s /\ s <= e /\ e <= v1 /\ comment = p_comment_tok s e ol c99).
    { unfold p_comment in Ec. destruct (p_again _ _ _ _ _) as [[[[s ol] c99] e]|] eqn:Ea; [|discriminate].
      apply p_again_gt in Ea; auto. inversion Ec; subst.
      exists s, (p_comment_end true e), ol, c99.
      pose proof (p_comment_end_ge true e). pose proof (p_after_ge true (p_comment_end true e)).
      repeat split; auto; lia. }
    destruct Hshape as (s & e & ol & c99 & Hs & Hse & Hev & ->).
    destruct (comment_tok_fields s e ol c99) as (Ht & Ho & He & Hl & Hstr).
    destruct (Pinv_comment s e ol c99 v1 Hse Hev) as (Hp1 & Hp2).
    set (t := p_comment_tok s e ol c99) in *. cbv zeta in *.
    pose proof (clamp_mono _ _ Hse). pose proof (clamp_mono _ _ Hev). pose proof (clamp_mono _ _ Hs).
    assert (HPnew : forall ps, Pinv (ps ++ [t]) v1).
    { intros ps pv before Hrev Hty. rewrite rev_app_distr in Hrev. simpl in Hrev. inv Hrev.
      split; auto. intros Heq. apply Hp2 in Heq. exists (clamp e - clamp s). rewrite Ho. split; auto. lia. }
    destruct (rev prefixes) as [|pv before] eqn:Er.
    + eexists; split; [reflexivity|]. split; [exact HR1|]. split; [|discriminate].
      intros ps Hps. inv Hps. split; [auto|]. apply (HPnew []).
    + destruct (ttype_eqb (t_type pv) T_COMMENT && (t_lno t =? t_lno pv)) eqn:Em.
      * apply andb_true_iff in Em. destruct Em as (Em1 & Em2).
        apply ttype_eqb_eq in Em1. apply Nat.eqb_eq in Em2.
        destruct (HP pv before Er Em1) as (Hle & Hsame).
        pose proof (nlc_mono _ _ H1).
        destruct Hsame as (l & Hsrc & Hend); [lia|].
        unfold prolong. rewrite Ht, Em1, ttype_eqb_refl, Hsrc, Ho. cbn [text_len andb].
        destruct (Nat.leb_spec (t_off pv + l) (clamp s)); [|lia].
        eexists; split; [reflexivity|]. split; [exact HR1|]. split; [|discriminate].
        intros ps Hps. inv Hps. split; [auto|].
        intros pv' before' Hrev' Hty'. rewrite rev_app_distr, rev_involutive in Hrev'. simpl in Hrev'. inv Hrev'.
        cbn [t_lno t_str t_off t_type]. split; [lia|]. intros Heq.
        eexists; split; [reflexivity|]. rewrite Hp2 by lia. cbn [text_len]. lia.
      * eexists; split; [reflexivity|]. split; [exact HR1|]. split; [|discriminate].
        intros ps Hps. inv Hps. split; [auto|]. apply HPnew.
  - apply p_comment_none in Ec. subst v1.
    destruct (read_cpp_R lx1 v HR1) as (lx2 & E2 & HR2). rewrite E2.
    destruct (p_cpp v) as [[cpp|] v2] eqn:Ecpp; cbn [fst snd] in *.
    + pose proof (p_cpp_gt _ _ _ HvL Ecpp).
      eexists; split; [reflexivity|]. split; [exact HR2|]. split; [|discriminate].
      intros ps Hps. inv Hps. split; auto.
      intros pv before Hrev Hty. rewrite rev_app_distr in Hrev. simpl in Hrev. inv Hrev.
      exfalso. unfold p_cpp in Ecpp. destruct (p_els v v) as [a b]. destruct (is_at a "#"); [|discriminate].
      injection Ecpp as Ecpp _. rewrite <- Ecpp in Hty. unfold p_cpp_tok in Hty.
      revert Hty. unfold p_find_cpp.
      assert (Hcpp : forall x y, In (x, y) cpp_names -> x <> T_COMMENT).
      { intros x y Hin. unfold cpp_names in Hin. simpl in Hin.
        repeat (destruct Hin as [Hin|Hin]; [inv Hin; discriminate|]). destruct Hin. }
      destruct (p_slice _ _) as [key|]; [|simpl; discriminate].
      destruct (find _ cpp_names) as [[x y]|] eqn:Ef; [|simpl; discriminate].
      apply find_some in Ef. destruct Ef as (Ef & _). apply Hcpp in Ef.
      destruct (ttype_eqb x T_CPP_DEFINE); [destruct (align _)|]; simpl; auto.
    + eexists; split; [reflexivity|]. apply p_cpp_none in Ecpp. subst v2. split; [exact HR2|].
      split; [discriminate|auto].
Qed.

Fixpoint p_prefixes (fuel v : nat) (prefixes : list tok) : list tok * nat :=
  match fuel with
  | 0 => (prefixes, v)
  | S f => match p_prefix v prefixes with
           | (None, _) => (prefixes, v)
           | (Some ps, v1) => p_prefixes f v1 ps
           end
  end.

Lemma read_prefixes_R : forall fuel lx v prefixes, R lx v -> Pinv prefixes v -> S L - v < fuel -> exists lx',
  read_prefixes inp in_diff trim align fuel lx prefixes = (fst (p_prefixes fuel v prefixes), lx') /\
  R lx' (snd (p_prefixes fuel v prefixes)) /\ v <= snd (p_prefixes fuel v prefixes).
Proof.
  induction fuel; intros lx v prefixes HR HP Hf; [lia|]. cbn [read_prefixes p_prefixes].
  destruct (read_prefix_R lx v prefixes HR HP) as (lx1 & E1 & HR1 & H1 & H2). rewrite E1.
  destruct (p_prefix v prefixes) as [[ps|] v1]; cbn [fst snd] in *.
  - destruct (H1 ps eq_refl) as (Hgt & HP1). pose proof (R_le _ _ HR1).
    destruct (IHfuel lx1 v1 ps HR1 HP1) as (lx2 & E2 & HR2 & H3); [lia|].
    exists lx2. split; [exact E2|]. split; [exact HR2|lia].
  - rewrite (H2 eq_refl) in HR1. eauto.
Qed.

(** ** Suffixes *)
Fixpoint p_suffix_comments (fuel v : nat) (suf : list tok) : list tok * nat :=
  match fuel with
  | 0 => (suf, v)
  | S f => match p_comment v false with
           | (None, _) => (suf, v)
           | (Some c, v1) => p_suffix_comments f v1 (suf ++ [c])
           end
  end.

Lemma suffix_comments_R : forall fuel lx v suf, R lx v -> S L - v < fuel -> exists lx',
  read_suffix_comments inp in_diff trim fuel lx suf = (fst (p_suffix_comments fuel v suf), lx') /\
  R lx' (snd (p_suffix_comments fuel v suf)) /\ v <= snd (p_suffix_comments fuel v suf).
Proof.
  induction fuel; intros lx v suf HR Hf; [lia|]. cbn [read_suffix_comments p_suffix_comments].
  destruct (read_comment_R lx v false HR) as (lx1 & E1 & HR1). rewrite E1.
  destruct (p_comment v false) as [[c|] v1] eqn:Ec; cbn [fst snd] in *.
  - pose proof (p_comment_gt _ _ _ _ (R_le _ _ HR) Ec). pose proof (R_le _ _ HR1).
    destruct (IHfuel lx1 v1 (suf ++ [c]) HR1) as (lx2 & E2 & HR2 & H3); [lia|].
    exists lx2. split; [exact E2|]. split; [exact HR2|lia].
  - apply p_comment_none in Ec; subst v1. eauto.
Qed.

Definition p_spaces_tok (v : nat) : option tok :=
  if p_spaces v =? v then None else Some (p_tok T_SPACE 0%N None v (p_spaces v)).

Lemma eat_spaces_tok_R : forall lx v, R lx v -> exists lx',
  eat_spaces_tok inp in_diff lx = (p_spaces_tok v, lx') /\ R lx' (p_spaces v).
Proof.
  intros lx v HR. unfold eat_spaces_tok, p_spaces_tok. rewrite (R_st _ _ HR).
  destruct (eat_spaces_R _ _ HR) as (lx1 & E1 & HR1). rewrite E1.
  destruct (p_spaces v =? v); cbn [negb]; [eauto|].
  rewrite (emit_R _ _ _ _ _ _ HR1) by apply p_spaces_ge. eauto.
Qed.

Definition p_lines_tok (v : nat) : option tok :=
  if fst (p_lines 0 v) =? 0 then None else Some (p_tok T_SPACE 0%N (Some [NL]) v (snd (p_lines 0 v))).

Lemma eat_lines_tok_R : forall lx v, R lx v -> exists lx',
  eat_lines_tok inp in_diff lx 0 = (fst (p_lines 0 v), p_lines_tok v, lx') /\ R lx' (snd (p_lines 0 v)).
Proof.
  intros lx v HR. unfold eat_lines_tok, p_lines_tok. rewrite (R_st _ _ HR).
  destruct (eat_lines_R _ _ 0 HR) as (lx1 & E1 & HR1). rewrite E1.
  destruct (Nat.eqb_spec (fst (p_lines 0 v)) 0) as [->|]; [eauto|].
  rewrite (emit_R _ _ _ _ _ _ HR1) by apply p_lines_ge. eauto.
Qed.

(** ** clang_read *)
Definition p_main (v : nat) : tok * nat :=
  match p_keyword v with
  | (Some t, v2) => (t, v2)
  | (None, v2) => p_other v2
  end.

Definition p_suffixes (tk : tok) (v : nat) : list tok * nat :=
  let '(suf1, v3) := if has_flag (t_flags tk) F_DISCARD then ([], v)
                     else p_suffix_comments (FUEL inp) v [] in
  let '(suf2, v4) :=
    if length suf1 =? 0 then
      match p_spaces_tok v3 with
      | Some t => ([set_flags t (N.lor (t_flags t) (N.lor F_OPTSPACE F_DISCARD))], p_spaces v3)
      | None => ([], p_spaces v3)
      end
    else (suf1, v3) in
  (match p_lines_tok v4 with
   | Some t => suf2 ++ [if fst (p_lines 0 v4) =? 1 then set_flags t (N.lor (t_flags t) F_OPTLINE) else t]
   | None => suf2
   end, snd (p_lines 0 v4)).

Definition p_read (v : nat) : token * nat :=
  let '(prefixes, v1) := p_prefixes (FUEL inp) v [] in
  let '(tk, v2) := p_main v1 in
  let '(suf, v3) := p_suffixes tk v2 in
  (Token tk prefixes suf, v3).

Lemma p_keyword_ge : forall v, v <= S L -> v <= snd (p_keyword v).
Proof.
  intros v Hv. unfold p_keyword. pose proof (p_els_R_le v v Hv (le_n _)) as (H1 & H2).
  set (v0 := fst (p_els v v)) in *.
  assert (HR : exists lx, R lx v0 /\ v0 <= S L).
  { assert (HR : exists lx, R lx v).
    { apply R_exists; auto. }
    destruct HR as (lx & HR). destruct (els_R lx v v HR (le_n _)) as (lx' & _ & HR' & _).
    exists lx'. split; auto. apply (R_le _ _ HR'). }
  destruct HR as (lx & HR & Hv0).
  destruct (nth_error vinp v0) eqn:E; [|simpl; lia].
  destruct (getc_some _ _ _ HR E) as (lx1 & _ & HR1).
  destruct (keyword_loop_R (FUEL inp) lx1 (S v0) v0 None HR1) as (lx2 & _ & _ & H3); [lia|unfold FUEL; lia|].
  destruct (p_kwloop _ _ _ _) as [[k|] v2]; cbn [snd] in *; lia.
Qed.

Lemma clang_read_R : forall lx v, R lx v -> exists lx',
  clang_read inp in_diff trim align lx = (fst (p_read v), lx') /\ R lx' (snd (p_read v)) /\
  v <= snd (p_read v).
Proof.
  intros lx v HR. unfold clang_read, p_read. pose proof (R_le _ _ HR) as HvL.
  destruct (read_prefixes_R (FUEL inp) lx v [] HR) as (lx1 & E1 & HR1 & H1).
  { intros pv before H; discriminate. }
  { unfold FUEL; lia. }
  rewrite E1. destruct (p_prefixes (FUEL inp) v []) as [prefixes v1]. cbn [fst snd] in *.
  assert (Hmain : exists lx2, (match clang_keyword inp in_diff lx1 with
    | (Some t, lx2) => (t, lx2)
    | (None, lx2) => read_other inp in_diff lx2
    end) = (fst (p_main v1), lx2) /\ R lx2 (snd (p_main v1)) /\ v1 <= snd (p_main v1)).
  { unfold p_main. destruct (clang_keyword_R _ _ HR1) as (lx2 & E2 & HR2). rewrite E2.
    pose proof (p_keyword_ge v1 (R_le _ _ HR1)) as Hk.
    destruct (p_keyword v1) as [[t|] v2]; cbn [fst snd] in *; [eauto|].
    destruct (read_other_R _ _ HR2) as (lx3 & E3 & HR3 & H3).
    exists lx3. split; [exact E3|]. split; [exact HR3|lia]. }
  destruct Hmain as (lx2 & E2 & HR2 & H2). rewrite E2.
  destruct (p_main v1) as [tk v2]. cbn [fst snd] in *.
  unfold p_suffixes.
  assert (Hsuf : exists lx3, (if has_flag (t_flags tk) F_DISCARD then ([], lx2)
       else read_suffix_comments inp in_diff trim (FUEL inp) lx2 []) =
      (fst (if has_flag (t_flags tk) F_DISCARD then ([], v2) else p_suffix_comments (FUEL inp) v2 []), lx3) /\
      R lx3 (snd (if has_flag (t_flags tk) F_DISCARD then ([], v2) else p_suffix_comments (FUEL inp) v2 [])) /\
      v2 <= snd (if has_flag (t_flags tk) F_DISCARD then ([], v2) else p_suffix_comments (FUEL inp) v2 [])).
  { destruct (has_flag _ _); [eauto|]. apply suffix_comments_R; auto. unfold FUEL; lia. }
  destruct Hsuf as (lx3 & E3 & HR3 & H3). rewrite E3.
  destruct (if has_flag (t_flags tk) F_DISCARD then ([], v2) else p_suffix_comments (FUEL inp) v2 [])
    as [suf1 v3]. cbn [fst snd] in *.
  destruct (eat_spaces_tok_R _ _ HR3) as (lx4 & E4 & HR4).
  pose proof (p_spaces_ge v3).
  destruct (length suf1 =? 0).
  - rewrite E4.
    destruct (eat_lines_tok_R _ _ HR4) as (lx5 & E5 & HR5).
    pose proof (p_lines_ge 0 (p_spaces v3)).
    destruct (p_spaces_tok v3) as [t|]; cbn beta iota; rewrite E5;
      destruct (p_lines_tok (p_spaces v3)); (eexists; split; [reflexivity|]; split; [exact HR5|cbn [snd]; lia]).
  - destruct (eat_lines_tok_R _ _ HR3) as (lx5 & E5 & HR5). rewrite E5.
    pose proof (p_lines_ge 0 v3).
    destruct (p_lines_tok v3); (eexists; split; [reflexivity|]; split; [exact HR5|cbn [snd]; lia]).
Qed.
End Refine.
