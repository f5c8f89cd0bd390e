(** Proofs about span matching and splitting. *)
From Verif Require Import Base StrModel.

(** Range strings the callers pass: complete pairs of non-NUL ASCII bytes, at
    most eight of them (one 128-bit register). *)
Definition ascii7 (c : byte) : Prop := (0 < code c < 128)%N.
Definition good_ranges (ranges : bytes) : Prop :=
  Forall ascii7 ranges /\ Nat.even (length ranges) = true /\ length ranges <= 16.

(** Independent specification: [c] lies in one of the pairs. *)
Inductive InRanges (c : byte) : bytes -> Prop :=
| IR_here : forall lo hi r, (code lo <= code c <= code hi)%N -> InRanges c (lo :: hi :: r)
| IR_later : forall lo hi r, InRanges c r -> InRanges c (lo :: hi :: r).

Lemma pair_ind : forall (P : bytes -> Prop),
  P [] -> (forall x, P [x]) -> (forall x y r, P r -> P (x :: y :: r)) -> forall l, P l.
Proof.
  intros P H0 H1 H2 l.
  assert (H : P l /\ forall x, P (x :: l)); [|tauto].
  induction l as [|x l [IHa IHb]]; split; auto.
Qed.

Lemma code_lt : forall c, (code c < 256)%N.
Proof. intros; apply N_ascii_bounded. Qed.

Lemma in_ranges_code : forall ranges c, Forall ascii7 ranges ->
  in_ranges c ranges = true <-> InRanges c ranges.
Proof.
  intros ranges c; induction ranges using pair_ind; intros HF.
  - simpl; split; [easy|intros H; inv H].
  - simpl; split; [easy|intros H; inv H].
  - inv HF. inv H2. specialize (IHranges H4). simpl.
    unfold ascii7 in *. pose proof (code_lt c).
    destruct (schar x <=? schar c)%Z eqn:E1; destruct (schar c <=? schar y)%Z eqn:E2; simpl.
    + split; auto. intros _. left. unfold schar in *.
      destruct (Z.of_N (code x) <? 128)%Z eqn:?; destruct (Z.of_N (code c) <? 128)%Z eqn:?;
      destruct (Z.of_N (code y) <? 128)%Z eqn:?; lia.
    + rewrite IHranges. split; [intros; right; auto|]. intros H'; inv H'; auto. exfalso.
      unfold schar in *.
      destruct (Z.of_N (code x) <? 128)%Z eqn:?; destruct (Z.of_N (code c) <? 128)%Z eqn:?;
      destruct (Z.of_N (code y) <? 128)%Z eqn:?; lia.
    + rewrite IHranges. split; [intros; right; auto|]. intros H'; inv H'; auto. exfalso.
      unfold schar in *.
      destruct (Z.of_N (code x) <? 128)%Z eqn:?; destruct (Z.of_N (code c) <? 128)%Z eqn:?;
      destruct (Z.of_N (code y) <? 128)%Z eqn:?; lia.
    + rewrite IHranges. split; [intros; right; auto|]. intros H'; inv H'; auto. exfalso.
      unfold schar in *.
      destruct (Z.of_N (code x) <? 128)%Z eqn:?; destruct (Z.of_N (code c) <? 128)%Z eqn:?;
      destruct (Z.of_N (code y) <? 128)%Z eqn:?; lia.
Qed.

Lemma pcmp_ranges_code : forall ranges c,
  pcmp_ranges c ranges = true <-> InRanges c ranges.
Proof.
  intros ranges c; induction ranges using pair_ind.
  - simpl; split; [easy|intros H; inv H].
  - simpl; split; [easy|intros H; inv H].
  - simpl. rewrite orb_true_iff, IHranges. unfold inrange.
    rewrite andb_true_iff, !N.leb_le. split.
    + intros [H|H]; [left; auto|right; auto].
    + intros H; inv H; auto.
Qed.

Lemma in_ranges_pcmp : forall ranges c, Forall ascii7 ranges -> in_ranges c ranges = pcmp_ranges c ranges.
Proof.
  intros. destruct (pcmp_ranges c ranges) eqn:E.
  - apply in_ranges_code; auto. apply pcmp_ranges_code; auto.
  - destruct (in_ranges c ranges) eqn:E2; auto.
    apply in_ranges_code in E2; auto. apply pcmp_ranges_code in E2; congruence.
Qed.

Lemma NUL_not_in_ranges : forall ranges, Forall ascii7 ranges -> in_ranges NUL ranges = false.
Proof.
  intros ranges H. destruct (in_ranges NUL ranges) eqn:E; auto.
  apply in_ranges_code in E; auto. exfalso. induction E as [lo hi r Hr|lo hi r Hr IH].
  - inversion H as [|? ? Ha Hb]. unfold ascii7 in Ha. destruct Hr. change (code NUL) with 0%N in *. lia.
  - inversion H as [|? ? Ha Hb]. inversion Hb. auto.
Qed.

Lemma valid_prefix_app_nul : forall a b, Forall ascii7 a -> valid_prefix (a ++ NUL :: b) = a.
Proof.
  induction a; simpl; intros; auto. inv H.
  destruct (a =c NUL) eqn:E.
  - apply eqb_true in E; subst. unfold ascii7 in H2. change (code NUL) with 0%N in *. lia.
  - f_equal; auto.
Qed.

Lemma valid_prefix_id : forall a, Forall ascii7 a -> valid_prefix a = a.
Proof.
  induction a; simpl; intros; auto. inv H.
  destruct (a =c NUL) eqn:E.
  - apply eqb_true in E; subst. unfold ascii7 in H2. change (code NUL) with 0%N in *. lia.
  - f_equal; auto.
Qed.

Lemma load_ranges_valid : forall ranges g, good_ranges ranges ->
  valid_prefix (load_ranges ranges g) = ranges.
Proof.
  intros ranges g (HF & _ & HL). unfold load_ranges.
  rewrite firstn_app. rewrite (firstn_all2 ranges) by lia.
  destruct (16 - length ranges) eqn:E; simpl.
  - rewrite app_nil_r. apply valid_prefix_id; auto.
  - apply valid_prefix_app_nul; auto.
Qed.

Lemma match_default_from_span : forall str r i,
  match_default_from i str r = i + span_len (fun c => in_ranges c r) str.
Proof.
  induction str; simpl; intros; auto.
  destruct (in_ranges a r); [rewrite IHstr|]; lia.
Qed.

Lemma match_until_from_span : forall str r i,
  match_until_from i str r = i + span_len (fun c => negb (in_ranges c r)) str.
Proof.
  induction str; simpl; intros; auto.
  destruct (in_ranges a r); simpl; [|rewrite IHstr]; lia.
Qed.

Definition nonul (l : bytes) : Prop := Forall (fun c => c <> NUL) l.

(** The positions of a block that compare true. *)
Lemma intres1_neg_span : forall x1 block, Forall ascii7 (valid_prefix x1) ->
  span_len negb (intres2_neg x1 block) = span_len (fun c => in_ranges c (valid_prefix x1)) block.
Proof.
  intros x1 block HF. unfold intres2_neg, intres1.
  induction block as [|c r IH]; simpl; auto.
  destruct (c =c NUL) eqn:E.
  - apply eqb_true in E; subst. simpl. rewrite NUL_not_in_ranges; auto.
  - cbn [length firstn map app Nat.sub span_len]. rewrite in_ranges_pcmp; auto.
    destruct (pcmp_ranges c (valid_prefix x1)) eqn:E2; simpl; auto.
Qed.

Lemma intres1_length : forall x1 block, length (intres1 x1 block) = length block.
Proof.
  intros. unfold intres1. rewrite app_length, map_length, repeat_length, firstn_length.
  assert (length (valid_prefix block) <= length block).
  { induction block; simpl; auto. destruct (a =c NUL); simpl; lia. }
  lia.
Qed.

Lemma flag_c_false_neg : forall x1 block, Forall ascii7 (valid_prefix x1) ->
  flag_c (intres2_neg x1 block) = false ->
  span_len (fun c => in_ranges c (valid_prefix x1)) block = length block.
Proof.
  intros. rewrite <- intres1_neg_span; auto.
  rewrite <- (intres1_length x1 block). unfold intres2_neg in *.
  remember (intres1 x1 block) as l. clear Heql. clear H.
  induction l; simpl in *; auto. destruct a; simpl in *; auto. discriminate.
Qed.

Lemma flag_c_true_neg : forall x1 block, Forall ascii7 (valid_prefix x1) ->
  flag_c (intres2_neg x1 block) = true ->
  span_len (fun c => in_ranges c (valid_prefix x1)) block < length block.
Proof.
  intros. rewrite <- intres1_neg_span; auto.
  rewrite <- (intres1_length x1 block). unfold intres2_neg in *.
  remember (intres1 x1 block) as l. clear Heql. clear H.
  induction l; simpl in *; try discriminate. destruct a; simpl in *; lia.
Qed.

Lemma span_len_app : forall {A} (p : A -> bool) a b,
  span_len p (a ++ b) = if span_len p a =? length a then length a + span_len p b else span_len p a.
Proof.
  induction a; simpl; intros; auto.
  destruct (p a); simpl; auto. rewrite IHa. destruct (span_len p a0 =? length a0); auto.
Qed.

Lemma span_len_tail : forall p str, p NUL = false -> span_len p (tail_block str) = span_len p str.
Proof.
  intros. unfold tail_block. rewrite span_len_app.
  destruct (span_len p str =? length str) eqn:E; auto.
  apply Nat.eqb_eq in E. rewrite E. destruct (16 - length str); simpl; [lia|].
  rewrite H; lia.
Qed.

Lemma flag_z_nul : forall block, flag_z block = true -> exists a b, block = a ++ NUL :: b.
Proof.
  unfold flag_z. induction block; simpl; intros; try discriminate.
  apply orb_true_iff in H. destruct H.
  - apply eqb_true in H; subst. exists [], block; auto.
  - destruct (IHblock H) as (x & y & ->). exists (a :: x), y; auto.
Qed.

Lemma match_native_from_spec : forall fuel rax str x1, Forall ascii7 (valid_prefix x1) ->
  length str < fuel ->
  match_native_from fuel rax str x1 =
    Some (rax + span_len (fun c => in_ranges c (valid_prefix x1)) str).
Proof.
  induction fuel; intros rax str x1 HF HL; [lia|]. cbn [match_native_from]. cbv zeta.
  destruct (Nat.ltb_spec (length str) 16).
  - unfold tzcnt. rewrite intres1_neg_span; auto. rewrite span_len_tail; auto.
    apply NUL_not_in_ranges; auto.
  - set (block := firstn 16 str). set (p := fun c => in_ranges c (valid_prefix x1)).
    assert (Hstr : str = block ++ skipn 16 str) by (symmetry; apply firstn_skipn).
    assert (Hb : length block = 16) by (unfold block; rewrite firstn_length; lia).
    destruct (flag_c (intres2_neg x1 block)) eqn:EC; cbn [orb].
    + unfold tzcnt. rewrite intres1_neg_span; auto. f_equal. f_equal. fold p.
      pose proof (span_len_app p block (skipn 16 str)) as Hsp. rewrite <- Hstr in Hsp. rewrite Hsp.
      pose proof (flag_c_true_neg _ _ HF EC). fold p in H0.
      destruct (Nat.eqb_spec (span_len p block) (length block)); try lia.
    + pose proof (flag_c_false_neg _ _ HF EC) as Hall. fold p in Hall.
      destruct (flag_z block) eqn:EZ.
      * exfalso. apply flag_z_nul in EZ. destruct EZ as (a & b & Eb).
        assert (Hn : p NUL = false) by (apply NUL_not_in_ranges; auto).
        rewrite Eb in Hall. rewrite span_len_app in Hall. rewrite app_length in Hall. simpl in Hall.
        rewrite Hn in Hall. destruct (span_len p a =? length a) eqn:E2; try lia.
        pose proof (span_len_le p a). lia.
      * rewrite IHfuel; auto.
        2:{ rewrite skipn_length; lia. }
        fold p. f_equal. pose proof (span_len_app p block (skipn 16 str)) as Hsp.
        rewrite <- Hstr in Hsp. rewrite Hsp, Hall, Nat.eqb_refl. lia.
Qed.

Lemma match_native_default : forall str ranges g, good_ranges ranges ->
  KS_str_match_native str ranges g = Some (KS_str_match_default str ranges).
Proof.
  intros. unfold KS_str_match_native. rewrite match_native_from_spec; auto.
  - rewrite load_ranges_valid; auto. unfold KS_str_match_default.
    rewrite match_default_from_span. auto.
  - rewrite load_ranges_valid; auto. apply H.
Qed.

(** until, for data without NUL *)
Lemma intres1_nonul : forall x1 block, Forall ascii7 (valid_prefix x1) -> nonul block -> 
  intres1 x1 block = map (fun c => in_ranges c (valid_prefix x1)) block.
Proof.
  intros. unfold intres1. induction H0; simpl; auto.
  destruct (x =c NUL) eqn:E.
  - apply eqb_true in E; congruence.
  - cbn [length firstn map app Nat.sub]. rewrite IHForall, in_ranges_pcmp; auto.
Qed.

Lemma intres1_tail : forall x1 str, Forall ascii7 (valid_prefix x1) -> nonul str ->
  intres1 x1 (tail_block str) = map (fun c => in_ranges c (valid_prefix x1)) str ++ repeat false (16 - length str).
Proof.
  intros. unfold tail_block. unfold intres1.
  assert (Hv : forall m, length (valid_prefix (str ++ repeat NUL m)) = length str).
  { intros m. induction H0; simpl.
    - destruct m; auto.
    - destruct (x =c NUL) eqn:E. { apply eqb_true in E; congruence. } simpl; auto. }
  rewrite Hv. rewrite firstn_app, Nat.sub_diag, firstn_all. simpl. rewrite app_nil_r.
  rewrite app_length, repeat_length. f_equal.
  - apply map_ext. intros; symmetry; apply in_ranges_pcmp; auto.
  - f_equal. lia.
Qed.

Lemma flag_c_map : forall (p : byte -> bool) l,
  flag_c (map p l) = negb (span_len (fun c => negb (p c)) l =? length l).
Proof.
  induction l; simpl; auto. destruct (p a); simpl; auto.
Qed.

Lemma span_map_negb : forall (p : byte -> bool) l,
  span_len negb (map p l) = span_len (fun c => negb (p c)) l.
Proof. induction l; simpl; auto. destruct (p a); simpl; auto. Qed.

Lemma match_until_native_from_spec : forall fuel rax str x1, Forall ascii7 (valid_prefix x1) ->
  nonul str -> length str < fuel ->
  match_until_native_from fuel rax str x1 =
    Some (rax + span_len (fun c => negb (in_ranges c (valid_prefix x1))) str).
Proof.
  induction fuel; intros rax str x1 HF HN HL; [lia|]. cbn [match_until_native_from]. cbv zeta.
  set (p := fun c => in_ranges c (valid_prefix x1)).
  change (fun c => negb (in_ranges c (valid_prefix x1))) with (fun c => negb (p c)).
  destruct (Nat.ltb_spec (length str) 16).
  - rewrite intres1_tail; auto. fold p.
    unfold flag_c. rewrite existsb_app. fold (flag_c (map p str)).
    assert (HR : forall n, existsb (fun b : bool => b) (repeat false n) = false)
      by (induction n; simpl; auto).
    rewrite HR, orb_false_r, flag_c_map.
    destruct (Nat.eqb_spec (span_len (fun c => negb (p c)) str) (length str)) as [E|E]; cbn [negb].
    + rewrite E; auto.
    + unfold tzcnt. rewrite span_len_app, span_map_negb, map_length.
      destruct (Nat.eqb_spec (span_len (fun c => negb (p c)) str) (length str)); [lia|auto].
  - set (block := firstn 16 str).
    assert (Hstr : str = block ++ skipn 16 str) by (symmetry; apply firstn_skipn).
    assert (Hb : length block = 16) by (unfold block; rewrite firstn_length; lia).
    assert (HNb : nonul block /\ nonul (skipn 16 str)).
    { unfold nonul. rewrite Hstr in HN. apply Forall_app in HN. auto. }
    destruct HNb as [HN1 HN2].
    rewrite intres1_nonul; auto. fold p. rewrite flag_c_map.
    destruct (Nat.eqb_spec (span_len (fun c => negb (p c)) block) (length block)) as [E|E]; cbn [negb].
    + rewrite IHfuel; auto. 2:{ rewrite skipn_length; lia. }
      fold p. change (fun c => negb (in_ranges c (valid_prefix x1))) with (fun c => negb (p c)). f_equal. pose proof (span_len_app (fun c => negb (p c)) block (skipn 16 str)) as Hsp.
      rewrite <- Hstr in Hsp. rewrite Hsp, E, Nat.eqb_refl. lia.
    + unfold tzcnt. rewrite span_map_negb. f_equal. f_equal.
      pose proof (span_len_app (fun c => negb (p c)) block (skipn 16 str)) as Hsp.
      rewrite <- Hstr in Hsp. rewrite Hsp.
      destruct (Nat.eqb_spec (span_len (fun c => negb (p c)) block) (length block)); [lia|auto].
Qed.

Lemma match_until_native_default : forall str ranges g, good_ranges ranges -> nonul str ->
  KS_str_match_until_native str ranges g = Some (KS_str_match_until_default str ranges).
Proof.
  intros. unfold KS_str_match_until_native. rewrite match_until_native_from_spec; auto.
  - rewrite load_ranges_valid; auto. unfold KS_str_match_until_default.
    rewrite match_until_from_span. auto.
  - rewrite load_ranges_valid; auto. apply H.
Qed.

(** Characterisation of the scalar versions. *)
Lemma match_default_spec : forall str ranges n, Forall ascii7 ranges ->
  KS_str_match_default str ranges = n <->
  n <= length str /\ Forall (fun c => InRanges c ranges) (firstn n str) /\
  (forall c, nth_error str n = Some c -> ~ InRanges c ranges).
Proof.
  intros str ranges n HF. unfold KS_str_match_default. rewrite match_default_from_span. simpl.
  split.
  - intros <-. split; [apply span_len_le|]. split.
    + pose proof (span_len_all (fun c => in_ranges c ranges) str) as H.
      eapply Forall_impl; [|exact H]. intros a Ha; apply in_ranges_code; auto.
    + intros c Hc HI. apply span_len_stop in Hc. apply in_ranges_code in HI; auto. congruence.
  - revert n. induction str as [|x str IH]; simpl; intros n (H1 & H2 & H3).
    + lia.
    + destruct n; simpl in *.
      * specialize (H3 x eq_refl). destruct (in_ranges x ranges) eqn:E; auto.
        apply in_ranges_code in E; auto. tauto.
      * inv H2. apply in_ranges_code in H4; auto. rewrite H4. f_equal.
        apply IH. split; [lia|auto].
Qed.

Lemma match_until_spec : forall str ranges n, Forall ascii7 ranges ->
  KS_str_match_until_default str ranges = n <->
  n <= length str /\ Forall (fun c => ~ InRanges c ranges) (firstn n str) /\
  (forall c, nth_error str n = Some c -> InRanges c ranges).
Proof.
  intros str ranges n HF. unfold KS_str_match_until_default. rewrite match_until_from_span. simpl.
  split.
  - intros <-. split; [apply span_len_le|]. split.
    + pose proof (span_len_all (fun c => negb (in_ranges c ranges)) str) as H.
      eapply Forall_impl; [|exact H]. intros a Ha HI.
      apply in_ranges_code in HI; auto. simpl in Ha. rewrite HI in Ha. discriminate.
    + intros c Hc. apply span_len_stop in Hc. apply negb_false_iff in Hc. apply in_ranges_code in Hc; auto.
  - revert n. induction str as [|x str IH]; simpl; intros n (H1 & H2 & H3).
    + lia.
    + destruct n; simpl in *.
      * specialize (H3 x eq_refl). apply in_ranges_code in H3; auto. rewrite H3. auto.
      * inv H2. destruct (in_ranges x ranges) eqn:E.
        { apply in_ranges_code in E; auto. tauto. }
        simpl. f_equal. apply IH. split; [lia|auto].
Qed.

(** Splitting. *)
Fixpoint join (delim : bytes) (ps : list bytes) : bytes :=
  match ps with
  | [] => []
  | [p] => p
  | p :: r => p ++ delim ++ join delim r
  end.

(** [delim] does not occur in [p]. *)
Definition occurs (delim p : bytes) : Prop := exists a b, p = a ++ delim ++ b.

Lemma strstr_split_some : forall str delim a b, strstr_split str delim = Some (a, b) ->
  str = a ++ delim ++ b /\
  (forall x y, str = x ++ delim ++ y -> length a <= length x).
Proof.
  induction str as [|c r IH]; intros delim a b; cbn [strstr_split]; destruct (starts_with delim _) eqn:E.
  - intros H; inv H. apply starts_with_spec in E. destruct E as [q E].
    split; [|simpl; lia]. simpl. rewrite E at 1. f_equal. rewrite E.
    rewrite skipn_app, skipn_all, Nat.sub_diag. auto.
  - discriminate.
  - intros H. injection H as <- <-. apply starts_with_spec in E. destruct E as [q E].
    split; [|simpl; lia]. rewrite E. cbn [app]. rewrite skipn_app, skipn_all, Nat.sub_diag. auto.
  - destruct (strstr_split r delim) as [[a' b']|] eqn:E2; try discriminate.
    intros H; inv H. destruct (IH _ _ _ E2) as [H1 H2]. split.
    + simpl. f_equal; auto.
    + intros x y Hx. destruct x as [|z x].
      * exfalso. assert (starts_with delim (c :: r) = true); [|congruence].
        apply starts_with_spec. eauto.
      * injection Hx as <- Hx. simpl. specialize (H2 x y Hx). lia.
Qed.

Lemma strstr_split_none : forall str delim, strstr_split str delim = None -> ~ occurs delim str.
Proof.
  induction str as [|c r IH]; intros delim; cbn [strstr_split]; destruct (starts_with delim _) eqn:E; try discriminate.
  - intros _ (a & b & H). destruct a; try discriminate. destruct delim; try discriminate.
  - destruct (strstr_split r delim) as [[a' b']|] eqn:E2; try discriminate.
    intros _ (a & b & H). destruct a as [|z a].
    + assert (starts_with delim (c :: r) = true); [|congruence]. apply starts_with_spec. eauto.
    + inv H. apply (IH delim E2). exists a, b; auto.
Qed.

Lemma split_from_spec : forall fuel str delim, delim <> [] -> length str < fuel ->
  exists ps, split_from fuel str delim = Some ps /\ ps <> [] /\ join delim ps = str.
Proof.
  induction fuel; simpl; intros str delim HD HL; try lia.
  destruct (strstr_split str delim) as [[a b]|] eqn:E.
  - apply strstr_split_some in E. destruct E as [E _].
    destruct (IHfuel b delim HD) as (ps & H1 & H2 & H3).
    { rewrite E in HL. rewrite !app_length in HL. destruct delim; [congruence|simpl in HL; lia]. }
    rewrite H1. exists (a :: ps). split; auto. split; [discriminate|].
    simpl. destruct ps; [congruence|]. rewrite H3. auto.
  - exists [str]. split; auto. split; [discriminate|auto].
Qed.

(** A one byte delimiter occurs in no part. *)
Lemma split_from_parts : forall d fuel str ps,
  split_from fuel str [d] = Some ps -> Forall (fun p => ~ In d p) ps.
Proof.
  induction fuel; simpl; intros str ps H; try discriminate.
  destruct (strstr_split str [d]) as [[a b]|] eqn:E.
  - destruct (split_from fuel b [d]) eqn:E2; try discriminate. inv H.
    constructor; eauto. apply strstr_split_some in E. destruct E as [-> Hm].
    intros Hin. apply in_split in Hin. destruct Hin as (x & y & ->).
    specialize (Hm x (y ++ [d] ++ b)). rewrite <- !app_assoc in Hm. simpl in Hm.
    specialize (Hm eq_refl). rewrite app_length in Hm. simpl in Hm. lia.
  - inv H. constructor; auto. apply strstr_split_none in E. intros Hin. apply E.
    apply in_split in Hin. destruct Hin as (x & y & ->). exists x, y; auto.
Qed.

Lemma split_spec : forall d str, exists ps,
  KS_str_split str [d] = Some ps /\ ps <> [] /\ join [d] ps = str /\ Forall (fun p => ~ In d p) ps.
Proof.
  intros. unfold KS_str_split.
  destruct (split_from_spec (S (length str)) str [d]) as (ps & H1 & H2 & H3); auto; [discriminate|].
  exists ps. rewrite H1. repeat split; auto. eapply split_from_parts; eauto.
Qed.

(** Parts determined by joining to the whole and being delimiter free. *)
Lemma join_inj : forall d ps qs, ps <> [] -> qs <> [] ->
  Forall (fun p => ~ In d p) ps -> Forall (fun p => ~ In d p) qs ->
  join [d] ps = join [d] qs -> ps = qs.
Proof.
  assert (Hkey : forall (d : byte) a b x y, ~ In d a -> ~ In d b -> a ++ d :: x = b ++ d :: y -> a = b /\ x = y).
  { intros d a; induction a as [|c a IH]; intros [|e b] x y Ha Hb H; simpl in *; inv H; auto.
    - exfalso; apply Hb; auto.
    - exfalso; apply Ha; auto.
    - destruct (IH b x y); auto. subst; auto. }
  intros d ps; induction ps as [|p ps IH]; intros qs Hp Hq Fp Fq H; [congruence|].
  destruct qs as [|q qs]; [congruence|]. inv Fp. inv Fq.
  destruct ps as [|p' ps]; destruct qs as [|q' qs].
  - simpl in H; congruence.
  - exfalso. simpl in H. subst p. apply H2. apply in_app_iff; right; simpl; auto.
  - exfalso. simpl in H. rewrite <- H in H4. apply H4. apply in_app_iff; right; simpl; auto.
  - change (p ++ d :: join [d] (p' :: ps) = q ++ d :: join [d] (q' :: qs)) in H.
    apply Hkey in H; auto. destruct H as [-> H]. f_equal. apply IH; auto; discriminate.
Qed.
