(** Proofs about util.c. *)
From Verif Require Import Base StrModel StrProofs UtilModel.

(** Independent specification of display columns: fold over the bytes. [pos] is
    0-based; tab stops are every eight columns. *)
Definition col_step (pos : nat) (c : byte) : nat :=
  if c =c TAB then 8 * (pos / 8 + 1)
  else if c =c NL then 0
  else pos + 1.
Definition display_col (text : bytes) (pos : nat) : nat := fold_left col_step text pos.

Lemma next_tab : forall pos, pos + (8 - pos mod 8) = 8 * (pos / 8 + 1).
Proof.
  intros. pose proof (Nat.div_mod pos 8). pose proof (Nat.mod_upper_bound pos 8). lia.
Qed.

Lemma next_tab1 : forall cno, 1 <= cno ->
  (cno + 8 - 1) - (cno + 8 - 1) mod 8 + 1 = 8 * ((cno - 1) / 8 + 1) + 1.
Proof.
  intros. replace (cno + 8 - 1) with ((cno - 1) + 1 * 8) by lia.
  rewrite Nat.mod_add by lia. pose proof (Nat.div_mod (cno - 1) 8). lia.
Qed.

Lemma until_col : forall str pos,
  let n := KS_str_match_until_default str tab_nl_ranges in
  display_col str pos = display_col (skipn n str) (pos + n).
Proof.
  intros str pos n. unfold n, KS_str_match_until_default. rewrite match_until_from_span. simpl.
  clear n. revert pos. induction str as [|c r IH]; intros pos; simpl.
  - unfold display_col; simpl; auto.
  - remember (negb (in_ranges c tab_nl_ranges)) as b eqn:Eb.
    change (negb (in_ranges c tab_nl_ranges)) with (negb (in_ranges c [TAB; TAB; NL; NL])) in Eb.
    assert (E2 : (if ((schar TAB <=? schar c) && (schar c <=? schar TAB))%Z
             then true
             else
              if ((schar NL <=? schar c) && (schar c <=? schar NL))%Z
              then true
              else false) = in_ranges c [TAB; TAB; NL; NL]) by reflexivity.
    rewrite E2, <- Eb.
    destruct b; simpl.
    + unfold display_col in *; simpl. unfold col_step at 2.
      symmetry in Eb; apply negb_true_iff in Eb.
      destruct (c =c TAB) eqn:ET.
      { apply eqb_true in ET; subst. discriminate Eb. }
      destruct (c =c NL) eqn:EN.
      { apply eqb_true in EN; subst. discriminate Eb. }
      rewrite IH. f_equal. lia.
    + rewrite Nat.add_0_r. auto.
Qed.

Lemma strwidth_inner_col : forall str pos pos' str', strwidth_inner pos str = (pos', str') ->
  display_col str pos = display_col str' pos' /\ length str' <= length str /\
  (forall c r, str' = c :: r -> c <> TAB /\ c <> NL).
Proof.
  induction str as [|c r IH]; simpl; intros.
  - inv H. repeat split; auto; discriminate.
  - destruct (c =c TAB) eqn:ET.
    + apply IH in H. destruct H as (H1 & H2 & H3). repeat split; try lia; try (eapply H3; eauto).
      rewrite <- H1. unfold display_col; simpl. unfold col_step at 2. rewrite ET.
      rewrite next_tab; auto.
    + destruct (c =c NL) eqn:EN.
      * apply IH in H. destruct H as (H1 & H2 & H3). repeat split; try lia; try (eapply H3; eauto).
        rewrite <- H1. unfold display_col; simpl. unfold col_step at 2. rewrite ET, EN. auto.
      * inv H. repeat split; auto; inv H; apply eqb_false; auto.
Qed.

Lemma until_progress : forall c r, c <> TAB -> c <> NL ->
  1 <= KS_str_match_until_default (c :: r) tab_nl_ranges.
Proof.
  intros c r H1 H2. unfold KS_str_match_until_default. rewrite match_until_from_span.
  cbn [span_len plus]. destruct (negb (in_ranges c tab_nl_ranges)) eqn:E; [lia|].
  apply negb_false_iff in E. apply in_ranges_code in E.
  - exfalso. inv E.
    + assert (code c = code TAB) by lia. apply H1.
      rewrite <- (ascii_N_embedding c), <- (ascii_N_embedding TAB). unfold code in H. congruence.
    + inv H0.
      * assert (code c = code NL) by lia. apply H2.
        rewrite <- (ascii_N_embedding c), <- (ascii_N_embedding NL). unfold code in H. congruence.
      * inv H3.
  - repeat constructor; reflexivity.
Qed.

Lemma strwidth_loop_spec : forall fuel str pos, length str <= fuel ->
  strwidth_loop fuel str pos = Some (display_col str pos).
Proof.
  induction fuel; intros str pos HL.
  - destruct str; [auto|simpl in HL; lia].
  - destruct str as [|c r]; auto.
    cbn [strwidth_loop].
    pose proof (until_col (c :: r) pos) as HU. cbv zeta in HU.
    remember (KS_str_match_until_default (c :: r) tab_nl_ranges) as n eqn:En. cbv zeta.
    destruct (strwidth_inner (pos + n) (skipn n (c :: r))) as [pos' str'] eqn:E.
    pose proof E as E'. apply strwidth_inner_col in E. destruct E as (H1 & H2 & H3).
    rewrite IHfuel.
    + rewrite HU, H1. auto.
    + assert (length str' < length (c :: r)); [|lia].
      destruct n.
      * destruct (ascii_dec c TAB) as [->|D1]; [|destruct (ascii_dec c NL) as [->|D2]].
        -- simpl in E'. apply strwidth_inner_col in E'. simpl. lia.
        -- simpl in E'. apply strwidth_inner_col in E'. simpl. lia.
        -- pose proof (until_progress c r D1 D2). lia.
      * rewrite skipn_length in H2. simpl in *. lia.
Qed.

Lemma strwidth_spec : forall str pos, strwidth str pos = display_col str pos.
Proof. intros. unfold strwidth. rewrite strwidth_loop_spec; auto. Qed.

Lemma colwidth_inner_col : forall str cno cno' str', 1 <= cno -> colwidth_inner cno str = (cno', str') ->
  1 <= cno' /\ strwidth_inner (cno - 1) str = (cno' - 1, str').
Proof.
  induction str as [|c r IH]; simpl; intros cno cno' str' HC H.
  - inv H. auto.
  - destruct (c =c TAB) eqn:ET.
    + rewrite next_tab1 in H by auto. apply IH in H; [|lia]. destruct H as (H1 & H2).
      split; auto. rewrite next_tab. rewrite <- H2. f_equal. lia.
    + destruct (c =c NL) eqn:EN.
      * apply IH in H; [|lia]. auto.
      * inv H. auto.
Qed.

Lemma colwidth_loop_spec : forall fuel str cno, 1 <= cno ->
  colwidth_loop fuel str cno = option_map S (strwidth_loop fuel str (cno - 1)).
Proof.
  induction fuel; intros str cno HC; destruct str as [|c r]; simpl; auto.
  - f_equal; lia.
  - f_equal; lia.
  - remember (KS_str_match_until_default (c :: r) tab_nl_ranges) as n.
    destruct (colwidth_inner (cno + n) (skipn n (c :: r))) as [cno' str'] eqn:E.
    apply colwidth_inner_col in E; [|lia]. destruct E as [H1 H2].
    replace (cno - 1 + n) with (cno + n - 1) by lia. rewrite H2.
    apply IHfuel; auto.
Qed.

Lemma colwidth_spec : forall str cno, 1 <= cno -> colwidth str cno = S (display_col str (cno - 1)).
Proof.
  intros. unfold colwidth. rewrite colwidth_loop_spec by auto.
  rewrite strwidth_loop_spec; auto.
Qed.

Lemma display_col_app : forall a b pos, display_col (a ++ b) pos = display_col b (display_col a pos).
Proof. intros; unfold display_col; apply fold_left_app. Qed.

(** Indentation. *)
Lemma strindent_tabs_spec : forall fuel i indent pos o i' p',
  strindent_tabs fuel i indent pos = (o, i', p') -> indent <= i + 8 * fuel + 7 -> i <= indent ->
  Forall (fun c => c = TAB) o /\ p' = display_col o pos /\ i' <= indent /\ indent < i' + 8 /\
  i' = i + 8 * length o /\ (pos mod 8 = 0 -> p' = pos + 8 * length o).
Proof.
  induction fuel; intros i indent pos o i' p' H HF HI; cbn [strindent_tabs] in H.
  - inv H. unfold display_col; simpl. repeat split; auto; try lia.
  - destruct (Nat.leb_spec (i + 8) indent).
    + destruct (strindent_tabs fuel (i + 8) indent (pos + (8 - pos mod 8))) as [[o1 i1] p1] eqn:E.
      inv H. apply IHfuel in E; try lia. destruct E as (E1 & E2 & E3 & E4 & E5 & E6).
      cbn [length]. split; [auto|]. split; [|split; [lia|split; [lia|split; [lia|]]]].
      * rewrite E2. unfold display_col. cbn [fold_left]. f_equal. apply next_tab.
      * intros HM. rewrite E6.
        -- lia.
        -- rewrite HM. rewrite Nat.add_mod by lia. rewrite HM. reflexivity.
    + inv H. unfold display_col; simpl. repeat split; auto; try lia.
Qed.

Lemma display_col_spaces : forall n pos, display_col (repeat SP n) pos = pos + n.
Proof.
  induction n; intros; simpl; auto. unfold display_col in *; simpl. rewrite IHn.
  unfold col_step. simpl. lia.
Qed.

Lemma strindent_spec : forall indent tabs pos o p,
  strindent indent tabs pos = (o, p) ->
  p = display_col o pos /\
  Forall (fun c => c = TAB \/ c = SP) o /\
  (tabs = false -> o = repeat SP indent) /\
  (tabs = true -> exists t s, o = repeat TAB t ++ repeat SP s /\ s < 8 /\ 8 * t + s = indent) /\
  (tabs = false \/ pos mod 8 = 0 -> p = pos + indent).
Proof.
  intros indent tabs pos o p H. unfold strindent in H. destruct tabs.
  - destruct (strindent_tabs indent 0 indent pos) as [[o1 i1] p1] eqn:E. inv H.
    apply strindent_tabs_spec in E; try lia. destruct E as (E1 & E2 & E3 & E4 & E5 & E6).
    assert (Ho : o1 = repeat TAB (length o1)).
    { clear -E1. induction E1; simpl; congruence. }
    repeat split.
    + rewrite display_col_app, display_col_spaces. lia.
    + apply Forall_app; split.
      * eapply Forall_impl; [|exact E1]. auto.
      * apply Forall_forall. intros x Hx. apply repeat_spec in Hx. auto.
    + discriminate.
    + intros _. exists (length o1), (indent - i1). split; [congruence|]. lia.
    + intros [?|HM]; [discriminate|]. specialize (E6 HM). lia.
  - inv H. rewrite Nat.sub_0_r. simpl. repeat split.
    + rewrite display_col_spaces; auto.
    + apply Forall_forall. intros x Hx. apply repeat_spec in Hx. auto.
    + discriminate.
Qed.

(** Paths. *)
Lemma strrchr_some : forall s c d, strrchr s c = Some d ->
  exists p, s = p ++ d /\ hd_error d = Some c /\ ~ In c (tl d).
Proof.
  induction s as [|x r IH]; simpl; intros c d H; try discriminate.
  destruct (strrchr r c) eqn:E.
  - inv H. apply IH in E. destruct E as (p & -> & H1 & H2). exists (x :: p). auto.
  - destruct (x =c c) eqn:EX; inv H. apply eqb_true in EX; subst.
    exists []. repeat split; auto. simpl. clear IH. revert E. induction r; simpl; intros E; auto.
    destruct (strrchr r c) eqn:E2; try discriminate. destruct (a =c c) eqn:E3; try discriminate.
    apply eqb_false in E3. intros [->|H]; [congruence|]. apply IHr; auto.
Qed.

Lemma strrchr_none : forall s c, strrchr s c = None -> ~ In c s.
Proof.
  induction s as [|x r IH]; simpl; intros c H; auto.
  destruct (strrchr r c) eqn:E; try discriminate. destruct (x =c c) eqn:E3; try discriminate.
  apply eqb_false in E3. intros [->|H']; [congruence|]. apply (IH c); auto.
Qed.

Lemma is_path_header_spec : forall path,
  is_path_header path = true <-> exists base, path = base ++ s2b ".h".
Proof.
  intros. unfold is_path_header. split.
  - destruct (strrchr path "."%char) eqn:E; try discriminate.
    intros H. apply beq_eq in H; subst. apply strrchr_some in E. destruct E as (p & -> & _). eauto.
  - intros [base ->]. induction base as [|x r IH]; [auto|]. cbn [app strrchr].
    destruct (strrchr (r ++ s2b ".h") "."%char) eqn:E; auto. discriminate IH.
Qed.

(** Components with a leading run of empty ones dropped. *)
Fixpoint drop_empty (ps : list bytes) : list bytes :=
  match ps with
  | [] :: r => drop_empty r
  | _ => ps
  end.

Lemma path_join_fold : forall ps bf, bf <> [] ->
  fold_left path_join ps bf = join ["/"%char] (bf :: ps).
Proof.
  induction ps as [|p ps IH]; intros bf Hbf; [simpl; auto|].
  cbn [fold_left]. rewrite IH.
  - unfold path_join. destruct bf as [|b bf]; [congruence|]. cbn [length Nat.ltb Nat.leb].
    destruct ps; simpl; rewrite <- ?app_assoc; simpl; rewrite <- ?app_assoc; auto.
  - unfold path_join. destruct bf as [|b bf]; [congruence|]. simpl. discriminate.
Qed.

Lemma path_join_fold_nil : forall ps,
  fold_left path_join ps [] = join ["/"%char] (drop_empty ps).
Proof.
  induction ps as [|p ps IH]; simpl; auto.
  destruct p as [|x p]; [auto|].
  change (path_join [] (x :: p)) with (x :: p). rewrite path_join_fold; [auto|discriminate].
Qed.

Lemma path_slice_spec : forall path n, exists ps,
  join ["/"%char] ps = path /\ ps <> [] /\ Forall (fun p => ~ In "/"%char p) ps /\
  path_slice path n =
    Some (if length ps <? n then path else join ["/"%char] (drop_empty (skipn (length ps - n) ps))).
Proof.
  intros. destruct (split_spec "/"%char path) as (ps & H1 & H2 & H3 & H4).
  exists ps. repeat split; auto. unfold path_slice. rewrite H1.
  destruct (length ps <? n); auto. rewrite path_join_fold_nil. auto.
Qed.

(** Escaped text is printable. *)
Lemma hexdigit_print : forall n, (n < 16)%N -> isprint (hexdigit n) = true.
Proof.
  intros. destruct n as [|p]; [reflexivity|].
  do 4 (destruct p; try reflexivity); try (exfalso; lia).
Qed.

Lemma strnice_print : forall str, Forall (fun c => isprint c = true) (strnice str).
Proof.
  intros. unfold strnice. apply Forall_flat_map. apply Forall_forall. intros c _.
  unfold strnice1.
  destruct (c =c NL); [repeat constructor|]. destruct (c =c FF); [repeat constructor|].
  destruct (c =c TAB); [repeat constructor|]. destruct (c =c CR); [repeat constructor|].
  destruct (c =c DQ); [repeat constructor|].
  destruct (isprint c) eqn:E; [repeat constructor; auto|].
  pose proof (code_lt c). apply Forall_app; split; [repeat constructor|].
  constructor; [|constructor; [|constructor]]; apply hexdigit_print.
  - apply N.div_lt_upper_bound; lia.
  - apply N.mod_lt; lia.
Qed.
