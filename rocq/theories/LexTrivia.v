(** Comments, directives and the white-space around tokens satisfy the specification;
    the spans of a token and its trivia tile the input. *)
From Verif Require Import Base StrModel StrProofs UtilModel UtilProofs TokenModel LexModel LexSpec LexRefine LexBlank LexMain.

Section Trivia.
Variable inp : bytes.
Notation L := (length inp).
Notation vinp := (vinp inp).
Notation occurs := (occurs inp).

Lemma is_at_iff : forall v c, c <> NUL -> (is_at inp v c = true <-> nth_error inp v = Some c).
Proof.
  intros v c Hc. unfold is_at. split.
  - intros H. destruct (nth_error vinp v) as [x|] eqn:E; [|discriminate].
    apply eqb_true in H. subst x. apply vinp_inp; auto.
  - intros H. rewrite (inp_vinp _ _ _ H). apply eqb_refl.
Qed.

Lemma spaces_unique : forall v m c, v <= S L -> v <= m -> Forall sp (slice inp v m) ->
  nth_error inp m = Some c -> ~ sp c -> m = p_spaces inp v.
Proof.
  intros v m c Hv Hm HF Hc Hn. destruct (p_spaces_spec inp v Hv) as (S1 & S2 & S3).
  assert (m < L) by (apply nth_error_Some; congruence).
  destruct (Nat.lt_trichotomy m (p_spaces inp v)) as [Hlt|[Heq|Hgt]]; auto; exfalso.
  - apply Hn. eapply Forall_slice_nth; [exact S2|split; [exact Hm|exact Hlt]|exact Hc].
  - destruct (nth_error inp (p_spaces inp v)) as [d|] eqn:Ed.
    + apply (S3 d eq_refl). eapply Forall_slice_nth; [exact HF| |exact Ed]. lia.
    + apply nth_error_None in Ed. lia.
Qed.

Lemma slash_not_sp : ~ sp "/"%char.
Proof. intros [H|[H|H]]; discriminate. Qed.
Lemma slash_not_bl : ~ bl "/"%char.
Proof. intros [H|[H|[H|[H|H]]]]; discriminate. Qed.

Lemma peek_true : forall v, v <= S L -> p_peek_c99 inp v = true ->
  occurs (s2b "//") (p_spaces inp v).
Proof.
  intros v Hv H. unfold p_peek_c99 in H. apply andb_true_iff in H. destruct H as [H1 H2].
  apply is_at_iff in H1; [|discriminate]. apply is_at_iff in H2; [|discriminate].
  apply occurs_two. auto.
Qed.
Lemma peek_false : forall n m, n <= L -> p_peek_c99 inp (S n) = false -> ~ next_line_comment inp n m.
Proof.
  intros n m Hn H (H1 & H2 & H3 & H4). apply occurs_two in H4. destruct H4 as [H4 H5].
  assert (m = p_spaces inp (S n)) by (eapply spaces_unique; eauto; [lia|apply slash_not_sp]). subst m.
  unfold p_peek_c99 in H. apply andb_false_iff in H.
  destruct H as [H|H].
  - apply (is_at_iff _ "/"%char) in H4; [congruence|discriminate].
  - apply (is_at_iff _ "/"%char) in H5; [congruence|discriminate].
Qed.

(** ** Line comments *)
Lemma p_c99_spec : forall l v, l = skipn v vinp -> v <= S L ->
  match p_c99 inp l v with
  | (true, v2) => exists n, v2 = S n /\ v <= n < L /\ nth_error inp n = Some NL /\
                  ~ In NL (slice inp v n) /\ p_peek_c99 inp v2 = true
  | (false, v2) => v <= v2 <= S L /\ ~ In NL (slice inp v v2) /\
                  (L <= v2 \/ nth_error inp v2 = Some NL) /\
                  (forall m, ~ next_line_comment inp (clamp inp v2) m)
  end.
Proof.
  induction l as [|c r IH]; intros v Hl Hv; cbn [p_c99].
  - symmetry in Hl. apply skipn_vinp_nil, vinp_none in Hl; auto. subst v.
    split; [lia|]. rewrite slice_nil. split; [auto|]. split; [left; lia|].
    intros m (H1 & _). rewrite nth_clamp in H1. assert (S L < L) by (apply nth_error_Some; congruence). lia.
  - symmetry in Hl. destruct (skipn_vinp_cons _ _ _ _ Hl) as (Hc & Hr).
    pose proof (vinp_some _ _ _ Hc) as HvL.
    destruct (c =c NL) eqn:E.
    + apply eqb_true in E. subst c. assert (Hn : nth_error inp v = Some NL) by (apply vinp_inp; auto; discriminate).
      assert (v < L) by (apply nth_error_Some; congruence).
      destruct (p_peek_c99 inp (S v)) eqn:Ep.
      * exists v. rewrite slice_nil. simpl. auto 10.
      * rewrite p_unget_S by lia. rewrite slice_nil, clamp_id by lia. split; [lia|]. split; auto. split; auto.
        intros m. apply peek_false; auto.
    + apply eqb_false in E. assert (HSv : S v <= S L) by lia.
      specialize (IH (S v) Hr HSv).
      destruct (Nat.eq_dec v L) as [->|Hne].
      * (* soft NUL *)
        assert (Hr0 : r = []). { destruct r as [|x r']; auto. symmetry in Hr. apply skipn_vinp_cons in Hr. destruct Hr as (Hr & _). apply vinp_some in Hr. lia. }
        rewrite Hr0 in IH |- *. cbn [p_c99] in *. destruct IH as (I1 & I2 & I3 & I4).
        split; [lia|]. rewrite slice_over by lia. split; auto.
      * assert (Hi : nth_error inp v = Some c) by (rewrite <- vinp_lt; auto; lia).
        destruct (p_c99 inp r (S v)) as [[|] v2].
        -- destruct IH as (n & I1 & I2 & I3 & I4 & I5). exists n. split; auto. split; [lia|]. split; auto. split; auto.
           rewrite (slice_cons inp v n c) by (auto; lia). intros [H|H]; [congruence|auto].
        -- destruct IH as (I1 & I2 & I3 & I4). split; [lia|]. split; auto.
           rewrite (slice_cons inp v v2 c) by (auto; lia). intros [H|H]; [congruence|auto].
Qed.

Lemma add_2 : forall m, S (S m) = m + 2.
Proof. intros; lia. Qed.

(** A chain of // lines. *)
Lemma again_chain : forall fuel v block s ol s' ol' c99 e, v <= S L ->
  p_peek_c99 inp v = true -> p_again inp fuel v block s ol = Some (s', ol', c99, e) ->
  s' = s /\ c99 = true /\ c99_span inp (p_spaces inp v) (clamp inp e) /\ p_spaces inp v < e <= S L.
Proof.
  induction fuel; intros v block s ol s' ol' c99 e Hv Hp H; [discriminate|].
  pose proof (peek_true v Hv Hp) as Hocc. pose proof Hocc as Hocc'. apply occurs_two in Hocc'. destruct Hocc' as [Ho1 Ho2].
  cbn [p_again] in H.
  assert (Hels : (if block then p_els inp v s else (p_spaces inp v, s)) = (p_spaces inp v, s)).
  { destruct block; auto. eapply p_els_at_spaces; eauto. apply slash_not_bl. }
  rewrite Hels in H. set (m := p_spaces inp v) in *.
  assert (HSm : S m < L) by (apply nth_error_Some; congruence).
  rewrite (proj2 (is_at_iff m "/"%char ltac:(discriminate)) Ho1) in H.
  rewrite (proj2 (is_at_iff (S m) "/"%char ltac:(discriminate)) Ho2) in H.
  pose proof (p_c99_spec _ (S (S m)) eq_refl ltac:(lia)) as Hspec.
  destruct (p_c99 inp (skipn (S (S m)) vinp) (S (S m))) as [[|] v2].
  - destruct Hspec as (n & -> & H1 & H2 & H3 & H4).
    assert (HSn : S n <= S L) by lia.
    destruct (p_spaces_spec inp (S n) HSn) as (S1 & S2 & S3).
    apply IHfuel in H; auto. destruct H as (-> & -> & Hspan & Hlt). split; auto. split; auto. split; [|lia].
    rewrite add_2 in H3.
    apply (c99_more inp m n (p_spaces inp (S n))); auto; [lia|]. split; auto. split; [lia|]. split; auto. apply peek_true; auto.
  - destruct Hspec as (H1 & H2 & H3 & H4). inversion H; subst. split; auto. split; auto. split; [|lia].
    rewrite add_2 in *. apply c99_last; auto.
    + unfold clamp. lia.
    + rewrite slice_clamp. auto.
    + rewrite nth_clamp. destruct H3; auto. left. unfold clamp; lia.
Qed.

(** ** Block comments *)
Lemma p_block_spec : forall l v ch ol b, l = skipn v vinp -> b <= v <= S L ->
  (v = b /\ ch = NUL \/ b < v /\ nth_error vinp (pred v) = Some ch) ->
  (forall j, b <= j -> S j < v -> ~ occurs (s2b "*/") j) ->
  let v2 := snd (p_block l v ch ol) in
  v <= v2 <= S L /\
  ((exists k, b <= k /\ v2 = k + 2 /\ occurs (s2b "*/") k /\ forall j, b <= j < k -> ~ occurs (s2b "*/") j) \/
   (v2 = S L /\ forall j, b <= j -> ~ occurs (s2b "*/") j)).
Proof.
  induction l as [|c r IH]; intros v ch ol b Hl Hv Hch Hno; cbn [p_block].
  - cbn [snd]. symmetry in Hl. apply skipn_vinp_nil, vinp_none in Hl; [|lia]. split; [lia|].
    right. split; auto. intros j Hj Ho. apply (Hno j); auto.
    apply occurs_two in Ho. destruct Ho as [_ Ho]. assert (S j < L) by (apply nth_error_Some; congruence). lia.
  - symmetry in Hl. destruct (skipn_vinp_cons _ _ _ _ Hl) as (Hc & Hr).
    pose proof (vinp_some _ _ _ Hc) as HvL.
    destruct ((ch =c "*") && (c =c "/")) eqn:E.
    + apply andb_true_iff in E. destruct E as [E1 E2]. apply eqb_true in E1, E2. subst ch c. cbn [snd].
      split; [lia|]. left. destruct Hch as [[_ Hch]|[Hlt Hch]]; [discriminate|].
      exists (pred v). split; [lia|]. split; [lia|]. split.
      * apply occurs_two. replace (S (pred v)) with v by lia.
        split; apply vinp_inp; auto; discriminate.
      * intros j Hj. apply Hno; lia.
    + assert (Hno' : forall j, b <= j -> S j < S v -> ~ occurs (s2b "*/") j).
      { intros j Hj Hjv Ho. destruct (Nat.eq_dec (S j) v) as [<-|]; [|apply (Hno j); auto; lia].
        apply occurs_two in Ho. destruct Ho as [Ho1 Ho2]. apply inp_vinp in Ho1, Ho2.
        destruct Hch as [[Hch _]|[_ Hch]]; [lia|]. cbn [pred] in Hch.
        rewrite Hch in Ho1. rewrite Hc in Ho2. inv Ho1. inv Ho2. discriminate. }
      assert (Hrec : b <= S v <= S L) by lia.
      specialize (IH (S v) c (if ch =c NL then false else ol) b Hr Hrec
                    (or_intror (conj (ltac:(lia) : b < S v) Hc)) Hno').
      cbv zeta in IH. destruct IH as (I1 & I2). split; [lia|auto].
Qed.

Definition again_post (v : nat) (block : bool) (s' : nat) (c99 : bool) (e : nat) : Prop :=
  v <= s' /\ Forall bl (slice inp v s') /\ (s' = v \/ block = true /\ v < s' /\ nth_error inp (pred s') = Some NL) /\
  exists m, s' <= m < L /\ Forall sp (slice inp s' m) /\
    (if c99 then c99_span inp m (clamp inp e) else block_span inp m (clamp inp e)) /\ m < e <= S L.

Lemma again_spec : forall fuel v block ol s' ol' c99 e, v <= S L ->
  p_again inp fuel v block v ol = Some (s', ol', c99, e) -> again_post v block s' c99 e.
Proof.
  destruct fuel; intros v block ol s' ol' c99 e Hv H; [discriminate|]. cbn [p_again] in H.
  assert (Hpre : exists v1 s1, (if block then p_els inp v v else (p_spaces inp v, v)) = (v1, s1) /\
    v <= s1 <= v1 /\ Forall bl (slice inp v s1) /\ Forall sp (slice inp s1 v1) /\
    (s1 = v \/ block = true /\ v < s1 /\ nth_error inp (pred s1) = Some NL)).
  { destruct block.
    - pose proof (p_els_spec inp v v Hv) as (E1 & E2 & E3 & E4 & E5).
      destruct (p_els inp v v) as [v1 s1]. cbn [fst snd] in *. exists v1, s1. split; auto.
      destruct E5 as [[-> E5]|(E5 & E6 & E7)].
      + rewrite slice_nil. repeat split; auto; lia.
      + split; [lia|]. split; [eapply (Forall_slice_sub inp bl v v s1 v1); eauto; lia|].
        split; auto. right. repeat split; auto; lia.
    - destruct (p_spaces_spec inp v Hv) as (S1 & S2 & S3). exists (p_spaces inp v), v. split; auto.
      rewrite slice_nil. repeat split; auto; lia. }
  destruct Hpre as (v1 & s1 & Hpe & Hs & Hbl & Hsp & Hcase). rewrite Hpe in H.
  destruct (is_at inp v1 "/") eqn:E1; [|discriminate].
  apply is_at_iff in E1; [|discriminate]. assert (Hv1 : v1 < L) by (apply nth_error_Some; congruence).
  destruct (is_at inp (S v1) "/") eqn:E2.
  - apply is_at_iff in E2; [|discriminate]. assert (HSv1 : S v1 < L) by (apply nth_error_Some; congruence).
    pose proof (p_c99_spec _ (S (S v1)) eq_refl ltac:(lia)) as Hspec.
    destruct (p_c99 inp (skipn (S (S v1)) vinp) (S (S v1))) as [[|] v2].
    + destruct Hspec as (n & -> & H1 & H2 & H3 & H4). assert (HSn : S n <= S L) by lia.
      destruct (p_spaces_spec inp (S n) HSn) as (S1 & S2 & S3).
      apply again_chain in H; auto. destruct H as (-> & -> & Hspan & Hlt).
      repeat split; auto; try lia. exists v1. split; [lia|]. split; auto. split; [|lia].
      rewrite add_2 in H3.
      apply (c99_more inp v1 n (p_spaces inp (S n))); auto; [apply occurs_two; auto|lia|].
      split; auto. split; [lia|]. split; auto. apply peek_true; auto.
    + destruct Hspec as (H1 & H2 & H3 & H4). inversion H; subst.
      repeat split; auto; try lia. exists v1. split; [lia|]. split; auto. split; [|lia].
      rewrite add_2 in *. apply c99_last; auto.
      * apply occurs_two; auto.
      * unfold clamp. lia.
      * rewrite slice_clamp. auto.
      * rewrite nth_clamp. destruct H3; auto. left. unfold clamp; lia.
  - destruct (is_at inp (S v1) "*") eqn:E3; [|discriminate].
    apply is_at_iff in E3; [|discriminate]. assert (HSv1 : S v1 < L) by (apply nth_error_Some; congruence).
    pose proof (p_block_spec _ (S (S v1)) NUL ol (S (S v1)) eq_refl ltac:(lia) (or_introl (conj eq_refl eq_refl))) as Hspec.
    destruct (p_block (skipn (S (S v1)) vinp) (S (S v1)) NUL ol) as [ol2 v2]. cbn [snd] in Hspec. cbv zeta in Hspec.
    destruct Hspec as (H1 & H2); [intros; lia|]. inversion H; subst.
    repeat split; auto; try lia. exists v1. split; [lia|]. split; auto. split; [|lia].
    split; [apply occurs_two; auto|]. rewrite add_2 in *.
    destruct H2 as [(k & K1 & -> & K2 & K3)|(-> & K)].
    + left. exists k. assert (k + 2 <= L) by (apply occurs_le in K2; [auto|discriminate]).
      rewrite clamp_id by auto. auto.
    + right. split; auto. unfold clamp; lia.
Qed.

(** If there is no comment then none starts at the position reached. *)
Lemma again_none : forall fuel v ol, v <= S L -> S L - v < fuel ->
  p_again inp fuel v true v ol = None ->
  let a := fst (p_els inp v v) in ~ occurs (s2b "//") a /\ ~ occurs (s2b "/*") a.
Proof.
  intros fuel v ol Hv Hf H a.
  pose proof (p_els_spec inp v v Hv) as (E1 & E2 & E3 & E4 & E5).
  (* a chain always ends *)
  assert (Hchain : forall f v0 s0 ol0, v0 <= S L -> S L - v0 < f -> p_peek_c99 inp v0 = true ->
            p_again inp f v0 true s0 ol0 <> None).
  { clear. induction f; intros v0 s0 ol0 Hv0 Hf0 Hp; [lia|]. cbn [p_again].
    pose proof (peek_true v0 Hv0 Hp) as Hocc. apply occurs_two in Hocc. destruct Hocc as [Ho1 Ho2].
    erewrite p_els_at_spaces by (eauto; apply slash_not_bl).
    destruct (p_spaces_spec inp v0 Hv0) as (S1 & _).
    set (m := p_spaces inp v0) in *. assert (HSm : S m < L) by (apply nth_error_Some; congruence).
    rewrite (proj2 (is_at_iff m "/"%char ltac:(discriminate)) Ho1).
    rewrite (proj2 (is_at_iff (S m) "/"%char ltac:(discriminate)) Ho2).
    pose proof (p_c99_spec _ (S (S m)) eq_refl ltac:(lia)) as Hspec.
    destruct (p_c99 inp (skipn (S (S m)) vinp) (S (S m))) as [[|] v2]; [|discriminate].
    destruct Hspec as (n & -> & H1 & H2 & H3 & H4). apply IHf; auto; lia. }
  destruct fuel as [|f]; [lia|]. cbn [p_again] in H.
  assert (Ha : a = fst (p_els inp v v)) by reflexivity. clearbody a.
  destruct (p_els inp v v) as [v1 s1]. cbn [fst snd] in *. subst v1.
  split; intros Ho; apply occurs_two in Ho; destruct Ho as [Ho1 Ho2].
  - rewrite (proj2 (is_at_iff a "/"%char ltac:(discriminate)) Ho1) in H.
    rewrite (proj2 (is_at_iff (S a) "/"%char ltac:(discriminate)) Ho2) in H.
    assert (HSm : S a < L) by (apply nth_error_Some; congruence).
    pose proof (p_c99_spec _ (S (S a)) eq_refl ltac:(lia)) as Hspec.
    destruct (p_c99 inp (skipn (S (S a)) vinp) (S (S a))) as [[|] v2]; [|discriminate].
    destruct Hspec as (n & -> & H1 & H2 & H3 & H4). eapply Hchain; [| | |exact H]; auto; lia.
  - rewrite (proj2 (is_at_iff a "/"%char ltac:(discriminate)) Ho1) in H.
    assert (Hns : is_at inp (S a) "/" = false).
    { destruct (is_at inp (S a) "/") eqn:E; auto. apply is_at_iff in E; [|discriminate].
      change "*"%char with "*"%char in Ho2. rewrite E in Ho2. discriminate. }
    rewrite Hns, (proj2 (is_at_iff (S a) "*"%char ltac:(discriminate)) Ho2) in H.
    destruct (p_block _ _ _ _). discriminate.
Qed.

(** ** Directives *)
Lemma dir_state_S : forall w v c, w <= v -> nth_error inp v = Some c ->
  dir_state inp w (S v) = dir_step (dir_state inp w v) c.
Proof.
  intros w v c Hw Hc. unfold dir_state. rewrite (slice_S inp w v c) by auto. rewrite fold_left_app. reflexivity.
Qed.

Lemma p_cpp_loop_spec : forall w l v ch com, w <= v <= S L -> l = skipn v vinp ->
  (v <= L -> dir_state inp w v = (ch, com)) -> (forall n, w <= n < v -> ~ dir_stop inp w n) ->
  let e := p_cpp_loop inp l v ch com in
  v <= e <= S L /\ (L <= e \/ dir_stop inp w e) /\ (forall n, w <= n < e -> ~ dir_stop inp w n).
Proof.
  intros w. induction l as [|c r IH]; intros v ch com Hv Hl Hst Hno; cbn [p_cpp_loop].
  - symmetry in Hl. apply skipn_vinp_nil, vinp_none in Hl; [|lia]. split; [lia|]. split; [left; lia|]. auto.
  - symmetry in Hl. destruct (skipn_vinp_cons _ _ _ _ Hl) as (Hc & Hr).
    pose proof (vinp_some _ _ _ Hc) as HvL. specialize (Hst HvL).
    assert (Hnext : forall b, (c <> NL \/ ch = BSL \/ com = true) ->
       (v < L -> snd (dir_step (ch, com) c) = b) ->
       let e := p_cpp_loop inp r (S v) c b in
       v <= e <= S L /\ (L <= e \/ dir_stop inp w e) /\ (forall n, w <= n < e -> ~ dir_stop inp w n)).
    { intros b Hcc Hb.
      assert (Hi : v < L -> nth_error inp v = Some c) by (intros; rewrite <- vinp_lt; auto).
      assert (H1 : w <= S v <= S L) by lia.
      assert (H2 : S v <= L -> dir_state inp w (S v) = (c, b)).
      { intros Hlt. rewrite (dir_state_S w v c), Hst by (auto; lia). rewrite <- Hb by lia. reflexivity. }
      assert (H3 : forall n, w <= n < S v -> ~ dir_stop inp w n).
      { intros n Hn Hs. destruct (Nat.eq_dec n v) as [->|]; [|apply (Hno n); auto; lia].
        destruct Hs as (D1 & D2 & D3). rewrite Hst in D2, D3. cbn [fst snd] in D2, D3.
        apply inp_vinp in D1. rewrite D1 in Hc. inv Hc. destruct Hcc as [Hcc|[Hcc|Hcc]]; congruence. }
      specialize (IH (S v) c b H1 Hr H2 H3). cbv zeta in IH. destruct IH as (I1 & I2 & I3).
      split; [lia|auto]. }
    assert (Hi : v < L -> nth_error inp v = Some c) by (intros; rewrite <- vinp_lt; auto).
    destruct ((ch =c "/") && (c =c "*")) eqn:E1.
    { apply Hnext.
      - apply andb_true_iff in E1. destruct E1 as [_ E1]. apply eqb_true in E1. left; subst; discriminate.
      - intros _. unfold dir_step. rewrite E1. auto. }
    destruct (com && ((ch =c "*") && (c =c "/"))) eqn:E2.
    { apply andb_true_iff in E2. destruct E2 as [E2a E2]. apply Hnext.
      - apply andb_true_iff in E2. destruct E2 as [_ E2]. apply eqb_true in E2. left; subst; discriminate.
      - intros _. unfold dir_step. rewrite E1, E2. auto. }
    destruct (negb com && (negb (ch =c BSL) && (c =c NL))) eqn:E3.
    { apply andb_true_iff in E3. destruct E3 as [E3 E4]. apply andb_true_iff in E4. destruct E4 as [E4 E5].
      apply negb_true_iff in E3, E4. apply eqb_false in E4. apply eqb_true in E5. subst c com.
      assert (Hn : nth_error inp v = Some NL) by (apply vinp_inp; auto; discriminate).
      assert (v < L) by (apply nth_error_Some; congruence). rewrite p_unget_S by lia.
      split; [lia|]. split; auto. right. split; auto. rewrite Hst. auto. }
    apply Hnext.
    { destruct com; [auto|]. destruct (ch =c BSL) eqn:Eb; [apply eqb_true in Eb; auto|].
      destruct (c =c NL) eqn:En; [discriminate|apply eqb_false in En; auto]. }
    intros _. unfold dir_step. rewrite E1. cbn [snd]. destruct ((ch =c "*") && (c =c "/")) eqn:E4; auto.
    destruct com; [discriminate|auto].
Qed.

Lemma find_cpp_spec : forall a b, a <= b <= L -> cpp_type (slice inp a b) (p_find_cpp inp a b).
Proof.
  intros a b Hab. unfold p_find_cpp, p_slice. rewrite !clamp_id by lia.
  destruct (Nat.eqb_spec (b - a) 0).
  - replace b with a by lia. rewrite slice_nil. right. split; auto.
    intros ty s Hin Hs. assert (Hne : forallb (fun p => match s2b (snd p) with [] => false | _ => true end) cpp_names = true)
      by (vm_compute; reflexivity).
    rewrite forallb_forall in Hne. specialize (Hne _ Hin). cbn [snd] in Hne. rewrite <- Hs in Hne. discriminate.
  - destruct (find _ cpp_names) as [[ty s]|] eqn:E.
    + left. apply find_some in E. destruct E as [E1 E2]. cbn [fst snd] in *. apply beq_eq in E2. eauto.
    + right. split; auto. intros ty s Hin Hs. apply (find_none _ _ E) in Hin. cbn [snd] in Hin.
      rewrite Hs, beq_refl in Hin. discriminate.
Qed.

(** ** Tiling *)
Notation tiles := (tiles inp).
Lemma tiles_le : forall ts a b, tiles a ts b -> a <= b.
Proof. intros ts a b H. induction H; lia. Qed.
Lemma tiles_app : forall ts us a b c, tiles a ts b -> tiles b us c -> tiles a (ts ++ us) c.
Proof.
  intros ts us a b c H. induction H as [a b Hab HF|a t ts b Ha HF Ht H IH]; intros Hu; cbn [app].
  - inversion Hu; subst.
    + constructor; [lia|]. eapply Forall_slice_app; [| |exact HF|]; eauto.
    + constructor; auto; [lia|]. eapply Forall_slice_app; [| |exact HF|]; eauto.
  - constructor; auto.
Qed.
Lemma tiles_app_inv : forall ts us a c, tiles a (ts ++ us) c ->
  exists b, tiles a ts b /\ tiles b us c.
Proof.
  induction ts as [|t ts IH]; cbn [app]; intros us a c H.
  - exists a. split; auto. constructor; auto. rewrite slice_nil. constructor.
  - inversion H as [|? ? ? ? Ha HF Ht Hr]; subst. destruct (IH _ _ _ Hr) as (b & H1 & H2). exists b. split; auto. constructor; auto.
Qed.
Lemma tiles_one : forall a t b, a <= t_off t -> Forall bl (slice inp a (t_off t)) ->
  t_off t <= t_end t -> t_end t <= b -> Forall bl (slice inp (t_end t) b) -> tiles a [t] b.
Proof. intros. constructor; auto. constructor; auto. Qed.
Lemma tiles_extend : forall ts a b c, tiles a ts b -> b <= c -> Forall bl (slice inp b c) -> tiles a ts c.
Proof.
  intros ts a b c H1 H2 H3. rewrite <- (app_nil_r ts). eapply tiles_app; eauto. constructor; auto.
Qed.

Variable in_diff : nat -> bool.
Variable trim : bytes -> option bytes.
Variable align : bytes -> option bytes.
Hypothesis trim_nl : forall b b', trim b = Some b' -> exists c, b = c ++ [NL].
Notation p_tok := (p_tok inp in_diff).
Notation p_comment_tok := (p_comment_tok inp in_diff trim).

Lemma Forall_cc : forall P a b, Forall P (slice inp a b) -> Forall P (slice inp (clamp inp a) (clamp inp b)).
Proof. intros. rewrite slice_clamp, slice_clamp_l. auto. Qed.
Lemma slice_cc : forall a b, slice inp (clamp inp a) (clamp inp b) = slice inp a b.
Proof. intros. rewrite slice_clamp, slice_clamp_l. auto. Qed.

Lemma comment_tok_spec : forall s e ol c99, s <= e -> let t := p_comment_tok s e ol c99 in
  t_type t = T_COMMENT /\ t_off t = clamp inp s /\ t_end t = clamp inp e /\ pos_ok inp t /\
  t_lno t = S (nlc inp (clamp inp s)) /\
  text_bytes inp (t_str t) = trimmed trim (src inp t).
Proof.
  intros s e ol c99 Hse t. pose proof (clamp_mono inp _ _ Hse) as Hc.
  destruct (comment_tok_fields inp in_diff trim s e ol c99) as (H1 & H2 & H3 & H4 & H5).
  fold t in H1, H2, H3, H4, H5. split; auto. split; auto. split; auto. split.
  - unfold pos_ok. rewrite H2, H3, H4. split; [pose proof (clamp_le inp e); lia|]. split; [reflexivity|].
    unfold t, LexRefine.p_comment_tok. cbv zeta. destruct (trim _); destruct ol; reflexivity.
  - split; auto. unfold trimmed, src. rewrite H2, H3, H5.
    replace (clamp inp s + (clamp inp e - clamp inp s)) with (clamp inp e) by lia.
    destruct (trim (slice inp (clamp inp s) (clamp inp e))); auto. cbn [text_bytes]. f_equal. lia.
Qed.

Definition comment_post (v : nat) (block : bool) (t : tok) (v' : nat) : Prop :=
  exists s e ol c99, t = p_comment_tok s e ol c99 /\ v <= s < e /\ e <= v' <= S L /\
    Forall bl (slice inp v s) /\ (s = v \/ block = true /\ nth_error inp (pred s) = Some NL) /\
    comment_text inp (clamp inp s) (clamp inp e) /\ clamp inp s < clamp inp e /\
    Forall bl (slice inp e v') /\ (nlc inp (clamp inp e) = nlc inp (clamp inp v') -> v' = e) /\
    (block = false -> v' = e).

Lemma nlc_nl : forall a b i, a <= i < b -> nth_error inp i = Some NL -> nlc inp a < nlc inp b.
Proof.
  intros a b i Hi Hn. pose proof (nlc_S inp i NL Hn) as HS. rewrite eqb_refl in HS.
  pose proof (nlc_mono inp a i). pose proof (nlc_mono inp (S i) b). lia.
Qed.

Lemma p_comment_spec : forall v block t v', v <= S L ->
  p_comment inp in_diff trim v block = (Some t, v') -> comment_post v block t v'.
Proof.
  intros v block t v' Hv H. unfold p_comment in H.
  destruct (p_again inp (FUEL inp) v block v true) as [[[[s ol] c99] e]|] eqn:Ea; [|discriminate].
  inversion H; subst t v'; clear H. apply again_spec in Ea; auto.
  destruct Ea as (A1 & A2 & A3 & m & A4 & A5 & A6 & A7).
  set (e1 := p_comment_end inp block e).
  assert (He1 : e <= e1 <= S L /\ Forall bl (slice inp e e1)).
  { unfold e1, p_comment_end. destruct block; [|rewrite slice_nil; split; [lia|constructor]].
    destruct (p_spaces_spec inp e (proj2 A7)) as (S1 & S2 & S3).
    assert (Hsl : p_spaces inp e <= S L) by lia.
    pose proof (p_lines_spec inp 2 (p_spaces inp e) Hsl) as Hl.
    destruct (p_lines inp 2 (p_spaces inp e)) as [n b]. destruct Hl as (L1 & L2 & _). cbn [snd].
    split; [lia|]. eapply Forall_slice_app with (b := p_spaces inp e); [lia|lia| |].
    - eapply Forall_impl; [|exact S2]. apply sp_bl.
    - eapply Forall_impl; [|exact L2]. apply lw_bl. }
  destruct He1 as (He1 & He1b).
  exists s, e1, ol, c99. split; auto. split; [lia|].
  assert (Hafter : e1 <= p_after inp block e1 <= S L /\ Forall bl (slice inp e1 (p_after inp block e1)) /\
    (nlc inp (clamp inp e1) = nlc inp (clamp inp (p_after inp block e1)) -> p_after inp block e1 = e1) /\
    (block = false -> p_after inp block e1 = e1)).
  { unfold p_after. destruct block; [|rewrite slice_nil; repeat split; auto; lia].
    pose proof (p_lines0_spec inp e1 (proj2 He1)) as Hl.
    destruct (p_lines inp 0 e1) as [n b]. destruct Hl as (L1 & L2 & L3 & L4 & L5). cbn [snd].
    split; [lia|]. split; [eapply Forall_impl; [|exact L2]; apply lw_bl|]. split; [|discriminate].
    intros Heq. destruct L3 as [L3|(L3 & L6 & L7)]; [tauto|]. exfalso.
    assert (pred b < L) by (apply nth_error_Some; congruence).
    rewrite !clamp_id in Heq by lia.
    pose proof (nlc_nl e1 b (pred b) ltac:(lia) L7). lia. }
  destruct Hafter as (H1 & H2 & H3 & H4).
  split; [lia|]. split; auto. split; [tauto|].
  assert (Hm : clamp inp s <= m /\ m < clamp inp e) by (unfold clamp; lia).
  assert (Hmm : clamp inp e <= clamp inp e1) by (apply clamp_mono; lia).
  split.
  - exists m, (clamp inp e). split; [lia|]. split; [pose proof (clamp_le inp e1); lia|].
    split; [rewrite slice_clamp_l; auto|]. split; [destruct c99; [right|left]; auto|].
    rewrite slice_cc. auto.
  - split; [lia|]. auto.
Qed.

Lemma p_cpp_spec : forall v t v', v <= S L -> p_cpp inp in_diff align v = (Some t, v') ->
  exists s e, t_off t = clamp inp s /\ t_end t = clamp inp e /\ v <= s < e /\ e <= v' <= S L /\
    Forall bl (slice inp v s) /\ Forall bl (slice inp e v') /\ cpp_ok inp in_diff align t /\ t_type t <> T_COMMENT.
Proof.
  intros v t v' Hv H. unfold p_cpp in H.
  pose proof (p_els_spec inp v v Hv) as (E1 & E2 & E3 & E4 & E5).
  destruct (p_els inp v v) as [v1 s]. cbn [fst snd] in *.
  destruct (is_at inp v1 "#") eqn:Eat; [|discriminate].
  apply is_at_iff in Eat; [|discriminate]. assert (Hv1 : v1 < L) by (apply nth_error_Some; congruence).
  assert (HSv1 : S v1 <= S L) by lia.
  destruct (p_spaces_spec inp (S v1) HSv1) as (S1 & S2 & S3). set (k := p_spaces inp (S v1)) in *.
  assert (Hk : k <= S L) by lia.
  destruct (p_match_spec inp (s2b "az") k Hk) as (M1 & M2 & M3). set (w := p_match inp (s2b "az") k) in *.
  assert (Hw : w <= w <= S L) by lia.
  pose proof (p_cpp_loop_spec w (skipn w vinp) w NUL false Hw eq_refl) as Hloop. cbv zeta in Hloop.
  destruct Hloop as (C1 & C2 & C3).
  { intros _. unfold dir_state. rewrite slice_nil. reflexivity. }
  { intros; lia. }
  set (v5 := p_cpp_loop inp (skipn w vinp) w NUL false) in *.
  pose proof (p_lines_spec inp 2 v5 (proj2 C1)) as Hl2. destruct (p_lines inp 2 v5) as [n2 v6].
  destruct Hl2 as (L1 & L2 & _). cbn [snd] in H.
  assert (Hv6 : v6 <= S L) by lia.
  pose proof (p_lines0_spec inp v6 Hv6) as Hl0. destruct (p_lines inp 0 v6) as [n0 v7].
  destruct Hl0 as (L3 & L4 & _). cbn [snd] in H. cbv zeta in H. inversion H; subst v'; clear H.
  assert (Hs : v <= s <= v1 /\ Forall bl (slice inp v s) /\ Forall sp (slice inp s v1)).
  { destruct E5 as [[-> E5]|(E5 & E6 & E7)].
    - rewrite slice_nil. split; [lia|auto].
    - split; [lia|]. split; auto. eapply (Forall_slice_sub inp bl v v s v1); eauto; lia. }
  destruct Hs as (Hs & Hsb & Hsp).
  assert (HkL : k <= L) by lia. assert (HwL : w <= L) by lia.
  set (ty := p_find_cpp inp k w) in *.
  pose proof (find_cpp_spec k w ltac:(lia)) as Hty. fold ty in Hty.
  set (t0 := p_tok ty F_CPP None s v6) in *.
  assert (Hmono : clamp inp s <= v1 /\ v1 < clamp inp v5 /\ clamp inp v5 <= clamp inp v6) by (unfold clamp; lia).
  assert (Hsrc : text_bytes inp (t_str t0) = slice inp (clamp inp s) (clamp inp v6)).
  { unfold t0. cbn [t_str LexRefine.p_tok text_bytes]. f_equal. lia. }
  assert (Htext : cpp_text inp ty (clamp inp s) (clamp inp v6)).
  { exists v1, (clamp inp v5). split; [lia|]. split; [pose proof (clamp_le inp v6); lia|].
    split; [rewrite slice_clamp_l; auto|]. split; [|rewrite slice_cc; auto].
    exists k, w. split; auto. split; [lia|]. split; auto. split; auto. split.
    - split; [lia|]. split; [|intros c Hc; rewrite <- lower_ranges; auto].
      eapply Forall_impl; [|exact M2]. intros c Hc. rewrite <- lower_ranges. auto.
    - split; auto. split; [unfold clamp; lia|]. split.
      + destruct (Nat.le_gt_cases L v5); [left; unfold clamp; lia|]. right. rewrite clamp_id by lia.
        destruct C2; [lia|auto].
      + intros n Hn. apply C3. unfold clamp in Hn. lia. }
  assert (HtyC : ty <> T_COMMENT).
  { destruct Hty as [(x & Hin & _)|(-> & _)]; [|discriminate]. intros Hc. rewrite Hc in Hin.
    assert (Hn : forallb (fun p => negb (ttype_eqb (fst p) T_COMMENT)) cpp_names = true) by (vm_compute; reflexivity).
    rewrite forallb_forall in Hn. specialize (Hn _ Hin). discriminate. }
  exists s, v6.
  assert (Hpos : pos_ok inp t0) by (apply p_tok_pos; lia).
  assert (Hfl : flags_ok in_diff t0 F_CPP) by apply p_tok_flags.
  assert (Hfields : exists str, p_cpp_tok inp in_diff align s v6 ty = set_str t0 str /\
    (ty = T_CPP_DEFINE /\ align (src inp t0) = Some (text_bytes inp str) \/
     (ty = T_CPP_DEFINE -> align (src inp t0) = None) /\ text_bytes inp str = src inp t0)).
  { unfold p_cpp_tok. fold t0. rewrite Hsrc. change (src inp t0) with (slice inp (clamp inp s) (clamp inp v6)).
    destruct (ttype_eqb ty T_CPP_DEFINE) eqn:Ed.
    - apply ttype_eqb_eq in Ed. destruct (align _) as [b|] eqn:Eal.
      + exists (Own b). split; auto.
      + exists (t_str t0). split; [reflexivity|]. right. auto.
    - exists (t_str t0). split; [reflexivity|]. right. split; auto. intros Hc. rewrite Hc in Ed. discriminate. }
  destruct Hfields as (str & Hstr & Hal). rewrite Hstr. cbn [t_off t_end t_type set_str].
  split; [reflexivity|]. split; [reflexivity|]. split; [lia|]. split; [lia|]. split; auto.
  split; [eapply Forall_impl; [|exact L4]; apply lw_bl|]. split; [|exact HtyC].
  split; [exact Hpos|]. split; [cbn; lia|]. split; [exact Hfl|]. split; [exact Htext|].
  unfold verbatim. exact Hal.
Qed.

(** ** Prefixes *)
Definition Pre (v0 : nat) (ps : list tok) (v : nat) : Prop :=
  v0 <= v <= S L /\ tiles (clamp inp v0) ps (clamp inp v) /\
  Forall (prefix_ok inp in_diff trim align) ps /\
  (forall pv before, rev ps = pv :: before -> t_type pv = T_COMMENT ->
     comment_run inp (t_off pv) (t_end pv) /\ pos_ok inp pv /\ t_off pv < t_end pv /\
     t_lno pv <= S (nlc inp (clamp inp v)) /\
     (t_lno pv = S (nlc inp (clamp inp v)) -> clamp inp v = t_end pv /\ t_str pv = Src (t_off pv) (t_end pv - t_off pv))).

Lemma comment_single : forall v block t v', comment_post v block t v' -> comment_ok inp trim t.
Proof.
  intros v block t v' (s & e & ol & c99 & -> & H1 & H2 & H3 & H4 & H5 & H6 & H7 & H8 & H9).
  destruct (comment_tok_spec s e ol c99 ltac:(lia)) as (T1 & T2 & T3 & T4 & T5 & T6). cbv zeta in *.
  split; auto. split; auto. split; [lia|]. left. split; [rewrite T2, T3; auto|auto].
Qed.

Lemma p_prefix_step : forall v0 v ps ps' v', Pre v0 ps v ->
  p_prefix inp in_diff trim align v ps = (Some ps', v') -> Pre v0 ps' v'.
Proof.
  intros v0 v ps ps' v' (P1 & P2 & P3 & P4) H. unfold p_prefix in H.
  destruct (p_comment inp in_diff trim v true) as [[t|] v1] eqn:Ec.
  - inversion H; subst v1; clear H. apply p_comment_spec in Ec; [|lia].
    pose proof (comment_single _ _ _ _ Ec) as Hok.
    destruct Ec as (s & e & ol & c99 & Et & C1 & C2 & C3 & C4 & C5 & C6 & C7 & C8 & _).
    destruct (comment_tok_spec s e ol c99 ltac:(lia)) as (T1 & T2 & T3 & T4 & T5 & T6). cbv zeta in *.
    destruct (comment_tok_fields inp in_diff trim s e ol c99) as (_ & _ & _ & _ & T7). cbv zeta in *.
    rewrite <- Et in *. clear Et.
    assert (Hcl : clamp inp v <= clamp inp s /\ clamp inp s <= clamp inp e /\ clamp inp e <= clamp inp v')
      by (unfold clamp; lia).
    replace (clamp inp s + (clamp inp e - clamp inp s)) with (clamp inp e) in T7 by lia.
    (* an unfinished line means an untrimmed comment *)
    assert (Hopen : t_lno t = S (nlc inp (clamp inp v')) ->
       clamp inp v' = t_end t /\ t_str t = Src (t_off t) (t_end t - t_off t)).
    { intros Heq. rewrite T5 in Heq.
      pose proof (nlc_mono inp (clamp inp s) (clamp inp e) ltac:(lia)).
      pose proof (nlc_mono inp (clamp inp e) (clamp inp v') ltac:(lia)).
      rewrite C8 by lia. split; auto. rewrite T7, T2, T3. clear T7.
      destruct (trim _) as [b|] eqn:Etr; auto. exfalso.
      apply trim_nl in Etr. destruct Etr as (c & Etr).
      pose proof (nlc_add inp (clamp inp s) (clamp inp e) ltac:(lia)) as Hadd.
      rewrite Etr, count_app in Hadd. simpl in Hadd. lia. }
    assert (Hone : tiles (clamp inp v) [t] (clamp inp v')).
    { apply tiles_one; try lia; rewrite ?T2, ?T3; try lia; apply Forall_cc; auto. }
    assert (Hrun : comment_run inp (t_off t) (t_end t)) by (apply cr_one; rewrite T2, T3; auto).
    assert (Hlast : comment_run inp (t_off t) (t_end t) /\ pos_ok inp t /\ t_off t < t_end t /\
     t_lno t <= S (nlc inp (clamp inp v')) /\
     (t_lno t = S (nlc inp (clamp inp v')) -> clamp inp v' = t_end t /\ t_str t = Src (t_off t) (t_end t - t_off t))).
    { split; auto. split; auto. split; [lia|]. split; auto. rewrite T5.
      pose proof (nlc_mono inp (clamp inp s) (clamp inp v') ltac:(lia)). lia. }
    assert (Happ : Pre v0 (ps ++ [t]) v').
    { split; [lia|]. split; [eapply tiles_app; eauto|]. split.
      - apply Forall_app. split; auto. constructor; auto. left. auto.
      - intros pv before Hrev Hty. rewrite rev_app_distr in Hrev. simpl in Hrev. inv Hrev. auto. }
    destruct (rev ps) as [|pv before] eqn:Er.
    { assert (ps = []) by (rewrite <- (rev_involutive ps), Er; reflexivity). subst ps. exact Happ. }
    destruct (ttype_eqb (t_type pv) T_COMMENT && (t_lno t =? t_lno pv)) eqn:Em; [|exact Happ].
    apply andb_true_iff in Em. destruct Em as [Em1 Em2]. apply ttype_eqb_eq in Em1. apply Nat.eqb_eq in Em2.
    destruct (P4 pv before eq_refl Em1) as (Q1 & Q2 & Q3 & Q4 & Q5).
    pose proof (nlc_mono inp (clamp inp v) (clamp inp s) ltac:(lia)) as Hnm.
    destruct Q5 as (Q5 & Q6); [lia|].
    assert (Hsv : s = v).
    { destruct C4 as [C4|(_ & C4)]; auto. destruct (Nat.eq_dec s v); auto. exfalso.
      assert (pred s < L) by (apply nth_error_Some; congruence).
      pose proof (nlc_nl (clamp inp v) (clamp inp s) (pred s)) as Hlt.
      rewrite !clamp_id in * by lia. specialize (Hlt ltac:(lia) C4). lia. }
    subst s.
    assert (Hpro : prolong pv t = Some (Tok (t_type pv) (t_flags pv)
       (Src (t_off pv) (t_end pv - t_off pv + text_len (t_str t))) (t_off pv) (t_end t) (t_lno pv) (t_cno pv))).
    { unfold prolong. rewrite T1, Em1, ttype_eqb_refl, Q6. cbn [andb text_len].
      destruct (Nat.leb_spec (t_off pv + (t_end pv - t_off pv)) (t_off t)); auto. lia. }
    rewrite Hpro. set (nt := Tok _ _ _ _ _ _ _) in *.
    assert (Hps : ps = rev before ++ [pv]) by (rewrite <- (rev_involutive ps), Er; reflexivity).
    assert (Hnrun : comment_run inp (t_off nt) (t_end nt)).
    { cbn [t_off t_end nt]. apply cr_more with (n := t_end pv); auto.
      - rewrite <- Q5, <- T2, T2, T3. auto.
      - destruct Q2 as (R1 & R2 & R3).
        pose proof (nlc_add inp (t_off pv) (t_end pv) ltac:(lia)) as Hadd.
        change (count_occ_b NL (firstn (t_off pv) inp)) with (nlc inp (t_off pv)) in R2.
        rewrite <- Q5 in Hadd at 1. lia. }
    assert (Hnpos : pos_ok inp nt).
    { destruct Q2 as (R1 & R2 & R3). destruct T4 as (R4 & _).
      unfold pos_ok, nt. cbn [t_off t_end t_lno t_cno]. split; [lia|auto]. }
    assert (Hnlt : t_off nt < t_end nt) by (cbn; lia).
    assert (Htl : text_len (t_str t) = length (trimmed trim (src inp t))).
    { rewrite <- T6. rewrite T7. destruct (trim _); cbn [text_len text_bytes]; auto.
      rewrite slice_length; [lia|]. pose proof (clamp_le inp e). lia. }
    rewrite Hps in P2, P3. apply tiles_app_inv in P2. destruct P2 as (b & Ta & Tb).
    inversion Tb as [|? ? ? ? Tb1 Tb2 Tb3 Tb4]; subst.
    apply Forall_app in P3. destruct P3 as (P3a & P3b).
    split; [lia|]. split; [|split].
    + eapply tiles_app; eauto. apply tiles_one; cbn [t_off t_end nt]; auto; try lia.
      rewrite T3. apply Forall_cc. auto.
    + apply Forall_app. split; auto. constructor; auto. left. split; [exact Em1|].
      split; auto. split; auto. right. exists (t_end pv). cbn [t_off t_end nt t_str].
      split; auto. split; [lia|]. split; [rewrite <- Q5, T3; auto|]. split.
      * destruct Q2 as (R1 & R2 & R3).
        pose proof (nlc_add inp (t_off pv) (t_end pv) ltac:(lia)) as Hadd.
        change (count_occ_b NL (firstn (t_off pv) inp)) with (nlc inp (t_off pv)) in R2.
        rewrite <- Q5 in Hadd at 1. lia.
      * cbn [text_bytes]. rewrite Htl. unfold src. rewrite T2, Q5. f_equal. lia.
    + intros pv' before' Hrev' Hty'. rewrite rev_app_distr, rev_involutive in Hrev'. simpl in Hrev'. inv Hrev'.
      split; auto. split; auto. split; auto. cbn [t_lno nt t_end t_str t_off].
      destruct Hlast as (_ & _ & _ & Z1 & Z2). split; [lia|].
      intros Heq. destruct Z2 as (Z2 & Z3); [lia|]. split; auto. rewrite Z3. cbn [text_len]. f_equal. lia.
  - destruct (p_cpp inp in_diff align v) as [[t|] v2] eqn:Ecpp; [|discriminate].
    inversion H; subst; clear H. apply p_cpp_spec in Ecpp; [|lia].
    destruct Ecpp as (s & e & T2 & T3 & C1 & C2 & C3 & C4 & C5 & C6).
    assert (Hcl : clamp inp v <= clamp inp s /\ clamp inp s <= clamp inp e /\ clamp inp e <= clamp inp v')
      by (unfold clamp; lia).
    split; [lia|]. split; [|split].
    + eapply tiles_app; eauto. apply tiles_one; try lia; rewrite ?T2, ?T3; try lia; apply Forall_cc; auto.
    + apply Forall_app. split; auto. constructor; auto. right. auto.
    + intros pv before Hrev Hty. rewrite rev_app_distr in Hrev. simpl in Hrev. inv Hrev. contradiction.
Qed.

Lemma p_prefix_none : forall v ps v', v <= S L -> p_prefix inp in_diff trim align v ps = (None, v') ->
  not_prefix inp (clamp inp (fst (p_els inp v v))).
Proof.
  intros v ps v' Hv H. unfold p_prefix in H.
  destruct (p_comment inp in_diff trim v true) as [[t|] v1] eqn:Ec; [discriminate|].
  destruct (p_cpp inp in_diff align v) as [[t|] v2] eqn:Ecpp; [discriminate|].
  unfold p_comment in Ec. destruct (p_again inp (FUEL inp) v true v true) as [[[[? ?] ?] ?]|] eqn:Ea; [discriminate|].
  apply again_none in Ea; auto; [|unfold FUEL; lia]. cbv zeta in Ea. destruct Ea as [Ea1 Ea2].
  unfold p_cpp in Ecpp. pose proof (p_els_spec inp v v Hv) as (E1 & _).
  destruct (p_els inp v v) as [a s]. cbn [fst] in *.
  assert (Hocc : forall s, s <> [] -> occurs s (clamp inp a) -> occurs s a).
  { intros x Hx Ho. destruct (Nat.le_gt_cases a L); [rewrite clamp_id in Ho; auto|].
    apply occurs_le in Ho; auto. unfold clamp in Ho. destruct x; [congruence|simpl in Ho; lia]. }
  repeat split.
  - intros Ho. apply Ea1, Hocc; auto. discriminate.
  - intros Ho. apply Ea2, Hocc; auto. discriminate.
  - rewrite nth_clamp. intros Hn. apply (is_at_iff a "#"%char) in Hn; [|discriminate]. rewrite Hn in Ecpp. discriminate.
Qed.

Lemma p_prefix_gt : forall v ps ps' v', v <= S L -> p_prefix inp in_diff trim align v ps = (Some ps', v') -> v < v'.
Proof.
  intros v ps ps' v' Hv H. unfold p_prefix in H.
  destruct (p_comment inp in_diff trim v true) as [[t|] v1] eqn:Ec.
  - inversion H; subst. eapply p_comment_gt; eauto.
  - destruct (p_cpp inp in_diff align v) as [[t|] v2] eqn:Ecpp; [|discriminate].
    inversion H; subst. eapply p_cpp_gt; eauto.
Qed.

Lemma p_prefixes_spec : forall fuel v0 v ps, S L - v < fuel -> Pre v0 ps v ->
  let r := p_prefixes inp in_diff trim align fuel v ps in
  Pre v0 (fst r) (snd r) /\ not_prefix inp (clamp inp (fst (p_els inp (snd r) (snd r)))).
Proof.
  induction fuel; intros v0 v ps Hf HP; [lia|]. cbn [p_prefixes].
  pose proof HP as ((_ & Hv) & _).
  destruct (p_prefix inp in_diff trim align v ps) as [[ps'|] v'] eqn:E.
  - pose proof (p_prefix_gt _ _ _ _ Hv E). apply (p_prefix_step v0) in E; auto.
    apply IHfuel; auto. destruct E as ((_ & E) & _). lia.
  - cbn [fst snd]. split; auto. eapply p_prefix_none; eauto.
Qed.

(** ** Suffixes *)
Definition Suf (v0 : nat) (ss : list tok) (v : nat) : Prop :=
  v0 <= v <= S L /\ tiles (clamp inp v0) ss (clamp inp v) /\ Forall (suffix_ok inp trim) ss.

Lemma Suf_snoc : forall v0 ss v t a b, Suf v0 ss v -> v = a -> a <= b <= S L -> t_off t = clamp inp a ->
  t_end t = clamp inp b -> suffix_ok inp trim t -> Suf v0 (ss ++ [t]) b.
Proof.
  intros v0 ss v t a b (S1 & S2 & S3) -> Hb Ho He Hok. split; [lia|]. split.
  - pose proof (clamp_mono inp a b ltac:(lia)). eapply tiles_app; eauto.
    apply tiles_one; rewrite ?Ho, ?He; auto; rewrite slice_nil; constructor.
  - apply Forall_app. auto.
Qed.

Lemma p_suffix_comments_spec : forall fuel v0 v ss, Suf v0 ss v ->
  let r := p_suffix_comments inp in_diff trim fuel v ss in Suf v0 (fst r) (snd r).
Proof.
  induction fuel; intros v0 v ss HS; cbn [p_suffix_comments]; auto.
  destruct (p_comment inp in_diff trim v false) as [[t|] v1] eqn:Ec; auto.
  pose proof HS as ((_ & Hv) & _). apply p_comment_spec in Ec; auto. pose proof (comment_single _ _ _ _ Ec) as Hok.
  destruct Ec as (s & e & ol & c99 & Et & C1 & C2 & C3 & C4 & C5 & C6 & C7 & C8 & C9).
  destruct (comment_tok_spec s e ol c99 ltac:(lia)) as (T1 & T2 & T3 & T4 & T5 & T6). cbv zeta in *.
  rewrite <- Et in *. clear Et. rewrite C9 in * by auto.
  destruct C4 as [C4|(C4 & _)]; [|discriminate]. subst s.
  apply IHfuel. eapply Suf_snoc; eauto; [lia|]. left; auto.
Qed.

Lemma space_tok_ok : forall v fl, v <= S L -> p_spaces inp v <> v ->
  space_ok inp (set_flags (p_tok T_SPACE 0%N None v (p_spaces inp v)) fl).
Proof.
  intros v fl Hv Hne. destruct (p_spaces_spec inp v Hv) as (S1 & S2 & S3).
  split; [reflexivity|]. split; [apply (p_tok_pos inp in_diff); lia|].
  split; [cbn; unfold clamp; lia|]. left. split.
  - unfold src. cbn [t_off t_end set_flags LexRefine.p_tok]. rewrite slice_cc. auto.
  - apply (p_tok_verbatim inp in_diff). lia.
Qed.
Lemma line_tok_ok : forall v fl, v <= S L -> fst (p_lines inp 0 v) <> 0 ->
  space_ok inp (set_flags (p_tok T_SPACE 0%N (Some [NL]) v (snd (p_lines inp 0 v))) fl).
Proof.
  intros v fl Hv Hne. pose proof (p_lines0_spec inp v Hv) as Hl.
  destruct (p_lines inp 0 v) as [n b]. cbn [fst snd] in *. destruct Hl as (L1 & L2 & L3 & L4 & L5).
  destruct L3 as [L3|(L3 & L6 & L7)]; [lia|].
  split; [reflexivity|]. split; [apply (p_tok_pos inp in_diff); lia|].
  assert (b <= L) by lia.
  split; [cbn; unfold clamp; lia|]. right. unfold src. cbn [t_off t_end set_flags LexRefine.p_tok t_str text_bytes].
  rewrite slice_cc. split; auto. split; auto. lia.
Qed.

Lemma p_suffixes_spec : forall tk v, v <= S L ->
  let r := p_suffixes inp in_diff trim tk v in Suf v (fst r) (snd r).
Proof.
  intros tk v Hv. unfold p_suffixes.
  assert (H0 : Suf v [] v).
  { split; [lia|]. split; [|constructor]. constructor; auto. rewrite slice_nil. constructor. }
  assert (H1 : exists s1 v3, (if has_flag (t_flags tk) F_DISCARD then ([], v)
      else p_suffix_comments inp in_diff trim (FUEL inp) v []) = (s1, v3) /\ Suf v s1 v3).
  { destruct (has_flag _ _); [eauto|]. pose proof (p_suffix_comments_spec (FUEL inp) v v [] H0) as H.
    cbv zeta in H. destruct (p_suffix_comments _ _ _ _ _ _) as [s1 v3]. eauto. }
  destruct H1 as (s1 & v3 & -> & H1). pose proof H1 as ((_ & Hv3) & _).
  assert (H2 : exists s2 v4, (if length s1 =? 0 then
      match p_spaces_tok inp in_diff v3 with
      | Some t => ([set_flags t (N.lor (t_flags t) (N.lor F_OPTSPACE F_DISCARD))], p_spaces inp v3)
      | None => ([], p_spaces inp v3)
      end else (s1, v3)) = (s2, v4) /\ Suf v s2 v4).
  { destruct (Nat.eqb_spec (length s1) 0) as [Hl|]; [|eauto].
    destruct s1; [|discriminate]. destruct (p_spaces_spec inp v3 Hv3) as (S1 & S2 & S3).
    unfold p_spaces_tok. destruct (Nat.eqb_spec (p_spaces inp v3) v3) as [->|Hne]; [eauto|].
    eexists _, _. split; [reflexivity|].
    apply (Suf_snoc v [] v3 _ v3 (p_spaces inp v3) H1 eq_refl); [lia|reflexivity|reflexivity|].
    right. apply space_tok_ok; auto. }
  destruct H2 as (s2 & v4 & -> & H2). pose proof H2 as ((_ & Hv4) & _). cbn [fst snd].
  pose proof (p_lines0_spec inp v4 Hv4) as Hl. unfold p_lines_tok.
  destruct (Nat.eqb_spec (fst (p_lines inp 0 v4)) 0) as [He|Hne].
  - destruct (p_lines inp 0 v4) as [n b]. cbn [fst snd] in *. destruct Hl as (L1 & L2 & L3 & L4 & L5).
    destruct L3 as [(_ & ->)|(L3 & _)]; [auto|lia].
  - pose proof (line_tok_ok v4) as Hok.
    destruct (p_lines inp 0 v4) as [n b]. cbn [fst snd] in *. destruct Hl as (L1 & L2 & L3 & L4 & L5).
    assert (Hb : v4 <= b <= S L) by lia.
    destruct (Nat.eqb_spec n 1).
    + eapply Suf_snoc; eauto. right. apply Hok; auto.
    + eapply Suf_snoc; eauto. right.
      apply (Hok (t_flags (p_tok T_SPACE 0%N (Some [NL]) v4 b))); auto.
Qed.

(** ** One token with its trivia *)
Definition read_post (v : nat) (k : token) (v' : nat) : Prop :=
  v <= v' <= S L /\ tiles (clamp inp v) (token_toks k) (clamp inp v') /\
  token_ok inp in_diff trim align k /\
  (t_type (k_tok k) = T_EOF -> t_end (k_tok k) = L).

Lemma p_read_spec : forall v, v <= S L ->
  read_post v (fst (p_read inp in_diff trim align v)) (snd (p_read inp in_diff trim align v)).
Proof.
  intros v Hv. unfold p_read.
  assert (HP : Pre v [] v).
  { split; [lia|]. split; [constructor; auto; rewrite slice_nil; constructor|]. split; [constructor|]. intros; discriminate. }
  pose proof (p_prefixes_spec (FUEL inp) v v [] ltac:(unfold FUEL; lia) HP) as H1. cbv zeta in H1.
  destruct (p_prefixes inp in_diff trim align (FUEL inp) v []) as [ps v1]. cbn [fst snd] in H1.
  destruct H1 as (((Hv1 & Hv1') & T1 & P1 & _) & Hnp).
  pose proof (p_main_spec inp in_diff v1 Hv1') as Hm.
  destruct (p_main inp in_diff v1) as [tk v2]. cbn [fst snd] in *.
  destruct Hm as (M1 & M2 & M3 & M4 & M5 & M6 & M7).
  pose proof (p_suffixes_spec tk v2 M2) as Hs. cbv zeta in Hs.
  destruct (p_suffixes inp in_diff trim tk v2) as [suf v3]. cbn [fst snd] in *.
  destruct Hs as (S1 & S2 & S3).
  split; [lia|]. split; [|split].
  - unfold token_toks. cbn [k_pre k_tok k_suf]. eapply tiles_app; eauto.
    set (a := fst (p_els inp v1 v1)) in *.
    assert (clamp inp v1 <= clamp inp a /\ clamp inp a <= clamp inp v2) by (unfold clamp; lia).
    constructor; rewrite ?M3, ?M4; try lia; auto. apply Forall_cc. auto.
  - split; auto. split; auto. split; auto. cbn [k_tok]. rewrite M3. auto.
  - cbn [k_tok]. intros E. apply M7 in E. rewrite M4. unfold clamp. lia.
Qed.
End Trivia.
