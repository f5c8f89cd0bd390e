(** Which comments are recognised as clang-format off and on. *)
From Verif Require Import Base StrModel StrProofs UtilModel UtilProofs TokenModel LexModel LexSpec LexRefine LexBlank LexMain LexTrivia LexAll CommentModel.

(** ** Specification *)
Section SenseSpec.
Variable inp : bytes.
(** The comment [m, n) lies on one line and goes on with [word]. *)
Definition marker (word : bytes) (m n : nat) : Prop :=
  ~ In NL (slice inp m n) /\ occurs inp (s2b " clang-format " ++ word) (m + 2).
(** [m, n) is the first comment of [t]. *)
Definition first_comment (t : tok) (m n : nat) : Prop :=
  t_off t <= m /\ n <= t_end t /\ Forall sp (slice inp (t_off t) m) /\ comment_span inp m n.
Definition sensed (t : tok) : Prop := exists m n, first_comment t m n /\
  (has_flag (t_flags t) F_COMMENT_CLANG_FORMAT_OFF = true <-> marker (s2b "off") m n) /\
  (has_flag (t_flags t) F_COMMENT_CLANG_FORMAT_ON = true <-> marker (s2b "on") m n).
End SenseSpec.

(** ** Flags *)
Lemma sense_values : forall s, sense_clang_format s = 0%N \/ sense_clang_format s = F_COMMENT_CLANG_FORMAT_OFF \/ sense_clang_format s = F_COMMENT_CLANG_FORMAT_ON.
Proof.
  intros s. unfold sense_clang_format. cbv zeta. destruct (_ <? 2); auto. destruct (negb _); auto. destruct (starts_with _ _); auto. destruct (starts_with _ _); auto.
Qed.
Definition flags_of (base : N) (ol : bool) (s : bytes) : N := if ol then N.lor base (sense_clang_format s) else base.
Lemma flags_cases : forall (c99 df ol : bool) s,
  let base := if df then N.lor (if c99 then F_COMMENT_C99 else 0%N) F_DIFF else (if c99 then F_COMMENT_C99 else 0%N) in
  (has_flag (flags_of base ol s) F_COMMENT_CLANG_FORMAT_OFF = true <-> ol = true /\ sense_clang_format s = F_COMMENT_CLANG_FORMAT_OFF) /\
  (has_flag (flags_of base ol s) F_COMMENT_CLANG_FORMAT_ON = true <-> ol = true /\ sense_clang_format s = F_COMMENT_CLANG_FORMAT_ON).
Proof.
  intros c99 df ol s base. unfold flags_of. destruct (sense_values s) as [E|[E|E]]; rewrite E; destruct c99, df, ol; cbv; intuition discriminate.
Qed.

(** Two words, neither a prefix of the other. *)
Lemma starts_app : forall a b s, starts_with (a ++ b) s = starts_with a s && starts_with b (skipn (length a) s).
Proof.
  induction a as [|x a IH]; intros b s; [reflexivity|]. destruct s as [|y s]; cbn [app starts_with length skipn]; [reflexivity|]. rewrite IH, andb_assoc. reflexivity.
Qed.
Lemma sense_iff : forall s, let r := skipn 2 (skipn (span_len isspace s) s) in
  (sense_clang_format s = F_COMMENT_CLANG_FORMAT_OFF <-> starts_with (s2b " clang-format off") r = true) /\
  (sense_clang_format s = F_COMMENT_CLANG_FORMAT_ON <-> starts_with (s2b " clang-format on") r = true).
Proof.
  intros s r. unfold sense_clang_format. cbv zeta. fold r. set (u := skipn (span_len isspace s) s) in *.
  change (s2b " clang-format off") with (s2b " clang-format " ++ s2b "off"). change (s2b " clang-format on") with (s2b " clang-format " ++ s2b "on").
  rewrite !starts_app. destruct (Nat.ltb_spec (length u) 2).
  - assert (E : r = []) by (unfold r; apply length_zero_iff_nil; rewrite skipn_length; lia). rewrite E. cbn. split; split; discriminate.
  - destruct (starts_with (s2b " clang-format ") r); cbn [negb andb]; [|split; split; discriminate].
    set (w := skipn _ r). destruct w as [|x [|y [|z w]]]; cbn [starts_with s2b list_ascii_of_string];
    try (destruct ("o" =c x), ("f" =c y) eqn:E1, ("n" =c y) eqn:E2; cbn [andb]; try (split; split; (reflexivity || discriminate)); apply eqb_true in E1, E2; congruence).
    + split; split; discriminate.
    + rewrite !andb_false_r. split; split; discriminate.
    + destruct ("o" =c x), ("f" =c y) eqn:E1, ("n" =c y) eqn:E2, ("f" =c z); cbn [andb]; try (split; split; (reflexivity || discriminate)); apply eqb_true in E1, E2; congruence.
Qed.

Lemma nth_error_firstn : forall A (l : list A) n i, i < n -> nth_error (firstn n l) i = nth_error l i.
Proof. induction l as [|x l IH]; intros [|n] [|i] H; cbn; try lia; auto. apply IH. lia. Qed.

Section Sense.
Variable inp : bytes.
Notation L := (length inp).
Notation vinp := (vinp inp).
Notation occurs := (occurs inp).

(** ** One line *)
Lemma block_ge : forall l v ch ol, v <= snd (p_block l v ch ol).
Proof. induction l as [|c r IH]; intros; cbn [p_block]; [cbn; lia|]. destruct (_ && _); cbn [snd]; [lia|]. specialize (IH (S v) c (if ch =c NL then false else ol)). lia. Qed.
Lemma block_oneline : forall l v ch ol b, l = skipn v vinp -> b <= v <= S L ->
  (v = b /\ ch = NUL \/ b < v /\ nth_error vinp (pred v) = Some ch) ->
  (fst (p_block l v ch ol) = true <->
   ol = true /\ forall j, b <= j -> v <= S j -> S j < snd (p_block l v ch ol) -> nth_error vinp j <> Some NL).
Proof.
  induction l as [|c r IH]; intros v ch ol b Hl Hv Hch; cbn [p_block].
  - cbn [fst snd]. intuition lia.
  - symmetry in Hl. destruct (skipn_vinp_cons _ _ _ _ Hl) as (Hc & Hr). pose proof (vinp_some _ _ _ Hc) as HvL.
    destruct ((ch =c "*") && (c =c "/")) eqn:E; cbn [fst snd].
    + apply andb_true_iff in E. destruct E as [E1 E2]. apply eqb_true in E1, E2. subst ch c. split; [|tauto]. intros ->. split; [reflexivity|]. intros j J1 J2 J3.
      destruct Hch as [[-> Hch]|[Hlt Hch]]; [lia|]. replace j with (pred v) by lia. rewrite Hch. discriminate.
    + assert (Hrec : b <= S v <= S L) by lia. rewrite (IH (S v) c (if ch =c NL then false else ol) b Hr Hrec (or_intror (conj (ltac:(lia) : b < S v) Hc))).
      pose proof (block_ge r (S v) c (if ch =c NL then false else ol)) as Hge. set (v2 := snd _) in *. clearbody v2. split.
      * intros [H1 H2]. destruct (ch =c NL) eqn:En; [discriminate|]. split; [exact H1|]. intros j J1 J2 J3.
        destruct (Nat.eq_dec (S j) v) as [Ej|]; [|apply H2; lia]. destruct Hch as [[-> Hch]|[Hlt Hch]]; [lia|]. replace (pred v) with j in Hch by lia. rewrite Hch. apply eqb_false in En. congruence.
      * intros [H1 H2]. split; [|intros; apply H2; lia]. destruct (ch =c NL) eqn:En; [|exact H1]. apply eqb_true in En. subst ch. destruct Hch as [[-> Hch]|[Hlt Hch]]; [discriminate|].
        exfalso. apply (H2 (pred v)); [lia|lia|lia|exact Hch].
Qed.

Lemma chain_ol : forall fuel v block s s' ol' c99 e, v <= S L -> p_peek_c99 inp v = true ->
  p_again inp fuel v block s false = Some (s', ol', c99, e) -> ol' = false.
Proof.
  induction fuel; intros v block s s' ol' c99 e Hv Hp H; [discriminate|].
  pose proof (peek_true inp v Hv Hp) as Hocc. apply occurs_two in Hocc. destruct Hocc as [Ho1 Ho2]. cbn [p_again] in H.
  assert (Hels : (if block then p_els inp v s else (p_spaces inp v, s)) = (p_spaces inp v, s)).
  { destruct block; auto. eapply p_els_at_spaces; eauto. apply slash_not_bl. }
  rewrite Hels in H. set (m := p_spaces inp v) in *. assert (HSm : S m < L) by (apply nth_error_Some; congruence).
  rewrite (proj2 (is_at_iff inp m "/"%char ltac:(discriminate)) Ho1) in H. rewrite (proj2 (is_at_iff inp (S m) "/"%char ltac:(discriminate)) Ho2) in H.
  pose proof (p_c99_spec inp _ (S (S m)) eq_refl ltac:(lia)) as Hspec. destruct (p_c99 inp (skipn (S (S m)) vinp) (S (S m))) as [[|] v2].
  - destruct Hspec as (n & -> & H1 & H2 & H3 & H4). eapply IHfuel; [|exact H4|exact H]. lia.
  - inversion H; auto.
Qed.

(** Whether the comment read is on one line. *)
Lemma again_oneline : forall fuel v block s' ol' c99 e, v <= S L -> p_again inp fuel v block v true = Some (s', ol', c99, e) ->
  exists m, s' <= m < L /\ Forall sp (slice inp s' m) /\ comment_span inp m (clamp inp e) /\ m < e <= S L /\
    nth_error inp m = Some "/"%char /\ m + 2 <= clamp inp e /\ (ol' = true <-> ~ In NL (slice inp m (clamp inp e))).
Proof.
  intros fuel v block s' ol' c99 e Hv H. pose proof (again_spec inp fuel v block true s' ol' c99 e Hv H) as (A1 & A2 & A3 & m & A4 & A5 & A6 & A7).
  exists m. split; [exact A4|]. split; [exact A5|]. split; [destruct c99; [right|left]; exact A6|]. split; [exact A7|].
  destruct fuel; [discriminate|]. cbn [p_again] in H.
  assert (Hpre : exists v1, (if block then p_els inp v v else (p_spaces inp v, v)) = (v1, s') /\ v1 <= S L /\ s' <= v1 /\ Forall sp (slice inp s' v1) /\ (is_at inp v1 "/" = true)).
  { destruct block.
    - pose proof (p_els_spec inp v v Hv) as (E1 & E2 & E3 & E4 & E5). destruct (p_els inp v v) as [v1 s1]. cbn [fst snd] in *.
      destruct (is_at inp v1 "/") eqn:Ea; [|discriminate]. apply is_at_iff in Ea; [|discriminate]. assert (Hv1 : v1 < L) by (apply nth_error_Some; congruence).
      assert (s1 = s').
      { destruct (is_at inp (S v1) "/") eqn:E2'.
        - apply is_at_iff in E2'; [|discriminate]. assert (S v1 < L) by (apply nth_error_Some; congruence).
          pose proof (p_c99_spec inp _ (S (S v1)) eq_refl ltac:(lia)) as Hspec. destruct (p_c99 inp (skipn (S (S v1)) vinp) (S (S v1))) as [[|] v2]; [|inversion H; auto].
          destruct Hspec as (n & -> & H1 & H2 & H3 & H4). apply again_chain in H; [|lia|exact H4]. symmetry. tauto.
        - destruct (is_at inp (S v1) "*"); [|discriminate]. destruct (p_block _ _ _ _). inversion H; auto. }
      subst s1. exists v1. split; [reflexivity|]. split; [lia|]. split; [destruct E5 as [[-> _]|(? & ? & ?)]; lia|]. split; [|apply is_at_iff; [discriminate|exact Ea]].
      destruct E5 as [[-> E5]|(E5 & E6 & E7)]; auto.
    - destruct (p_spaces_spec inp v Hv) as (S1 & S2 & S3). exists (p_spaces inp v).
      destruct (is_at inp (p_spaces inp v) "/") eqn:Ea; [|discriminate]. apply is_at_iff in Ea; [|discriminate]. assert (Hv1 : p_spaces inp v < L) by (apply nth_error_Some; congruence).
      assert (v = s').
      { destruct (is_at inp (S (p_spaces inp v)) "/") eqn:E2'.
        - apply is_at_iff in E2'; [|discriminate]. assert (S (p_spaces inp v) < L) by (apply nth_error_Some; congruence).
          pose proof (p_c99_spec inp _ (S (S (p_spaces inp v))) eq_refl ltac:(lia)) as Hspec. destruct (p_c99 inp (skipn (S (S (p_spaces inp v))) vinp) (S (S (p_spaces inp v)))) as [[|] v2]; [|inversion H; auto].
          destruct Hspec as (n & -> & H1 & H2 & H3 & H4). apply again_chain in H; [|lia|exact H4]. symmetry. tauto.
        - destruct (is_at inp (S (p_spaces inp v)) "*"); [|discriminate]. destruct (p_block _ _ _ _). inversion H; auto. }
      subst s'. split; [reflexivity|]. split; [lia|]. split; [lia|]. split; [exact S2|reflexivity]. }
  destruct Hpre as (v1 & Hpe & HvL & Hs & Hsp & Hat). rewrite Hpe, Hat in H. apply is_at_iff in Hat; [|discriminate].
  assert (Hv1 : v1 < L) by (apply nth_error_Some; congruence).
  assert (m = v1).
  { assert (Hocc : occurs (s2b "//") m \/ occurs (s2b "/*") m) by (destruct c99; [left; destruct A6; assumption|right; apply A6]).
    assert (Hm : nth_error inp m = Some "/"%char) by (destruct Hocc as [Ho|Ho]; eapply (occurs_nth inp _ m 0) in Ho; try reflexivity; rewrite Nat.add_0_r in Ho; exact Ho).
    rewrite (spaces_unique inp s' v1 "/"%char), (spaces_unique inp s' m "/"%char); auto; try lia; try apply slash_not_sp. }
  subst m. split; [exact Hat|].
  destruct (is_at inp (S v1) "/") eqn:E2.
  - apply is_at_iff in E2; [|discriminate]. assert (HSv1 : S v1 < L) by (apply nth_error_Some; congruence).
    pose proof (p_c99_spec inp _ (S (S v1)) eq_refl ltac:(lia)) as Hspec. destruct (p_c99 inp (skipn (S (S v1)) vinp) (S (S v1))) as [[|] v2].
    + destruct Hspec as (n & -> & H1 & H2 & H3 & H4). pose proof H as Hch. apply chain_ol in H; [|lia|exact H4]. apply again_chain in Hch; [|lia|exact H4]. destruct Hch as (_ & _ & _ & Hlt).
      destruct (p_spaces_spec inp (S n) ltac:(lia)) as (S1 & _). assert (HnE : n < clamp inp e) by (unfold clamp; lia). split; [lia|].
      split; [congruence|]. intros Hn. exfalso. apply Hn. apply (nth_error_In _ (n - v1)). rewrite <- H2. unfold slice.
      rewrite nth_error_firstn by lia. rewrite nth_error_skipn_add. f_equal. lia.
    + destruct Hspec as (H1 & H2 & H3 & H4). inversion H; subst. split; [unfold clamp; lia|]. split; [|reflexivity]. intros _.
      rewrite slice_clamp. rewrite (slice_cons inp v1 e "/"%char) by (auto; lia). rewrite (slice_cons inp (S v1) e "/"%char) by (auto; lia). intros [X|[X|X]]; [discriminate|discriminate|auto].
  - destruct (is_at inp (S v1) "*") eqn:E3; [|discriminate]. apply is_at_iff in E3; [|discriminate]. assert (HSv1 : S v1 < L) by (apply nth_error_Some; congruence).
    pose proof (block_oneline _ (S (S v1)) NUL true (S (S v1)) eq_refl ltac:(lia) (or_introl (conj eq_refl eq_refl))) as Hol.
    pose proof (p_block_spec inp _ (S (S v1)) NUL true (S (S v1)) eq_refl ltac:(lia) (or_introl (conj eq_refl eq_refl))) as Hspec.
    destruct (p_block (skipn (S (S v1)) vinp) (S (S v1)) NUL true) as [ol2 v2]. cbn [fst snd] in *. cbv zeta in Hspec. destruct Hspec as (B1 & B2); [intros; lia|]. inversion H; subst.
    split; [unfold clamp; lia|]. rewrite Hol. rewrite slice_clamp. split.
    + intros [_ Hj] Hin. apply In_nth_error in Hin. destruct Hin as [i Hi]. unfold slice in Hi.
      assert (Hlt : i < e - v1). { assert (i < length (firstn (e - v1) (skipn v1 inp))) by (apply nth_error_Some; congruence). rewrite firstn_length in H0. lia. }
      rewrite nth_error_firstn in Hi by lia. rewrite nth_error_skipn_add in Hi.
      destruct i as [|[|i]]; [rewrite Nat.add_0_r, Hat in Hi; discriminate|rewrite Nat.add_1_r, E3 in Hi; discriminate|].
      assert (HiL : v1 + S (S i) < L) by (apply nth_error_Some; congruence).
      destruct (Nat.eq_dec (S (v1 + S (S i))) e) as [Ee|]; [|apply (Hj (v1 + S (S i))); [lia|lia|lia|apply inp_vinp; exact Hi]].
      destruct B2 as [(k & K1 & K2 & K3 & _)|(K2 & _)]; [|lia].
      apply occurs_two in K3. destruct K3 as [_ K3]. replace (S k) with (v1 + S (S i)) in K3 by lia. rewrite K3 in Hi. discriminate.
    + intros Hn. split; [reflexivity|]. intros j J1 J2 J3 Hj. apply vinp_inp in Hj; [|discriminate]. apply Hn. apply (nth_error_In _ (j - v1)). unfold slice.
      rewrite nth_error_firstn by lia. rewrite nth_error_skipn_add. rewrite <- Hj. f_equal. lia.
Qed.

Lemma word_bound : forall w o p c, occurs w o -> ~ In c w -> nth_error inp p = Some c -> o <= p -> o + length w <= p.
Proof.
  intros w o p c Ho Hc Hp Hle. destruct (Nat.le_gt_cases (o + length w) p) as [|Hgt]; [assumption|]. exfalso. apply Hc.
  destruct (nth_error w (p - o)) as [x|] eqn:E; [|apply nth_error_None in E; lia].
  pose proof (occurs_nth inp w o (p - o) x Ho E) as Hx. replace (o + (p - o)) with p in Hx by lia. rewrite Hp in Hx. inversion Hx; subst. eapply nth_error_In; eauto.
Qed.
Lemma word_within : forall w m n, comment_span inp m n -> occurs w (m + 2) -> w <> [] -> ~ In NL w -> ~ In "*"%char w -> m + 2 + length w <= n.
Proof.
  intros w m n Hs Ho Hne H1 H2. destruct Hs as [[_ [(k & K1 & K2 & K3 & _)|(K & _)]]|Hs].
  - apply occurs_two in K3. destruct K3 as [K3 _]. pose proof (word_bound w (m + 2) k _ Ho H2 K3 K1). lia.
  - subst n. apply occurs_le; auto.
  - assert (G : forall a b, c99_span inp a b -> a <= b) by (induction 1 as [|? ? ? ? ? ? ? (? & ? & _)]; lia).
    inversion Hs as [? ? A1 A2 A3 A4 A5|? p m' ? A1 A2 A3 A4 A5]; subst.
    + destruct A4 as [->|A4]; [apply occurs_le; auto|]. apply (word_bound w (m + 2) n NL); auto; lia.
    + destruct A4 as (B1 & B2 & _). pose proof (word_bound w (m + 2) p _ Ho H1 B1 ltac:(lia)). pose proof (G _ _ A5). lia.
Qed.

(** The text sensed is what follows the first two bytes of the comment. *)
Lemma span_spaces : forall s m e, s <= m < e -> e <= L -> Forall sp (slice inp s m) -> nth_error inp m = Some "/"%char ->
  skipn (span_len isspace (slice inp s e)) (slice inp s e) = slice inp m e.
Proof.
  intros s m e Hs He HF Hm. replace (slice inp s e) with (slice inp s m ++ slice inp m e) by (apply slice_app; lia).
  assert (E : span_len isspace (slice inp s m ++ slice inp m e) = length (slice inp s m)).
  { rewrite (slice_cons inp m e "/"%char) by (auto; lia). clear -HF. induction HF as [|c l H _ IH]; [reflexivity|]. cbn [app span_len length].
    assert (E : isspace c = true) by (destruct H as [E|[E|E]]; subst c; reflexivity). rewrite E, IH. reflexivity. }
  rewrite E, skipn_app, skipn_all, Nat.sub_diag. reflexivity.
Qed.
Lemma starts_occurs : forall w o e, o <= e <= L -> (starts_with w (slice inp o e) = true <-> occurs w o /\ o + length w <= e).
Proof.
  intros w o e He. rewrite starts_with_spec. split.
  - intros [r Hr]. assert (HL : length w <= e - o). { pose proof (slice_length inp o e ltac:(lia)) as HS. rewrite Hr, app_length in HS. lia. }
    split; [|lia]. exists (skipn (length w) (skipn o inp)). rewrite <- (firstn_skipn (length w) (skipn o inp)) at 1. f_equal.
    unfold slice in Hr. assert (X : firstn (length w) (firstn (e - o) (skipn o inp)) = firstn (length w) (w ++ r)) by (rewrite Hr; reflexivity).
    rewrite firstn_firstn, Nat.min_l in X by lia. rewrite X, firstn_app, firstn_all, Nat.sub_diag, firstn_O, app_nil_r. reflexivity.
  - intros [[r Hr] Hle]. unfold slice. rewrite Hr, firstn_app. exists (firstn (e - o - length w) r). rewrite firstn_all2 by lia. reflexivity.
Qed.

Variable in_diff : nat -> bool.
Variable trim : bytes -> option bytes.
Variable align : bytes -> option bytes.
Hypothesis trim_nl : forall b b', trim b = Some b' -> exists c, b = c ++ [NL].

Lemma comment_sensed : forall v block t v', v <= S L -> p_comment inp in_diff trim v block = (Some t, v') -> sensed inp t.
Proof.
  intros v block t v' Hv H. unfold p_comment in H.
  destruct (p_again inp (FUEL inp) v block v true) as [[[[s ol] c99] e]|] eqn:Ea; [|discriminate]. inversion H as [[Ht Hv']]. clear H.
  apply again_oneline in Ea; [|exact Hv]. destruct Ea as (m & A1 & A2 & A3 & A4 & A5 & A6 & A7).
  set (e1 := p_comment_end inp block e) in *. pose proof (p_comment_end_ge inp block e) as He1. fold e1 in He1.
  destruct (comment_tok_fields inp in_diff trim s e1 ol c99) as (T1 & T2 & T3 & _). cbv zeta in *. rewrite Ht in *.
  assert (Hcl : clamp inp s = s) by (unfold clamp; lia). rewrite Hcl in T2.
  assert (Hce : clamp inp e <= clamp inp e1) by (apply clamp_mono; exact He1). pose proof (clamp_le inp e1) as HcL.
  exists m, (clamp inp e). split; [unfold first_comment; rewrite T2, T3; split; [apply A1|split; [exact Hce|split; [exact A2|exact A3]]]|].
  assert (FL : t_flags t = flags_of (if in_diff (S (nlc inp (clamp inp s))) then N.lor (if c99 then F_COMMENT_C99 else 0%N) F_DIFF else (if c99 then F_COMMENT_C99 else 0%N)) ol (slice inp s (clamp inp e1))).
  { rewrite <- Ht. unfold p_comment_tok, flags_of. cbn [p_tok t_str text_bytes t_flags]. rewrite Hcl. replace (s + (clamp inp e1 - s)) with (clamp inp e1) by lia.
    destruct ol; destruct (trim _); cbn [set_str set_flags t_flags p_tok]; rewrite ?Hcl; reflexivity. }
  rewrite FL. destruct (flags_cases c99 (in_diff (S (nlc inp (clamp inp s)))) ol (slice inp s (clamp inp e1))) as [F1 F2]. cbv zeta in F1, F2. rewrite F1, F2.
  destruct (sense_iff (slice inp s (clamp inp e1))) as [S1 S2]. cbv zeta in S1, S2. rewrite (span_spaces s m (clamp inp e1)) in S1, S2 by (auto; lia).
  assert (K : skipn 2 (slice inp m (clamp inp e1)) = slice inp (m + 2) (clamp inp e1)).
  { replace (slice inp m (clamp inp e1)) with (slice inp m (m + 2) ++ slice inp (m + 2) (clamp inp e1)) by (apply slice_app; lia).
    assert (E : length (slice inp m (m + 2)) = 2) by (rewrite slice_length; lia). rewrite <- E at 1. rewrite skipn_app, skipn_all, Nat.sub_diag. reflexivity. }
  rewrite K in S1, S2. rewrite starts_occurs in S1, S2 by lia. rewrite S1, S2, A7. unfold marker.
  assert (W : forall w, occurs w (m + 2) -> w <> [] -> ~ In NL w -> ~ In "*"%char w -> m + 2 + length w <= clamp inp e1).
  { intros w W1 W2 W3 W4. pose proof (word_within w m (clamp inp e) A3 W1 W2 W3 W4). lia. }
  split; split.
  - intros [X [Y _]]. split; [exact X|exact Y].
  - intros [X Y]. split; [exact X|]. split; [exact Y|]. apply W; [exact Y|discriminate| |]; intros I; vm_compute in I; intuition discriminate.
  - intros [X [Y _]]. split; [exact X|exact Y].
  - intros [X Y]. split; [exact X|]. split; [exact Y|]. apply W; [exact Y|discriminate| |]; intros I; vm_compute in I; intuition discriminate.
Qed.
Lemma prolong_sensed : forall a b c, prolong a b = Some c -> t_end a <= t_end b -> sensed inp a -> sensed inp c.
Proof.
  intros a b c H He (m & n & (F1 & F2 & F3 & F4) & HF). unfold prolong in H. destruct (_ && _); [|discriminate]. destruct (t_str a); [|discriminate]. inversion H; subst. clear H.
  exists m, n. split; [|exact HF]. unfold first_comment. cbn [t_off t_end]. split; [exact F1|]. split; [lia|]. auto.
Qed.
Definition sense_ok (t : tok) : Prop :=
  if ttype_eqb (t_type t) T_COMMENT then sensed inp t
  else has_flag (t_flags t) F_COMMENT_CLANG_FORMAT_OFF = false /\ has_flag (t_flags t) F_COMMENT_CLANG_FORMAT_ON = false.
Lemma comment_sense_ok : forall t, t_type t = T_COMMENT -> sensed inp t -> sense_ok t.
Proof. intros t H1 H2. unfold sense_ok. rewrite H1, ttype_eqb_refl. exact H2. Qed.
Lemma cpp_sense_ok : forall t, cpp_ok inp in_diff align t -> t_type t <> T_COMMENT -> sense_ok t.
Proof.
  intros t (_ & _ & HF & _) Hn. unfold sense_ok. destruct (ttype_eqb (t_type t) T_COMMENT) eqn:E; [apply ttype_eqb_eq in E; contradiction|].
  unfold flags_ok in HF. rewrite HF. destruct (in_diff _); split; reflexivity.
Qed.

Lemma prefix_sensed : forall v0 v ps ps' v', Pre inp in_diff trim align v0 ps v -> Forall sense_ok ps ->
  p_prefix inp in_diff trim align v ps = (Some ps', v') -> Forall sense_ok ps'.
Proof.
  intros v0 v ps ps' v' HPre HF H. pose proof HPre as (P1 & P2 & P3 & P4). unfold p_prefix in H. destruct (p_comment inp in_diff trim v true) as [[t|] v1] eqn:Ec.
  - pose proof (comment_sensed v true t v1 ltac:(lia) Ec) as HS. apply (p_comment_spec inp in_diff trim align trim_nl) in Ec; [|lia]. pose proof (comment_single inp in_diff trim align trim_nl _ _ _ _ Ec) as (Hty & _).
    destruct Ec as (s & e & ol & c99 & Et & C1 & C2 & _). destruct (comment_tok_fields inp in_diff trim s e ol c99) as (_ & T2 & T3 & _). cbv zeta in *. rewrite <- Et in *.
    pose proof (comment_sense_ok t Hty HS) as Hok. inversion H; subst ps' v'. clear H.
    assert (Happ : Forall sense_ok (ps ++ [t])) by (apply Forall_app; auto).
    destruct (rev ps) as [|pv before] eqn:Er; [constructor; auto|]. destruct (ttype_eqb (t_type pv) T_COMMENT && (t_lno t =? t_lno pv)) eqn:Em; [|exact Happ].
    destruct (prolong pv t) as [pv'|] eqn:Ep; [|exact Happ]. apply andb_true_iff in Em. destruct Em as [Em _].
    assert (Hps : ps = rev before ++ [pv]) by (rewrite <- (rev_involutive ps), Er; reflexivity). rewrite Hps in HF. apply Forall_app in HF. destruct HF as [HF1 HF2]. inversion HF2 as [|? ? HF3 _]; subst.
    apply Forall_app. split; [exact HF1|]. constructor; [|constructor].
    assert (Hty' : t_type pv' = T_COMMENT). { unfold prolong in Ep. destruct (_ && _); [|discriminate]. destruct (t_str pv); [|discriminate]. inversion Ep; subst. cbn [t_type]. apply ttype_eqb_eq. exact Em. }
    apply comment_sense_ok; [exact Hty'|]. eapply prolong_sensed; [exact Ep| |unfold sense_ok in HF3; rewrite Em in HF3; exact HF3].
    apply tiles_app_inv in P2. destruct P2 as (b & _ & P2). inversion P2 as [|? ? ? ? B1 B2 B3 B4]; subst. apply tiles_le in B4.
    pose proof (clamp_mono inp v s ltac:(lia)). pose proof (clamp_mono inp s e ltac:(lia)). lia.
  - destruct (p_cpp inp in_diff align v) as [[t|] v2] eqn:Ep; [|discriminate]. inversion H; subst. apply (p_cpp_spec inp in_diff trim align trim_nl) in Ep; [|lia].
    destruct Ep as (s & e & _ & _ & _ & _ & _ & _ & Hc & Hn). apply Forall_app. split; [exact HF|]. constructor; [|constructor]. apply cpp_sense_ok; assumption.
Qed.
Lemma prefixes_sensed : forall fuel v0 v ps, Pre inp in_diff trim align v0 ps v -> Forall sense_ok ps ->
  Forall sense_ok (fst (p_prefixes inp in_diff trim align fuel v ps)).
Proof.
  induction fuel; intros v0 v ps HP HF; cbn [p_prefixes]; [exact HF|]. destruct (p_prefix inp in_diff trim align v ps) as [[ps'|] v1] eqn:E; [|exact HF].
  eapply IHfuel; [eapply p_prefix_step; eauto|eapply prefix_sensed; eauto].
Qed.
Lemma read_sensed : forall v, v <= S L -> Forall sense_ok (k_pre (fst (p_read inp in_diff trim align v))).
Proof.
  intros v Hv. unfold p_read. assert (HP : Pre inp in_diff trim align v [] v).
  { split; [lia|]. split; [constructor; [lia|rewrite slice_nil; constructor]|]. split; [constructor|]. intros pv before HX. discriminate. }
  pose proof (prefixes_sensed (FUEL inp) v v [] HP (Forall_nil _)) as HF. destruct (p_prefixes _ _ _ _ _ _ _) as [ps v1]. destruct (p_main inp in_diff v1) as [tk v2]. destruct (p_suffixes _ _ _ _ _) as [suf v3]. exact HF.
Qed.
End Sense.

Lemma all_sensed : forall inp in_diff usetabs align fuel lx v, R inp lx v ->
  Forall (sense_ok inp) (flat_map k_pre (fst (read_all inp in_diff (ctrim usetabs) align fuel lx))).
Proof.
  intros inp in_diff usetabs align. induction fuel; intros lx v HR; cbn [read_all]; [constructor|].
  destruct (clang_read_R inp in_diff (ctrim usetabs) align (ctrim_nl usetabs) lx v HR) as (lx1 & E1 & HR1 & H1). rewrite E1.
  pose proof (read_sensed inp in_diff (ctrim usetabs) align (ctrim_nl usetabs) v (R_le _ _ _ HR)) as HS.
  destruct (is_eof _).
  - cbn [fst flat_map]. rewrite app_nil_r. exact HS.
  - specialize (IHfuel lx1 _ HR1). destruct (read_all inp in_diff (ctrim usetabs) align fuel lx1) as [r lx2]. cbn [fst flat_map] in *. apply Forall_app. auto.
Qed.
