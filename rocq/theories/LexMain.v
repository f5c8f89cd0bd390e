(** Main tokens: operators, words, literals and EOF satisfy [main_span]. *)
From Verif Require Import Base StrModel StrProofs UtilModel UtilProofs TokenModel LexModel LexSpec LexRefine LexBlank.

(** ** Facts about the keyword table, by computation *)
Definition hd_ident (s : bytes) : bool := match s with c :: _ => ident_byte c | [] => false end.

(** Proper prefixes of an operator are ambiguous operators, except "..". *)
Definition prefixes_ok (k : keyword) : bool :=
  hd_ident (kw_str k) ||
  forallb (fun n => let p := firstn n (kw_str k) in
             beq p (s2b "..") ||
             match find_keyword1 p with
             | Some k' => has_flag (kw_flags k') F_AMBIGUOUS
             | None => false
             end) (seq 1 (length (kw_str k) - 1)).
Definition entry_ok (k : keyword) : bool :=
  negb (length (kw_str k) =? 0) &&
  ((1 <? length (kw_str k)) || negb (hd_ident (kw_str k))) &&
  (hd_ident (kw_str k) || prefixes_ok k) &&
  Bool.eqb (ttype_eqb (kw_type k) T_PERIOD) (beq (kw_str k) (s2b ".")) &&
  (negb (starts_with (s2b ".") (kw_str k)) || beq (kw_str k) (s2b ".") || beq (kw_str k) (s2b "...")) &&
  negb (ttype_eqb (kw_type k) T_EOF) &&
  (* the first byte decides between words and operators *)
  match kw_str k with
  | c :: _ => (negb (isdigit c)) && negb ((c =c DQ) || (c =c SQ)) && negb (c =c NUL)
  | [] => false
  end &&
  (negb (hd_ident (kw_str k)) || forallb ident_byte (kw_str k)).

Lemma table_ok : forallb entry_ok clang_tokens = true.
Proof. vm_compute. reflexivity. Qed.

Lemma find_ellipsis : exists k, find_keyword1 (s2b "...") = Some k.
Proof. eexists. vm_compute. reflexivity. Qed.

Lemma entry : forall k, In k clang_tokens -> entry_ok k = true.
Proof. apply forallb_forall. apply table_ok. Qed.

Lemma find1_some : forall key k, find_keyword1 key = Some k -> In k clang_tokens /\ kw_str k = key.
Proof. intros key k H. apply find_some in H. rewrite beq_eq in H. exact H. Qed.
Lemma find1_none : forall key k, find_keyword1 key = None -> In k clang_tokens -> kw_str k <> key.
Proof.
  intros key k H Hin Heq. apply (find_none _ _ H) in Hin. subst. rewrite beq_refl in Hin. discriminate.
Qed.

Ltac entry_facts k Hin :=
  let H := fresh "HE" in
  pose proof (entry k Hin) as H; unfold entry_ok in H; rewrite !andb_true_iff in H;
  let H1 := fresh "Hlen" in let H2 := fresh "Hone" in let H3 := fresh "Hpre" in let H4 := fresh "Hper" in
  let H5 := fresh "Hdot" in let H6 := fresh "Hneof" in let H7 := fresh "Hfst" in let H8 := fresh "Hid" in
  destruct H as (((((((H1 & H2) & H3) & H4) & H5) & H6) & H7) & H8).

Lemma entry_len : forall k, In k clang_tokens -> 0 < length (kw_str k).
Proof.
  intros k H. entry_facts k H. apply negb_true_iff, Nat.eqb_neq in Hlen. lia.
Qed.
Lemma entry_one : forall k, In k clang_tokens -> length (kw_str k) = 1 -> hd_ident (kw_str k) = false.
Proof.
  intros k H H1. entry_facts k H. rewrite H1 in Hone. simpl in Hone. apply negb_true_iff in Hone. auto.
Qed.
Lemma entry_prefix : forall k n, In k clang_tokens -> hd_ident (kw_str k) = false ->
  0 < n < length (kw_str k) ->
  firstn n (kw_str k) = s2b ".." \/
  exists k', find_keyword1 (firstn n (kw_str k)) = Some k' /\ has_flag (kw_flags k') F_AMBIGUOUS = true.
Proof.
  intros k n H Hi Hn. entry_facts k H. rewrite Hi in Hpre. cbn [orb] in Hpre. unfold prefixes_ok in Hpre.
  rewrite Hi in Hpre. cbn [orb] in Hpre. rewrite forallb_forall in Hpre.
  assert (Hin : In n (seq 1 (length (kw_str k) - 1))) by (apply in_seq; lia).
  specialize (Hpre n Hin). cbv zeta in Hpre. apply orb_true_iff in Hpre.
  destruct Hpre as [Hp|Hp]; [left; apply beq_eq; auto|right].
  destruct (find_keyword1 _) as [k'|]; [eauto|discriminate].
Qed.
Lemma entry_period : forall k, In k clang_tokens -> (ttype_eqb (kw_type k) T_PERIOD = true <-> kw_str k = s2b ".").
Proof.
  intros k H. entry_facts k H. apply eqb_prop in Hper. rewrite Hper, beq_eq. tauto.
Qed.
Lemma entry_dot : forall k r, In k clang_tokens -> kw_str k = "."%char :: r -> kw_str k = s2b "." \/ kw_str k = s2b "...".
Proof.
  intros k r H Hs. entry_facts k H. rewrite !orb_true_iff, !beq_eq, negb_true_iff in Hdot.
  destruct Hdot as [[Hd|Hd]|Hd]; auto. rewrite Hs in Hd. simpl in Hd. discriminate.
Qed.
Lemma entry_neof : forall k, In k clang_tokens -> kw_type k <> T_EOF.
Proof.
  intros k H Heq. entry_facts k H. rewrite Heq in Hneof. rewrite ttype_eqb_refl in Hneof. discriminate.
Qed.
Lemma entry_fst : forall k c r, In k clang_tokens -> kw_str k = c :: r ->
  isdigit c = false /\ c <> DQ /\ c <> SQ /\ c <> NUL.
Proof.
  intros k c r H Hs. entry_facts k H. rewrite Hs in Hfst.
  rewrite !andb_true_iff, !negb_true_iff, orb_false_iff, !eqb_false in Hfst. tauto.
Qed.

Section Main.
Variable inp : bytes.
Notation L := (length inp).
Notation vinp := (vinp inp).
Notation occurs := (occurs inp).

Lemma occurs_slice : forall s o, occurs s o <-> slice inp o (o + length s) = s /\ (o + length s <= L \/ s = []).
Proof.
  intros s o. unfold LexSpec.occurs, slice. replace (o + length s - o) with (length s) by lia. split.
  - intros [r H]. rewrite H. rewrite firstn_app, firstn_all, Nat.sub_diag, firstn_O, app_nil_r. split; auto.
    destruct s; auto. left. assert (HL : length (skipn o inp) = length ((a :: s) ++ r)) by congruence.
    rewrite skipn_length, app_length in HL. simpl in *. lia.
  - intros [H _]. exists (skipn (length s) (skipn o inp)).
    pose proof (firstn_skipn (length s) (skipn o inp)) as HF. rewrite H in HF. auto.
Qed.

Lemma occurs_firstn : forall s o n, occurs s o -> n <= length s -> slice inp o (o + n) = firstn n s.
Proof.
  intros s o n [r H] Hn. unfold slice. rewrite H. replace (o + n - o) with n by lia.
  rewrite firstn_app. replace (n - length s) with 0 by lia. rewrite firstn_O, app_nil_r. auto.
Qed.

Lemma occurs_nth : forall s o i c, occurs s o -> nth_error s i = Some c -> nth_error inp (o + i) = Some c.
Proof.
  intros s o i c [r H] Hc. rewrite <- nth_error_skipn_add, H. rewrite nth_error_app1; auto.
  apply nth_error_Some. congruence.
Qed.

Lemma occurs_le : forall s o, occurs s o -> s <> [] -> o + length s <= L.
Proof. intros s o H Hs. apply occurs_slice in H. destruct H as [_ [H|H]]; [auto|congruence]. Qed.

Lemma occurs_two : forall a b m, occurs [a; b] m <-> nth_error inp m = Some a /\ nth_error inp (S m) = Some b.
Proof.
  intros a b m. split.
  - intros H. split; [rewrite <- (Nat.add_0_r m)|rewrite <- Nat.add_1_r]; eapply occurs_nth; eauto.
  - intros [H1 H2]. exists (skipn (S (S m)) inp). rewrite (skipn_cons _ _ _ H1), (skipn_cons _ _ _ H2). auto.
Qed.

Lemma slice_len_le : forall a b, length (slice inp a b) <= b - a.
Proof. intros. unfold slice. rewrite firstn_length. lia. Qed.

Lemma p_find_some : forall a b k, p_find inp a b = Some k ->
  clamp inp a < clamp inp b /\ In k clang_tokens /\ kw_str k = slice inp (clamp inp a) (clamp inp b).
Proof.
  intros a b k H. unfold p_find, p_slice in H.
  destruct (Nat.eqb_spec (clamp inp b - clamp inp a) 0); [discriminate|].
  apply find1_some in H. destruct H. split; [lia|auto].
Qed.
Lemma p_find_key : forall a b key, a < b -> b <= L -> slice inp a b = key -> p_find inp a b = find_keyword1 key.
Proof.
  intros a b key Hab Hb H. unfold p_find, p_slice. rewrite !clamp_id by lia.
  destruct (Nat.eqb_spec (b - a) 0); [lia|]. rewrite H. auto.
Qed.

(** Every entry at least as long as the span up to [v] extends an entry. *)
Definition covered (a v : nat) : Prop :=
  forall k, In k clang_tokens -> occurs (kw_str k) a -> v - a <= length (kw_str k) ->
  find_keyword1 (firstn (v - a) (kw_str k)) <> None.

Definition kw_post (a : nat) (r : option keyword * nat) : Prop :=
  match r with
  | (Some k, v2) =>
      a < clamp inp v2 /\ v2 <= S L /\ kw_str k = slice inp a (clamp inp v2) /\ longest inp k a /\
      (kw_str k = s2b "." -> forall c, nth_error inp (S a) = Some c -> isdigit c = false)
  | (None, _) =>
      (forall k, In k clang_tokens -> ~ occurs (kw_str k) a) \/
      (nth_error inp a = Some "."%char /\ exists c, nth_error inp (S a) = Some c /\ isdigit c = true)
  end.

Lemma occ_len_le : forall k a, In k clang_tokens -> occurs (kw_str k) a -> a + length (kw_str k) <= L.
Proof.
  intros k a Hin H. apply occurs_le; auto. intros E. pose proof (entry_len k Hin). rewrite E in H0. simpl in *; lia.
Qed.

Lemma hd_ident_occ : forall k a c, In k clang_tokens -> occurs (kw_str k) a -> nth_error inp a = Some c ->
  hd_ident (kw_str k) = ident_byte c /\ exists r, kw_str k = c :: r.
Proof.
  intros k a c Hin Ho Hc. pose proof (entry_len k Hin). destruct (kw_str k) as [|x r] eqn:E; [simpl in *; lia|].
  pose proof (occurs_nth _ _ 0 x Ho eq_refl) as Hx. rewrite Nat.add_0_r in Hx.
  assert (x = c) by congruence. subst. simpl. eauto.
Qed.

Lemma kwloop_spec : forall a c, nth_error inp a = Some c -> ident_byte c = false ->
  forall fuel v pv, a < v <= S L -> S L - v < fuel ->
  match pv with
  | None => v = S a
  | Some k => S a < v /\ p_find inp a (pred v) = Some k /\
      (kw_str k = s2b "." -> forall c, nth_error inp (S a) = Some c -> isdigit c = false)
  end ->
  (v = S L -> pv <> None /\ forall k, pv = Some k -> kw_str k <> s2b ".") ->
  covered a v ->
  kw_post a (p_kwloop inp fuel v a pv).
Proof.
  intros a c Hc Hci. assert (HaL : a < L) by (apply nth_error_Some; congruence).
  induction fuel; intros v pv Hv Hf Hpv HSL Hcov; [lia|]. cbn [p_kwloop].
  destruct (p_find inp a v) as [tmp|] eqn:Ef.
  2:{ (* no entry up to v *)
    assert (HvL : v <= L).
    { destruct (Nat.le_gt_cases v L); auto. assert (v = S L) by lia. subst v.
      destruct (HSL eq_refl) as (Hn & _). destruct pv as [k|]; [|congruence].
      destruct Hpv as (H1 & H2 & _). simpl in H2. exfalso.
      unfold p_find, p_slice in Ef, H2. rewrite (clamp_id inp L) in H2 by lia.
      replace (clamp inp (S L)) with L in Ef by (unfold clamp; lia). congruence. }
    assert (Hshort : forall k', In k' clang_tokens -> occurs (kw_str k') a -> length (kw_str k') < v - a).
    { intros k' Hin Ho. destruct (Nat.lt_ge_cases (length (kw_str k')) (v - a)); auto. exfalso.
      apply (Hcov k' Hin Ho H). rewrite <- (p_find_key a v); auto; try lia.
      rewrite <- (occurs_firstn _ _ _ Ho H). f_equal. lia. }
    destruct pv as [k|].
    - destruct Hpv as (H1 & H2 & H3). unfold kw_post.
      destruct v as [|v']; [lia|]. cbn [pred] in H2. rewrite p_unget_S by lia.
      apply p_find_some in H2. rewrite !clamp_id in H2 by lia. destruct H2 as (_ & Hin & Hs).
      rewrite clamp_id by lia.
      split; [lia|]. split; [lia|]. split; auto.
      assert (Hlen : length (kw_str k) = v' - a) by (rewrite Hs, slice_length; lia).
      split; auto. split; auto. split.
      + apply occurs_slice. rewrite Hlen. replace (a + (v' - a)) with v' by lia. split; [auto|left; lia].
      + intros k' Hin' Ho'. specialize (Hshort k' Hin' Ho'). lia.
    - subst v. left. intros k' Hin Ho. specialize (Hshort k' Hin Ho). pose proof (entry_len k' Hin). lia. }
  destruct (p_find_some _ _ _ Ef) as (Hlt & Hin & Hs). rewrite (clamp_id inp a) in * by lia.
  set (cv := clamp inp v) in *.
  assert (Hcv : cv <= L) by apply clamp_le.
  assert (Hlen : length (kw_str tmp) = cv - a) by (rewrite Hs, slice_length; lia).
  assert (Hocc : occurs (kw_str tmp) a).
  { apply occurs_slice. rewrite Hlen. replace (a + (cv - a)) with cv by lia. split; [auto|left; lia]. }
  assert (Hfind : find_keyword1 (kw_str tmp) = Some tmp).
  { unfold p_find, p_slice in Ef. fold cv in Ef. rewrite (clamp_id inp a) in Ef by lia.
    destruct (Nat.eqb_spec (cv - a) 0); [lia|]. rewrite Hs. auto. }
  (* entries longer than tmp *)
  assert (Hlonger : forall k', In k' clang_tokens -> occurs (kw_str k') a -> length (kw_str tmp) < length (kw_str k') ->
     v <= L /\ kw_str tmp = firstn (v - a) (kw_str k') /\
     (kw_str tmp = s2b ".." \/ has_flag (kw_flags tmp) F_AMBIGUOUS = true)).
  { intros k' Hin' Ho' Hl'. pose proof (occ_len_le _ _ Hin' Ho').
    assert (v <= L). { destruct (Nat.le_gt_cases v L); auto. unfold cv, clamp in Hlen. lia. }
    assert (Hcve : cv = v) by (apply clamp_id; auto). rewrite Hcve in *.
    assert (Hpre : kw_str tmp = firstn (v - a) (kw_str k')).
    { rewrite Hs. rewrite <- (occurs_firstn (kw_str k') a (v - a) Ho') by lia. f_equal. lia. }
    split; auto. split; auto.
    destruct (hd_ident_occ k' a c Hin' Ho' Hc) as [Hh _]. rewrite Hci in Hh.
    destruct (entry_prefix k' (v - a) Hin' Hh) as [Hd|(k2 & Hk2 & Ha2)]; [lia| |].
    - left. congruence.
    - right. rewrite <- Hpre, Hfind in Hk2. congruence. }
  assert (Hnotdd : kw_str tmp <> s2b "..").
  { intros E. destruct (entry_dot tmp ["."%char] Hin E) as [E'|E']; rewrite E in E'; discriminate. }
  destruct (has_flag (kw_flags tmp) F_AMBIGUOUS) eqn:Eamb; cbn [negb].
  2:{ unfold kw_post. fold cv. split; auto. split; [lia|]. split; auto. split.
      - split; auto. split; auto. intros k' Hin' Ho'.
        destruct (Nat.le_gt_cases (length (kw_str k')) (length (kw_str tmp))); auto.
        destruct (Hlonger k' Hin' Ho' H) as (_ & _ & [H1|H1]); congruence.
      - intros Hdot. exfalso.
        assert (find_keyword1 (s2b ".") = Some tmp) by (rewrite <- Hdot; auto).
        vm_compute in H. inv H. vm_compute in Eamb. discriminate. }
  (* the end of the buffer *)
  assert (Hend : v = S L \/ v = L -> (kw_str tmp = s2b "." -> forall c0, nth_error inp (S a) = Some c0 -> isdigit c0 = false) ->
     kw_post a (Some tmp, S L)).
  { intros Hv' Hd. unfold kw_post. replace (clamp inp (S L)) with L by (unfold clamp; lia).
    assert (Hcve : cv = L) by (unfold cv, clamp; lia).
    split; auto. split; [lia|]. split; [congruence|]. split; auto.
    split; auto. split; auto. intros k' Hin' Ho'. pose proof (occ_len_le _ _ Hin' Ho'). lia. }
  destruct (ttype_eqb (kw_type tmp) T_PERIOD) eqn:Eper.
  - apply entry_period in Eper; auto.
    assert (HcvS : cv = S a) by (rewrite Eper in Hlen; simpl in Hlen; lia).
    assert (Hca : c = "."%char).
    { destruct (hd_ident_occ tmp a c Hin Hocc Hc) as [_ [r Hr]]. rewrite Eper in Hr. inv Hr. auto. }
    subst c.
    destruct (Nat.eq_dec v (S L)) as [->|HvSL].
    { exfalso. destruct (HSL eq_refl) as (Hn & Hk). destruct pv as [k|]; [|congruence].
      destruct Hpv as (H1 & H2 & _). cbn [pred] in H2. apply (Hk k eq_refl).
      unfold p_find, p_slice in H2. rewrite (clamp_id inp L), (clamp_id inp a) in H2 by lia.
      assert (cv = L) by (unfold cv, clamp; lia). rewrite <- H in H2.
      destruct (Nat.eqb_spec (cv - a) 0); [lia|]. rewrite <- Hs, Hfind in H2. congruence. }
    assert (HvL : v <= L) by lia. assert (HvS : v = S a) by (rewrite <- HcvS; symmetry; apply clamp_id; auto).
    destruct (nth_error vinp v) as [peek|] eqn:Epk.
    2:{ exfalso. apply vinp_none in Epk; lia. }
    destruct (isdigit peek) eqn:Edig.
    + right. split; [auto|]. exists peek. split; auto. subst v. apply vinp_inp in Epk; auto.
      intros ->. vm_compute in Edig. discriminate.
    + assert (Hdig : forall c0, nth_error inp (S a) = Some c0 -> isdigit c0 = false).
      { intros c0 H0. apply inp_vinp in H0. rewrite <- HvS in H0. congruence. }
      destruct (Nat.eq_dec v L) as [HvLe|HvLn].
      * (* the period is the last byte *)
        assert (Hu : p_unget inp (S v) = S L) by (unfold p_unget; destruct (Nat.ltb_spec L (S v)); lia).
        rewrite Hu. unfold p_ellipsis, is_at.
        assert (Hn : nth_error vinp (S L) = None) by (apply nth_error_None; rewrite vinp_length; lia).
        rewrite Hn. cbn [andb]. cbv zeta. rewrite Hn. apply Hend; auto.
      * rewrite p_unget_S by lia. unfold p_ellipsis.
        destruct (is_at inp v "." && is_at inp (S v) ".") eqn:Eell.
        -- apply andb_true_iff in Eell. destruct Eell as [E1 E2].
           apply is_at_some, vinp_inp in E1; [|discriminate]. apply is_at_some, vinp_inp in E2; [|discriminate].
           assert (HSv : S v < L) by (apply nth_error_Some; congruence).
           assert (Hell : slice inp a (S (S v)) = s2b "...").
           { rewrite (slice_cons inp a (S (S v)) "."%char) by (auto; lia). rewrite <- HvS.
             rewrite (slice_cons inp v (S (S v)) "."%char) by (auto; lia).
             rewrite (slice_cons inp (S v) (S (S v)) "."%char) by (auto; lia).
             rewrite slice_nil. reflexivity. }
           destruct find_ellipsis as (e & He).
           rewrite (p_find_key a (S (S v)) _ ltac:(lia) ltac:(lia) Hell), He.
           destruct (find1_some _ _ He) as (Hein & Hes).
           unfold kw_post. rewrite clamp_id by lia. split; [lia|]. split; [lia|]. split; [congruence|].
           split; [|intros Hx; rewrite Hes in Hx; discriminate].
           split; auto. split.
           ++ apply occurs_slice. rewrite Hes. simpl length. replace (a + 3) with (S (S v)) by lia. split; [auto|left; lia].
           ++ intros k' Hin' Ho'. destruct (hd_ident_occ k' a _ Hin' Ho' Hc) as [_ [r Hr]].
              destruct (entry_dot k' r Hin' Hr) as [E|E]; rewrite E, Hes; simpl; lia.
        -- cbv zeta. rewrite Epk. apply IHfuel; try lia.
           ++ split; [lia|]. cbn [pred]. split; [exact Ef|]. auto.
           ++ intros k' Hin' Ho' Hl'. destruct (hd_ident_occ k' a _ Hin' Ho' Hc) as [_ [r Hr]].
              destruct (entry_dot k' r Hin' Hr) as [E|E].
              ** exfalso. assert (length (kw_str k') = 1) by (rewrite E; reflexivity). lia.
              ** exfalso. rewrite E in Ho'.
                 pose proof (occurs_nth _ _ 1 _ Ho' eq_refl) as O1. pose proof (occurs_nth _ _ 2 _ Ho' eq_refl) as O2.
                 replace (a + 1) with v in O1 by lia. replace (a + 2) with (S v) in O2 by lia.
                 apply inp_vinp in O1, O2. unfold is_at in Eell. rewrite O1, O2 in Eell. discriminate.
  - assert (Hnper : kw_str tmp <> s2b ".").
    { intros E. apply entry_period in E; auto. congruence. }
    cbv zeta. destruct (nth_error vinp v) as [x|] eqn:Ex.
    + pose proof (vinp_some _ _ _ Ex). apply IHfuel; try lia.
      * split; [lia|]. cbn [pred]. split; auto. intros; congruence.
      * intros _. split; [discriminate|]. intros k Hk; congruence.
      * intros k' Hin' Ho' Hl'.
        assert (Hcve : cv = v) by (apply clamp_id; auto).
        destruct (Hlonger k' Hin' Ho' ltac:(lia)) as (_ & Hpre & _).
        destruct (Nat.eq_dec (S v - a) (length (kw_str k'))) as [Heq|Hne].
        { rewrite Heq, firstn_all. intros Hn. apply (find1_none _ k' Hn Hin'). auto. }
        destruct (hd_ident_occ k' a c Hin' Ho' Hc) as [Hh _]. rewrite Hci in Hh.
        destruct (entry_prefix k' (S v - a) Hin' Hh) as [Hd|(k2 & Hk2 & Ha2)]; [lia| |congruence].
        exfalso. apply Hnper. rewrite Hpre.
        assert (Hl2 : length (firstn (S v - a) (kw_str k')) = 2) by (rewrite Hd; reflexivity).
        rewrite firstn_length in Hl2. assert (S v - a = 2) by lia.
        replace (v - a) with (Nat.min 1 (S v - a)) by lia. rewrite <- firstn_firstn, Hd. reflexivity.
    + apply vinp_none in Ex; [|lia]. subst v. apply Hend; auto. intros; congruence.
Qed.

(** ** Words, numbers and literals *)
Lemma slice_clamp : forall a b, slice inp a (clamp inp b) = slice inp a b.
Proof.
  intros. unfold clamp, slice. destruct (Nat.le_gt_cases b L).
  - rewrite Nat.min_l by auto. auto.
  - rewrite Nat.min_r by lia. destruct (Nat.le_gt_cases a L).
    + rewrite !firstn_all2; auto; rewrite skipn_length; lia.
    + rewrite skipn_all2 by lia. rewrite !firstn_nil. auto.
Qed.
Lemma slice_over : forall a b, L <= a -> slice inp a b = [].
Proof. intros. unfold slice. rewrite skipn_all2 by auto. apply firstn_nil. Qed.
Lemma slice_clamp_l : forall a b, slice inp (clamp inp a) b = slice inp a b.
Proof.
  intros. destruct (Nat.le_gt_cases a L).
  - rewrite clamp_id; auto.
  - rewrite !slice_over; auto; try lia. unfold clamp. lia.
Qed.
Lemma nth_clamp : forall a, nth_error inp (clamp inp a) = nth_error inp a.
Proof.
  intros. destruct (Nat.le_gt_cases a L).
  - rewrite clamp_id; auto.
  - unfold clamp. rewrite Nat.min_r by lia.
    transitivity (@None byte); [|symmetry]; apply nth_error_None; lia.
Qed.

Lemma p_match_spec : forall r v, v <= S L ->
  v <= p_match inp r v <= Nat.max v L /\
  Forall (fun c => in_ranges c r = true) (slice inp v (p_match inp r v)) /\
  (forall c, nth_error inp (p_match inp r v) = Some c -> in_ranges c r = false).
Proof.
  intros r v Hv. split; [apply p_match_le; auto|]. unfold p_match. split.
  - unfold slice. rewrite Nat.add_comm, Nat.add_sub. apply span_len_all.
  - intros c Hc. rewrite <- nth_error_skipn_add in Hc. apply span_len_stop in Hc. auto.
Qed.

Lemma ident_ranges_byte : forall c, in_ranges c ident_ranges = ident_byte c.
Proof. intros c. destruct c as [[] [] [] [] [] [] [] []]; vm_compute; reflexivity. Qed.
Lemma lower_ranges : forall c, in_ranges c (s2b "az") = islower c.
Proof. intros c. destruct c as [[] [] [] [] [] [] [] []]; vm_compute; reflexivity. Qed.
Lemma isnum_exists : forall c, isnum c = existsb (Ascii.eqb c) (s2b "0123456789abcdefABCDEFlLuUxX.").
Proof. intros c. destruct c as [[] [] [] [] [] [] [] []]; vm_compute; reflexivity. Qed.
Lemma isnum_byte : forall c, isnum c = true <-> num_byte c.
Proof.
  intros c. rewrite isnum_exists, existsb_exists. unfold num_byte. split.
  - intros (x & Hx & E). apply eqb_true in E. subst; auto.
  - intros H. exists c. split; auto. apply eqb_refl.
Qed.

Lemma p_num_spec : forall l v, l = skipn v vinp -> v <= L -> exists v3,
  p_num inp l v = (true, v3) /\ v <= v3 <= S L /\ Forall num_byte (slice inp v v3) /\
  (forall c, nth_error inp v3 = Some c -> ~ num_byte c).
Proof.
  induction l as [|c r IH]; intros v Hl Hv.
  - symmetry in Hl. apply skipn_vinp_nil, vinp_none in Hl; lia.
  - symmetry in Hl. destruct (skipn_vinp_cons _ _ _ _ Hl) as (Hc & Hr). cbn [p_num].
    destruct (isnum c) eqn:En.
    + assert (Hi : nth_error inp v = Some c).
      { apply vinp_inp; auto. intros ->. vm_compute in En. discriminate. }
      assert (v < L) by (apply nth_error_Some; congruence).
      destruct (IH (S v) Hr) as (v3 & E & H1 & H2 & H3); [lia|].
      exists v3. split; auto. split; [lia|]. split; auto.
      rewrite (slice_cons inp v v3 c) by (auto; lia). constructor; auto. apply isnum_byte; auto.
    + destruct (Nat.eq_dec v L) as [->|Hne].
      * exists (S L). replace (p_unget inp (S L)) with (S L) by (unfold p_unget; destruct (Nat.ltb_spec L (S L)); lia).
        split; auto. split; [lia|]. rewrite slice_over by auto. split; auto.
        intros c0 H0. assert (S L < L) by (apply nth_error_Some; congruence). lia.
      * rewrite p_unget_S by lia. exists v. split; auto. split; [lia|]. rewrite slice_nil. split; auto.
        intros c0 H0 Hn. apply isnum_byte in Hn. apply inp_vinp in H0. congruence.
Qed.

Definition lit_esc (d : byte) (l : bytes) : Prop := exists c r, l = c :: r /\ lit_body d r.
Definition lit_esc_open (d : byte) (l : bytes) : Prop := l = [] \/ exists c r, l = c :: r /\ lit_open d r.

Lemma lit_open_char : forall d c l, c <> d -> c <> BSL -> lit_open d l -> lit_open d (c :: l).
Proof.
  intros d c l H1 H2 [H|(l' & -> & H)]; [left; constructor; auto|right].
  exists (c :: l'). split; auto. constructor; auto.
Qed.
Lemma lit_open_esc : forall d l, lit_esc_open d l -> lit_open d (BSL :: l).
Proof.
  intros d l [->|(c & r & -> & [H|(l' & -> & H)])].
  - right. exists []. split; auto. constructor.
  - left. apply lb_esc; auto.
  - right. exists (BSL :: c :: l'). split; auto. apply lb_esc; auto.
Qed.

Lemma p_quote_spec : forall d, quote d -> forall l v pch, l = skipn v vinp -> v <= S L ->
  match p_quote l v d pch with
  | (true, v3) => v < v3 <= L /\ exists body, slice inp v v3 = body ++ [d] /\
                  (if pch =c BSL then lit_esc d body else lit_body d body)
  | (false, v3) => v3 = S L /\ (if pch =c BSL then lit_esc_open d (slice inp v L) else lit_open d (slice inp v L))
  end.
Proof.
  intros d Hd. assert (HdB : d <> BSL) by (destruct Hd; subst; discriminate).
  assert (HdN : d <> NUL) by (destruct Hd; subst; discriminate).
  induction l as [|c r IH]; intros v pch Hl Hv; cbn [p_quote].
  - symmetry in Hl. apply skipn_vinp_nil, vinp_none in Hl; auto. split; auto. rewrite slice_over by lia.
    destruct (pch =c BSL); [left; auto|left; constructor].
  - symmetry in Hl. destruct (skipn_vinp_cons _ _ _ _ Hl) as (Hc & Hr).
    pose proof (vinp_some _ _ _ Hc) as HvL.
    assert (Hlast : v = L -> c = NUL) by (intros ->; rewrite vinp_L in Hc; congruence).
    assert (Hin : v < L -> nth_error inp v = Some c) by (intros; rewrite <- vinp_lt; auto).
    assert (HSv : S v <= S L) by lia.
    assert (Hcons : v < L -> forall e, v < e -> slice inp v e = c :: slice inp (S v) e)
      by (intros; apply slice_cons; auto).
    destruct ((pch =c BSL) && (c =c BSL)) eqn:E1.
    { apply andb_true_iff in E1. destruct E1 as [E1 E2]. rewrite E1. apply eqb_true in E2. subst c.
      assert (HvL' : v < L). { destruct (Nat.eq_dec v L) as [Hx|]; [apply Hlast in Hx; discriminate|lia]. }
      specialize (IH (S v) NUL Hr HSv). destruct (p_quote r (S v) d NUL) as [[|] v3].
      - destruct IH as (H1 & body & H2 & H3). split; [lia|]. exists (BSL :: body).
        rewrite Hcons, H2 by (auto; lia). split; auto. exists BSL, body. auto.
      - destruct IH as (H1 & H2). split; auto. right. exists BSL, (slice inp (S v) L).
        rewrite Hcons by (auto; lia). auto. }
    destruct (pch =c BSL) eqn:EB; cbn [negb andb] in *.
    + (* escaped byte, not a backslash *)
      apply eqb_false in E1. assert (Ecb : (c =c BSL) = false) by (apply eqb_false; auto).
      specialize (IH (S v) c Hr HSv). rewrite Ecb in IH. destruct (p_quote r (S v) d c) as [[|] v3].
      * destruct IH as (H1 & body & H2 & H3). assert (HvL' : v < L) by lia. split; [lia|]. exists (c :: body).
        rewrite Hcons, H2 by (auto; lia). split; auto. exists c, body. auto.
      * destruct IH as (H1 & H2). split; auto. destruct (Nat.eq_dec v L) as [->|Hne].
        -- rewrite slice_nil. left; auto.
        -- right. exists c, (slice inp (S v) L). rewrite Hcons by (auto; lia). auto.
    + destruct (c =c d) eqn:Ed.
      * apply eqb_true in Ed. subst c.
        assert (HvL' : v < L). { destruct (Nat.eq_dec v L) as [Hx|]; [apply Hlast in Hx; congruence|lia]. }
        split; [lia|]. exists []. rewrite Hcons, slice_nil by (auto; lia). split; auto. constructor.
      * apply eqb_false in Ed. specialize (IH (S v) c Hr HSv).
        destruct (p_quote r (S v) d c) as [[|] v3].
        -- destruct IH as (H1 & body & H2 & H3). assert (HvL' : v < L) by lia. split; [lia|]. exists (c :: body).
           rewrite Hcons, H2 by (auto; lia). split; auto.
           destruct (c =c BSL) eqn:EcB.
           ++ apply eqb_true in EcB. subst c. destruct H3 as (x & y & -> & H3). apply lb_esc; auto.
           ++ apply eqb_false in EcB. constructor; auto.
        -- destruct IH as (H1 & H2). split; auto. destruct (Nat.eq_dec v L) as [->|Hne].
           ++ rewrite slice_nil. left. constructor.
           ++ rewrite Hcons by (auto; lia). destruct (c =c BSL) eqn:EcB.
              ** apply eqb_true in EcB. subst c. apply lit_open_esc; auto.
              ** apply eqb_false in EcB. apply lit_open_char; auto.
Qed.

(** Operators cannot start with an identifier byte. *)
Lemma kwloop_ident : forall a c fuel, nth_error inp a = Some c -> ident_byte c = true ->
  fst (p_kwloop inp (S fuel) (S a) a None) = None.
Proof.
  intros a c fuel Hc Hi. assert (a < L) by (apply nth_error_Some; congruence).
  cbn [p_kwloop]. destruct (p_find inp a (S a)) as [k|] eqn:E; auto.
  apply p_find_some in E. rewrite !clamp_id in E by lia. destruct E as (_ & Hin & Hs).
  rewrite (slice_cons inp a (S a) c), slice_nil in Hs by (auto; lia).
  pose proof (entry_one k Hin) as Ho. rewrite Hs in Ho. simpl in Ho. specialize (Ho eq_refl). congruence.
Qed.

Lemma covered_init : forall a c, nth_error inp a = Some c -> ident_byte c = false -> covered a (S a).
Proof.
  intros a c Hc Hi k Hin Ho Hl. replace (S a - a) with 1 in * by lia.
  destruct (hd_ident_occ k a c Hin Ho Hc) as [Hh [r Hr]]. rewrite Hi in Hh.
  destruct (Nat.eq_dec (length (kw_str k)) 1) as [E|E].
  - rewrite firstn_all2 by lia. intros Hn. apply (find1_none _ k Hn Hin). auto.
  - destruct (entry_prefix k 1 Hin Hh) as [Hd|(k2 & Hk2 & _)]; [lia| |congruence].
    rewrite Hr in Hd. simpl in Hd. discriminate.
Qed.

(** ** The main token *)
Variable in_diff : nat -> bool.
Notation p_tok := (p_tok inp in_diff).

Definition main_post (v a : nat) (r : tok * nat) : Prop :=
  let '(t, v2) := r in
  v <= a <= v2 /\ v2 <= S L /\ t_off t = clamp inp a /\ t_end t = clamp inp v2 /\
  Forall bl (slice inp v a) /\ main_ok inp in_diff t /\ (t_type t = T_EOF -> L <= v2).

Lemma p_tok_pos : forall ty fl str a b, a <= b -> pos_ok inp (p_tok ty fl str a b).
Proof.
  intros. unfold pos_ok, LexRefine.p_tok. cbn [t_off t_end t_lno t_cno].
  pose proof (clamp_mono inp _ _ H). pose proof (clamp_le inp b). repeat split; auto.
Qed.
Lemma p_tok_flags : forall ty fl str a b, flags_ok in_diff (p_tok ty fl str a b) fl.
Proof. intros. unfold flags_ok, LexRefine.p_tok. cbn [t_flags t_lno]. auto. Qed.
Lemma p_tok_verbatim : forall ty fl a b, a <= b -> verbatim inp (p_tok ty fl None a b).
Proof.
  intros. unfold verbatim, src, LexRefine.p_tok. cbn [t_str t_off t_end text_bytes].
  f_equal. pose proof (clamp_mono inp _ _ H). lia.
Qed.

Lemma main_post_tok : forall v a ty fl v2, v <= a <= v2 -> v2 <= S L -> Forall bl (slice inp v a) ->
  main_span inp ty fl (clamp inp a) (clamp inp v2) -> (ty = T_EOF -> L <= v2) ->
  main_post v a (p_tok ty fl None a v2, v2).
Proof.
  intros v a ty fl v2 Hv Hv2 Hbl Hm He. repeat split; try lia; auto;
    [apply p_tok_pos; lia..|apply p_tok_verbatim; lia|].
  exists fl. split; [apply p_tok_flags|auto].
Qed.

Lemma word_at : forall a c v3, nth_error inp a = Some c -> ident_first c = true -> a < v3 -> v3 <= S L ->
  Forall (fun c => ident_byte c = true) (slice inp (S a) v3) ->
  (forall c, nth_error inp v3 = Some c -> ident_byte c = false) ->
  word inp a (clamp inp v3).
Proof.
  intros a c v3 Hc Hf Hlt Hle HF Hn. assert (a < L) by (apply nth_error_Some; congruence).
  split; [unfold clamp; lia|]. split; [eauto|]. split.
  - rewrite slice_clamp, (slice_cons inp a v3 c) by auto. constructor; auto.
    unfold ident_first in Hf. unfold ident_byte. apply orb_true_iff in Hf. destruct Hf as [->| ->]; auto.
    rewrite !orb_true_r; auto.
  - intros x Hx. rewrite nth_clamp in Hx. auto.
Qed.

Lemma p_main_spec : forall v, v <= S L -> main_post v (fst (p_els inp v v)) (p_main inp in_diff v).
Proof.
  intros v Hv. unfold p_main, p_keyword.
  pose proof (p_els_spec inp v v Hv) as (E1 & E2 & E3 & E4 & _).
  set (a := fst (p_els inp v v)) in *.
  destruct (nth_error vinp a) as [c0|] eqn:Ec0.
  2:{ (* end of file already reached *)
    apply vinp_none in Ec0; [|lia]. unfold p_other.
    assert (Hn : nth_error vinp a = None) by (apply nth_error_None; rewrite vinp_length; lia).
    rewrite Hn. rewrite Ec0 in *. apply main_post_tok; auto; try lia.
    replace (clamp inp (S L)) with L by (unfold clamp; lia). constructor. }
  pose proof (vinp_some _ _ _ Ec0) as HaL.
  destruct (Nat.eq_dec a L) as [HaeqL|HaneL].
  { (* the soft NUL *)
    assert (c0 = NUL) by (rewrite HaeqL, vinp_L in Ec0; congruence). subst c0.
    assert (Hk : p_kwloop inp (FUEL inp) (S a) a None = (None, p_unget inp (S a))).
    { unfold FUEL. cbn [p_kwloop]. unfold p_find, p_slice.
      replace (clamp inp (S a) - clamp inp a) with 0 by (unfold clamp; lia). reflexivity. }
    rewrite Hk. cbn [fst]. unfold p_other. rewrite Ec0. unfold p_wide. cbn.
    destruct (Nat.leb_spec L (S a)); [|lia].
    apply main_post_tok; auto; try lia.
    replace (clamp inp (S a)) with L by (unfold clamp; lia). rewrite HaeqL.
    replace (clamp inp L) with L by (unfold clamp; lia). constructor. }
  assert (Ha : a < L) by lia.
  assert (Hc : nth_error inp a = Some c0) by (rewrite <- vinp_lt; auto).
  destruct (ident_byte c0) eqn:Hident.
  - (* word, number or literal *)
    assert (Hk := kwloop_ident a c0 (S L) Hc Hident). change (S (S L)) with (FUEL inp) in Hk.
    destruct (p_kwloop inp (FUEL inp) (S a) a None) as [o vo]. cbn [fst] in Hk. subst o. cbn [fst].
    unfold p_other. rewrite Ec0.
    (* effective first byte *)
    assert (Hw : (exists q, quote q /\ c0 = "L"%char /\ nth_error inp (S a) = Some q /\ p_wide inp a c0 = (q, S (S a))) \/
                 (exists v2, p_wide inp a c0 = (c0, v2) /\ a < v2 <= S L /\ clamp inp v2 = S a /\
                    (c0 = "L"%char -> forall q, nth_error inp (S a) = Some q -> ~ quote q))).
    { unfold p_wide. destruct (c0 =c "L") eqn:EL.
      - apply eqb_true in EL. destruct (nth_error vinp (S a)) as [q|] eqn:Eq.
        + destruct ((q =c DQ) || (q =c SQ)) eqn:Eqq.
          * left. exists q. apply orb_true_iff in Eqq. rewrite !eqb_true in Eqq.
            split; [exact Eqq|]. split; auto. split; auto. apply vinp_inp; auto. destruct Eqq; subst; discriminate.
          * right. eexists; split; [reflexivity|]. pose proof (vinp_some _ _ _ Eq).
            split; [|split].
            -- unfold p_unget. destruct (Nat.ltb_spec L (S (S a))); cbn [pred]; lia.
            -- unfold p_unget. destruct (Nat.ltb_spec L (S (S a))); unfold clamp; cbn [pred]; lia.
            -- intros _ q' Hq' Hqq. apply inp_vinp in Hq'. rewrite Eq in Hq'. inv Hq'.
               apply orb_false_iff in Eqq. rewrite !eqb_false in Eqq. destruct Hqq; tauto.
        + apply vinp_none in Eq; lia.
      - apply eqb_false in EL. right. exists (S a). unfold clamp. repeat split; auto; try lia; try congruence. }
    destruct Hw as [(q & Hq & -> & Hqq & Hwide)|(v2 & Hwide & Hv2 & Hcl & HLq)]; rewrite Hwide.
    + (* L before a quote *)
      assert (Hqb : ((q =c DQ) || (q =c SQ)) = true) by (apply orb_true_iff; rewrite !eqb_true; exact Hq).
      rewrite Hqb.
      assert (HSa : S a < L) by (apply nth_error_Some; congruence).
      pose proof (p_quote_spec q Hq _ (S (S a)) q eq_refl ltac:(lia)) as Hspec.
      replace (q =c BSL) with false in Hspec by (destruct Hq; subst; reflexivity).
      destruct (p_quote (skipn (S (S a)) vinp) (S (S a)) q q) as [[|] v3].
      * destruct Hspec as (H1 & body & H2 & H3).
        assert (Hsl : slice inp a v3 = s2b "L" ++ [q] ++ body ++ [q]).
        { rewrite (slice_cons inp a v3 "L"%char), (slice_cons inp (S a) v3 q) by (auto; lia). rewrite H2. reflexivity. }
        apply main_post_tok; auto; try lia; [|destruct (q =c DQ); discriminate].
        rewrite !clamp_id by lia.
        destruct Hq as [ -> | -> ]; cbn; [eapply MS_string|eapply MS_char]; eauto; try lia; right; reflexivity.
      * destruct Hspec as (-> & Hop).
        apply main_post_tok; auto; try lia.
        replace (clamp inp (S L)) with L by (unfold clamp; lia). rewrite clamp_id by lia.
        eapply MS_eof_literal with (w := s2b "L") (q := q); eauto; [right; reflexivity|].
        rewrite (slice_cons inp a L "L"%char), (slice_cons inp (S a) L q) by (auto; lia). reflexivity.
    + assert (Hnq : ((c0 =c DQ) || (c0 =c SQ)) = false).
      { apply orb_false_iff. rewrite !eqb_false. split; intros ->; discriminate. }
      rewrite Hnq.
      assert (Hndot : (c0 =c ".") = false) by (apply eqb_false; intros ->; discriminate).
      rewrite Hndot, orb_false_r.
      destruct (isdigit c0) eqn:Ed.
      * (* number *)
        assert (Hv2S : v2 = S a).
        { unfold p_wide in Hwide. destruct (c0 =c "L") eqn:EL; [|congruence].
          apply eqb_true in EL. subst c0. vm_compute in Ed. discriminate. }
        subst v2.
        destruct (p_num_spec _ (S a) eq_refl ltac:(lia)) as (v3 & En & H1 & H2 & H3). rewrite En.
        apply main_post_tok; auto; try lia; [|discriminate].
        rewrite clamp_id by lia. apply MS_num. split; [unfold clamp; lia|]. split; [eauto|].
        rewrite slice_clamp, nth_clamp. auto.
      * assert (Hfirst : isalpha c0 || (c0 =c "_") = true).
        { unfold ident_byte in Hident. rewrite Ed, orb_false_r in Hident. auto. }
        rewrite Hfirst.
        destruct (p_match_spec ident_ranges v2 ltac:(lia)) as (M1 & M2 & M3).
        set (v3 := p_match inp ident_ranges v2) in *.
        assert (HM2 : Forall (fun c => ident_byte c = true) (slice inp (S a) v3)).
        { rewrite <- Hcl, slice_clamp_l. eapply Forall_impl; [|exact M2]. intros x Hx.
          rewrite <- ident_ranges_byte; auto. }
        assert (HM3 : forall x, nth_error inp v3 = Some x -> ident_byte x = false).
        { intros x Hx. rewrite <- ident_ranges_byte. auto. }
        assert (Hword : word inp a (clamp inp v3)) by (eapply word_at; eauto; lia).
        destruct (p_find inp a v3) as [k|] eqn:Ef.
        -- destruct (p_find_some _ _ _ Ef) as (F1 & Hin & Hs). rewrite (clamp_id inp a) in * by lia.
           split; [lia|]. split; [lia|]. cbn [t_off t_end t_type LexRefine.p_tok].
           split; auto. split; auto. split; auto. split; [|intros E; destruct (entry_neof k Hin E)].
           split; [apply p_tok_pos; lia|]. split.
           ++ unfold verbatim, src. cbn [t_str t_off t_end LexRefine.p_tok text_bytes]. rewrite (clamp_id inp a) by lia. auto.
           ++ exists (kw_flags k). split; [apply p_tok_flags|]. cbn [t_off t_end t_type LexRefine.p_tok].
              rewrite (clamp_id inp a) by lia. eapply MS_keyword; eauto.
        -- apply main_post_tok; auto; try lia; [|discriminate]. rewrite (clamp_id inp a) by lia.
           apply MS_ident; auto.
           2:{ intros HL q Hq. destruct Hword as (HW & _).
               rewrite slice_clamp in HL. rewrite (slice_cons inp a v3 c0) in HL by (auto; lia). inversion HL as [[HL1 HL2]].
               apply HLq; auto.
               assert (Hl2 : length (slice inp (S a) (clamp inp v3)) = 0) by (rewrite slice_clamp, HL2; reflexivity).
               rewrite slice_length in Hl2 by lia. replace (S a) with (clamp inp v3) by lia. auto. }
           intros k Hin Hs. unfold p_find, p_slice in Ef.
           rewrite (clamp_id inp a) in Ef by lia.
           destruct Hword as (Hw1 & _). destruct (Nat.eqb_spec (clamp inp v3 - a) 0); [lia|].
           apply (find1_none _ k Ef Hin). auto.
  - (* operator, quote, number starting with a period, unknown *)
    assert (Hpost : kw_post a (p_kwloop inp (FUEL inp) (S a) a None)).
    { eapply kwloop_spec; eauto; try lia; [unfold FUEL; lia|]. eapply covered_init; eauto. }
    destruct (p_kwloop inp (FUEL inp) (S a) a None) as [[k|] vk].
    + destruct Hpost as (P1 & P2 & P3 & P4 & P5).
      split. { unfold clamp in P1. lia. }
      split; auto. cbn [t_off t_end t_type LexRefine.p_tok].
      destruct P4 as (Hin & Hocc & Hlong).
      split; auto. split; auto. split; auto. split; [|intros E; destruct (entry_neof k Hin E)].
      assert (Hend : clamp inp vk = a + length (kw_str k)).
      { rewrite P3, slice_length by apply clamp_le. lia. }
      split; [apply p_tok_pos; unfold clamp in P1; lia|]. split.
      * unfold verbatim, src. cbn [t_str t_off t_end LexRefine.p_tok text_bytes]. rewrite (clamp_id inp a) by lia. auto.
      * exists (kw_flags k). split; [apply p_tok_flags|]. cbn [t_off t_end t_type LexRefine.p_tok].
        rewrite (clamp_id inp a), Hend by lia. eapply MS_op; eauto. split; auto.
    + cbn [fst]. unfold p_other. rewrite Ec0.
      assert (Hwide : p_wide inp a c0 = (c0, S a)).
      { unfold p_wide. destruct (c0 =c "L") eqn:EL; auto. apply eqb_true in EL. subst. discriminate. }
      rewrite Hwide.
      destruct ((c0 =c DQ) || (c0 =c SQ)) eqn:Eq.
      * assert (Hq : quote c0) by (apply orb_true_iff in Eq; rewrite !eqb_true in Eq; exact Eq).
        pose proof (p_quote_spec c0 Hq _ (S a) c0 eq_refl ltac:(lia)) as Hspec.
        replace (c0 =c BSL) with false in Hspec by (destruct Hq; subst; reflexivity).
        destruct (p_quote (skipn (S a) vinp) (S a) c0 c0) as [[|] v3].
        -- destruct Hspec as (H1 & body & H2 & H3).
           assert (Hsl : slice inp a v3 = [] ++ [c0] ++ body ++ [c0]).
           { rewrite (slice_cons inp a v3 c0) by (auto; lia). rewrite H2. reflexivity. }
           apply main_post_tok; auto; try lia; [|destruct (c0 =c DQ); discriminate].
           rewrite !clamp_id by lia.
           destruct Hq as [ -> | -> ]; cbn; [eapply MS_string|eapply MS_char]; eauto; try lia; left; reflexivity.
        -- destruct Hspec as (-> & Hop).
           apply main_post_tok; auto; try lia.
           replace (clamp inp (S L)) with L by (unfold clamp; lia). rewrite clamp_id by lia.
           eapply MS_eof_literal with (w := []) (q := c0); eauto; [left; reflexivity|].
           rewrite (slice_cons inp a L c0) by (auto; lia). reflexivity.
      * assert (Hnd : isdigit c0 = false).
        { unfold ident_byte in Hident. rewrite !orb_false_iff in Hident. tauto. }
        rewrite Hnd. cbn [orb].
        destruct (c0 =c ".") eqn:Edot.
        -- apply eqb_true in Edot. subst c0.
           destruct (p_num_spec _ (S a) eq_refl ltac:(lia)) as (v3 & En & H1 & H2 & H3). rewrite En.
           apply main_post_tok; auto; try lia; [|discriminate].
           rewrite clamp_id by lia. apply MS_num. split; [unfold clamp; lia|].
           rewrite slice_clamp, nth_clamp. split; auto.
           exists "."%char. split; auto. right. split; auto.
           destruct Hpost as [Hp|(_ & Hp)]; auto. exfalso.
           destruct (find_keyword1 (s2b ".")) as [kp|] eqn:Ekp; [|vm_compute in Ekp; discriminate].
           apply find1_some in Ekp. destruct Ekp as (Hkin & Hks). apply (Hp kp Hkin). rewrite Hks.
           exists (skipn (S a) inp). apply skipn_cons; auto.
        -- assert (Hnoentry : forall k, In k clang_tokens -> ~ occurs (kw_str k) a).
           { destruct Hpost as [Hp|(Hp & _)]; auto. rewrite Hc in Hp. inv Hp. discriminate. }
           assert (Hunk : unknown inp a).
           { exists c0. apply orb_false_iff in Eq. rewrite !eqb_false in Eq. apply eqb_false in Edot. tauto. }
           assert (Hna : isalpha c0 || (c0 =c "_") = false).
           { unfold ident_byte in Hident. rewrite !orb_false_iff in *. tauto. }
           rewrite Hna. destruct (Nat.leb_spec L (S a)).
           ++ apply main_post_tok; auto; try lia. rewrite !clamp_id by lia.
              replace (S a) with L by lia. apply MS_eof_unknown; auto; lia.
           ++ apply main_post_tok; auto; try lia; [|discriminate]. rewrite !clamp_id by lia.
              apply MS_none; auto.
Qed.
End Main.
