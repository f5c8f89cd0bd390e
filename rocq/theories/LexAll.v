(** The whole token list. *)
From Verif Require Import Base StrModel StrProofs UtilModel UtilProofs TokenModel LexModel LexSpec LexRefine LexBlank LexMain LexTrivia CommentModel CommentProofs.
From Coq Require Import Permutation.

(** comment_trim as used by the reader. *)
Definition ctrim (usetabs : bool) (b : bytes) : option bytes :=
  match comment_trim usetabs b with Some r => r | None => None end.

Lemma ctrim_nl : forall t b b', ctrim t b = Some b' -> exists c, b = c ++ [NL].
Proof.
  intros t b b' H. unfold ctrim in H. destruct (comment_trim t b) as [[x|]|] eqn:E; try discriminate.
  destruct b as [|c p] using rev_ind; [discriminate|].
  destruct (c =c NL) eqn:Ec; [apply eqb_true in Ec; subst; eauto|].
  assert (comment_trim t (p ++ [c]) = Some None).
  { apply comment_trim_null. intros (q & Hq). apply app_inj_tail in Hq. destruct Hq; subst. discriminate. }
  congruence.
Qed.

Section Spans.
Variable inp : bytes.
Notation L := (length inp).

(** Every main token but EOF is not empty. *)
Lemma main_span_lt : forall ty fl o e, main_span inp ty fl o e -> ty <> T_EOF -> o < e <= L.
Proof.
  intros ty fl o e H Hne. inversion H; subst; try congruence; auto.
  - destruct H2 as (Hin & Ho & _). pose proof (entry_len k Hin). apply occurs_le in Ho; [lia|].
    intros E. rewrite E in *. simpl in *. lia.
  - destruct H0 as (Hw & _). auto.
  - destruct H0 as (Hw & _). auto.
  - destruct H0 as (Hw & _). auto.
  - lia.
Qed.
Lemma main_span_le : forall ty fl o e, main_span inp ty fl o e -> o <= e <= L.
Proof.
  intros ty fl o e H. destruct (ttype_eqb ty T_EOF) eqn:E.
  - inversion H; subst; try lia.
    + destruct H2 as (Hin & Ho & _). apply occurs_le in Ho; [lia|]. pose proof (entry_len k Hin).
      intros Ek. rewrite Ek in *. simpl in *. lia.
    + destruct H0 as (Hw & _); lia.
    + destruct H0 as (Hw & _); lia.
    + destruct H0 as (Hw & _); lia.
  - pose proof (main_span_lt _ _ _ _ H). assert (ty <> T_EOF) by (intros ->; discriminate). intuition lia.
Qed.

Lemma tiles_in : forall ts a b t, tiles inp a ts b -> In t ts -> a <= t_off t /\ t_end t <= b.
Proof.
  intros ts a b t H. induction H; intros Hin; [destruct Hin|].
  pose proof (tiles_le _ _ _ _ H2). destruct Hin as [->|Hin]; [lia|].
  specialize (IHtiles Hin). lia.
Qed.

(** ** Each byte is in exactly one token *)
Definition covers (t : tok) (i : nat) : Prop := t_off t <= i < t_end t.

Lemma tiles_cover : forall ts a b i c, tiles inp a ts b -> a <= i < b ->
  nth_error inp i = Some c -> ~ bl c ->
  exists l1 t l2, ts = l1 ++ t :: l2 /\ covers t i /\
    forall u, In u (l1 ++ l2) -> ~ covers u i.
Proof.
  intros ts a b i c H. induction H; intros Hi Hc Hn.
  - exfalso. apply Hn. eapply Forall_slice_nth; eauto.
  - destruct (Nat.lt_ge_cases i (t_off t)).
    { exfalso. apply Hn. eapply Forall_slice_nth; [exact H0| |exact Hc]. lia. }
    destruct (Nat.lt_ge_cases i (t_end t)).
    + exists [], t, ts. split; auto. split; [unfold covers; lia|].
      intros u Hu. apply (tiles_in _ _ _ u H2) in Hu. unfold covers. lia.
    + destruct IHtiles as (l1 & t' & l2 & E1 & E2 & E3); auto; [lia|].
      exists (t :: l1), t', l2. rewrite E1. split; auto. split; auto.
      intros u [->|Hu]; [unfold covers; lia|]. auto.
Qed.

(** No two tokens share a byte, and they are in input order. *)
Lemma tiles_order : forall ts a b, tiles inp a ts b -> forall l1 t l2 u, ts = l1 ++ t :: l2 -> In u l2 ->
  t_off t <= t_end t /\ t_end t <= t_off u.
Proof.
  intros ts a b H l1 t l2 u -> Hu. apply tiles_app_inv in H. destruct H as (c & _ & H).
  inversion H as [|? ? ? ? H1 H2 H3 H4]; subst. apply (tiles_in _ _ _ u H4) in Hu. lia.
Qed.

End Spans.

Section All.
Variable inp : bytes.
Variable in_diff : nat -> bool.
Variable usetabs : bool.
Variable align : bytes -> option bytes.
Notation L := (length inp).
Notation trim := (ctrim usetabs).
Notation p_read := (p_read inp in_diff trim align).
Notation token_ok := (token_ok inp in_diff trim align).

Definition eof_tok (k : token) : Prop := t_type (k_tok k) = T_EOF.

Lemma is_eof_iff : forall k, is_eof k = true <-> eof_tok k.
Proof. intros. unfold is_eof, eof_tok. apply ttype_eqb_eq. Qed.

Definition all_post (a : nat) (ks : list token) : Prop :=
  tiles inp a (all_toks ks) L /\ Forall token_ok ks /\
  exists ks' k, ks = ks' ++ [k] /\ eof_tok k /\ k_suf k = [] /\ t_end (k_tok k) = L /\
    Forall (fun k => ~ eof_tok k) ks'.

Lemma read_all_R : forall fuel lx v, R inp lx v -> L - clamp inp v < fuel -> exists lx',
  snd (read_all inp in_diff trim align fuel lx) = lx' /\ l_bad lx' = false /\
  all_post (clamp inp v) (fst (read_all inp in_diff trim align fuel lx)).
Proof.
  induction fuel; intros lx v HR Hf; [lia|]. cbn [read_all].
  destruct (clang_read_R inp in_diff trim align (ctrim_nl usetabs) lx v HR) as (lx1 & E1 & HR1 & H1).
  rewrite E1. pose proof (p_read_spec inp in_diff trim align (ctrim_nl usetabs) v (R_le _ _ _ HR)) as Hp.
  set (k := fst (p_read v)) in *. set (v1 := snd (p_read v)) in *.
  destruct Hp as (P1 & P2 & P3 & P4).
  destruct (is_eof k) eqn:Ee.
  - apply is_eof_iff in Ee. specialize (P4 Ee). cbn [fst snd]. exists lx1.
    split; auto. split; [apply (R_bad _ _ _ HR1)|].
    assert (Hcl : clamp inp v1 = L).
    { apply (tiles_in inp _ _ _ (k_tok k)) in P2; [|unfold token_toks; apply in_or_app; right; left; auto].
      pose proof (clamp_le inp v1). lia. }
    split; [|split].
    + unfold all_toks. cbn [flat_map]. rewrite app_nil_r, <- Hcl. auto.
    + constructor; auto.
    + exists [], k. split; auto. split; auto. split; [|split; auto].
      destruct (k_suf k) as [|t r] eqn:Es; auto. exfalso.
      destruct P3 as (_ & _ & _ & P3). rewrite Es in P3. inversion P3 as [|? ? Hs _]; subst.
      assert (Hlt : t_off t < t_end t) by (destruct Hs as [(_ & _ & Hs & _)|(_ & _ & Hs & _)]; auto).
      unfold token_toks in P2. rewrite Es in P2. apply tiles_app_inv in P2. destruct P2 as (b & _ & P2).
      inversion P2 as [|? ? ? ? _ _ _ P2']; subst. apply (tiles_in inp _ _ _ t) in P2'; [|left; auto]. lia.
  - assert (Hne : ~ eof_tok k) by (intros H; apply is_eof_iff in H; congruence).
    assert (Hprog : clamp inp v < clamp inp v1).
    { destruct P3 as (_ & (_ & _ & fl & _ & Hms) & _). apply (main_span_lt inp) in Hms; auto.
      apply (tiles_in inp _ _ _ (k_tok k)) in P2; [|unfold token_toks; apply in_or_app; right; left; auto]. lia. }
    destruct (IHfuel lx1 v1 HR1) as (lx2 & E2 & B2 & A1 & A2 & ks' & kl & A3 & A4 & A5 & A6 & A7).
    { pose proof (clamp_le inp v1). lia. }
    destruct (read_all inp in_diff trim align fuel lx1) as [r lx2']. cbn [fst snd] in *. subst lx2'.
    exists lx2. split; auto. split; auto. split; [|split].
    + unfold all_toks in *. cbn [flat_map]. eapply tiles_app; eauto.
    + constructor; auto.
    + exists (k :: ks'), kl. subst r. repeat (split; [auto|]). constructor; auto.
Qed.

Lemma read_all_spec :
  let r := read_all inp in_diff trim align (FUEL inp) lexer_init in
  l_bad (snd r) = false /\ all_post 0 (fst r).
Proof.
  destruct (read_all_R (FUEL inp) lexer_init 0 (R_init inp)) as (lx' & H1 & H2 & H3).
  { unfold FUEL. lia. }
  cbv zeta. rewrite H1. split; auto.
Qed.

Lemma token_toks_ok : forall k t, token_ok k -> In t (token_toks k) -> pos_ok inp t.
Proof.
  intros k t (H1 & H2 & _ & H3) Hin. unfold token_toks in Hin. apply in_app_or in Hin.
  rewrite Forall_forall in H1, H3. destruct Hin as [Hin|[<-|Hin]].
  - destruct (H1 t Hin) as [(_ & H & _)|(H & _)]; auto.
  - destruct H2 as (H & _). auto.
  - destruct (H3 t Hin) as [(_ & H & _)|(_ & H & _)]; auto.
Qed.

(** ** Discarding *)
Lemma remove_at_spec : forall i l tk, nth_error l i = Some tk -> S i < length l -> is_eof tk = false ->
  exists l', remove_at i l = Some l' /\
    map k_tok l' = firstn i (map k_tok l) ++ skipn (S i) (map k_tok l) /\
    flat_map k_pre l' = flat_map k_pre l /\ Permutation (flat_map k_suf l') (flat_map k_suf l).
Proof.
  assert (H1 : forall l tk, nth_error l 1 = Some tk -> 2 < length l -> is_eof tk = false ->
    exists l', remove_at 1 l = Some l' /\
    map k_tok l' = firstn 1 (map k_tok l) ++ skipn 2 (map k_tok l) /\
    flat_map k_pre l' = flat_map k_pre l /\ Permutation (flat_map k_suf l') (flat_map k_suf l)).
  { intros l tk Hn Hl He. destruct l as [|a [|b [|c r]]]; simpl in Hl; try lia. simpl in Hn. inv Hn.
    simpl. rewrite He. eexists; split; [reflexivity|]. simpl. rewrite <- !app_assoc. auto. }
  induction i; intros l tk Hn Hl He.
  - destruct l as [|a [|b r]]; simpl in Hl; try lia. simpl in Hn. inv Hn.
    simpl. rewrite He. eexists; split; [reflexivity|]. simpl. rewrite <- !app_assoc. split; auto. split; auto.
    rewrite (app_assoc (k_suf tk)), (app_assoc (k_suf b)). apply Permutation_app_tail, Permutation_app_comm.
  - destruct i; [eapply H1; eauto|].
    destruct l as [|a r]; [discriminate|]. simpl in Hn, Hl.
    destruct (IHi r tk) as (l' & E & E1 & E2 & E3); auto; [lia|].
    change (remove_at (S (S i)) (a :: r)) with
      (match remove_at (S i) r with Some r' => Some (a :: r') | None => None end).
    rewrite E. eexists; split; [reflexivity|]. cbn [map flat_map]. rewrite E1, E2.
    split; [reflexivity|]. split; auto. apply Permutation_app_head; auto.
Qed.

Lemma discard_indices_app : forall l r i,
  discard_indices i (l ++ r) = discard_indices i l ++ discard_indices (i + length l) r.
Proof.
  induction l as [|t l IH]; intros r i; cbn [app discard_indices length]; [rewrite Nat.add_0_r; auto|].
  rewrite IH, <- app_assoc. do 3 f_equal. lia.
Qed.

Definition kept (l : list token) : list tok := map k_tok (filter (fun k => negb (is_discard k)) l).

Lemma remove_all_spec : forall l r m, r <> [] -> Forall (fun k => is_eof k = false) l ->
  map k_tok m = map k_tok (l ++ r) -> exists m', remove_all (rev (discard_indices 0 l)) m = Some m' /\
    map k_tok m' = kept l ++ map k_tok r /\
    flat_map k_pre m' = flat_map k_pre m /\ Permutation (flat_map k_suf m') (flat_map k_suf m).
Proof.
  induction l as [|x l IH] using rev_ind; intros r m Hr Hf Hm.
  - exists m. auto.
  - apply Forall_app in Hf. destruct Hf as (Hf & Hx). inversion Hx as [|? ? Hx1 _]; subst.
    rewrite discard_indices_app. unfold kept. rewrite filter_app, map_app.
    cbn [discard_indices filter map]. rewrite Nat.add_0_l, app_nil_r, rev_app_distr. rewrite <- app_assoc in Hm. cbn [app] in Hm.
    destruct (is_discard x) eqn:Ed; cbn [negb].
    + cbn [rev app remove_all].
      assert (Hlen : length m = length l + S (length r)).
      { rewrite <- (map_length k_tok), Hm, map_length, app_length. reflexivity. }
      assert (Hnth : exists tk, nth_error m (length l) = Some tk /\ k_tok tk = k_tok x).
      { assert (H : nth_error (map k_tok m) (length l) = Some (k_tok x)).
        { rewrite Hm, map_app, nth_error_app2; rewrite map_length; auto. rewrite Nat.sub_diag. reflexivity. }
        rewrite nth_error_map in H. destruct (nth_error m (length l)) as [tk|]; [|discriminate].
        exists tk. simpl in H. inv H. auto. }
      destruct Hnth as (tk & Hn & Htk).
      assert (0 < length r) by (destruct r; [congruence|simpl; lia]).
      destruct (remove_at_spec (length l) m tk Hn) as (m1 & E & E1 & E2 & E3); [lia| |].
      { unfold is_eof in *. rewrite Htk. auto. }
      rewrite E. cbn [map map_app]. rewrite !app_nil_r.
      destruct (IH r m1 Hr Hf) as (m' & F & F1 & F2 & F3).
      { rewrite E1, Hm, !map_app. cbn [map]. rewrite firstn_app, map_length, Nat.sub_diag, firstn_O, app_nil_r.
        rewrite firstn_all2 by (rewrite map_length; auto). f_equal.
        rewrite skipn_app, skipn_all2 by (rewrite map_length; auto). cbn [app].
        rewrite map_length. replace (S (length l) - length l) with 1 by lia. reflexivity. }
      exists m'. split; auto. split; [exact F1|]. split; [congruence|].
      eapply Permutation_trans; eauto.
    + cbn [rev app map].
      destruct (IH (x :: r) m) as (m' & F & F1 & F2 & F3); auto; [discriminate|].
      exists m'. split; auto. split; auto. rewrite F1. unfold kept. cbn [map]. rewrite <- app_assoc. reflexivity.
Qed.

Lemma discard_not_eof : forall k, token_ok k -> eof_tok k -> is_discard k = false.
Proof.
  intros k (_ & (_ & _ & fl & Hfl & Hms) & _) He. unfold is_discard, eof_tok, flags_ok in *. rewrite He in Hms.
  assert (fl = 0%N).
  { inversion Hms; subst; auto.
    - destruct H3 as (Hin & _). destruct (entry_neof k0 Hin); auto.
    - destruct (entry_neof k0 H1); auto. }
  subst fl. rewrite Hfl. destruct (in_diff _); reflexivity.
Qed.

Lemma tokenize_spec : exists l,
  fst (tokenize inp in_diff trim align) = Some l /\ l_bad (snd (tokenize inp in_diff trim align)) = false /\
  let ks := fst (read_all inp in_diff trim align (FUEL inp) lexer_init) in
  map k_tok l = kept ks /\ flat_map k_pre l = flat_map k_pre ks /\
  Permutation (flat_map k_suf l) (flat_map k_suf ks).
Proof.
  unfold tokenize. destruct read_all_spec as (Hb & Ht & Hok & ks' & k & Hks & He & Hs & Hend & Hne).
  destruct (read_all inp in_diff trim align (FUEL inp) lexer_init) as [ks lx]. cbn [fst snd] in *.
  assert (Hd : is_discard k = false).
  { apply discard_not_eof; auto. rewrite Forall_forall in Hok. apply Hok. rewrite Hks. apply in_or_app; right; left; auto. }
  assert (Hidx : discard_indices 0 ks = discard_indices 0 ks').
  { rewrite Hks, discard_indices_app. cbn [discard_indices]. rewrite Hd. cbn [app]. apply app_nil_r. }
  rewrite Hidx.
  destruct (remove_all_spec ks' [k] ks) as (m & E & E1 & E2 & E3).
  - discriminate.
  - eapply Forall_impl; [|exact Hne]. intros x Hx. destruct (is_eof x) eqn:Ex; auto. apply is_eof_iff in Ex. contradiction.
  - rewrite Hks. reflexivity.
  - exists m. rewrite E. split; auto. split; auto. split; auto. rewrite E1, Hks. unfold kept.
    rewrite filter_app, map_app. cbn [filter]. rewrite Hd. reflexivity.
Qed.
End All.
