(** Specification and proofs for the operations of TokListModel that edit lists. *)
From Coq Require Import Permutation.
From Verif Require Import Base TokenModel UtilModel StreamModel StreamProofs TokListModel.

(** ** Lists *)
Ltac permc := apply (Permutation_count_occ Nat.eq_dec); intros ?z; repeat (rewrite count_occ_app || cbn [count_occ app]);
  repeat match goal with |- context [Nat.eq_dec ?a ?b] => destruct (Nat.eq_dec a b) end; lia.
Lemma del_split : forall a t b, ~ In t a -> del t (a ++ t :: b) = a ++ b.
Proof.
  induction a as [|y a IH]; intros t b H; cbn [del app].
  - rewrite Nat.eqb_refl. auto.
  - destruct (Nat.eqb_spec y t); [subst; exfalso; apply H; left; auto|]. rewrite IH; auto. intros K. apply H. right; auto.
Qed.
Lemma del_notin : forall l t, ~ In t l -> del t l = l.
Proof.
  induction l as [|y l IH]; intros t H; auto. cbn [del]. destruct (Nat.eqb_spec y t); [subst; exfalso; apply H; left; auto|].
  rewrite IH; auto. intros K. apply H. right; auto.
Qed.
Lemma ins_after_split : forall p a t q, ~ In a p -> ins_after a t (p ++ a :: q) = p ++ a :: t :: q.
Proof.
  induction p as [|y p IH]; intros a t q H; cbn [ins_after app].
  - rewrite Nat.eqb_refl. auto.
  - destruct (Nat.eqb_spec y a); [subst; exfalso; apply H; left; auto|]. rewrite IH; auto. intros K. apply H. right; auto.
Qed.
Lemma ins_before_split : forall p a t q, ~ In a p -> ins_before a t (p ++ a :: q) = p ++ t :: a :: q.
Proof.
  induction p as [|y p IH]; intros a t q H; cbn [ins_before app].
  - rewrite Nat.eqb_refl. auto.
  - destruct (Nat.eqb_spec y a); [subst; exfalso; apply H; left; auto|]. rewrite IH; auto. intros K. apply H. right; auto.
Qed.
Lemma prev_from_split : forall a o t b, ~ In t a -> prev_from o (a ++ t :: b) t = match rev a with [] => o | p :: _ => Some p end.
Proof.
  induction a as [|y a IH]; intros o t b H; cbn [prev_from app].
  - rewrite Nat.eqb_refl. auto.
  - destruct (Nat.eqb_spec y t); [subst; exfalso; apply H; left; auto|]. rewrite IH by (intros K; apply H; right; auto).
    cbn [rev]. destruct (rev a); auto.
Qed.

(** ** Swapping two lists *)
(** The tokens in front of the first kept one. *)
Fixpoint leading (k : id -> bool) (l : list id) : list id :=
  match l with [] => [] | t :: r => if k t then [] else t :: leading k r end.
Fixpoint trailing (k : id -> bool) (l : list id) : list id :=
  match l with [] => [] | t :: r => if k t then t :: r else trailing k r end.
Lemma leading_trailing : forall k l, leading k l ++ trailing k l = l.
Proof. induction l as [|t l IH]; cbn; auto. destruct (k t); cbn; congruence. Qed.

Lemma swap_src_kept : forall k it src tmp b, (match src with [] => it = [] | t :: _ => k t = true end) ->
  swap_src k it src tmp b = Some (src, tmp, match it with [] => b | _ => match b with Some b => Some b | None => hd_error src end end).
Proof.
  induction it as [|i it IH]; intros src tmp b H; auto. cbn [swap_src]. destruct src as [|t src]; [discriminate|]. rewrite H.
  rewrite IH by (exact H). destruct it; destruct b; auto.
Qed.
Lemma swap_src_spec : forall k src tmp,
  swap_src k src src tmp None = Some (trailing k src, tmp ++ leading k src, hd_error (trailing k src)).
Proof.
  induction src as [|t src IH]; intros tmp; cbn [leading trailing].
  - cbn. rewrite app_nil_r. auto.
  - destruct (k t) eqn:E.
    + rewrite swap_src_kept by (exact E). rewrite app_nil_r. auto.
    + cbn [swap_src]. rewrite E. cbn [del]. rewrite Nat.eqb_refl. rewrite IH, <- app_assoc. auto.
Qed.
Lemma swap_dst_spec : forall k it a rest pre, NoDup (pre ++ it) -> (match rest with [] => True | b :: _ => ~ In b a /\ ~ In b it end) ->
  swap_dst k it (a ++ rest) (pre ++ it) (hd_error rest) = (a ++ filter (fun t => negb (k t)) it ++ rest, pre ++ filter k it).
Proof.
  induction it as [|t it IH]; intros a rest pre Hd Hb; cbn [swap_dst filter].
  - rewrite !app_nil_r. auto.
  - destruct (k t) eqn:E; cbn [negb].
    + change (pre ++ t :: it) with (pre ++ [t] ++ it). rewrite app_assoc. rewrite IH; auto.
      * rewrite <- app_assoc. auto.
      * rewrite <- app_assoc. auto.
      * destruct rest; auto. destruct Hb as (H1 & H2). split; auto. intros K. apply H2. right; auto.
    + destruct (nodup_split _ _ _ Hd) as (Hn & _). rewrite del_split by auto.
      assert (Ha : match hd_error rest with Some b => ins_before b t (a ++ rest) | None => (a ++ rest) ++ [t] end = (a ++ [t]) ++ rest).
      { destruct rest as [|b rest]; cbn [hd_error].
        - rewrite !app_nil_r. auto.
        - rewrite ins_before_split by apply Hb. rewrite <- app_assoc. auto. }
      rewrite Ha, IH.
      * rewrite <- app_assoc. auto.
      * apply NoDup_remove_1 in Hd. auto.
      * destruct rest as [|b rest]; auto. destruct Hb as (H1 & H2). split; [|intros K; apply H2; right; auto].
        intros K. apply in_app_or in K. destruct K as [K|[K|[]]]; auto. apply H2. left; auto.
Qed.
Lemma swap_lists_spec : forall ks kd src dst, NoDup (src ++ dst) ->
  swap_lists ks kd src dst = Some (filter (fun t => negb (kd t)) dst ++ trailing ks src, filter kd dst ++ leading ks src).
Proof.
  intros ks kd src dst Hd. unfold swap_lists. rewrite swap_src_spec. cbn [app].
  assert (Hd2 : NoDup dst).
  { clear -Hd. induction src as [|t src IH]; auto. inv Hd. auto. }
  pose proof (swap_dst_spec kd dst [] (trailing ks src) [] Hd2) as K. cbn [app] in K. rewrite K; auto.
  destruct (trailing ks src) as [|b r] eqn:E; auto. split; [auto|]. intros Hin.
  assert (Hb : In b src) by (rewrite <- (leading_trailing ks src), E; apply in_or_app; right; left; auto).
  clear -Hd Hb Hin. induction src as [|t src IH]; [destruct Hb|]. inv Hd. destruct Hb as [->|Hb]; [|auto].
  apply H1. apply in_or_app. right; auto.
Qed.

(** ** Fields of modified heaps *)
Lemma upd_eq : forall h i n, upd h i n i = n.
Proof. intros. unfold upd. rewrite Nat.eqb_refl. auto. Qed.
Lemma upd_neq : forall h i n j, j <> i -> upd h i n j = h j.
Proof. intros. unfold upd. destruct (Nat.eqb_spec j i); congruence. Qed.
Lemma mod_eq : forall h i f, modify h i f i = f (h i).
Proof. intros. apply upd_eq. Qed.
Lemma mod_neq : forall h i f j, j <> i -> modify h i f j = h j.
Proof. intros. apply upd_neq; auto. Qed.

(** What the branch links of a heap are made of. *)
Definition brsame (h g : heap) : Prop :=
  forall i, n_type (h i) = n_type (g i) /\ n_pv (h i) = n_pv (g i) /\ n_nx (h i) = n_nx (g i) /\ n_parent (h i) = n_parent (g i).
Lemma branch_find1_same : forall h g l, brsame h g -> branch_find1 h l = branch_find1 g l.
Proof.
  intros h g l H. induction l as [|p l IH]; auto. cbn [branch_find1]. destruct (H p) as (-> & -> & _ & ->). rewrite IH.
  destruct (negb _); auto. destruct (n_pv (g p)) as [q|]; auto. destruct (H q) as (_ & _ & _ & ->). auto.
Qed.
Lemma branch_find_same : forall h g t, brsame h g -> n_pre (h t) = n_pre (g t) -> branch_find h t = branch_find g t.
Proof. intros h g t H E. unfold branch_find. rewrite E. apply branch_find1_same; auto. Qed.

(** Everything but prefixes, references, flags and parents. *)
Definition stable (h g : heap) : Prop := forall i,
  n_type (g i) = n_type (h i) /\ n_lno (g i) = n_lno (h i) /\ n_cno (g i) = n_cno (h i) /\ n_str (g i) = n_str (h i) /\
  n_live (g i) = n_live (h i) /\ n_pv (g i) = n_pv (h i) /\ n_nx (g i) = n_nx (h i) /\ n_suf (g i) = n_suf (h i).
Lemma stable_refl : forall h, stable h h.
Proof. intros h i. auto 10. Qed.
Lemma stable_trans : forall a b c, stable a b -> stable b c -> stable a c.
Proof.
  intros a b c H K i. destruct (H i) as (A1 & A2 & A3 & A4 & A5 & A6 & A7 & A8), (K i) as (B1 & B2 & B3 & B4 & B5 & B6 & B7 & B8).
  repeat split; congruence.
Qed.

(** The flag that marks branches follows the prefixes. *)
Definition branch_flag (h : heap) (t : id) : Prop :=
  N.testbit (n_flags (h t)) 3 = match branch_find h t with Some _ => true | None => false end.
Definition same_flags_but_branch (h g : heap) (t : id) : Prop :=
  N.ldiff (n_flags (g t)) F_BRANCH = N.ldiff (n_flags (h t)) F_BRANCH.

Lemma lor_branch : forall f, N.testbit (N.lor f F_BRANCH) 3 = true.
Proof. intros. rewrite N.lor_spec. change (N.testbit F_BRANCH 3) with true. apply orb_true_r. Qed.
Lemma ldiff_branch : forall f, N.testbit (N.ldiff f F_BRANCH) 3 = false.
Proof. intros. rewrite N.ldiff_spec. change (N.testbit F_BRANCH 3) with true. apply andb_false_r. Qed.
Lemma ldiff_lor : forall f, N.ldiff (N.lor f F_BRANCH) F_BRANCH = N.ldiff f F_BRANCH.
Proof. intros. apply N.bits_inj. intros n. rewrite !N.ldiff_spec, N.lor_spec. destruct (N.testbit f n), (N.testbit F_BRANCH n); auto. Qed.
Lemma ldiff_ldiff : forall f, N.ldiff (N.ldiff f F_BRANCH) F_BRANCH = N.ldiff f F_BRANCH.
Proof. intros. apply N.bits_inj. intros n. rewrite !N.ldiff_spec. destruct (N.testbit f n), (N.testbit F_BRANCH n); auto. Qed.

(** update_flags changes one field of one token. *)
Record flagged_up (h g : heap) (t : id) : Prop := {
  fu_other : forall i, i <> t -> g i = h i;
  fu_self : g t = set_flags (n_flags (g t)) (h t);
  fu_flag : branch_flag g t;
  fu_rest : same_flags_but_branch h g t }.
Lemma update_flags_spec : forall t h, flagged_up h (update_flags t h) t.
Proof.
  intros t h. assert (O : forall i, i <> t -> update_flags t h i = h i) by (intros; apply mod_neq; auto).
  assert (S : update_flags t h t = set_flags (match branch_find h t with Some _ => N.lor (n_flags (h t)) F_BRANCH | None => N.ldiff (n_flags (h t)) F_BRANCH end) (h t)).
  { unfold update_flags. rewrite mod_eq. auto. }
  assert (B : brsame (update_flags t h) h).
  { intros i. destruct (Nat.eq_dec i t) as [->|N]; [rewrite S; auto|rewrite O; auto]. }
  split; auto.
  - rewrite S. reflexivity.
  - unfold branch_flag. rewrite (branch_find_same _ h); [|exact B|rewrite S; auto]. rewrite S. cbn [n_flags set_flags].
    destruct (branch_find h t); [apply lor_branch|apply ldiff_branch].
  - unfold same_flags_but_branch. rewrite S. cbn [n_flags set_flags]. destruct (branch_find h t); [apply ldiff_lor|apply ldiff_ldiff].
Qed.

(** ** Moving prefixes *)
Definition isdird (h : heap) (d : id) : bool := isdir (n_type (h d)).
Definition ndirs (h : heap) (l : list id) : nat := length (filter (isdird h) l).

(** The effect of moving [l] from the end of the prefixes of [src] to [dst]. *)
Record moved (l : list id) (src dst : id) (h g : heap) : Prop := {
  mv_stable : stable h g;
  mv_src : n_pre (h src) = n_pre (g src) ++ l;
  mv_dst : n_pre (g dst) = l ++ n_pre (h dst);
  mv_pre : forall i, i <> src -> i <> dst -> n_pre (g i) = n_pre (h i);
  mv_parent : forall i, n_parent (g i) = if existsb (Nat.eqb i) l && isdird h i then Some dst else n_parent (h i);
  mv_refs_src : n_refs (g src) + ndirs h l = n_refs (h src);
  mv_refs_dst : n_refs (g dst) = n_refs (h dst) + ndirs h l;
  mv_refs : forall i, i <> src -> i <> dst -> n_refs (g i) = n_refs (h i);
  mv_flags : forall i, i <> src -> i <> dst -> n_flags (g i) = n_flags (h i);
  mv_other : forall i, same_flags_but_branch h g i;
  mv_branch : (branch_flag g src /\ branch_flag g dst) \/ (ndirs h l = 0 /\ n_flags (g src) = n_flags (h src) /\ n_flags (g dst) = n_flags (h dst))
}.

Lemma rele_many : forall t h, n_refs (h t) >= 2 -> rele t h = Some (modify h t (set_refs (n_refs (h t) - 1))).
Proof.
  intros t h H. unfold rele. cbn [token_rele]. destruct (n_refs (h t)) as [|[|k]] eqn:E; try lia. replace (S (S k) - 1) with (S k) by lia. auto.
Qed.

Lemma move_prefix_spec : forall p l src dst h, src <> dst -> p <> src -> p <> dst -> n_pre (h src) = l ++ [p] -> ~ In p l ->
  (isdird h p = true -> n_parent (h p) = Some src /\ n_refs (h src) >= 2) ->
  exists g, move_prefix p src dst h = Some g /\ moved [p] src dst h g.
Proof.
  intros p l src dst h Hsd Hps Hpd Epre Hnin Hdir. unfold move_prefix.
  set (h1 := modify h src (fun n => set_pre (del p (n_pre n)) n)).
  set (h2 := modify h1 dst (fun n => set_pre (p :: n_pre n) n)).
  assert (S2 : h2 src = set_pre l (h src)).
  { unfold h2, h1. rewrite mod_neq, mod_eq by auto. rewrite Epre, del_split, app_nil_r by auto. auto. }
  assert (D2 : h2 dst = set_pre (p :: n_pre (h dst)) (h dst)).
  { unfold h2, h1. rewrite mod_eq, mod_neq by auto. auto. }
  assert (O2 : forall i, i <> src -> i <> dst -> h2 i = h i).
  { intros i A B. unfold h2, h1. rewrite !mod_neq; auto. }
  assert (P2 : h2 p = h p) by auto.
  rewrite P2. change (isdir (n_type (h p))) with (isdird h p).
  destruct (isdird h p) eqn:Ed.
  - destruct (Hdir eq_refl) as (Hp & Hr). unfold branch_parent. rewrite P2, Hp.
    rewrite rele_many by (rewrite S2; auto).
    set (h3 := modify h2 src (set_refs (n_refs (h2 src) - 1))).
    set (h4 := token_ref dst h3).
    set (h5 := modify h4 p (set_parent (Some dst))).
    assert (S5 : h5 src = set_refs (n_refs (h src) - 1) (set_pre l (h src))).
    { unfold h5, h4, h3, token_ref. rewrite !mod_neq, mod_eq by auto. rewrite S2. auto. }
    assert (D5 : h5 dst = set_refs (S (n_refs (h dst))) (set_pre (p :: n_pre (h dst)) (h dst))).
    { unfold h5, h4, h3, token_ref. rewrite mod_neq, mod_eq, mod_neq by auto. rewrite D2. auto. }
    assert (P5 : h5 p = set_parent (Some dst) (h p)).
    { unfold h5, h4, h3, token_ref. rewrite mod_eq, !mod_neq by auto. rewrite P2. auto. }
    assert (O5 : forall i, i <> src -> i <> dst -> i <> p -> h5 i = h i).
    { intros i A B C. unfold h5, h4, h3, token_ref. rewrite !mod_neq by auto. auto. }
    clearbody h5. clear h3 h4.
    pose proof (update_flags_spec dst h5) as F1. set (h6 := update_flags dst h5) in *.
    pose proof (update_flags_spec src h6) as F2. set (g := update_flags src h6) in *. clearbody g h6.
    assert (Gs : g src = set_flags (n_flags (g src)) (set_refs (n_refs (h src) - 1) (set_pre l (h src)))).
    { rewrite (fu_self _ _ _ F2) at 1. rewrite (fu_other _ _ _ F1) by auto. rewrite S5. auto. }
    assert (Gd : g dst = set_flags (n_flags (g dst)) (set_refs (S (n_refs (h dst))) (set_pre (p :: n_pre (h dst)) (h dst)))).
    { rewrite (fu_other _ _ _ F2) at 1 2 by auto. rewrite (fu_self _ _ _ F1) at 1. rewrite D5. auto. }
    assert (Gp : g p = set_parent (Some dst) (h p)).
    { rewrite (fu_other _ _ _ F2), (fu_other _ _ _ F1) by auto. auto. }
    assert (Go : forall i, i <> src -> i <> dst -> i <> p -> g i = h i).
    { intros i A B C. rewrite (fu_other _ _ _ F2), (fu_other _ _ _ F1) by auto. auto. }
    assert (Nd : ndirs h [p] = 1) by (unfold ndirs; cbn [filter]; rewrite Ed; auto).
    exists g. split; auto. constructor.
    + intros i. destruct (Nat.eq_dec i src) as [->|A]; [rewrite Gs; cbn; auto 10|].
      destruct (Nat.eq_dec i dst) as [->|B]; [rewrite Gd; cbn; auto 10|].
      destruct (Nat.eq_dec i p) as [->|C]; [rewrite Gp; cbn; auto 10|]. rewrite Go; auto 10.
    + rewrite Gs. cbn. auto.
    + rewrite Gd. cbn. auto.
    + intros i A B. destruct (Nat.eq_dec i p) as [->|C]; [rewrite Gp; auto|rewrite Go; auto].
    + intros i. cbn [existsb]. rewrite orb_false_r. destruct (Nat.eqb_spec i p) as [->|C]; cbn [andb]; [rewrite Ed, Gp; auto|].
      destruct (Nat.eq_dec i src) as [->|A]; [rewrite Gs; cbn; auto|].
      destruct (Nat.eq_dec i dst) as [->|B]; [rewrite Gd; cbn; auto|]. rewrite Go; auto.
    + rewrite Nd, Gs. cbn. lia.
    + rewrite Nd, Gd. cbn. lia.
    + intros i A B. destruct (Nat.eq_dec i p) as [->|C]; [rewrite Gp; auto|rewrite Go; auto].
    + intros i A B. destruct (Nat.eq_dec i p) as [->|C]; [rewrite Gp; auto|rewrite Go; auto].
    + intros i. unfold same_flags_but_branch. destruct (Nat.eq_dec i src) as [->|A].
      { rewrite (fu_rest _ _ _ F2). rewrite (fu_other _ _ _ F1) by auto. rewrite S5. auto. }
      destruct (Nat.eq_dec i dst) as [->|B].
      { rewrite (fu_other _ _ _ F2) by auto. rewrite (fu_rest _ _ _ F1). rewrite D5. auto. }
      destruct (Nat.eq_dec i p) as [->|C]; [rewrite Gp; auto|rewrite Go; auto].
    + left. split; [apply (fu_flag _ _ _ F2)|]. unfold branch_flag. rewrite (fu_other _ _ _ F2) by auto.
      rewrite (branch_find_same g h6); [apply (fu_flag _ _ _ F1)| |rewrite (fu_other _ _ _ F2); auto].
      intros i. destruct (Nat.eq_dec i src) as [->|A]; [rewrite (fu_self _ _ _ F2); auto|rewrite (fu_other _ _ _ F2); auto].
  - exists h2. split; auto.
    assert (Nd : ndirs h [p] = 0) by (unfold ndirs; cbn [filter]; rewrite Ed; auto).
    constructor.
    + intros i. destruct (Nat.eq_dec i src) as [->|A]; [rewrite S2; cbn; auto 10|].
      destruct (Nat.eq_dec i dst) as [->|B]; [rewrite D2; cbn; auto 10|]. rewrite O2; auto 10.
    + rewrite S2. auto.
    + rewrite D2. auto.
    + intros i A B. rewrite O2; auto.
    + intros i. cbn [existsb]. rewrite orb_false_r. destruct (Nat.eqb_spec i p) as [->|C]; cbn [andb]; [rewrite Ed, P2; auto|].
      destruct (Nat.eq_dec i src) as [->|A]; [rewrite S2; auto|].
      destruct (Nat.eq_dec i dst) as [->|B]; [rewrite D2; auto|]. rewrite O2; auto.
    + rewrite Nd, S2. cbn. lia.
    + rewrite Nd, D2. cbn. lia.
    + intros i A B. rewrite O2; auto.
    + intros i A B. rewrite O2; auto.
    + intros i. unfold same_flags_but_branch. destruct (Nat.eq_dec i src) as [->|A]; [rewrite S2; auto|].
      destruct (Nat.eq_dec i dst) as [->|B]; [rewrite D2; auto|]. rewrite O2; auto.
    + right. rewrite S2, D2. auto.
Qed.

Lemma moved_trans : forall p l src dst h g k, src <> dst -> ~ In src (p :: l) -> ~ In dst (p :: l) -> moved [p] src dst h g -> moved l src dst g k -> moved (l ++ [p]) src dst h k.
Proof.
  intros p l src dst h g k Hsd Hs Hd A B.
  assert (Dd : forall i, isdird g i = isdird h i) by (intros i; unfold isdird; destruct (mv_stable _ _ _ _ _ A i) as (-> & _); auto).
  assert (Nd : forall m, ndirs g m = ndirs h m).
  { intros m. unfold ndirs. f_equal. clear -Dd. induction m as [|y m IH]; cbn [filter]; auto. rewrite Dd, IH. auto. }
  assert (Na : ndirs h (l ++ [p]) = ndirs h l + ndirs h [p]) by (unfold ndirs; rewrite filter_app, app_length; auto).
  constructor.
  - eapply stable_trans; [apply (mv_stable _ _ _ _ _ A)|apply (mv_stable _ _ _ _ _ B)].
  - rewrite (mv_src _ _ _ _ _ A), (mv_src _ _ _ _ _ B), <- app_assoc. auto.
  - rewrite (mv_dst _ _ _ _ _ B), (mv_dst _ _ _ _ _ A), <- app_assoc. auto.
  - intros i H1 H2. rewrite (mv_pre _ _ _ _ _ B), (mv_pre _ _ _ _ _ A); auto.
  - intros i. rewrite (mv_parent _ _ _ _ _ B), (mv_parent _ _ _ _ _ A), Dd, existsb_app. cbn [existsb].
    destruct (isdird h i); rewrite ?andb_true_r, ?andb_false_r; auto. destruct (existsb (Nat.eqb i) l); auto.
  - rewrite Na. pose proof (mv_refs_src _ _ _ _ _ A). pose proof (mv_refs_src _ _ _ _ _ B) as K. rewrite Nd in K. lia.
  - rewrite Na. pose proof (mv_refs_dst _ _ _ _ _ A). pose proof (mv_refs_dst _ _ _ _ _ B) as K. rewrite Nd in K. lia.
  - intros i H1 H2. rewrite (mv_refs _ _ _ _ _ B), (mv_refs _ _ _ _ _ A); auto.
  - intros i H1 H2. rewrite (mv_flags _ _ _ _ _ B), (mv_flags _ _ _ _ _ A); auto.
  - intros i. unfold same_flags_but_branch. rewrite (mv_other _ _ _ _ _ B), (mv_other _ _ _ _ _ A); auto.
  - destruct (mv_branch _ _ _ _ _ B) as [K|(K1 & K2 & K3)]; [left; auto|]. rewrite Nd in K1.
    destruct (mv_branch _ _ _ _ _ A) as [(J1 & J2)|(J1 & J2 & J3)]; [left|right; rewrite Na; split; [lia|]; split; congruence].
    (* moving tokens that are no directives does not matter for branches *)
    assert (Nb : forall m m', ndirs h m = 0 -> branch_find1 k (m ++ m') = branch_find1 k m').
    { clear -A B Dd. induction m as [|y m IH]; intros m' Hz; auto. cbn [app branch_find1].
      unfold ndirs in Hz. cbn [filter] in Hz. destruct (isdird h y) eqn:Ey; [discriminate|].
      destruct (mv_stable _ _ _ _ _ B y) as (Ty & _). destruct (mv_stable _ _ _ _ _ A y) as (Ty' & _). rewrite Ty, Ty'.
      unfold isdird, isdir in Ey. destruct (ttype_eqb (type_normalize (n_type (h y))) T_CPP_ELSE) eqn:Ee.
      - apply ttype_eqb_eq in Ee. rewrite Ee in Ey. discriminate.
      - cbn [negb]. apply IH. auto. }
    assert (Nb2 : forall m m', ndirs h m = 0 -> branch_find1 k (m' ++ m) = branch_find1 k m').
    { intros m m' Hz. induction m' as [|y m' IH]; [cbn [app]; rewrite <- (app_nil_r m); rewrite Nb; auto|].
      cbn [app branch_find1]. rewrite IH. auto. }
    assert (Bs : brsame k g).
    { intros i. destruct (mv_stable _ _ _ _ _ B i) as (-> & _ & _ & _ & _ & -> & -> & _). split; auto. split; auto. split; auto.
      rewrite (mv_parent _ _ _ _ _ B). destruct (existsb (Nat.eqb i) l && isdird g i) eqn:Ex; auto.
      apply andb_true_iff in Ex. destruct Ex as (E1 & E2). rewrite Dd in E2. exfalso. apply existsb_exists in E1. destruct E1 as (j & Hj & Ej).
      apply Nat.eqb_eq in Ej. subst j. clear -K1 Hj E2. unfold ndirs in K1. assert (In i (filter (isdird h) l)) by (apply filter_In; auto).
      destruct (filter (isdird h) l); [contradiction|discriminate]. }
    assert (Fs : branch_find k src = branch_find g src).
    { unfold branch_find. rewrite <- (branch_find1_same k g) by auto. rewrite (mv_src _ _ _ _ _ B). rewrite Nb2; auto. }
    assert (Fd : branch_find k dst = branch_find g dst).
    { unfold branch_find. rewrite <- (branch_find1_same k g) by auto. rewrite (mv_dst _ _ _ _ _ B). rewrite Nb; auto. }
    unfold branch_flag in *. rewrite Fs, Fd, K2, K3. auto.
Qed.

Lemma moved_nil : forall src dst h, moved [] src dst h h.
Proof.
  intros. constructor; auto; try (intros; reflexivity); try (rewrite app_nil_r; auto); try (cbn; lia); try apply stable_refl; try (right; auto).
Qed.

Lemma move_prefixes_spec : forall src dst h, src <> dst -> NoDup (n_pre (h src)) -> ~ In src (n_pre (h src)) -> ~ In dst (n_pre (h src)) ->
  (forall d, In d (n_pre (h src)) -> isdird h d = true -> n_parent (h d) = Some src) -> n_refs (h src) > ndirs h (n_pre (h src)) ->
  exists g, move_prefixes src dst h = Some g /\ moved (n_pre (h src)) src dst h g.
Proof.
  intros src dst h Hsd. unfold move_prefixes. remember (n_pre (h src)) as l eqn:El. revert h El.
  induction l as [|p l IH] using rev_ind; intros h El Hn Hs Hd Hp Hr.
  - exists h. cbn [length]. split; [|apply moved_nil]. cbn [move_prefixes_loop]. rewrite <- El. auto.
  - rewrite app_length, Nat.add_comm. cbn [Nat.add length]. cbn [move_prefixes_loop]. rewrite <- El, rev_app_distr. cbn [rev app].
    assert (Hpl : ~ In p l) by (apply (nodup_split _ _ _ Hn)).
    assert (Hnl : NoDup l) by (apply NoDup_remove_1 in Hn; rewrite app_nil_r in Hn; auto).
    assert (Na : ndirs h (l ++ [p]) = ndirs h l + ndirs h [p]) by (unfold ndirs; rewrite filter_app, app_length; auto).
    assert (Hps : p <> src) by (intros ->; apply Hs; apply in_or_app; right; left; auto).
    assert (Hpd : p <> dst) by (intros ->; apply Hd; apply in_or_app; right; left; auto).
    destruct (move_prefix_spec p l src dst h) as (g & Eg & Mg); auto.
    { intros E. split; [apply Hp; auto; apply in_or_app; right; left; auto|]. rewrite Na in Hr. unfold ndirs in Hr at 2. cbn [filter] in Hr. rewrite E in Hr. cbn in Hr. lia. }
    rewrite Eg.
    assert (Eg2 : n_pre (g src) = l).
    { pose proof (mv_src _ _ _ _ _ Mg) as K. rewrite <- El in K. apply app_inj_tail in K. destruct K. auto. }
    assert (Dd : forall i, isdird g i = isdird h i) by (intros i; unfold isdird; destruct (mv_stable _ _ _ _ _ Mg i) as (-> & _); auto).
    assert (Nd : forall m, ndirs g m = ndirs h m).
    { intros m. unfold ndirs. f_equal. clear -Dd. induction m as [|y m IH]; cbn [filter]; auto. rewrite Dd, IH. auto. }
    destruct (IH g) as (k & Ek & Mk); auto.
    + intros K. apply Hs. apply in_or_app; auto.
    + intros K. apply Hd. apply in_or_app; auto.
    + intros d Hin E. rewrite (mv_parent _ _ _ _ _ Mg). rewrite Dd in E. cbn [existsb]. rewrite orb_false_r, E, andb_true_r.
      destruct (Nat.eqb_spec d p) as [->|_]; [contradiction|]. apply Hp; auto. apply in_or_app; auto.
    + rewrite Nd. pose proof (mv_refs_src _ _ _ _ _ Mg). lia.
    + exists k. split; auto. eapply moved_trans; eauto; intros [K|K]; subst; auto; [apply Hs|apply Hd]; apply in_or_app; auto.
Qed.

(** ** Moving suffixes *)
Lemma move_suffixes_spec : forall src dst h, src <> dst -> NoDup (n_suf (h src)) ->
  exists g, move_suffixes src dst h = Some g /\ g src = set_suf [] (h src) /\
    g dst = set_suf (n_suf (h dst) ++ n_suf (h src)) (h dst) /\ (forall i, i <> src -> i <> dst -> g i = h i).
Proof.
  intros src dst h Hsd. unfold move_suffixes. remember (n_suf (h src)) as l eqn:El. revert h El.
  induction l as [|s l IH]; intros h El Hn; cbn [length move_suffixes_loop].
  - rewrite <- El. exists h. split; auto. split; [destruct (h src); cbn in *; subst; auto|]. rewrite app_nil_r. split; auto. destruct (h dst); auto.
  - rewrite <- El.
    set (h1 := modify h src (fun n => set_suf (del s (n_suf n)) n)).
    set (h2 := modify h1 dst (fun n => set_suf (n_suf n ++ [s]) n)).
    assert (S2 : h2 src = set_suf l (h src)).
    { unfold h2, h1. rewrite mod_neq, mod_eq by auto. rewrite <- El. cbn [del]. rewrite Nat.eqb_refl. auto. }
    assert (D2 : h2 dst = set_suf (n_suf (h dst) ++ [s]) (h dst)).
    { unfold h2, h1. rewrite mod_eq, mod_neq by auto. auto. }
    assert (O2 : forall i, i <> src -> i <> dst -> h2 i = h i).
    { intros i A B. unfold h2, h1. rewrite !mod_neq; auto. }
    destruct (IH h2) as (g & Eg & Gs & Gd & Go); [rewrite S2; auto|inv Hn; auto|].
    exists g. split; auto. split; [rewrite Gs, S2; auto|]. split; [rewrite Gd, D2; cbn; rewrite <- app_assoc; auto|].
    intros i A B. rewrite Go, O2; auto.
Qed.

(** ** Well-formed lists of tokens *)
(** All tokens, prefixes and suffixes, in the order they are emitted. *)
Definition whole (h : heap) (toks : list id) : list id := flat_map (fun t => n_pre (h t) ++ t :: n_suf (h t)) toks.

(** [E] counts the references to a token other than the list of tokens and directives. *)
Record wfl (E : id -> nat) (x : lex) : Prop := {
  wl_nodup : NoDup (whole (x_heap x) (x_toks x));
  wl_eof : exists body e, x_toks x = body ++ [e] /\ tyof x e = T_EOF /\ Forall (fun t => tyof x t <> T_EOF) body;
  wl_parent : forall t d, In t (x_toks x) -> In d (n_pre (x_heap x t)) -> isdird (x_heap x) d = true -> n_parent (x_heap x d) = Some t;
  wl_refs : forall t, In t (x_toks x) -> n_refs (x_heap x t) = 1 + ndirs (x_heap x) (n_pre (x_heap x t)) + E t
}.

Lemma whole_app : forall h a b, whole h (a ++ b) = whole h a ++ whole h b.
Proof. intros. apply flat_map_app. Qed.
Lemma whole_cons : forall h t b, whole h (t :: b) = n_pre (h t) ++ t :: n_suf (h t) ++ whole h b.
Proof. intros. unfold whole. cbn. rewrite <- app_assoc. auto. Qed.
Lemma whole_in : forall h l t, In t l -> In t (whole h l).
Proof. intros. apply in_flat_map. exists t. split; auto. apply in_or_app. right; left; auto. Qed.
Lemma whole_pre : forall h l t d, In t l -> In d (n_pre (h t)) -> In d (whole h l).
Proof. intros. apply in_flat_map. exists t. split; auto. apply in_or_app. auto. Qed.
Lemma whole_suf : forall h l t d, In t l -> In d (n_suf (h t)) -> In d (whole h l).
Proof. intros. apply in_flat_map. exists t. split; auto. apply in_or_app. right; right; auto. Qed.
Lemma nodup_app_l : forall {A} (a b : list A), NoDup (a ++ b) -> NoDup a.
Proof. induction a; intros b H; [constructor|]. inv H. constructor; eauto. intros K. apply H2. apply in_or_app; auto. Qed.
Lemma nodup_app_r : forall {A} (a b : list A), NoDup (a ++ b) -> NoDup b.
Proof. induction a; intros b H; auto. inv H. auto. Qed.
Lemma nodup_app_disj : forall {A} (a b : list A) x, NoDup (a ++ b) -> In x a -> In x b -> False.
Proof. induction a; intros b x H Ha Hb; [destruct Ha|]. inv H. destruct Ha as [->|Ha]; [apply H2; apply in_or_app; auto|eauto]. Qed.
Lemma whole_toks : forall h l, NoDup (whole h l) -> NoDup l.
Proof.
  induction l as [|t l IH]; intros H; [constructor|]. rewrite whole_cons in H. apply nodup_app_r in H. inv H.
  constructor; [|apply IH; eapply nodup_app_r; eauto]. intros K. apply H2. apply in_or_app. right. apply whole_in; auto.
Qed.
(** Prefixes of a listed token are in no other list. *)
Lemma whole_disj : forall h l t, NoDup (whole h l) -> In t l ->
  NoDup (n_pre (h t)) /\ NoDup (n_suf (h t)) /\ (forall u, In u l -> ~ In u (n_pre (h t)) /\ ~ In u (n_suf (h t))) /\
  (forall d, In d (n_pre (h t)) -> ~ In d (n_suf (h t))) /\
  (forall u d, In u l -> u <> t -> In d (n_pre (h t) ++ n_suf (h t)) -> ~ In d (n_pre (h u) ++ n_suf (h u))).
Proof.
  intros h l t H Hin. destruct (in_split _ _ Hin) as (a & b & ->). rewrite whole_app, whole_cons in H.
  assert (Hm := nodup_app_r _ _ H). split; [eapply nodup_app_l; eauto|].
  assert (Hm2 := nodup_app_r _ _ Hm). inv Hm2. split; [eapply nodup_app_l; eauto|].
  assert (Hpt : ~ In t (n_pre (h t))) by (intros K; eapply nodup_app_disj; [exact Hm|exact K|left; auto]).
  assert (Hst : ~ In t (n_suf (h t))) by (intros K; apply H2; apply in_or_app; auto).
  assert (Da : forall d, In d (whole h a) -> ~ In d (n_pre (h t)) /\ ~ In d (n_suf (h t))).
  { intros d Hd. split; intros K; eapply nodup_app_disj; try exact H; try exact Hd; apply in_or_app; [left; auto|right; right; apply in_or_app; auto]. }
  assert (Db : forall d, In d (whole h b) -> ~ In d (n_pre (h t)) /\ ~ In d (n_suf (h t))).
  { intros d Hd. split; intros K.
    - eapply nodup_app_disj; [exact Hm|exact K|]. right. apply in_or_app; auto.
    - eapply nodup_app_disj; [exact H3|exact K|exact Hd]. }
  split; [|split].
  - intros u Hu. apply in_app_or in Hu. destruct Hu as [Hu|[<-|Hu]]; auto; [apply Da|apply Db]; apply whole_in; auto.
  - intros d Hd K. eapply nodup_app_disj; [exact Hm|exact Hd|]. right. apply in_or_app; auto.
  - intros u d Hu Hne Hd K.
    assert (Hw : In d (whole h a) \/ In d (whole h b)).
    { apply in_app_or in Hu. destruct Hu as [Hu|[->|Hu]]; [left|congruence|right]; apply in_app_or in K; destruct K as [K|K];
        try (eapply whole_pre; eauto; fail); eapply whole_suf; eauto. }
    destruct Hw as [Hw|Hw]; [apply Da in Hw|apply Db in Hw]; apply in_app_or in Hd; tauto.
Qed.

Lemma ndirs_ext : forall h g l, (forall i, n_type (g i) = n_type (h i)) -> ndirs g l = ndirs h l.
Proof. intros h g l H. unfold ndirs. f_equal. induction l as [|y l IH]; cbn [filter]; auto. unfold isdird at 1. rewrite H, IH. auto. Qed.
Lemma isdird_ext : forall h g i, (forall i, n_type (g i) = n_type (h i)) -> isdird g i = isdird h i.
Proof. intros h g i H. unfold isdird. rewrite H. auto. Qed.
Lemma whole_ext : forall h g l, (forall t, In t l -> n_pre (g t) = n_pre (h t) /\ n_suf (g t) = n_suf (h t)) -> whole g l = whole h l.
Proof.
  intros h g l H. induction l as [|t l IH]; auto. rewrite !whole_cons. destruct (H t (or_introl eq_refl)) as (-> & ->). rewrite IH; auto. intros u Hu. apply H. right; auto.
Qed.

(** ** Removing a token *)
(** [pv] is the previous token, or the next one if there is none. *)
Record removed (a : list id) (tk nx pv : id) (b : list id) (x y : lex) : Prop := {
  rm_toks : x_toks y = a ++ nx :: b;
  rm_pre_nx : n_pre (x_heap y nx) = n_pre (x_heap x tk) ++ n_pre (x_heap x nx);
  rm_pre : forall t, t <> tk -> t <> nx -> n_pre (x_heap y t) = n_pre (x_heap x t);
  rm_suf_pv : n_suf (x_heap y pv) = n_suf (x_heap x pv) ++ n_suf (x_heap x tk);
  rm_suf : forall t, t <> tk -> t <> pv -> n_suf (x_heap y t) = n_suf (x_heap x t);
  rm_text : forall i, n_type (x_heap y i) = n_type (x_heap x i) /\ n_str (x_heap y i) = n_str (x_heap x i) /\
    n_lno (x_heap y i) = n_lno (x_heap x i) /\ n_cno (x_heap y i) = n_cno (x_heap x i) /\
    N.ldiff (n_flags (x_heap y i)) F_BRANCH = N.ldiff (n_flags (x_heap x i)) F_BRANCH;
  rm_parent : forall d, n_parent (x_heap y d) = if existsb (Nat.eqb d) (n_pre (x_heap x tk)) && isdird (x_heap x) d then Some nx else n_parent (x_heap x d);
  rm_links : forall i, n_pv (x_heap y i) = n_pv (x_heap x i) /\ n_nx (x_heap y i) = n_nx (x_heap x i);
  rm_live : forall i, i <> tk -> n_live (x_heap y i) = n_live (x_heap x i);
  rm_refs : forall i, i <> tk -> i <> nx -> n_refs (x_heap y i) = n_refs (x_heap x i);
  rm_refs_nx : n_refs (x_heap y nx) = n_refs (x_heap x nx) + ndirs (x_heap x) (n_pre (x_heap x tk));
  rm_flags : forall i, i <> tk -> i <> nx -> n_flags (x_heap y i) = n_flags (x_heap x i);
  rm_branch : branch_flag (x_heap x) nx -> branch_flag (x_heap y) nx;
  rm_cur : x_cur y = if match x_cur x with Some c => c =? tk | None => false end then hd_error (rev a) else x_cur x;
  rm_rest : x_next y = x_next x /\ x_err y = x_err x /\ x_peek y = x_peek x /\ x_log y = x_log x /\ x_bad y = x_bad x
}.

Lemma branch_find1_nodirs : forall h m m', ndirs h m = 0 -> branch_find1 h (m ++ m') = branch_find1 h m'.
Proof.
  induction m as [|y m IH]; intros m' Hz; auto. cbn [app branch_find1]. unfold ndirs in Hz. cbn [filter] in Hz.
  destruct (isdird h y) eqn:Ey; [discriminate|]. unfold isdird, isdir in Ey. destruct (ttype_eqb (type_normalize (n_type (h y))) T_CPP_ELSE) eqn:Ee.
  - apply ttype_eqb_eq in Ee. rewrite Ee in Ey. discriminate.
  - cbn [negb]. apply IH. auto.
Qed.

Lemma rele_last : forall t h, n_pre (h t) = [] -> n_suf (h t) = [] -> n_refs (h t) >= 1 ->
  exists g, rele t h = Some g /\ (forall i, i <> t -> g i = h i) /\ n_pre (g t) = [] /\ n_suf (g t) = [] /\
    n_refs (g t) = n_refs (h t) - 1 /\ n_live (g t) = (n_live (h t) && (1 <? n_refs (h t))) /\
    n_type (g t) = n_type (h t) /\ n_str (g t) = n_str (h t) /\ n_lno (g t) = n_lno (h t) /\ n_cno (g t) = n_cno (h t) /\
    n_flags (g t) = n_flags (h t) /\ n_pv (g t) = n_pv (h t) /\ n_nx (g t) = n_nx (h t) /\ n_parent (g t) = n_parent (h t).
Proof.
  intros t h Hp Hs Hr. destruct (n_refs (h t)) as [|[|k]] eqn:E; [lia| |].
  - unfold rele. cbn [token_rele]. rewrite E.
    rewrite mod_eq. cbn [n_pre set_refs]. rewrite Hp. rewrite mod_eq. cbn [n_suf set_refs]. rewrite Hs.
    eexists. split; [reflexivity|]. split; [intros i Hi; rewrite !mod_neq; auto|]. rewrite !mod_eq. cbn. rewrite andb_false_r. auto 20.
  - rewrite rele_many by lia. eexists. split; [reflexivity|]. split; [intros i Hi; rewrite !mod_neq; auto|]. rewrite mod_eq, E. cbn [n_pre n_suf n_refs n_live n_type n_str n_lno n_cno n_flags n_pv n_nx n_parent set_refs].
    replace (1 <? S (S k)) with true by (symmetry; apply Nat.ltb_lt; lia). rewrite andb_true_r. auto 20.
Qed.

Lemma remove_spec : forall E a tk nx b x, wfl E x -> x_toks x = a ++ tk :: nx :: b ->
  exists y, remove tk x = Some y /\ removed a tk nx (match rev a with [] => nx | pv :: _ => pv end) b x y /\
    n_live (x_heap y tk) = (n_live (x_heap x tk) && (0 <? E tk)) /\ n_refs (x_heap y tk) = E tk /\
    n_pre (x_heap y tk) = [] /\ n_suf (x_heap y tk) = [].
Proof.
  intros E a tk nx b x W Et. set (pv := match rev a with [] => nx | pv :: _ => pv end).
  pose proof (wl_nodup _ _ W) as Hd. assert (Ht := whole_toks _ _ Hd).
  assert (Hin : In tk (x_toks x)) by (rewrite Et; apply in_or_app; right; left; auto).
  assert (Hinx : In nx (x_toks x)) by (rewrite Et; apply in_or_app; right; right; left; auto).
  assert (Hne : tk <> nx).
  { rewrite Et in Ht. destruct (nodup_split _ _ _ Ht) as (_ & K). intros ->. apply K. left; auto. }
  assert (Hpin : In pv (x_toks x)).
  { unfold pv. destruct (rev a) as [|p r] eqn:Er; auto. rewrite Et. apply in_or_app. left. apply in_rev. rewrite Er. left; auto. }
  assert (Hpne : tk <> pv).
  { unfold pv. destruct (rev a) as [|p r] eqn:Er; auto. rewrite Et in Ht. destruct (nodup_split _ _ _ Ht) as (K & _). intros ->. apply K. apply in_rev. rewrite Er. left; auto. }
  assert (Hna : ~ In tk a) by (rewrite Et in Ht; apply (nodup_split _ _ _ Ht)).
  destruct (whole_disj _ _ _ Hd Hin) as (D1 & D2 & D3 & D4 & D5).
  assert (Hty : ttype_eqb (tyof x tk) T_EOF = false).
  { apply ttype_eqb_neq. destruct (wl_eof _ _ W) as (body & e & E1 & E2 & E3). rewrite Forall_forall in E3. apply E3.
    rewrite E1 in Et. clear -Et. revert body Et. induction a as [|y a IH]; intros body Et.
    - destruct body as [|u body]; [discriminate|]. injection Et as <- _. left; auto.
    - destruct body as [|u body]; [injection Et as _ Et; destruct a; discriminate|]. injection Et as <- Et. right. apply IH; auto. }
  unfold remove. rewrite Hty. rewrite Et, next_split by auto. cbn [hd_error].
  destruct (move_prefixes_spec tk nx (x_heap x) Hne D1) as (h1 & E1 & M).
  { apply (D3 tk Hin). } { apply (D3 nx Hinx). } { intros d A B. apply (wl_parent _ _ W); auto. } { rewrite (wl_refs _ _ W tk Hin). lia. }
  rewrite E1. unfold prev_of. rewrite prev_from_split by auto.
  assert (Epv : match match rev a with [] => None | p :: _ => Some p end with Some p => p | None => nx end = pv) by (unfold pv; destruct (rev a); auto).
  rewrite Epv.
  destruct (mv_stable _ _ _ _ _ M tk) as (S1 & S2 & S3 & S4 & S5 & S6 & S7 & S8).
  destruct (move_suffixes_spec tk pv h1 Hpne) as (h2 & E2 & F1 & F2 & F3); [rewrite S8; auto|]. rewrite E2.
  assert (P1 : n_pre (h1 tk) = []).
  { pose proof (mv_src _ _ _ _ _ M) as K. apply (f_equal (@length id)) in K. rewrite app_length in K. destruct (n_pre (h1 tk)); auto. cbn in K. lia. }
  assert (R1 : n_refs (h1 tk) = 1 + E tk).
  { pose proof (mv_refs_src _ _ _ _ _ M) as K. rewrite (wl_refs _ _ W tk Hin) in K. lia. }
  destruct (rele_last tk h2) as (h3 & E3 & G0 & G1 & G2 & G3 & G4 & G5 & G6 & G7 & G8 & G9 & G10 & G11 & G12).
  { rewrite F1. auto. } { rewrite F1. auto. } { rewrite F1. cbn. lia. }
  rewrite E3. eexists. split; [reflexivity|].
  assert (H3 : forall (A : Type) (f : node -> A), (forall n l, f (set_suf l n) = f n) -> forall i, i <> tk -> f (h3 i) = f (h1 i)).
  { intros A f Hf i Hi. rewrite G0 by auto. destruct (Nat.eq_dec i pv) as [->|N]; [rewrite F2, Hf; auto|rewrite F3; auto]. }
  assert (Tk : forall (A : Type) (f : node -> A), (forall n l, f (set_suf l n) = f n) -> f (h2 tk) = f (h1 tk)).
  { intros A f Hf. rewrite F1, Hf; auto. }
  split.
  - constructor; cbn [x_heap x_toks x_cur x_next x_err x_peek x_log x_bad set_cur set_toks set_heap].
    + rewrite del_split; auto.
    + rewrite (H3 _ n_pre) by auto. apply (mv_dst _ _ _ _ _ M).
    + intros t A B. rewrite (H3 _ n_pre) by auto. apply (mv_pre _ _ _ _ _ M); auto.
    + rewrite G0, F2 by auto. cbn. rewrite S8. destruct (mv_stable _ _ _ _ _ M pv) as (_ & _ & _ & _ & _ & _ & _ & ->). auto.
    + intros t A B. rewrite G0, F3 by auto. destruct (mv_stable _ _ _ _ _ M t) as (_ & _ & _ & _ & _ & _ & _ & ->). auto.
    + intros i. pose proof (mv_other _ _ _ _ _ M i) as Q. unfold same_flags_but_branch in Q.
      destruct (mv_stable _ _ _ _ _ M i) as (Q1 & Q2 & Q3 & Q4 & _).
      destruct (Nat.eq_dec i tk) as [->|N].
      * rewrite G5, G6, G7, G8, G9, !(Tk _ _) by auto. auto.
      * rewrite (H3 _ n_type), (H3 _ n_str), (H3 _ n_lno), (H3 _ n_cno), (H3 _ n_flags) by auto. auto.
    + intros d. destruct (Nat.eq_dec d tk) as [->|N]; [rewrite G12, (Tk _ n_parent) by auto|rewrite (H3 _ n_parent) by auto]; apply (mv_parent _ _ _ _ _ M).
    + intros i. destruct (mv_stable _ _ _ _ _ M i) as (_ & _ & _ & _ & _ & Q6 & Q7 & _).
      destruct (Nat.eq_dec i tk) as [->|N]; [rewrite G10, G11, (Tk _ n_pv), (Tk _ n_nx) by auto|rewrite (H3 _ n_pv), (H3 _ n_nx) by auto]; auto.
    + intros i N. destruct (mv_stable _ _ _ _ _ M i) as (_ & _ & _ & _ & Q5 & _). rewrite (H3 _ n_live) by auto. auto.
    + intros i A B. rewrite (H3 _ n_refs) by auto. apply (mv_refs _ _ _ _ _ M); auto.
    + rewrite (H3 _ n_refs) by auto. apply (mv_refs_dst _ _ _ _ _ M).
    + intros i A B. rewrite (H3 _ n_flags) by auto. apply (mv_flags _ _ _ _ _ M); auto.
    + intros Hb. unfold branch_flag. rewrite (H3 _ n_flags) by auto.
      rewrite (branch_find_same h3 h1).
      2:{ intros i. destruct (Nat.eq_dec i tk) as [->|N]; [rewrite G5, G10, G11, G12, (Tk _ n_type), (Tk _ n_pv), (Tk _ n_nx), (Tk _ n_parent) by auto; auto|
            rewrite (H3 _ n_type), (H3 _ n_pv), (H3 _ n_nx), (H3 _ n_parent) by auto; auto]. }
      2:{ rewrite (H3 _ n_pre) by auto; auto. }
      destruct (mv_branch _ _ _ _ _ M) as [(_ & K)|(K1 & _ & K2)]; [exact K|].
      unfold branch_flag in Hb. rewrite K2, Hb. unfold branch_find. rewrite (mv_dst _ _ _ _ _ M).
      assert (T1 : forall i, n_type (h1 i) = n_type (x_heap x i)) by (intros i; apply (mv_stable _ _ _ _ _ M i)).
      rewrite branch_find1_nodirs by (rewrite (ndirs_ext (x_heap x)); auto).
      rewrite (branch_find1_same (x_heap x) h1); auto. intros i. destruct (mv_stable _ _ _ _ _ M i) as (-> & _ & _ & _ & _ & -> & -> & _).
      split; auto. split; auto. split; auto. rewrite (mv_parent _ _ _ _ _ M). destruct (existsb (Nat.eqb i) (n_pre (x_heap x tk)) && isdird (x_heap x) i) eqn:Ex; auto.
      apply andb_true_iff in Ex. destruct Ex as (X1 & X2). exfalso. apply existsb_exists in X1. destruct X1 as (j & Hj & Ej). apply Nat.eqb_eq in Ej. subst j.
      assert (In i (filter (isdird (x_heap x)) (n_pre (x_heap x tk)))) by (apply filter_In; auto). unfold ndirs in K1.
      destruct (filter (isdird (x_heap x)) (n_pre (x_heap x tk))); [contradiction|discriminate].
    + destruct (x_cur x) as [c|]; [destruct (c =? tk)|]; auto; destruct (rev a); auto.
    + auto.
  - cbn [x_heap set_cur set_toks set_heap]. rewrite G1, G2, G3, G4, (Tk _ n_live), (Tk _ n_refs), R1, S5 by auto. split; auto. split; [lia|auto].
Qed.

(** Nothing but the token is lost. *)
Lemma removed_whole : forall a tk nx b x y, x_toks x = a ++ tk :: nx :: b -> NoDup (x_toks x) ->
  removed a tk nx (match rev a with [] => nx | pv :: _ => pv end) b x y ->
  Permutation (whole (x_heap x) (x_toks x)) (tk :: whole (x_heap y) (x_toks y)).
Proof.
  intros a tk nx b x y Et Ht R. rewrite (rm_toks _ _ _ _ _ _ _ R), Et. rewrite Et in Ht.
  destruct (nodup_split _ _ _ Ht) as (N1 & N2).
  assert (N3 : ~ In nx a /\ ~ In nx b).
  { apply NoDup_remove_1 in Ht. destruct (nodup_split _ _ _ Ht). auto. }
  assert (N4 : forall t, In t a -> ~ In t b) by (intros t A B; eapply nodup_app_disj; [exact Ht|exact A|right; right; auto]).
  assert (Wb : forall pv, (match rev a with [] => nx | p :: _ => p end) = pv -> whole (x_heap y) b = whole (x_heap x) b).
  { intros pv Hp. apply whole_ext. intros t Hin.
    assert (t <> tk) by (intros ->; apply N2; right; auto). assert (t <> nx) by (intros ->; tauto).
    split; [apply (rm_pre _ _ _ _ _ _ _ R); auto|apply (rm_suf _ _ _ _ _ _ _ R); auto].
    destruct (rev a) as [|p r] eqn:Er; auto. intros ->. apply (N4 p); auto. apply in_rev. rewrite Er. left; auto. }
  specialize (Wb _ eq_refl).
  rewrite !whole_app, !whole_cons. rewrite (rm_pre_nx _ _ _ _ _ _ _ R), Wb.
  destruct (rev a) as [|pv r] eqn:Er.
  - apply (f_equal (@rev id)) in Er. rewrite rev_involutive in Er. subst a. cbn [rev app whole flat_map].
    rewrite (rm_suf_pv _ _ _ _ _ _ _ R). rewrite <- !app_assoc.
    permc.
  - apply (f_equal (@rev id)) in Er. rewrite rev_involutive in Er. cbn [rev] in Er. subst a. rewrite !whole_app, !whole_cons.
    change (whole (x_heap x) []) with (@nil id). change (whole (x_heap y) []) with (@nil id). rewrite !app_nil_r.
    assert (pv <> tk) by (intros ->; apply N1; apply in_or_app; right; left; auto).
    assert (pv <> nx) by (intros ->; apply (proj1 N3); apply in_or_app; right; left; auto).
    assert (nx <> tk) by (intros ->; apply N2; left; auto).
    rewrite (rm_suf_pv _ _ _ _ _ _ _ R), (rm_pre _ _ _ _ _ _ _ R pv), (rm_suf _ _ _ _ _ _ _ R nx) by auto.
    assert (Wa : whole (x_heap y) (rev r) = whole (x_heap x) (rev r)).
    { apply whole_ext. intros t Hin.
      assert (t <> tk) by (intros ->; apply N1; apply in_or_app; auto). assert (t <> nx) by (intros ->; apply (proj1 N3); apply in_or_app; auto).
      split; [apply (rm_pre _ _ _ _ _ _ _ R); auto|apply (rm_suf _ _ _ _ _ _ _ R); auto].
      intros ->. rewrite <- app_assoc in Ht. cbn in Ht. destruct (nodup_split _ _ _ Ht). auto. }
    rewrite Wa. rewrite <- !app_assoc. cbn [app]. rewrite <- !app_assoc.
    assert (Q : forall l m n o p q s, Permutation (l ++ m ++ pv :: n ++ o ++ tk :: p ++ q ++ s) (tk :: l ++ m ++ pv :: n ++ p ++ o ++ q ++ s)).
    { clear. intros. permc. }
    apply Q.
Qed.

Lemma removed_wfl : forall E a tk nx b x y, wfl E x -> x_toks x = a ++ tk :: nx :: b ->
  removed a tk nx (match rev a with [] => nx | pv :: _ => pv end) b x y -> wfl E y.
Proof.
  intros E a tk nx b x y W Et R.
  assert (Ht := whole_toks _ _ (wl_nodup _ _ W)). pose proof (removed_whole _ _ _ _ _ _ Et Ht R) as Hp.
  assert (Hty : forall i, n_type (x_heap y i) = n_type (x_heap x i)) by (intros i; apply (rm_text _ _ _ _ _ _ _ R i)).
  assert (Hin : forall t, In t (x_toks y) -> In t (x_toks x) /\ t <> tk).
  { intros t Hi. rewrite (rm_toks _ _ _ _ _ _ _ R) in Hi. rewrite Et in *. destruct (nodup_split _ _ _ Ht) as (N1 & N2). apply in_app_or in Hi. split.
    - apply in_or_app. destruct Hi as [Hi|[->|Hi]]; [left; auto|right; right; left; auto|right; right; right; auto].
    - intros ->. destruct Hi as [Hi|Hi]; auto. }
  constructor.
  - pose proof (Permutation_NoDup Hp (wl_nodup _ _ W)) as K. inv K. auto.
  - destruct (wl_eof _ _ W) as (body & e & E1 & E2 & E3).
    assert (K : exists body', body = a ++ tk :: body' /\ nx :: b = body' ++ [e]).
    { rewrite E1 in Et. clear -Et. revert body Et. induction a as [|u a IH]; intros body Et.
      - destruct body as [|v body]; [discriminate|]. injection Et as <- Et. exists body. auto.
      - destruct body as [|v body]; [injection Et as _ Et; destruct a; discriminate|]. injection Et as <- Et.
        destruct (IH _ Et) as (body' & -> & K). exists body'. auto. }
    destruct K as (body' & -> & K). exists (a ++ body'), e. rewrite (rm_toks _ _ _ _ _ _ _ R), K, app_assoc.
    split; auto. unfold tyof. rewrite Hty. split; auto. rewrite Forall_app in *. destruct E3 as (F1 & F2). inv F2. split; eapply Forall_impl; eauto; intros u Hu; rewrite Hty; auto.
  - intros t d Hi Hd Hdir. destruct (Hin t Hi) as (Hx & Hne). rewrite (isdird_ext (x_heap x)) in Hdir by auto.
    rewrite (rm_parent _ _ _ _ _ _ _ R), Hdir, andb_true_r.
    destruct (existsb (Nat.eqb d) (n_pre (x_heap x tk))) eqn:Ex.
    + apply existsb_exists in Ex. destruct Ex as (d' & Hd' & Ee). apply Nat.eqb_eq in Ee. subst d'.
      destruct (Nat.eq_dec t nx) as [->|Hn]; auto. exfalso.
      rewrite (rm_pre _ _ _ _ _ _ _ R) in Hd by auto.
      assert (Htk : In tk (x_toks x)) by (rewrite Et; apply in_or_app; right; left; auto).
      destruct (whole_disj _ _ tk (wl_nodup _ _ W) Htk) as (_ & _ & _ & _ & D5).
      apply (D5 t d Hx Hne); apply in_or_app; auto.
    + destruct (Nat.eq_dec t nx) as [->|Hn].
      * rewrite (rm_pre_nx _ _ _ _ _ _ _ R) in Hd. apply in_app_or in Hd. destruct Hd as [Hd|Hd]; [|apply (wl_parent _ _ W); auto].
        exfalso. assert (existsb (Nat.eqb d) (n_pre (x_heap x tk)) = true) by (apply existsb_exists; exists d; split; auto; apply Nat.eqb_refl). congruence.
      * rewrite (rm_pre _ _ _ _ _ _ _ R) in Hd by auto. apply (wl_parent _ _ W); auto.
  - intros t Hi. destruct (Hin t Hi) as (Hx & Hne). rewrite (ndirs_ext (x_heap x)) by auto. destruct (Nat.eq_dec t nx) as [->|Hn].
    + rewrite (rm_refs_nx _ _ _ _ _ _ _ R), (rm_pre_nx _ _ _ _ _ _ _ R), (wl_refs _ _ W nx Hx). unfold ndirs. rewrite filter_app, app_length. lia.
    + rewrite (rm_refs _ _ _ _ _ _ _ R), (rm_pre _ _ _ _ _ _ _ R) by auto. apply (wl_refs _ _ W); auto.
Qed.

(** ** Positions *)
Lemma first_column_total : forall h lno fuel a pv b, NoDup (a ++ pv :: b) -> length a < fuel ->
  exists c, first_column fuel (a ++ pv :: b) h lno pv = Some c.
Proof.
  induction fuel as [|fuel IH]; intros a pv b Hd Hl; [lia|]. cbn [first_column]. unfold prev_of.
  rewrite prev_from_split by (apply (nodup_split _ _ _ Hd)). destruct (rev a) as [|t r] eqn:Er; [eauto|].
  destruct (n_lno (h t) =? lno); [|eauto]. apply (f_equal (@rev id)) in Er. rewrite rev_involutive in Er. cbn [rev] in Er. subst a.
  rewrite <- app_assoc in *. cbn [app] in *. apply IH; auto. rewrite app_length in Hl. cbn in Hl. lia.
Qed.

(** Only positions differ. *)
Definition repositioned (h g : heap) (i : id) : Prop := g i = set_pos (n_lno (g i)) (n_cno (g i)) (h i).
Lemma position_suffixes_spec : forall l lno cno h, (forall i, repositioned h (position_suffixes l lno cno h) i) /\
  (forall i, ~ In i l -> position_suffixes l lno cno h i = h i) /\ (forall i, In i l -> n_lno (position_suffixes l lno cno h i) = lno).
Proof.
  induction l as [|s l IH]; intros lno cno h; cbn [position_suffixes].
  - split; [intros i; unfold repositioned; destruct (h i); auto|]. split; auto. intros i [].
  - set (h' := modify h s (set_pos lno cno)). destruct (IH lno (colwidth (n_str (h s)) cno) h') as (I1 & I2 & I3). set (g := position_suffixes l _ _ h') in *. clearbody g.
    assert (Hs : forall i, repositioned h h' i).
    { intros i. unfold repositioned, h'. destruct (Nat.eq_dec i s) as [->|N]; [rewrite mod_eq; auto|rewrite mod_neq by auto; destruct (h i); auto]. }
    split; [|split].
    + intros i. specialize (I1 i). specialize (Hs i). unfold repositioned in *. rewrite I1 at 1. rewrite Hs. auto.
    + intros i Hi. rewrite I2 by (intros K; apply Hi; right; auto). unfold h'. apply mod_neq. intros ->. apply Hi. left; auto.
    + intros i [->|Hi]; auto. destruct (in_dec Nat.eq_dec i l) as [K|K]; auto. rewrite I2 by auto. unfold h'. rewrite mod_eq. auto.
Qed.
Lemma position_after_spec : forall toks after tk h, NoDup toks -> In after toks ->
  exists g, position_after toks after tk h = Some g /\ (forall i, repositioned h g i) /\
    (forall i, i <> tk -> ~ In i (n_suf (h tk)) -> g i = h i) /\
    n_lno (g tk) = n_lno (h after) /\ (forall i, In i (n_suf (h tk)) -> n_lno (g i) = n_lno (h after)).
Proof.
  intros toks after tk h Hd Hin. unfold position_after.
  assert (K : exists c, (if colwidth (n_str (h (last (n_suf (h after)) after))) (n_cno (h (last (n_suf (h after)) after))) =? 1
    then first_column (S (length toks)) toks h (n_lno (h after)) after
    else Some (colwidth (n_str (h (last (n_suf (h after)) after))) (n_cno (h (last (n_suf (h after)) after))))) = Some c).
  { destruct (_ =? 1); [|eauto]. destruct (in_split _ _ Hin) as (a & b & ->). apply first_column_total; auto. rewrite app_length. cbn. lia. }
  destruct K as (c & ->). set (h1 := modify h tk (set_pos (n_lno (h after)) c)).
  assert (T1 : h1 tk = set_pos (n_lno (h after)) c (h tk)) by (apply mod_eq).
  assert (O1 : forall i, i <> tk -> h1 i = h i) by (intros; apply mod_neq; auto).
  destruct (position_suffixes_spec (n_suf (h1 tk)) (n_lno (h after)) (colwidth (n_str (h1 tk)) c) h1) as (P1 & P2 & P3).
  eexists. split; [reflexivity|]. set (g := position_suffixes _ _ _ _) in *. clearbody g.
  assert (Es : n_suf (h1 tk) = n_suf (h tk)) by (rewrite T1; auto). rewrite Es in *.
  split; [|split; [|split]].
  - intros i. specialize (P1 i). unfold repositioned in *. rewrite P1 at 1. destruct (Nat.eq_dec i tk) as [->|N]; [rewrite T1; auto|rewrite O1; auto].
  - intros i A B. rewrite P2, O1; auto.
  - destruct (in_dec Nat.eq_dec tk (n_suf (h tk))) as [K|K]; [apply P3; auto|rewrite P2, T1; auto].
  - auto.
Qed.

(** ** Inserting, copying and moving *)
Lemma insert_after_spec : forall after def x p q, NoDup (x_toks x) -> x_toks x = p ++ after :: q -> (forall t, In t (x_toks x) -> t < x_next x) ->
  exists y, insert_after after def x = Some (x_next x, y) /\ x_toks y = p ++ after :: x_next x :: q /\ x_next y = S (x_next x) /\
    (forall i, i <> x_next x -> x_heap y i = x_heap x i) /\
    n_type (x_heap y (x_next x)) = n_type def /\ n_str (x_heap y (x_next x)) = n_str def /\
    n_pre (x_heap y (x_next x)) = [] /\ n_suf (x_heap y (x_next x)) = [] /\ n_parent (x_heap y (x_next x)) = None /\
    n_lno (x_heap y (x_next x)) = n_lno (x_heap x after) /\ n_refs (x_heap y (x_next x)) = 1 /\
    n_flags (x_heap y (x_next x)) = N.lor (n_flags def) (N.land (n_flags (x_heap x after)) F_DIFF) /\
    x_cur y = x_cur x /\ x_err y = x_err x /\ x_peek y = x_peek x /\ x_log y = x_log x /\ x_bad y = x_bad x.
Proof.
  intros after def x p q Hd Et Hf. assert (Hin : In after (x_toks x)) by (rewrite Et; apply in_or_app; right; left; auto).
  assert (Hne : after <> x_next x) by (apply Hf in Hin; lia).
  unfold insert_after, token_alloc. cbn [x_heap x_toks set_next set_heap].
  set (n0 := Node _ _ _ _ _ _ _ _ _ _ _ _). set (h1 := modify _ (x_next x) _).
  assert (T1 : h1 (x_next x) = set_flags (N.lor (n_flags def) (N.land (n_flags (x_heap x after)) F_DIFF)) n0).
  { unfold h1. rewrite mod_eq, upd_eq, upd_neq by auto. auto. }
  assert (O1 : forall i, i <> x_next x -> h1 i = x_heap x i) by (intros i Hi; unfold h1; rewrite mod_neq, upd_neq by auto; auto).
  destruct (position_after_spec (x_toks x) after (x_next x) h1 Hd Hin) as (g & Eg & G1 & G2 & G3 & G4). rewrite Eg.
  eexists. split; [reflexivity|]. cbn [x_toks x_heap x_next set_toks set_heap set_next x_cur x_err x_peek x_log x_bad].
  assert (Es : n_suf (h1 (x_next x)) = []) by (rewrite T1; auto).
  split; [rewrite Et; apply ins_after_split; rewrite Et in Hd; apply (nodup_split _ _ _ Hd)|]. split; auto.
  split; [intros i Hi; rewrite G2; [auto|auto|rewrite Es; auto]|].
  specialize (G1 (x_next x)). unfold repositioned in G1. rewrite T1 in G1.
  rewrite O1 in G3 by auto. rewrite G3 in G1. rewrite G1. cbn. auto 20.
Qed.

Lemma move_after_spec : forall after tk x p q, NoDup (x_toks x) -> del tk (x_toks x) = p ++ after :: q -> In tk (x_toks x) -> after <> tk ->
  exists y, move_after after tk x = Some y /\ x_toks y = p ++ after :: tk :: q /\
    (forall i, repositioned (x_heap x) (x_heap y) i) /\ (forall i, i <> tk -> ~ In i (n_suf (x_heap x tk)) -> x_heap y i = x_heap x i) /\
    n_lno (x_heap y tk) = n_lno (x_heap x after) /\ x_cur y = x_cur x /\ x_next y = x_next x /\
    x_err y = x_err x /\ x_peek y = x_peek x /\ x_log y = x_log x /\ x_bad y = x_bad x.
Proof.
  intros after tk x p q Hd Et Hin Hne. unfold move_after. cbn [x_heap x_toks set_toks]. rewrite Et.
  assert (Hd' : NoDup (p ++ after :: q)).
  { rewrite <- Et. destruct (in_split _ _ Hin) as (a & b & E). rewrite E in *. rewrite del_split by (apply (nodup_split _ _ _ Hd)). eapply NoDup_remove_1; eauto. }
  destruct (position_after_spec (p ++ after :: q) after tk (x_heap x) Hd') as (g & Eg & G1 & G2 & G3 & G4); [apply in_or_app; right; left; auto|].
  rewrite Eg. eexists. split; [reflexivity|]. cbn [x_toks x_heap x_next set_toks set_heap set_next x_cur x_err x_peek x_log x_bad].
  split; [apply ins_after_split; apply (nodup_split _ _ _ Hd')|]. auto 20.
Qed.

Lemma copy_list_spec : forall l x, (forall t, In t l -> t < x_next x) ->
  let cs := fst (copy_list l x) in let y := snd (copy_list l x) in
  cs = seq (x_next x) (length l) /\ x_next y = x_next x + length l /\ x_toks y = x_toks x /\
  (forall i, i < x_next x -> x_heap y i = x_heap x i) /\
  (forall i, i >= x_next x + length l -> x_heap y i = x_heap x i) /\
  map (fun i => (n_type (x_heap y i), n_flags (x_heap y i), n_str (x_heap y i))) cs = map (fun i => (n_type (x_heap x i), n_flags (x_heap x i), n_str (x_heap x i))) l /\
  x_cur y = x_cur x /\ x_err y = x_err x /\ x_peek y = x_peek x /\ x_log y = x_log x /\ x_bad y = x_bad x.
Proof.
  induction l as [|p l IH]; intros x H; cbn [copy_list].
  - cbn. rewrite Nat.add_0_r. auto 20.
  - unfold token_alloc. cbn [fst snd]. set (x1 := set_next _ _).
    assert (K : forall t, In t l -> t < x_next x1) by (intros t Ht; assert (t < x_next x) by (apply H; right; auto); cbn; lia).
    specialize (IH x1 K). destruct (copy_list l x1) as [cs y] eqn:Ec. cbn [fst snd] in IH. cbv zeta in IH.
    destruct IH as (I1 & I2 & I3 & I4 & I5 & I6 & I7). cbn [fst snd length seq map].
    change (x_next x1) with (S (x_next x)) in *. change (x_toks x1) with (x_toks x) in *.
    split; [rewrite I1; auto|]. split; [lia|]. split; auto. split.
    { intros i Hi. rewrite I4 by lia. cbn. apply upd_neq. lia. }
    split.
    { intros i Hi. rewrite I5 by lia. cbn. apply upd_neq. lia. }
    split; [|exact I7]. rewrite I4 by lia. cbn [x_heap x1 set_next set_heap]. f_equal; [unfold x1; cbn; rewrite upd_eq; auto|]. rewrite I6.
    apply map_ext_in. intros i Hi. unfold x1. cbn. rewrite upd_neq; auto. assert (i < x_next x) by (apply H; right; auto). lia.
Qed.

Definition text_of (h : heap) (i : id) := (n_type (h i), n_flags (h i), n_str (h i)).
Lemma copy_after_spec : forall after src x p q, NoDup (x_toks x) -> x_toks x = p ++ after :: q ->
  (forall t, In t (x_toks x) -> t < x_next x) -> src < x_next x -> (forall t, In t (n_pre (x_heap x src) ++ n_suf (x_heap x src)) -> t < x_next x) ->
  exists y t, copy_after after src x = Some (t, y) /\ x_toks y = p ++ after :: t :: q /\ t >= x_next x /\
    (forall i, i < x_next x -> x_heap y i = x_heap x i) /\
    text_of (x_heap y) t = text_of (x_heap x) src /\
    map (text_of (x_heap y)) (n_pre (x_heap y t)) = map (text_of (x_heap x)) (n_pre (x_heap x src)) /\
    map (text_of (x_heap y)) (n_suf (x_heap y t)) = map (text_of (x_heap x)) (n_suf (x_heap x src)) /\
    (forall i, In i (n_pre (x_heap y t) ++ n_suf (x_heap y t)) -> x_next x <= i < x_next y) /\
    NoDup (t :: n_pre (x_heap y t) ++ n_suf (x_heap y t)) /\ n_lno (x_heap y t) = n_lno (x_heap x after).
Proof.
  intros after src x p q Hd Et Hf Hs Hl. assert (Hin : In after (x_toks x)) by (rewrite Et; apply in_or_app; right; left; auto).
  unfold copy_after, token_alloc. set (x1 := set_next _ _).
  assert (X1 : forall i, i < x_next x -> x_heap x1 i = x_heap x i) by (intros i Hi; unfold x1; cbn; apply upd_neq; lia).
  assert (T1 : text_of (x_heap x1) (x_next x) = text_of (x_heap x) src) by (unfold text_of, x1; cbn; rewrite upd_eq; auto).
  assert (N1 : x_next x1 = S (x_next x)) by reflexivity.
  rewrite X1 by auto.
  assert (Hlp : forall t, In t (n_pre (x_heap x src)) -> t < x_next x) by (intros t Ht; apply Hl; apply in_or_app; auto).
  assert (Hls : forall t, In t (n_suf (x_heap x src)) -> t < x_next x) by (intros t Ht; apply Hl; apply in_or_app; auto).
  pose proof (copy_list_spec (n_pre (x_heap x src)) x1) as C. destruct (copy_list _ x1) as [pre x2]. cbn [fst snd] in C. cbv zeta in C.
  destruct C as (C1 & C2 & C3 & C4 & C5 & C6 & C7); [intros t Ht; apply Hlp in Ht; lia|].
  rewrite C4, X1 by lia.
  pose proof (copy_list_spec (n_suf (x_heap x src)) x2) as D. destruct (copy_list _ x2) as [suf x3]. cbn [fst snd] in D. cbv zeta in D.
  destruct D as (D1 & D2 & D3 & D4 & D5 & D6 & D7); [intros t Ht; apply Hls in Ht; lia|].
  set (h1 := modify (x_heap x3) (x_next x) _).
  assert (Ht3 : x_toks x3 = x_toks x) by (rewrite D3, C3; auto). rewrite Ht3.
  assert (Hk : forall i, i < x_next x -> h1 i = x_heap x i) by (intros i Hi; unfold h1; rewrite mod_neq, D4, C4, X1 by lia; auto).
  assert (Hp1 : n_pre (h1 (x_next x)) = pre) by (unfold h1; rewrite mod_eq; auto).
  assert (Hs1 : n_suf (h1 (x_next x)) = suf) by (unfold h1; rewrite mod_eq; auto).
  assert (Htx : text_of h1 (x_next x) = text_of (x_heap x) src).
  { unfold text_of, h1 in *. rewrite mod_eq. cbn. rewrite D4, C4 by lia. auto. }
  destruct (position_after_spec (x_toks x) after (x_next x) h1 Hd Hin) as (g & Eg & G1 & G2 & G3 & G4). rewrite Eg.
  eexists. exists (x_next x). split; [reflexivity|]. cbn [x_toks x_heap x_next set_toks set_heap].
  assert (R : forall i, text_of g i = text_of h1 i /\ n_pre (g i) = n_pre (h1 i) /\ n_suf (g i) = n_suf (h1 i)).
  { intros i. specialize (G1 i). unfold repositioned in G1. unfold text_of. rewrite G1. auto. }
  assert (Ei : forall i, In i pre -> S (x_next x) <= i < S (x_next x) + length (n_pre (x_heap x src))).
  { intros i Hi. rewrite C1 in Hi. apply in_seq in Hi. lia. }
  assert (Ej : forall i, In i suf -> S (x_next x) + length (n_pre (x_heap x src)) <= i < x_next x3).
  { intros i Hi. rewrite D1 in Hi. apply in_seq in Hi. lia. }
  destruct (R (x_next x)) as (R1 & R2 & R3). rewrite R2, R3, Hp1, Hs1.
  split; [rewrite Et; apply ins_after_split; rewrite Et in Hd; apply (nodup_split _ _ _ Hd)|]. split; auto.
  split; [intros i Hi; rewrite G2; [auto|lia|rewrite Hs1; intros K; apply Ej in K; lia]|].
  split; [congruence|].
  split.
  { rewrite (map_ext (text_of g) (text_of h1)) by (intros i; apply R).
    transitivity (map (text_of (x_heap x2)) pre).
    - apply map_ext_in. intros i Hi. apply Ei in Hi. unfold text_of, h1. rewrite mod_neq, D4 by lia. auto.
    - unfold text_of at 1. rewrite C6. apply map_ext_in. intros i Hi. apply Hlp in Hi. rewrite X1 by auto. auto. }
  split.
  { rewrite (map_ext (text_of g) (text_of h1)) by (intros i; apply R).
    transitivity (map (text_of (x_heap x3)) suf).
    - apply map_ext_in. intros i Hi. apply Ej in Hi. unfold text_of, h1. rewrite mod_neq by lia. auto.
    - unfold text_of at 1. rewrite D6. apply map_ext_in. intros i Hi. apply Hls in Hi. rewrite C4, X1 by lia. auto. }
  split.
  { intros i Hi. apply in_app_or in Hi. destruct Hi as [Hi|Hi]; [apply Ei in Hi|apply Ej in Hi]; lia. }
  split.
  { constructor.
    - intros K. apply in_app_or in K. destruct K as [K|K]; [apply Ei in K|apply Ej in K]; lia.
    - rewrite C1, D1, C2, N1. rewrite <- seq_app. apply seq_NoDup. }
  rewrite G3. rewrite Hk; auto.
Qed.

Lemma land_ldiff : forall a b f, N.land b f = 0%N -> N.land (N.ldiff a b) f = N.land a f.
Proof.
  intros a b f H. apply N.bits_inj. intros n. rewrite !N.land_spec, N.ldiff_spec. assert (Q := f_equal (fun z => N.testbit z n) H). cbn beta in Q. rewrite N.land_spec, N.bits_0 in Q.
  destruct (N.testbit a n), (N.testbit b n), (N.testbit f n); cbn in *; congruence.
Qed.
Lemma move_before_spec : forall E before mv x p q, wfl E x -> del mv (x_toks x) = p ++ before :: q -> In mv (x_toks x) -> before <> mv ->
  exists y, move_before before mv x = Some y /\ x_toks y = p ++ mv :: before :: q /\
    n_pre (x_heap y mv) = n_pre (x_heap x before) ++ n_pre (x_heap x mv) /\ n_pre (x_heap y before) = [] /\
    Permutation (n_suf (x_heap y before) ++ n_suf (x_heap y mv)) (n_suf (x_heap x before) ++ n_suf (x_heap x mv)) /\
    (forall t, t <> before -> t <> mv -> n_pre (x_heap y t) = n_pre (x_heap x t) /\ n_suf (x_heap y t) = n_suf (x_heap x t)) /\
    (forall i, n_type (x_heap y i) = n_type (x_heap x i) /\ n_str (x_heap y i) = n_str (x_heap x i)) /\
    n_lno (x_heap y mv) = n_lno (x_heap x before) /\
    (forall d, n_parent (x_heap y d) = if existsb (Nat.eqb d) (n_pre (x_heap x before)) && isdird (x_heap x) d then Some mv else n_parent (x_heap x d)) /\
    x_cur y = x_cur x /\
    n_suf (x_heap y before) = filter (fun t => negb (kept (if is_first (x_toks x) (x_heap x) mv then F_OPTSPACE else 0%N) (x_heap x) t)) (n_suf (x_heap x mv)) ++ trailing (kept F_OPTLINE (x_heap x)) (n_suf (x_heap x before)) /\
    n_suf (x_heap y mv) = filter (kept (if is_first (x_toks x) (x_heap x) mv then F_OPTSPACE else 0%N) (x_heap x)) (n_suf (x_heap x mv)) ++ leading (kept F_OPTLINE (x_heap x)) (n_suf (x_heap x before)).
Proof.
  intros E before mv x p q W Ed Hin Hne. pose proof (wl_nodup _ _ W) as Hd. assert (Ht := whole_toks _ _ Hd).
  assert (Hib : In before (x_toks x)).
  { destruct (in_split _ _ Hin) as (a & b & E1). rewrite E1 in Ed, Ht. rewrite del_split in Ed by (apply (nodup_split _ _ _ Ht)).
    rewrite E1. assert (K : In before (a ++ b)) by (rewrite Ed; apply in_or_app; right; left; auto).
    apply in_or_app. apply in_app_or in K. destruct K; [left; auto|right; right; auto]. }
  assert (Hnp : ~ In before p).
  { destruct (in_split _ _ Hin) as (a & b & E1). rewrite E1 in Ed, Ht. rewrite del_split in Ed by (apply (nodup_split _ _ _ Ht)).
    apply NoDup_remove_1 in Ht. rewrite Ed in Ht. apply (nodup_split _ _ _ Ht). }
  unfold move_before. cbn [x_toks x_heap set_toks]. set (fl := if is_first _ _ _ then _ else _).
  set (h1 := modify (x_heap x) mv _).
  assert (T1 : h1 mv = set_pos (n_lno (x_heap x before)) (n_cno (x_heap x mv)) (x_heap x mv)) by (unfold h1; rewrite mod_eq; auto).
  assert (O1 : forall i, i <> mv -> h1 i = x_heap x i) by (intros; apply mod_neq; auto).
  assert (B1 : h1 before = x_heap x before) by auto.
  assert (Ty1 : forall i, n_type (h1 i) = n_type (x_heap x i)) by (intros i; destruct (Nat.eq_dec i mv) as [->|N]; [rewrite T1|rewrite O1]; auto).
  assert (Pa1 : forall i, n_parent (h1 i) = n_parent (x_heap x i)) by (intros i; destruct (Nat.eq_dec i mv) as [->|N]; [rewrite T1|rewrite O1]; auto).
  assert (St1 : forall i, n_str (h1 i) = n_str (x_heap x i)) by (intros i; destruct (Nat.eq_dec i mv) as [->|N]; [rewrite T1|rewrite O1]; auto).
  assert (Su1 : forall i, n_suf (h1 i) = n_suf (x_heap x i)) by (intros i; destruct (Nat.eq_dec i mv) as [->|N]; [rewrite T1|rewrite O1]; auto).
  assert (Pr1 : forall i, n_pre (h1 i) = n_pre (x_heap x i)) by (intros i; destruct (Nat.eq_dec i mv) as [->|N]; [rewrite T1|rewrite O1]; auto).
  destruct (whole_disj _ _ _ Hd Hib) as (D1 & D2 & D3 & D4 & D5).
  destruct (whole_disj _ _ _ Hd Hin) as (F1 & F2 & F3 & F4 & F5).
  destruct (move_prefixes_spec before mv h1 Hne) as (h2 & E2 & M).
  { rewrite B1. auto. } { rewrite B1. apply (D3 before Hib). } { rewrite B1. apply (D3 mv Hin). }
  { intros d A B. rewrite B1 in A. rewrite (isdird_ext (x_heap x)) in B by auto. rewrite Pa1. apply (wl_parent _ _ W); auto. }
  { rewrite B1, (ndirs_ext (x_heap x)) by auto. rewrite (wl_refs _ _ W before Hib). lia. }
  rewrite E2.
  assert (S2 : forall i, n_suf (h2 i) = n_suf (x_heap x i)).
  { intros i. destruct (mv_stable _ _ _ _ _ M i) as (_ & _ & _ & _ & _ & _ & _ & ->). auto. }
  unfold swap_suffixes. rewrite !S2.
  rewrite swap_lists_spec.
  2:{ clear -D2 F2 D5 Hin Hne. assert (K : forall d, In d (n_suf (x_heap x before)) -> ~ In d (n_suf (x_heap x mv))).
      { intros d A B. apply (D5 mv d Hin); auto; apply in_or_app; auto. }
      clear -D2 F2 K. induction (n_suf (x_heap x before)) as [|s l IH]; auto. inv D2. cbn. constructor.
      - intros Q. apply in_app_or in Q. destruct Q as [Q|Q]; auto. apply (K s); [left; auto|auto].
      - apply IH; auto. intros d A. apply K. right; auto. }
  eexists. split; [reflexivity|]. cbn [x_toks x_heap x_cur set_heap set_toks].
  split; [rewrite Ed; apply ins_before_split; auto|].
  set (la := filter _ _ ++ _). set (lb := filter _ _ ++ leading _ _).
  assert (Hy : forall (A : Type) (f : node -> A), (forall n l, f (set_suf l n) = f n) -> forall i, f (modify (modify h2 before (set_suf la)) mv (set_suf lb) i) = f (h2 i)).
  { intros A f Hf i. destruct (Nat.eq_dec i mv) as [->|N1]; [rewrite mod_eq, Hf, mod_neq by auto; auto|]. rewrite mod_neq by auto.
    destruct (Nat.eq_dec i before) as [->|N2]; [rewrite mod_eq, Hf; auto|rewrite mod_neq; auto]. }
  split; [rewrite (Hy _ n_pre) by auto; rewrite (mv_dst _ _ _ _ _ M), !Pr1; auto|].
  split.
  { rewrite (Hy _ n_pre) by auto. pose proof (mv_src _ _ _ _ _ M) as K. apply (f_equal (@length id)) in K. rewrite app_length in K. destruct (n_pre (h2 before)); auto. cbn in K. lia. }
  split.
  { rewrite mod_eq, (mod_neq _ mv) by auto. rewrite mod_eq. cbn [n_suf set_suf]. unfold la, lb.
    rewrite <- (leading_trailing (kept F_OPTLINE h2) (n_suf (x_heap x before))) at 3.
    assert (P : forall (f : id -> bool) l, Permutation (filter (fun t => negb (f t)) l ++ filter f l) l).
    { intros f. induction l as [|z l IH]; cbn [filter app]; auto. destruct (f z); cbn [negb app].
      - symmetry. etransitivity; [|apply Permutation_middle]. apply perm_skip. symmetry. auto.
      - apply perm_skip. auto. }
    pose proof (P (kept fl h2) (n_suf (x_heap x mv))) as Q. rewrite <- Q at 3. permc. }
  split.
  { intros t A B. rewrite (Hy _ n_pre) by auto. rewrite (mv_pre _ _ _ _ _ M), Pr1 by auto. split; auto. rewrite !mod_neq by auto. auto. }
  split.
  { intros i. rewrite (Hy _ n_type), (Hy _ n_str) by auto. destruct (mv_stable _ _ _ _ _ M i) as (-> & _ & _ & -> & _). auto. }
  split.
  { rewrite (Hy _ n_lno) by auto. destruct (mv_stable _ _ _ _ _ M mv) as (_ & -> & _). rewrite T1. auto. }
  split; [|split; [reflexivity|]].
  2:{ rewrite mod_eq, (mod_neq _ mv), mod_eq by auto. cbn [n_suf set_suf]. unfold la, lb.
      assert (K : forall f i, N.land F_BRANCH f = 0%N -> kept f h2 i = kept f (x_heap x) i).
      { intros f i Hf. unfold kept. f_equal. f_equal. transitivity (N.land (N.ldiff (n_flags (h2 i)) F_BRANCH) f); [|transitivity (N.land (N.ldiff (n_flags (x_heap x i)) F_BRANCH) f)].
        - symmetry. apply land_ldiff. exact Hf.
        - f_equal. pose proof (mv_other _ _ _ _ _ M i) as Q. unfold same_flags_but_branch in Q. rewrite Q. destruct (Nat.eq_dec i mv) as [->|N]; [rewrite T1|rewrite O1]; auto.
        - apply land_ldiff. exact Hf. }
      assert (F0 : N.land F_BRANCH fl = 0%N) by (unfold fl; destruct (is_first _ _ _); reflexivity). assert (F1' : N.land F_BRANCH F_OPTLINE = 0%N) by reflexivity. fold fl.
      set (f0 := fl) in *. clearbody f0.
      assert (L : forall l, leading (kept F_OPTLINE h2) l = leading (kept F_OPTLINE (x_heap x)) l /\ trailing (kept F_OPTLINE h2) l = trailing (kept F_OPTLINE (x_heap x)) l).
      { induction l as [|i l [I1 I2]]; [split; reflexivity|]. cbn [leading trailing]. rewrite K, I1, I2 by exact F1'. split; reflexivity. }
      destruct (L (n_suf (x_heap x before))) as [-> ->].
      rewrite (filter_ext (kept f0 h2) (kept f0 (x_heap x))) by (intros i; apply K; exact F0).
      rewrite (filter_ext (fun t => negb (kept f0 h2 t)) (fun t => negb (kept f0 (x_heap x) t))) by (intros i; rewrite K by exact F0; reflexivity).
      split; reflexivity. }
  intros d. rewrite (Hy _ n_parent) by auto. rewrite (mv_parent _ _ _ _ _ M), Pr1, Pa1, (isdird_ext (x_heap x)) by auto. auto.
Qed.
