(** The order of directives, ranges of tokens, and the steps of taking and folding branches. *)
From Coq Require Import Permutation.
From Verif Require Import Base TokenModel StreamModel StreamProofs TokListModel TokListProofs BranchModel BranchProofs LifeProofs RecoverModel RecoverProofs.

(** ** Order *)
Definition pres (x : lex) : list id := flat_map (fun t => n_pre (x_heap x t)) (x_toks x).
Definition before (l : list id) (d e : id) : Prop := exists a b c, l = a ++ d :: b ++ e :: c.
(** The next directive of a conditional is further down in the file. *)
Definition ordered (x : lex) : Prop := forall d e, In d (pres x) -> isdird (x_heap x) d = true -> n_nx (x_heap x d) = Some e -> before (pres x) d e.

Inductive subl : list id -> list id -> Prop :=
| su_nil : subl [] []
| su_keep : forall a l m, subl l m -> subl (a :: l) (a :: m)
| su_drop : forall a l m, subl l m -> subl l (a :: m).
Lemma subl_refl : forall l, subl l l.
Proof. induction l; constructor; auto. Qed.
Lemma subl_in : forall l m, subl l m -> forall d, In d l -> In d m.
Proof. intros l m S. induction S; intros d K; cbn in *; auto. destruct K; auto. Qed.
Lemma subl_app : forall a b c d, subl a b -> subl c d -> subl (a ++ c) (b ++ d).
Proof. intros a b c d S T. induction S; cbn; auto; constructor; auto. Qed.
Lemma subl_nil : forall l, subl [] l.
Proof. induction l; constructor; auto. Qed.
Lemma before_in : forall l d e, before l d e -> In d l /\ In e l.
Proof. intros l d e (a & b & c & ->). split; apply in_or_app; right; [left; auto|right; apply in_or_app; right; left; auto]. Qed.
Lemma before_cons : forall a l d e, before (a :: l) d e <-> (a = d /\ In e l) \/ before l d e.
Proof.
  intros a l d e. split.
  - intros (u & v & w & E). destruct u as [|u0 u]; cbn in E; injection E as -> ->; [left; split; auto; apply in_or_app; right; left; auto|right; exists u, v, w; auto].
  - intros [(-> & K)|(u & v & w & ->)]; [|exists (a :: u), v, w; auto]. apply in_split in K. destruct K as (v & w & ->). exists [], v, w. auto.
Qed.
Lemma before_subl : forall l m, subl l m -> forall d e, NoDup m -> before m d e -> In d l -> In e l -> before l d e.
Proof.
  intros l m S. induction S; intros d e N B D E; [destruct D| |]; apply NoDup_cons_iff in N; destruct N as (N1 & N2); apply before_cons in B.
  - apply before_cons. destruct B as [(-> & B)|B].
    + left. split; auto. destruct E as [->|E]; [contradiction|auto].
    + destruct (before_in _ _ _ B) as (B1 & B2). right. apply IHS; auto; [destruct D as [->|D]|destruct E as [->|E]]; auto; contradiction.
  - destruct B as [(-> & B)|B]; [|auto]. exfalso. apply N1. eapply subl_in; eauto.
Qed.
Lemma before_trans : forall l d e f, NoDup l -> before l d e -> before l e f -> before l d f.
Proof.
  induction l as [|a l IH]; intros d e f N B C; [destruct B as ([|] & ? & ? & ?); discriminate|]. apply NoDup_cons_iff in N. destruct N as (N1 & N2).
  apply before_cons in B. apply before_cons in C. apply before_cons. destruct C as [(-> & C)|C].
  - destruct B as [(-> & B)|B]; [contradiction|]. apply before_in in B. destruct B; contradiction.
  - destruct B as [(-> & B)|B]; [left; split; auto; apply before_in in C; tauto|right; eauto].
Qed.
Lemma before_insert : forall u w v d e, before (u ++ v) d e -> before (u ++ w ++ v) d e.
Proof.
  intros u w v d e (a & b & c & E). assert (X : forall l m n : list id, l ++ m = n -> True) by auto. clear X. revert a E. induction u as [|k u IH]; intros a E; cbn in *.
  - subst v. exists (w ++ a), b, c. rewrite <- app_assoc. auto.
  - destruct a as [|a0 a]; cbn in E; injection E as -> E.
    + apply before_cons. left. split; auto. assert (K : In e (u ++ v)) by (rewrite E; apply in_or_app; right; left; auto). apply in_app_or in K. apply in_or_app. destruct K; auto. right. apply in_or_app; auto.
    + apply before_cons. right. eauto.
Qed.

Lemma pres_in : forall x d, In d (pres x) <-> exists t, In t (x_toks x) /\ In d (n_pre (x_heap x t)).
Proof. intros x d. apply in_flat_map. Qed.
Lemma pres_nodup : forall x s cs, life x s cs -> NoDup (pres x).
Proof. intros x s cs L. apply prefs_nodup. apply (wl_nodup _ _ (li_wfl _ _ _ L)). Qed.
Lemma seg_next : forall h c pv nx d e, seg h pv c nx -> In d c -> n_nx (h d) = Some e -> In e c \/ nx = Some e.
Proof.
  induction c as [|k c IH]; intros pv nx d e S K N; [destruct K|]. destruct S as (_ & S2 & S3). destruct K as [->|K].
  - rewrite N in S2. destruct c as [|f c]; cbn in S2; [right; auto|injection S2 as ->; left; right; left; auto].
  - destruct (IH _ _ _ _ S3 K N); auto. left. right. auto.
Qed.
Lemma dir_next_in : forall x s cs d e, life x s cs -> In d (pres x) -> isdird (x_heap x) d = true -> n_nx (x_heap x d) = Some e -> In e (pres x) /\ isdird (x_heap x) e = true.
Proof.
  intros x s cs d e L D I N. assert (K : In d (concat cs)) by (apply (ch_dirs _ _ _ (li_chain _ _ _ L)); split; auto; apply pres_in; auto).
  apply in_concat in K. destruct K as (c & C1 & C2). destruct (ch_each _ _ _ (li_chain _ _ _ L) c C1) as (_ & S).
  assert (K : In e (concat cs)) by (apply in_concat; exists c; split; auto; destruct (seg_next _ _ _ _ _ _ S C2 N); auto; discriminate).
  apply (ch_dirs _ _ _ (li_chain _ _ _ L)) in K. rewrite pres_in. tauto.
Qed.
Lemma path_before : forall x s cs, life x s cs -> ordered x -> forall d e, path (x_heap x) d e -> In d (pres x) -> isdird (x_heap x) d = true -> before (pres x) d e.
Proof.
  intros x s cs L O d e P. induction P as [a b E|a b c E P IH]; intros D I; [apply O; auto|].
  destruct (dir_next_in _ _ _ _ _ L D I E). eapply before_trans; [eapply pres_nodup; eauto|apply O; eauto|auto].
Qed.
(** Removing prefixes, and inserting others than directives, keeps the order. *)
Lemma ordered_sub : forall x s cs y s' cs' u w v, life x s cs -> life y s' cs' -> ordered x -> softs (x_heap x) (x_heap y) -> pres y = u ++ w ++ v -> subl (u ++ v) (pres x) ->
  (forall d, In d w -> isdird (x_heap y) d = false) -> ordered y.
Proof.
  intros x s cs y s' cs' u w v L L' O S E Sb Hw d e D I N. destruct (dir_next_in _ _ _ _ _ L' D I N) as (De & Ie).
  assert (X : forall k, In k (pres y) -> isdird (x_heap y) k = true -> In k (u ++ v)).
  { intros k K1 K2. rewrite E in K1. apply in_app_or in K1. apply in_or_app. destruct K1 as [K1|K1]; auto. apply in_app_or in K1. destruct K1 as [K1|K1]; auto. rewrite Hw in K2 by auto. discriminate. }
  rewrite E. apply before_insert. apply (before_subl _ _ Sb); auto; [eapply pres_nodup; eauto|]. apply (path_before x s cs); auto.
  - apply (so_path _ _ _ (S d)); auto.
  - eapply subl_in; eauto.
  - apply (so_dir _ _ _ (S d)); auto.
Qed.
Lemma ordered_less : forall x s cs y s' cs', life x s cs -> life y s' cs' -> ordered x -> softs (x_heap x) (x_heap y) -> subl (pres y) (pres x) -> ordered y.
Proof. intros. apply (ordered_sub x s cs y s' cs' (pres y) [] []); auto; cbn; rewrite ?app_nil_r; auto. intros d []. Qed.
(** A directive and the next one in front of another token. *)
Lemma ordered_toks : forall x s cs d e src dst, life x s cs -> ordered x -> In d (pres x) -> isdird (x_heap x) d = true -> n_nx (x_heap x d) = Some e ->
  n_parent (x_heap x d) = Some src -> n_parent (x_heap x e) = Some dst -> src <> dst ->
  In d (n_pre (x_heap x src)) /\ In e (n_pre (x_heap x dst)) /\ exists A M C, x_toks x = A ++ src :: M ++ dst :: C.
Proof.
  intros x s cs d e src dst L O D I N Ps Pd Ne. destruct (dir_next_in _ _ _ _ _ L D I N) as (De & Ie). pose proof (O d e D I N) as B.
  apply pres_in in D. destruct D as (t & T1 & T2). rewrite (wl_parent _ _ (li_wfl _ _ _ L) t d T1 T2 I) in Ps. injection Ps as ->.
  apply pres_in in De. destruct De as (t & U1 & U2). rewrite (wl_parent _ _ (li_wfl _ _ _ L) t e U1 U2 Ie) in Pd. injection Pd as ->.
  split; auto. split; auto. pose proof (wl_nodup _ _ (li_wfl _ _ _ L)) as Nw. pose proof (pres_nodup _ _ _ L) as Np.
  destruct (nodup_mid _ _ _ T1 U1 Ne) as [(A & M & C & E)|(A & M & C & E)]; [eauto|exfalso].
  unfold pres in B, Np. rewrite E in B, Np. rewrite flat_map_app in B, Np. cbn [flat_map] in B, Np. rewrite flat_map_app in B, Np. cbn [flat_map] in B, Np.
  apply in_split in T2. destruct T2 as (p1 & p2 & Q1). apply in_split in U2. destruct U2 as (q1 & q2 & Q2). rewrite Q1, Q2 in B, Np.
  assert (Be : before (flat_map (fun t => n_pre (x_heap x t)) A ++ (q1 ++ e :: q2) ++ flat_map (fun t => n_pre (x_heap x t)) M ++ (p1 ++ d :: p2) ++ flat_map (fun t => n_pre (x_heap x t)) C) e d).
  { exists (flat_map (fun t => n_pre (x_heap x t)) A ++ q1), (q2 ++ flat_map (fun t => n_pre (x_heap x t)) M ++ p1), (p2 ++ flat_map (fun t => n_pre (x_heap x t)) C).
    repeat (rewrite <- ?app_assoc; cbn [app]). auto. }
  pose proof (before_trans _ _ _ _ Np Be B) as (a & b & c & Z). rewrite Z in Np. apply nodup_split in Np. destruct Np as (_ & Np). apply Np. apply in_or_app; right; left; auto.
Qed.

(** ** Ranges of tokens *)
Definition pres_of (x : lex) (l : list id) : list id := flat_map (fun t => n_pre (x_heap x t)) l.
Lemma pres_of_app : forall x a b, pres_of x (a ++ b) = pres_of x a ++ pres_of x b.
Proof. intros. apply flat_map_app. Qed.
Lemma around_pres : forall x y l, same_around x y l -> pres_of y l = pres_of x l.
Proof.
  intros x y l. induction l as [|t l IH]; intros H; auto. unfold pres_of in *. cbn. rewrite IH by (intros u U; apply H; right; auto). destruct (H t (or_introl eq_refl)) as (-> & _). auto.
Qed.
Lemma around_trans : forall x y z l m, same_around x y l -> same_around y z m -> incl m l -> same_around x z m.
Proof. intros x y z l m A B I t T. destruct (B t T) as (-> & ->). apply A. auto. Qed.

Definition in_range (c : option id) (l : list id) : bool := existsb (fun m => ideqb c (Some m)) l.
Lemma remove_until_full : forall M x s cs A src dst C fuel, life x s cs -> x_toks x = A ++ src :: M ++ dst :: C -> fuel > length M ->
  exists y cs', remove_until fuel src dst x = Some y /\ life y s cs' /\ x_toks y = A ++ dst :: C /\ softs (x_heap x) (x_heap y) /\ same_around x y (A ++ dst :: C) /\
    x_cur y = (if in_range (x_cur x) (src :: M) then hd_error (rev A) else x_cur x) /\ x_next y = x_next x.
Proof.
  induction M as [|m M IH]; intros x s cs A src dst C fuel L Et Hf; (destruct fuel as [|fuel]; [cbn in Hf; lia|]); cbn [remove_until]; rewrite Et; cbn [app] in *.
  - assert (Nt := whole_toks _ _ (wl_nodup _ _ (li_wfl _ _ _ L))). rewrite Et in Nt. destruct (nodup_split _ _ _ Nt) as (N1 & _). rewrite next_split by auto. cbn [hd_error].
    destruct (remove_token_full x s cs A src dst C L Et) as (y & cs' & E & L' & Ty & S & Ar & Cu & Nx). rewrite E, Nat.eqb_refl. exists y, cs'. unfold in_range. cbn [existsb]. rewrite orb_false_r. auto 10.
  - assert (Nt := whole_toks _ _ (wl_nodup _ _ (li_wfl _ _ _ L))). rewrite Et in Nt. destruct (nodup_split _ _ _ Nt) as (N1 & N2). rewrite next_split by auto. cbn [hd_error].
    destruct (remove_token_full x s cs A src m (M ++ dst :: C) L Et) as (y & cs' & E & L' & Ty & S & Ar & Cu & Nx). rewrite E.
    destruct (Nat.eqb_spec m dst) as [->|Nm].
    { exfalso. apply NoDup_remove_1 in Nt. apply nodup_split in Nt. destruct Nt as (_ & Nt). apply Nt. apply in_or_app; right; left; auto. }
    destruct (IH y s cs' A m dst C fuel L' Ty) as (z & cs2 & E2 & L2 & Tz & S2 & Ar2 & Cu2 & Nx2); [cbn in Hf; lia|]. exists z, cs2. split; auto. split; auto. split; auto.
    split; [eapply softs_trans; eauto|]. split; [eapply around_trans; eauto; intros t T; apply in_app_or in T; apply in_or_app; destruct T as [T|T]; auto; right; right; apply in_or_app; auto|]. split; [|congruence].
    rewrite Cu2, Cu. unfold in_range. cbn [existsb]. destruct (ideqb (x_cur x) (Some src)) eqn:Es; cbn [orb]; auto.
    destruct (ideqb (hd_error (rev A)) (Some m) || existsb (fun k => ideqb (hd_error (rev A)) (Some k)) M); auto.
Qed.
Lemma remove_covered_full : forall M x s cs A src dst C fuel, life x s cs -> x_toks x = A ++ src :: M ++ dst :: C -> fuel > length M ->
  exists y cs', remove_covered fuel src dst x = Some y /\ life y s cs' /\ x_toks y = A ++ dst :: C /\ softs (x_heap x) (x_heap y) /\ same_around x y (A ++ dst :: C) /\
    x_cur y = (if in_range (x_cur x) (src :: M) then hd_error (rev A) else x_cur x) /\ x_next y = x_next x.
Proof.
  induction M as [|m M IH]; intros x s cs A src dst C fuel L Et Hf; (destruct fuel as [|fuel]; [cbn in Hf; lia|]); cbn [remove_covered]; rewrite Et; cbn [app] in *.
  - assert (Nt := whole_toks _ _ (wl_nodup _ _ (li_wfl _ _ _ L))). rewrite Et in Nt. destruct (nodup_split _ _ _ Nt) as (N1 & N2). rewrite next_split by auto. cbn [hd_error].
    destruct (Nat.eqb_spec src dst) as [->|Nsd]; [exfalso; apply N2; left; auto|].
    destruct (remove_token_full x s cs A src dst C L Et) as (y & cs' & E & L' & Ty & S & Ar & Cu & Nx). rewrite E. unfold is_dangling. rewrite Et.
    rewrite (proj2 (existsb_exists _ _)) by (exists src; rewrite Nat.eqb_refl; split; auto; apply in_or_app; right; left; auto). cbn [negb].
    assert (Z : remove_covered fuel dst dst y = Some y) by (destruct fuel; cbn; rewrite Nat.eqb_refl; auto). rewrite Z.
    exists y, cs'. unfold in_range. cbn [existsb]. rewrite orb_false_r. auto 10.
  - assert (Nt := whole_toks _ _ (wl_nodup _ _ (li_wfl _ _ _ L))). rewrite Et in Nt. destruct (nodup_split _ _ _ Nt) as (N1 & N2). rewrite next_split by auto. cbn [hd_error].
    destruct (Nat.eqb_spec src dst) as [->|Nsd]; [exfalso; apply N2; right; apply in_or_app; right; left; auto|].
    destruct (remove_token_full x s cs A src m (M ++ dst :: C) L Et) as (y & cs' & E & L' & Ty & S & Ar & Cu & Nx). rewrite E. unfold is_dangling. rewrite Et.
    rewrite (proj2 (existsb_exists _ _)) by (exists src; rewrite Nat.eqb_refl; split; auto; apply in_or_app; right; left; auto). cbn [negb].
    destruct (IH y s cs' A m dst C fuel L' Ty) as (z & cs2 & E2 & L2 & Tz & S2 & Ar2 & Cu2 & Nx2); [cbn in Hf; lia|]. exists z, cs2. split; auto. split; auto. split; auto.
    split; [eapply softs_trans; eauto|]. split; [eapply around_trans; eauto; intros t T; apply in_app_or in T; apply in_or_app; destruct T as [T|T]; auto; right; right; apply in_or_app; auto|]. split; [|congruence].
    rewrite Cu2, Cu. unfold in_range. cbn [existsb]. destruct (ideqb (x_cur x) (Some src)) eqn:Es; cbn [orb]; auto.
    destruct (ideqb (hd_error (rev A)) (Some m) || existsb (fun k => ideqb (hd_error (rev A)) (Some k)) M); auto.
Qed.

(** ** Adding a prefix *)
Definition bounded (x : lex) (s : list id) : Prop := forall i, In i (whole (x_heap x) (x_toks x)) \/ In i s -> i < x_next x.
Lemma life_ext : forall x y s cs, x_toks y = x_toks x -> (forall i, In i (whole (x_heap x) (x_toks x)) \/ In i s -> x_heap y i = x_heap x i) -> life x s cs -> life y s cs.
Proof.
  intros x y s cs Et Eh [L1 L2 L3 L4 L5]. set (h := x_heap x) in *. set (g := x_heap y) in *.
  assert (Ht : forall t, In t (x_toks x) -> g t = h t) by (intros t T; apply Eh; left; apply whole_in; auto).
  assert (Hp : forall t p, In t (x_toks x) -> In p (n_pre (h t) ++ n_suf (h t)) -> g p = h p).
  { intros t p T P. apply Eh. left. apply in_app_or in P. destruct P; [eapply whole_pre; eauto|eapply whole_suf; eauto]. }
  assert (Wh : whole g (x_toks x) = whole h (x_toks x)) by (apply whole_ext; intros t T; rewrite Ht; auto).
  destruct L1 as [W1 W2 W3 W4]. fold h in W1, W2, W3, W4. constructor; rewrite ?Et; fold g.
  - constructor; rewrite ?Et; fold g.
    + rewrite Wh. auto.
    + destruct W2 as (body & e & B1 & B2 & B3). exists body, e. split; auto. unfold tyof in *. fold h in B2, B3. fold g. rewrite Forall_forall in *. split; [rewrite Ht; auto; rewrite B1; apply in_or_app; right; left; auto|].
      intros t T. rewrite Ht; auto. rewrite B1. apply in_or_app; auto.
    + intros t d T D I. rewrite Ht in D by auto. unfold isdird in *. rewrite (Hp t d) in * by (auto; apply in_or_app; auto). apply W3; auto.
    + intros t T. rewrite Ht by auto. rewrite W4 by auto. rewrite (ndirs_same h g); auto. intros d D. unfold isdird. rewrite (Hp t d); auto. apply in_or_app; auto.
  - destruct L2 as [C1 C2 C3].
    assert (Cg : forall d, In d (concat cs) -> g d = h d) by (intros d D; apply C2 in D; destruct D as ((t & T1 & T2) & _); apply (Hp t); auto; apply in_or_app; auto).
    constructor; auto.
    + intros d. rewrite C2. split; intros ((t & T1 & T2) & T3).
      * split; [exists t; rewrite Ht; auto|]. unfold isdird in *. rewrite (Hp t d); auto. apply in_or_app; auto.
      * rewrite Ht in T2 by auto. split; [exists t; auto|]. unfold isdird in *. rewrite (Hp t d) in T3; auto. apply in_or_app; auto.
    + intros c Hc. destruct (C3 c Hc) as (S1 & S2). assert (X : forall d, In d c -> g d = h d) by (intros d D; apply Cg; apply in_concat; eauto).
      split; [eapply shaped_ext; [|exact S1]; intros d D; rewrite X; auto|]. eapply seg_ext; [|exact S2]. intros d D. rewrite X; auto.
  - intros t p T P. rewrite Ht in P by auto. rewrite (Hp t p) by auto. apply (L3 t); auto.
  - intros t T N. destruct (L4 t T N) as (D1 & D2 & D3 & D4). unfold dangling. rewrite Et. fold h in D1. rewrite Wh, Eh by auto. auto.
  - intros t p T P. rewrite Ht in P by auto. unfold isdird. rewrite (Hp t p) by (auto; apply in_or_app; auto). apply (L5 t); auto.
Qed.
Lemma insert_life : forall x s cs dst p, life x s cs -> In dst (x_toks x) -> ~ In p (whole (x_heap x) (x_toks x)) -> ~ In p s ->
  n_refs (x_heap x p) = 1 -> n_pre (x_heap x p) = [] -> n_suf (x_heap x p) = [] -> isdird (x_heap x) p = false ->
  life (set_heap (modify (x_heap x) dst (fun n => set_pre (p :: n_pre n) n)) x) s cs.
Proof.
  intros x s cs dst p [L1 L2 L3 L4 L5] Hd Np Ns R1 R2 R3 R4. set (h := x_heap x) in *. set (g := modify h dst _).
  assert (Gd : g dst = set_pre (p :: n_pre (h dst)) (h dst)) by (unfold g; rewrite mod_eq; auto). assert (Go : forall i, i <> dst -> g i = h i) by (intros; unfold g; rewrite mod_neq; auto).
  assert (Gt : forall i, n_type (g i) = n_type (h i) /\ n_pv (g i) = n_pv (h i) /\ n_nx (g i) = n_nx (h i) /\ n_parent (g i) = n_parent (h i) /\ n_refs (g i) = n_refs (h i) /\ n_suf (g i) = n_suf (h i)).
  { intros i. destruct (Nat.eq_dec i dst) as [->|K]; [rewrite Gd; auto 10|rewrite Go; auto 10]. }
  assert (Isd : forall i, isdird g i = isdird h i) by (intros i; unfold isdird; destruct (Gt i) as (-> & _); auto).
  assert (Gp : forall t q, In q (n_pre (g t)) -> (q = p /\ t = dst) \/ In q (n_pre (h t))).
  { intros t q Q. destruct (Nat.eq_dec t dst) as [->|K]; [rewrite Gd in Q; destruct Q as [<-|Q]; auto|rewrite Go in Q; auto]. }
  assert (Gq : forall t q, In q (n_pre (h t)) -> In q (n_pre (g t))).
  { intros t q Q. destruct (Nat.eq_dec t dst) as [->|K]; [rewrite Gd; right; auto|rewrite Go; auto]. }
  assert (Pt : ~ In p (x_toks x)) by (intros K; apply Np; apply whole_in; auto).
  assert (Pm : Permutation (p :: whole h (x_toks x)) (whole g (x_toks x))).
  { assert (Nt := whole_toks _ _ (wl_nodup _ _ L1)). apply in_split in Hd. destruct Hd as (a & b & E). rewrite E in *. destruct (nodup_split _ _ _ Nt) as (N1 & N2).
    rewrite !whole_split, Gd. cbn [n_pre n_suf set_pre]. rewrite (whole_ext h g a), (whole_ext h g b) by (intros t T; rewrite Go by (intros ->; auto); auto).
    cbn [app]. apply Permutation_cons_app. auto. }
  destruct L1 as [W1 W2 W3 W4]. fold h in W1, W2, W3, W4. constructor; cbn [x_toks x_heap set_heap].
  - constructor; cbn [x_toks x_heap set_heap].
    + eapply Permutation_NoDup; [exact Pm|]. constructor; auto.
    + destruct W2 as (body & e & B1 & B2 & B3). exists body, e. unfold tyof in *. cbn [x_heap set_heap]. destruct (Gt e) as (-> & _). split; auto. split; auto. eapply Forall_impl; [|exact B3]. intros t K. cbn beta. destruct (Gt t) as (-> & _). auto.
    + intros t d T D I. rewrite Isd in I. destruct (Gt d) as (_ & _ & _ & -> & _). destruct (Gp t d D) as [(-> & _)|K]; [congruence|auto].
    + intros t T. destruct (Gt t) as (_ & _ & _ & _ & -> & _). rewrite W4 by auto. rewrite (ndirs_same h g) by auto. destruct (Nat.eq_dec t dst) as [->|K]; [|rewrite Go; auto].
      rewrite Gd. unfold ndirs. cbn [n_pre set_pre filter]. rewrite R4. auto.
  - destruct L2 as [C1 C2 C3]. constructor; auto.
    + intros d. rewrite C2, Isd. split; intros ((t & T1 & T2) & T3); (split; [|auto]); [exists t; auto|]. destruct (Gp t d T2) as [(-> & _)|K]; [congruence|eauto].
    + intros c Hc. destruct (C3 c Hc) as (S1 & S2). split; [eapply shaped_ext; [|exact S1]; intros d _; apply Gt|]. eapply seg_ext; [|exact S2]. intros d _. destruct (Gt d) as (_ & ? & ? & _). auto.
  - intros t q T Q. destruct (Gt t) as (_ & _ & _ & _ & _ & Sf). rewrite Sf in Q. destruct (Gt q) as (_ & _ & _ & _ & Rq & Sq).
    assert (X : q = p \/ In q (n_pre (h t) ++ n_suf (h t))).
    { apply in_app_or in Q. destruct Q as [Q|Q]; [|right; apply in_or_app; auto]. destruct (Gp t q Q) as [(-> & _)|K]; auto. right. apply in_or_app; auto. }
    assert (Y : q <> dst).
    { intros ->. destruct X as [->|X]; [auto|]. destruct (whole_disj h (x_toks x) t W1 T) as (_ & _ & Z & _). destruct (Z dst Hd). apply in_app_or in X. tauto. }
    rewrite Rq, Sq, Go by auto. destruct X as [->|X]; auto. apply (L3 t); auto.
  - intros t T N. destruct (L4 t T N) as (D1 & D2 & D3 & D4). unfold dangling. cbn [x_toks set_heap]. fold h in D1. rewrite Go by (intros ->; auto). split; auto. intros K. apply (Permutation_in _ (Permutation_sym Pm)) in K.
    destruct K as [->|K]; auto.
  - intros t q T Q. rewrite Isd. destruct (Gt t) as (_ & _ & _ & _ & _ & Sf). rewrite Sf in Q. eauto.
Qed.

Lemma prev_split : forall (a : list id) d r, ~ In d a -> prev_of (a ++ d :: r) d = hd_error (rev a).
Proof.
  intros a d r. unfold prev_of. assert (X : forall a p, ~ In d a -> prev_from p (a ++ d :: r) d = match rev a with [] => p | q :: _ => Some q end).
  { intros l. induction l as [|k l IH]; intros p N; cbn [app prev_from].
    - rewrite Nat.eqb_refl. auto.
    - destruct (Nat.eqb_spec k d) as [->|K]; [exfalso; apply N; left; auto|]. rewrite IH by (intros J; apply N; right; auto). cbn [rev]. destruct (rev l); auto. }
  intros N. rewrite X by auto. destruct (rev a); auto.
Qed.
Lemma keep_before_full : forall P1 x s cs src dst R fuel, life x s cs -> In src (x_toks x) -> In dst (x_toks x) -> src <> dst -> n_pre (x_heap x src) = P1 ++ R -> fuel >= length P1 ->
  exists g, keep_before fuel (hd_error (rev P1)) src dst (x_heap x) = Some g /\ life (set_heap g x) s cs /\ softs (x_heap x) g /\
    n_pre (g src) = R /\ n_pre (g dst) = P1 ++ n_pre (x_heap x dst) /\ (forall i, i <> src -> i <> dst -> n_pre (g i) = n_pre (x_heap x i)) /\ (forall i, n_suf (g i) = n_suf (x_heap x i)).
Proof.
  induction P1 as [|p P1 IH] using rev_ind; intros x s cs src dst R fuel L Hs Hd Nsd Ep Hf.
  - exists (x_heap x). rewrite set_heap_id. destruct fuel; (split; auto; split; auto; split; [apply softs_refl|auto]).
  - rewrite rev_app_distr. cbn [rev app hd_error]. rewrite app_length in Hf. cbn in Hf. destruct fuel as [|fuel]; [lia|]. cbn [keep_before].
    destruct (whole_disj _ _ src (wl_nodup _ _ (li_wfl _ _ _ L)) Hs) as (Ns & _). rewrite Ep in Ns. rewrite <- app_assoc in Ep, Ns. cbn [app] in Ep, Ns. destruct (nodup_split _ _ _ Ns) as (N1 & N2).
    destruct (move_life x s cs p src dst L Hs Hd Nsd) as (g1 & E1 & L1 & S1 & M1); [rewrite Ep; apply in_or_app; right; left; auto|].
    assert (Pv : prev_of (n_pre (x_heap x src)) p = hd_error (rev P1)) by (rewrite Ep; apply prev_split; auto). rewrite Pv, E1.
    assert (Eg : n_pre (g1 src) = P1 ++ R).
    { rewrite (m1_src _ _ _ _ _ M1), Ep. clear - N1. induction P1 as [|k P1 IH]; cbn; [rewrite Nat.eqb_refl; auto|]. destruct (Nat.eqb_spec k p) as [->|K]; [exfalso; apply N1; left; auto|]. f_equal. apply IH. intros J. apply N1. right; auto. }
    destruct (IH (set_heap g1 x) s cs src dst R fuel L1 Hs Hd Nsd Eg) as (g & E & L2 & S2 & Q1 & Q2 & Q3 & Q4); [lia|]. cbn [x_heap set_heap] in *.
    exists g. split; auto. split; auto. split; [eapply softs_trans; eauto|]. split; auto. split; [rewrite Q2, (m1_dst _ _ _ _ _ M1), <- app_assoc; auto|].
    split; [intros i A B; rewrite Q3, (m1_pre _ _ _ _ _ M1); auto|]. intros i. rewrite Q4. destruct (m1_stable _ _ _ _ _ M1 i) as (_ & _ & _ & _ & _ & _ & _ & Q). auto.
Qed.

(** ** Targets *)
(** A directive whose next one is in front of another token. *)
Record target (x : lex) (br nx src dst : id) : Prop := {
  ta_in : In br (pres x);
  ta_dir : isdird (x_heap x) br = true;
  ta_nx : n_nx (x_heap x br) = Some nx;
  ta_src : n_parent (x_heap x br) = Some src;
  ta_dst : n_parent (x_heap x nx) = Some dst;
  ta_ne : src <> dst }.
Lemma dir_parent : forall x s cs d, life x s cs -> In d (pres x) -> isdird (x_heap x) d = true -> exists t, n_parent (x_heap x d) = Some t /\ In t (x_toks x) /\ In d (n_pre (x_heap x t)).
Proof. intros x s cs d L D I. apply pres_in in D. destruct D as (t & T1 & T2). exists t. split; auto. apply (wl_parent _ _ (li_wfl _ _ _ L)); auto. Qed.
Lemma in_chain : forall x s cs d, life x s cs -> (In d (concat cs) <-> In d (pres x) /\ isdird (x_heap x) d = true).
Proof. intros x s cs d L. rewrite (ch_dirs _ _ _ (li_chain _ _ _ L)), pres_in. tauto. Qed.

Lemma branch_find_target : forall x s cs tk br, life x s cs -> In tk (x_toks x) -> branch_find (x_heap x) tk = Some br -> exists nx src, target x br nx src tk.
Proof.
  intros x s cs tk br L Ht E. unfold branch_find in E. assert (X : forall l, incl l (n_pre (x_heap x tk)) -> branch_find1 (x_heap x) l = Some br -> exists nx src, target x br nx src tk); [|apply (X _ (incl_refl _) E)].
  clear E. induction l as [|p l IH]; intros I E; [discriminate|]. cbn [branch_find1] in E. destruct (ttype_eqb (type_normalize (n_type (x_heap x p))) T_CPP_ELSE) eqn:Ty; cbn [negb] in E; [|apply IH; auto; intros k K; apply I; right; auto].
  apply ttype_eqb_eq in Ty. assert (Dp : isdird (x_heap x) p = true) by (apply norm_isdir; auto). assert (Pp : In p (n_pre (x_heap x tk))) by (apply I; left; auto).
  assert (Ip : In p (pres x)) by (apply pres_in; eauto). destruct (chain_prev _ _ _ p (li_chain _ _ _ L)) as (q & Pq & Iq & Nq & Tq); [apply (in_chain _ _ _ _ L); auto|auto|]. rewrite Pq in E.
  apply (in_chain _ _ _ _ L) in Iq. destruct Iq as (Iq & Dq). destruct (dir_parent _ _ _ _ L Iq Dq) as (t & T1 & T2 & T3).
  rewrite (wl_parent _ _ (li_wfl _ _ _ L) tk p Ht Pp Dp), T1 in E. destruct (Nat.eqb_spec tk t) as [->|N]; [apply IH; auto; intros k K; apply I; right; auto|]. injection E as <-.
  exists p, t. constructor; auto. apply (wl_parent _ _ (li_wfl _ _ _ L)); auto.
Qed.
Lemma find_prefix_target : forall x s cs tk l, life x s cs -> In tk (x_toks x) -> incl l (n_pre (x_heap x tk)) ->
  exists r, find_prefix (x_heap x) l = Some r /\ forall br, r = Some br -> exists nx src dst, target x br nx src dst.
Proof.
  intros x s cs tk l L Ht. induction l as [|p l IH]; intros I; [exists None; split; auto; discriminate|]. destruct IH as (r & Er & Hr); [intros k K; apply I; right; auto|].
  assert (Pp : In p (n_pre (x_heap x tk))) by (apply I; left; auto). assert (Ip : In p (pres x)) by (apply pres_in; eauto).
  assert (Y : forall br, In br (pres x) -> isdird (x_heap x) br = true -> norm (x_heap x) br = T_CPP_IF \/ norm (x_heap x) br = T_CPP_ELSE ->
    exists r, (do nx <- n_nx (x_heap x br); if ideqb (n_parent (x_heap x br)) (n_parent (x_heap x nx)) then find_prefix (x_heap x) l else Some (Some br)) = Some r /\
      forall b, r = Some b -> exists nx src dst, target x b nx src dst).
  { intros br B1 B2 B3. destruct (chain_next _ _ _ br (li_chain _ _ _ L)) as (q & Nq & Iq & Pq & Tq); [apply (in_chain _ _ _ _ L); auto|auto|]. rewrite Nq.
    apply (in_chain _ _ _ _ L) in Iq. destruct Iq as (Iq & Dq). destruct (dir_parent _ _ _ _ L Iq Dq) as (t & T1 & T2 & T3). destruct (dir_parent _ _ _ _ L B1 B2) as (u & U1 & U2 & U3).
    rewrite T1, U1. cbn [ideqb]. destruct (Nat.eqb_spec u t) as [->|N]; [rewrite Er; eauto|]. eexists. split; [reflexivity|]. intros b K. injection K as <-. exists q, u, t. constructor; auto. }
  cbn [find_prefix]. destruct (norm (x_heap x) p) eqn:Ty; try (exists r; split; auto; fail).
  - apply Y; auto. apply norm_isdir; auto.
  - apply Y; auto. apply norm_isdir; auto.
  - assert (Dp : isdird (x_heap x) p = true) by (apply norm_isdir; auto). destruct (chain_prev _ _ _ p (li_chain _ _ _ L)) as (q & Pq & Iq & Nq & Tq); [apply (in_chain _ _ _ _ L); auto|auto|]. rewrite Pq.
    apply (in_chain _ _ _ _ L) in Iq. destruct Iq as (Iq & Dq). apply Y; auto.
Qed.
Lemma find_branch_target : forall x s cs fwd th a tk b fuel, life x s cs -> x_toks x = a ++ tk :: b -> fuel > length (if fwd : bool then b else a) ->
  exists r, find_branch fuel tk th fwd x = Some r /\ forall br, r = Some br -> exists nx src dst, target x br nx src dst.
Proof.
  intros x s cs fwd th a tk b fuel. revert a tk b. induction fuel as [|fuel IH]; intros a tk b L Et Hf; [lia|]. cbn [find_branch].
  assert (Ht : In tk (x_toks x)) by (rewrite Et; apply in_or_app; right; left; auto).
  destruct (find_prefix_target x s cs tk (rev (n_pre (x_heap x tk))) L Ht) as (r & Er & Hr); [intros k K; apply in_rev; auto|]. rewrite Er. destruct r as [br|]; [exists (Some br); auto|].
  assert (Nt := whole_toks _ _ (wl_nodup _ _ (li_wfl _ _ _ L))). rewrite Et in Nt. destruct (nodup_split _ _ _ Nt) as (N1 & N2). rewrite Et. destruct fwd.
  - rewrite next_split by auto. destruct b as [|t b]; cbn [hd_error]; [exists None; split; auto; discriminate|]. destruct (ideqb (Some t) th); [exists None; split; auto; discriminate|].
    apply (IH (a ++ [tk]) t b); auto; [rewrite <- app_assoc; auto|cbn in Hf; lia].
  - rewrite prev_split by auto. destruct a as [|t a _] using rev_ind; cbn [rev hd_error]; [exists None; split; auto; discriminate|]. rewrite rev_app_distr. cbn [rev app hd_error].
    destruct (ideqb (Some t) th); [exists None; split; auto; discriminate|]. apply (IH a t (tk :: b)); auto; [rewrite <- app_assoc in Et; auto|rewrite app_length in Hf; cbn in Hf; lia].
Qed.

(** ** Rewinding *)
Lemma set_cur_same : forall x, set_cur (x_cur x) x = x.
Proof. intros []. auto. Qed.
Lemma rewind_full : forall x s cs seek, life x s cs -> cur_ok x -> (forall t, seek = Some t -> In t (x_toks x)) ->
  exists ok c, rewind seek x = (ok, set_cur c x) /\ cur_ok (set_cur c x) /\ (if ok : bool then c = seek else c = x_cur x /\ exists t, seek = Some t /\ tyof x t = T_EOF).
Proof.
  intros x s cs seek L Hc Hs. destruct (wl_eof _ _ (li_wfl _ _ _ L)) as (body & e & B1 & B2 & B3). assert (Nt := whole_toks _ _ (wl_nodup _ _ (li_wfl _ _ _ L))). unfold rewind. destruct seek as [t|].
  - specialize (Hs t eq_refl). pose proof Hs as Hs'. apply in_split in Hs. destruct Hs as (a & b & E). unfold lexer_seek_after, lexer_seek. rewrite E in *. destruct (nodup_split _ _ _ Nt) as (N1 & N2). rewrite next_split by auto.
    destruct b as [|nx b]; cbn [hd_error].
    + exists false, (x_cur x). rewrite set_cur_same. split; auto. split; auto. split; auto. exists t. split; auto. apply app_inj_tail in B1. destruct B1 as (_ & ->). auto.
    + exists true, (Some t). change (a ++ t :: nx :: b) with (a ++ [t] ++ nx :: b) in *. rewrite app_assoc in *. destruct (nodup_split _ _ _ Nt) as (N3 & N4). rewrite prev_split by auto. rewrite rev_app_distr. cbn [rev app hd_error]. split; auto. split; auto.
      intros u U. cbn in *. injection U as <-. rewrite E. auto.
  - unfold lexer_peek_first. rewrite B1. destruct body as [|t body]; cbn [app hd_error]; (exists true, None; split; [|split; auto; intros u U; discriminate]); unfold lexer_seek; rewrite B1; cbn [app]; unfold prev_of; cbn [prev_from]; rewrite Nat.eqb_refl; auto.
Qed.

(** ** Taking a branch *)
Lemma bounded_less : forall x y s A B C, bounded x s -> x_toks x = A ++ B ++ C -> x_toks y = A ++ C -> same_around x y (A ++ C) -> x_next y = x_next x -> bounded y s.
Proof.
  intros x y s A B C Hb Ex Ey Ar En i Hi. rewrite En. apply Hb. destruct Hi as [Hi|Hi]; auto. left. rewrite Ey in Hi. rewrite (whole_ext (x_heap x) (x_heap y)) in Hi by auto.
  rewrite Ex. rewrite !whole_app in *. apply in_app_or in Hi. apply in_or_app. destruct Hi; auto. right. apply in_or_app; auto.
Qed.

Lemma branch_full : forall x s cs, life x s cs -> ordered x -> bounded x s -> cur_ok x ->
  (take_branch x s = Some (false, None, x) /\ forall t, x_cur x = Some t -> branch_find (x_heap x) t = None) \/
  exists br nx src dst A M C ok y c cs', x_cur x = Some dst /\ branch_find (x_heap x) dst = Some br /\ target x br nx src dst /\ x_toks x = A ++ src :: M ++ dst :: C /\
    take_branch x s = Some (ok, Some dst, set_cur c y) /\ life y s cs' /\ ordered y /\ bounded y s /\ cur_ok (set_cur c y) /\
    x_toks y = A ++ dst :: C /\ softs (x_heap x) (x_heap y) /\ same_around x y (A ++ dst :: C) /\ x_next y = x_next x /\
    (if ok : bool then c = last_stamped y s else c = Some dst).
Proof.
  intros x s cs L O Hb Hc. unfold take_branch, lexer_back. destruct (x_cur x) as [dst|] eqn:Ec; [|left; split; auto; discriminate].
  destruct (branch_find (x_heap x) dst) as [br|] eqn:Ef; [|left; split; auto; intros t T; congruence]. right.
  assert (Hd : In dst (x_toks x)) by auto. destruct (branch_find_target _ _ _ _ _ L Hd Ef) as (nx & src & T). destruct T as [T1 T2 T3 T4 T5 T6].
  destruct (ordered_toks _ _ _ _ _ _ _ L O T1 T2 T3 T4 T5 T6) as (I1 & I2 & A & M & C & Et).
  assert (Hs : In src (x_toks x)) by (rewrite Et; apply in_or_app; right; left; auto).
  destruct (unlink_full x s cs br src L Hs I1) as (g & cs1 & E1 & L1 & D1 & S1 & F1 & _).
  destruct (remove_until_full M (set_heap g x) s cs1 A src dst C (length (x_toks x)) L1) as (y & cs2 & E2 & L2 & Ty & S2 & Ar & Cu & Nx); [auto|rewrite Et, !app_length; cbn; rewrite app_length; lia|].
  cbn [x_heap set_heap x_cur x_next] in *.
  assert (Nt := whole_toks _ _ (wl_nodup _ _ (li_wfl _ _ _ L))). rewrite Et in Nt.
  assert (Ncd : in_range (Some dst) (src :: M) = false).
  { destruct (in_range (Some dst) (src :: M)) eqn:K; auto. exfalso. apply existsb_exists in K. destruct K as (k & K1 & K2). cbn in K2. apply Nat.eqb_eq in K2. subst k.
    rewrite app_comm_cons, app_assoc in Nt. destruct (nodup_split _ _ _ Nt) as (N & _). apply N. apply in_or_app; auto. }
  rewrite Ec, Ncd in Cu.
  assert (Ax : same_around x y (A ++ dst :: C)).
  { intros t T. destruct (Ar t T) as (-> & ->). cbn [x_heap set_heap]. destruct (F1 t) as (-> & -> & _). auto. }
  assert (Sx : softs (x_heap x) (x_heap y)) by (eapply softs_trans; eauto).
  assert (Cy : cur_ok y) by (intros t K; rewrite Cu in K; injection K as <-; rewrite Ty; apply in_or_app; right; left; auto).
  assert (Hl : forall t, last_stamped y s = Some t -> In t (x_toks y)).
  { intros t K. apply find_some in K. destruct K as (_ & K). unfold is_dangling in K. rewrite negb_involutive in K. apply existsb_exists in K. destruct K as (k & K1 & K2). apply Nat.eqb_eq in K2. subst k. auto. }
  destruct (rewind_full y s cs2 (last_stamped y s) L2 Cy Hl) as (ok & c & E3 & C3 & Z).
  exists br, nx, src, dst, A, M, C, ok, y, c, cs2. split; auto. split; auto. split; [constructor; auto|]. split; auto.
  split; [rewrite T4, T3, T5, E1, E2, E3; auto|]. split; auto.
  split.
  { apply (ordered_less x s cs y s cs2); auto. unfold pres. rewrite Ty, Et. fold (pres_of y (A ++ dst :: C)). rewrite (around_pres x y _ Ax). fold (pres_of x (A ++ src :: M ++ dst :: C)). rewrite app_comm_cons.
    rewrite !pres_of_app. apply subl_app; [apply subl_refl|]. change (pres_of x (dst :: C)) with ([] ++ pres_of x (dst :: C)) at 1. apply subl_app; [apply subl_nil|apply subl_refl]. }
  split; [apply (bounded_less x y s A (src :: M) (dst :: C)); auto|]. split; auto. split; auto. split; auto. split; auto. split; auto. destruct ok; auto. destruct Z as (-> & _). auto.
Qed.

(** ** Folding a branch *)
(** What stays of a token, prefix or suffix: all but links, references, the branch flag, and
    whether a directive still belongs to a conditional. *)
Definition same_text (h g : heap) (i : id) : Prop :=
  n_str (g i) = n_str (h i) /\ n_lno (g i) = n_lno (h i) /\ n_cno (g i) = n_cno (h i) /\ N.ldiff (n_flags (g i)) F_BRANCH = N.ldiff (n_flags (h i)) F_BRANCH /\
  (isdird h i = false -> n_type (g i) = n_type (h i)) /\ (isdird g i = true -> isdird h i = true).
Lemma soft_text : forall h g i, soft h g i -> same_text h g i.
Proof. intros h g i []. unfold same_text. auto 10. Qed.
Lemma fold_full : forall x s cs buf off br nx src dst, life x s cs -> ordered x -> bounded x s -> cur_ok x -> target x br nx src dst ->
  let h := x_heap x in let new := x_next x in
  exists A M C P1 R Q1 Q2 y cs', x_toks x = A ++ src :: M ++ dst :: C /\ n_pre (h src) = P1 ++ br :: R /\ n_pre (h dst) = Q1 ++ nx :: Q2 /\
    branch_fold buf off br x = Some (y, (fun i => if i =? new then off br else off i), dst) /\
    life y s cs' /\ ordered y /\ bounded y s /\ cur_ok y /\ x_toks y = A ++ dst :: C /\
    n_pre (x_heap y dst) = P1 ++ new :: Q2 /\ n_suf (x_heap y dst) = n_suf (h dst) /\ same_around x y (A ++ C) /\
    (forall i, i <> new -> same_text h (x_heap y) i) /\
    n_type (x_heap y new) = T_CPP /\ n_str (x_heap y new) = piece buf (off br) (off nx + length (n_str (h nx)) - off br) /\ n_lno (x_heap y new) = n_lno (h br) /\ n_cno (x_heap y new) = n_cno (h br) /\
    x_cur y = (if in_range (x_cur x) (src :: M) then hd_error (rev A) else x_cur x) /\ x_next y = S new.
Proof.
  intros x s cs buf off br nx src dst L O Hb Hc [T1 T2 T3 T4 T5 T6] h new. destruct (ordered_toks _ _ _ _ _ _ _ L O T1 T2 T3 T4 T5 T6) as (I1 & I2 & A & M & C & Et).
  pose proof I1 as J1. apply in_split in J1. destruct J1 as (P1 & R & E1). pose proof I2 as J2. apply in_split in J2. destruct J2 as (Q1 & Q2 & E2). fold h in E1, E2.
  assert (Hs : In src (x_toks x)) by (rewrite Et; apply in_or_app; right; left; auto). assert (Hd : In dst (x_toks x)) by (rewrite Et; apply in_or_app; right; right; apply in_or_app; right; left; auto).
  assert (Nw : ~ In new (whole h (x_toks x))) by (intros K; assert (new < x_next x) by (apply Hb; auto); unfold new in *; lia).
  assert (Nst : ~ In new s) by (intros K; assert (new < x_next x) by (apply Hb; auto); unfold new in *; lia).
  assert (Nt0 : ~ In new (x_toks x)) by (intros K; apply Nw; apply whole_in; auto).
  unfold branch_fold. fold h in T2, T3, T4, T5. fold h. rewrite T4, T3, T5. unfold token_alloc. cbn [n_type n_flags n_lno n_cno n_str]. fold new. fold h.
  set (node := Node T_CPP F_CPP (n_lno (h br)) (n_cno (h br)) (piece buf (off br) (off nx + length (n_str (h nx)) - off br)) 1 true [] [] None None None).
  set (x1 := set_next (S new) (set_heap (upd h new node) x)).
  assert (H1 : forall i, i <> new -> x_heap x1 i = h i) by (intros i K; unfold x1; cbn [x_heap set_heap set_next]; unfold upd; destruct (Nat.eqb_spec i new); auto; contradiction).
  assert (Hn1 : x_heap x1 new = node) by (unfold x1; cbn [x_heap set_heap set_next]; unfold upd; rewrite Nat.eqb_refl; auto).
  assert (L1 : life x1 s cs).
  { apply (life_ext x x1); auto. intros i Hi. apply H1. intros ->. tauto. }
  assert (Ws : forall i, In i (whole h (x_toks x)) -> x_heap x1 i = h i) by (intros i K; apply H1; intros ->; auto).
  assert (Wt : forall i, In i (x_toks x) -> x_heap x1 i = h i) by (intros i K; apply H1; intros ->; auto).
  assert (Pr1 : pres x1 = pres x).
  { unfold pres. change (x_toks x1) with (x_toks x). assert (X : forall l, incl l (x_toks x) -> flat_map (fun t => n_pre (x_heap x1 t)) l = flat_map (fun t => n_pre (x_heap x t)) l); [|apply X; apply incl_refl].
    induction l as [|t l IH]; intros I; auto. cbn [flat_map]. rewrite IH by (intros k K; apply I; right; auto). rewrite Wt by (apply I; left; auto). auto. }
  assert (Pw : forall d, In d (pres x) -> x_heap x1 d = h d) by (intros d D; apply Ws; apply pres_in in D; destruct D as (t & D1 & D2); eapply whole_pre; eauto).
  assert (O1 : ordered x1).
  { intros d e D I N. rewrite Pr1 in *. unfold isdird in I. rewrite (Pw d D) in I, N. apply O; auto. }
  assert (Hb1 : bounded x1 s).
  { intros i Hi. change (x_next x1) with (S new). change (x_toks x1) with (x_toks x) in Hi. rewrite (whole_ext h (x_heap x1)) in Hi by (intros t T; rewrite Wt by auto; auto). specialize (Hb i Hi). unfold new. lia. }
  assert (E2' : n_pre (x_heap x1 dst) = Q1 ++ nx :: Q2) by (rewrite Wt; auto).
  destruct (drop_through_full Q1 x1 s cs dst nx Q2 (length (n_pre (x_heap x1 dst))) L1 Hd E2') as (g2 & cs2 & D2 & L2 & S2 & Pd2 & Sd2 & Ot2 & Xt2); [rewrite E2', app_length; cbn; lia|].
  rewrite D2.
  assert (Nw2 : forall i, In i (whole g2 (x_toks x)) -> In i (whole h (x_toks x))).
  { intros i K. apply in_flat_map in K. destruct K as (t & K1 & K2). apply in_flat_map. exists t. split; auto. destruct (Nat.eq_dec t dst) as [->|Kt].
    - rewrite Pd2, Sd2, Wt in K2 by auto. rewrite E2. apply in_app_or in K2. apply in_or_app. destruct K2; auto. left. apply in_or_app; right; right; auto.
    - destruct (Ot2 t K1 Kt) as (Q & Q'). rewrite Q, Q', Wt in K2 by auto. auto. }
  assert (N2 : n_type (g2 new) = T_CPP /\ n_str (g2 new) = n_str node /\ n_lno (g2 new) = n_lno node /\ n_cno (g2 new) = n_cno node).
  { destruct (S2 new) as [A1 A2 A3 A4 A5 A6 A7]. rewrite Hn1 in *. split; auto. apply A5. unfold isdird. rewrite Hn1. auto. }
  destruct (Xt2 new Nt0) as (Rn & Pn & Sn); [intros K; apply Nw; rewrite E2', <- E2 in K; eapply whole_pre; eauto|]. rewrite Hn1 in Rn, Pn, Sn. cbn in Rn, Pn, Sn.
  (* inserting the new prefix *)
  set (g3 := modify g2 dst (fun n => set_pre (new :: n_pre n) n)).
  assert (L3 : life (set_heap g3 x1) s cs2).
  { apply (insert_life (set_heap g2 x1) s cs2 dst new); auto. unfold isdird. cbn [x_heap set_heap]. destruct N2 as (-> & _). auto. }
  assert (S3 : softs g2 g3) by (apply mod_softs; cbn; auto; intros e K; constructor; auto).
  assert (G3d : g3 dst = set_pre (new :: Q2) (g2 dst)) by (unfold g3; rewrite mod_eq, Pd2; auto).
  assert (G3o : forall i, i <> dst -> g3 i = g2 i) by (intros i K; unfold g3; rewrite mod_neq; auto).
  assert (E3 : n_pre (g3 src) = P1 ++ br :: R) by (rewrite G3o by auto; destruct (Ot2 src Hs T6) as (-> & _); rewrite Wt by auto; auto).
  destruct (whole_disj _ _ src (wl_nodup _ _ (li_wfl _ _ _ L)) Hs) as (Nsp & _). fold h in Nsp. rewrite E1 in Nsp. destruct (nodup_split _ _ _ Nsp) as (Nb1 & Nb2).
  assert (Pv : prev_of (n_pre (g3 src)) br = hd_error (rev P1)) by (rewrite E3; apply prev_split; auto). rewrite Pv.
  destruct (keep_before_full P1 (set_heap g3 x1) s cs2 src dst (br :: R) (length (n_pre (g3 src))) L3 Hs Hd T6 E3) as (g4 & K4 & L4 & S4 & Ps4 & Pd4 & Po4 & Sf4); [rewrite E3, app_length; lia|].
  cbn [x_heap set_heap] in K4, S4, Pd4, Po4, Sf4. rewrite K4. change (set_heap g4 (set_heap g3 x1)) with (set_heap g4 x1) in L4.
  destruct (remove_covered_full M (set_heap g4 x1) s cs2 A src dst C (length (x_toks x1)) L4) as (y & cs5 & E5 & L5 & Ty & S5 & Ar & Cu & Nx); [auto|change (x_toks x1) with (x_toks x); rewrite Et, !app_length; cbn; rewrite app_length; lia|].
  cbn [x_heap set_heap x_cur x_next] in *.
  assert (Nt := whole_toks _ _ (wl_nodup _ _ (li_wfl _ _ _ L))). rewrite Et in Nt.
  assert (Ndt : forall t, In t (A ++ C) -> t <> src /\ t <> dst /\ In t (x_toks x)).
  { intros t K. split; [|split].
    - intros ->. destruct (nodup_split _ _ _ Nt) as (X & Y). apply in_app_or in K. destruct K as [K|K]; auto. apply Y. apply in_or_app; right; right; auto.
    - intros ->. rewrite app_comm_cons, app_assoc in Nt. destruct (nodup_split _ _ _ Nt) as (X & Y). apply in_app_or in K. destruct K as [K|K]; auto. apply X. apply in_or_app; auto.
    - rewrite Et. apply in_app_or in K. apply in_or_app. destruct K; auto. right; right. apply in_or_app; right; right; auto. }
  assert (Ax : same_around x y (A ++ C)).
  { intros t K. destruct (Ndt t K) as (K1 & K2 & K3). destruct (Ar t) as (-> & ->); [apply in_app_or in K; apply in_or_app; destruct K; auto; right; right; auto|]. cbn [x_heap set_heap].
    rewrite Po4, Sf4, G3o by auto. destruct (Ot2 t K3 K2) as (-> & ->). rewrite Wt by auto. auto. }
  assert (Hdy : In dst (A ++ dst :: C)) by (apply in_or_app; right; left; auto).
  assert (Pdy : n_pre (x_heap y dst) = P1 ++ new :: Q2) by (destruct (Ar dst Hdy) as (-> & _); cbn [x_heap set_heap]; rewrite Pd4, G3d; auto).
  assert (Sdy : n_suf (x_heap y dst) = n_suf (h dst)) by (destruct (Ar dst Hdy) as (_ & ->); cbn [x_heap set_heap]; rewrite Sf4, G3d; cbn; rewrite Sd2, Wt; auto).
  assert (Sy : softs (x_heap x1) (x_heap y)) by (eapply softs_trans; [exact S2|]; eapply softs_trans; [exact S3|]; eapply softs_trans; eauto).
  assert (Ny : n_type (x_heap y new) = T_CPP /\ n_str (x_heap y new) = n_str node /\ n_lno (x_heap y new) = n_lno node /\ n_cno (x_heap y new) = n_cno node).
  { destruct (Sy new) as [A1 A2 A3 A4 A5 A6 A7]. rewrite Hn1 in *. split; auto. apply A5. unfold isdird. rewrite Hn1. auto. }
  exists A, M, C, P1, R, Q1, Q2, y, cs5. split; auto. split; auto. split; auto. split; [rewrite E5; auto|]. split; auto. split.
  { apply (ordered_sub x1 s cs y s cs5 (pres_of x A ++ P1) [new] (Q2 ++ pres_of x C)); auto.
    - unfold pres. rewrite Ty. fold (pres_of y (A ++ dst :: C)). rewrite pres_of_app. change (pres_of y (dst :: C)) with (n_pre (x_heap y dst) ++ pres_of y C). rewrite Pdy.
      rewrite (around_pres x y A), (around_pres x y C) by (intros t K; apply Ax; apply in_or_app; auto). rewrite <- !app_assoc. auto.
    - rewrite Pr1. unfold pres. rewrite Et. fold (pres_of x (A ++ src :: M ++ dst :: C)). rewrite pres_of_app. change (pres_of x (src :: M ++ dst :: C)) with (n_pre (h src) ++ pres_of x (M ++ dst :: C)).
      rewrite pres_of_app. change (pres_of x (dst :: C)) with (n_pre (h dst) ++ pres_of x C). rewrite E1, E2. rewrite <- !app_assoc. apply subl_app; [apply subl_refl|]. apply subl_app; [apply subl_refl|].
      cbn [app]. constructor. change (Q2 ++ pres_of x C) with ([] ++ [] ++ [] ++ Q2 ++ pres_of x C). apply subl_app; [apply subl_nil|]. apply subl_app; [apply subl_nil|]. apply subl_app; [apply subl_nil|]. constructor. apply subl_refl.
    - intros d [<-|[]]. unfold isdird. destruct Ny as (-> & _). auto. }
  split.
  { intros i Hi. rewrite Nx. change (x_next x1) with (S new). destruct (Nat.eq_dec i new) as [->|Ni]; [lia|]. assert (i < new); [|lia]. apply Hb. destruct Hi as [Hi|Hi]; auto. left. rewrite Ty in Hi. apply in_flat_map in Hi. destruct Hi as (t & K1 & K2).
    apply in_flat_map. destruct (Nat.eq_dec t dst) as [->|Nd].
    - rewrite Pdy, Sdy in K2. rewrite <- app_assoc in K2. apply in_app_or in K2. destruct K2 as [K2|K2]; [exists src; split; auto; fold h; rewrite E1; apply in_or_app; left; apply in_or_app; auto|].
      destruct K2 as [K2|K2]; [congruence|]. exists dst. split; auto. fold h. rewrite E2. apply in_app_or in K2. apply in_or_app. destruct K2; auto. left. apply in_or_app; right; right; auto.
    - assert (K3 : In t (A ++ C)) by (apply in_app_or in K1; apply in_or_app; destruct K1 as [K1|[K1|K1]]; auto; congruence). destruct (Ndt t K3) as (_ & _ & K4'). exists t. split; auto. destruct (Ax t K3) as (Q & Q'). rewrite Q, Q' in K2. auto. }
  split.
  { intros t K. rewrite Cu in K. rewrite Ty. change (x_cur x1) with (x_cur x) in K. destruct (in_range (x_cur x) (src :: M)) eqn:Er.
    - apply in_or_app. left. apply in_rev. destruct (rev A); [discriminate|]. injection K as ->. left; auto.
    - specialize (Hc t K). rewrite Et in Hc. apply in_app_or in Hc. apply in_or_app. destruct Hc as [Hc|Hc]; auto. right. rewrite app_comm_cons in Hc. apply in_app_or in Hc. destruct Hc as [Hc|Hc]; auto. exfalso.
      assert (in_range (x_cur x) (src :: M) = true); [|congruence]. apply existsb_exists. exists t. split; auto. rewrite K. cbn. apply Nat.eqb_refl. }
  split; auto. split; auto. split; auto. split; auto. split.
  { intros i Hi. pose proof (soft_text _ _ _ (Sy i)) as Z. unfold same_text, isdird in *. rewrite (H1 i Hi) in Z. exact Z. }
  destruct Ny as (-> & -> & -> & ->). auto 10.
Qed.

(** ** Recovering *)
Lemma in_front_in : forall x line t, in_front x line t = true -> In t (x_toks x) /\ n_lno (x_heap x t) < line.
Proof.
  intros x line t H. apply andb_true_iff in H. destruct H as (H1 & H2). unfold is_dangling in H1. rewrite negb_involutive in H1. apply existsb_exists in H1. destruct H1 as (k & K1 & K2). apply Nat.eqb_eq in K2. subst k.
  split; auto. apply Nat.ltb_lt; auto.
Qed.
Lemma recover_full : forall x s cs buf off, life x s cs -> ordered x -> bounded x s -> cur_ok x ->
  recover buf off x s = Some (0, None, x, off) \/
  exists br nx src dst y off' ok c, target x br nx src dst /\ branch_fold buf off br x = Some (y, off', dst) /\ cur_ok (set_cur c y) /\
    recover buf off x s = Some (if ok : bool then 1 + count_behind x (n_lno (x_heap x br)) s else 0, Some dst, set_cur c y, off') /\
    (if ok then c = find (in_front y (n_lno (x_heap x br))) s else c = x_cur y /\ exists t, find (in_front y (n_lno (x_heap x br))) s = Some t /\ tyof y t = T_EOF).
Proof.
  intros x s cs buf off L O Hb Hc. destruct (wl_eof _ _ (li_wfl _ _ _ L)) as (body & e & B1 & _ & _). unfold recover, lexer_back, lexer_peek_first.
  assert (X : exists back, match x_cur x with Some t => Some t | None => hd_error (x_toks x) end = Some back /\ In back (x_toks x)).
  { destruct (x_cur x) as [t|] eqn:E; [eauto|]. rewrite B1. destruct body as [|t body]; cbn; eexists; (split; [reflexivity|left; auto]). }
  destruct X as (back & -> & Ib). pose proof Ib as Ib'. apply in_split in Ib'. destruct Ib' as (a & b & Et).
  assert (Fl : forall fwd : bool, S (length (x_toks x)) > length (if fwd then b else a)) by (intros fwd; rewrite Et, app_length; cbn; destruct fwd; lia).
  destruct (find_branch_target x s cs false (last_stamped x s) a back b _ L Et (Fl false)) as (r1 & -> & H1).
  destruct (find_branch_target x s cs true (last_stamped x s) a back b _ L Et (Fl true)) as (r2 & E2 & H2).
  assert (X : exists r, match r1 with Some _ => Some r1 | None => find_branch (S (length (x_toks x))) back (last_stamped x s) true x end = Some r /\ forall br, r = Some br -> exists nx src dst, target x br nx src dst).
  { destruct r1; eauto. }
  destruct X as (r & -> & Hr). destruct r as [br|]; [|left; auto]. right. destruct (Hr br eq_refl) as (nx & src & dst & T). pose proof T as [T1 T2 T3 T4 T5 T6].
  destruct (fold_full x s cs buf off br nx src dst L O Hb Hc T) as (A & M & C & P1 & R & Q1 & Q2 & y & cs' & _ & _ & _ & F4 & F5 & _ & _ & F8 & _). rewrite F4.
  destruct (rewind_full y s cs' (find (in_front y (n_lno (x_heap x br))) s) F5 F8) as (ok & c & E3 & C3 & Z).
  { intros t K. apply find_some in K. apply (in_front_in y (n_lno (x_heap x br)) t). tauto. }
  rewrite E3. exists br, nx, src, dst, y, (fun i => if i =? x_next x then off br else off i), ok, c. split; [exact T|]. split; [exact F4|]. split; [exact C3|]. split; [reflexivity|exact Z].
Qed.

(** ** The start *)
Lemma before_up : forall l m, subl l m -> forall d e, before l d e -> before m d e.
Proof.
  intros l m S. induction S; intros d e B; [auto| |]; [apply before_cons in B; apply before_cons|apply before_cons; right; auto].
  destruct B as [(-> & B)|B]; auto. left. split; auto. eapply subl_in; eauto.
Qed.
Lemma subl_trans : forall b c, subl b c -> forall a, subl a b -> subl a c.
Proof. intros b c S. induction S; intros x T; auto; [inv T; constructor; auto|constructor; auto]. Qed.
Lemma subl_left : forall a b, subl a (a ++ b).
Proof. intros. rewrite <- (app_nil_r a) at 1. apply subl_app; [apply subl_refl|apply subl_nil]. Qed.
Lemma subl_right : forall a b, subl b (a ++ b).
Proof. intros. change b with ([] ++ b) at 1. apply subl_app; [apply subl_nil|apply subl_refl]. Qed.
Lemma subl_filter : forall f l, subl (filter f l) l.
Proof. intros f l. induction l as [|a l IH]; cbn; [constructor|]. destruct (f a); constructor; auto. Qed.
Lemma grammar_order : forall K, (forall b cs, bal K b cs -> forall c, In c cs -> subl c b) /\ (forall g c cs, grp K g c cs -> subl c g /\ forall c', In c' cs -> subl c' g).
Proof.
  intros K. apply bal_grp_ind.
  - intros c [].
  - intros b cs g c cs' e _ I1 _ (I2 & I3) _ k Hk. apply in_app_or in Hk. destruct Hk as [Hk|Hk]; [eapply subl_trans; [apply subl_left|auto]|]. apply in_app_or in Hk. eapply subl_trans; [apply subl_right|].
    destruct Hk as [Hk|[<-|[]]]; [eapply subl_trans; [apply subl_left|auto]|]. apply subl_app; auto. apply subl_refl.
  - intros d b cs _ _ I1. split; [constructor; apply subl_nil|]. intros k Hk. constructor. auto.
  - intros g c cs e b cs' _ (I1 & I2) _ _ I3. split; [apply subl_app; auto; constructor; apply subl_nil|]. intros k Hk. apply in_app_or in Hk. destruct Hk as [Hk|Hk]; [eapply subl_trans; [apply subl_left|auto]|].
    eapply subl_trans; [apply subl_right|]. constructor. auto.
Qed.
Lemma file_order : forall K ds cs un, file K ds cs un -> forall c, In c cs -> subl c ds.
Proof.
  intros K ds cs un (a & o & cs1 & cs2 & s & os & -> & Hs & Ho & -> & _) c Hc. destruct (grammar_order K) as (B & G). apply in_app_or in Hc. destruct Hc as [Hc|Hc].
  - eapply subl_trans; [apply subl_left|]. clear Ho. induction Hs as [b cs Hb|a cs s e b cs' Hs IH He Hb]; [eapply B; eauto|]. apply in_app_or in Hc. destruct Hc as [Hc|Hc]; [eapply subl_trans; [apply subl_left|auto]|].
    eapply subl_trans; [apply subl_right|]. constructor. eapply B; eauto.
  - eapply subl_trans; [apply subl_right|]. clear Hs. induction Ho as [|a' cs os g k cs' Ho IH Hg]; [destruct Hc|]. apply in_app_or in Hc. destruct Hc as [Hc|Hc]; [eapply subl_trans; [apply subl_left|auto]|].
    eapply subl_trans; [apply subl_right|]. eapply G; eauto.
Qed.
Lemma start_full : forall x, fresh x -> cur_ok x -> exists y cs, tokenize_branches x = Some y /\ life y [] cs /\ ordered y /\ bounded y [] /\ cur_ok y.
Proof.
  intros x F C. destruct (start_life x F) as (y & cs & E & L & T1 & T2 & Wh). exists y, cs. split; auto. split; auto. destruct F as (U & _).
  set (K := fun d => kind_of (n_type (x_heap x d))).
  destruct (file_exists K (directives x)) as (cs0 & un & Hf).
  { intros d Hd. unfold directives in Hd. apply filter_In in Hd. destruct Hd as (_ & Hd). unfold K. intros Q. rewrite Q in Hd. discriminate. }
  destruct (tokenize_spec x cs0 un U Hf) as (y' & E' & Y1 & Y2 & Y3 & Y4 & Y5 & Y6 & Y7 & Y8 & Y9 & Y10 & _). assert (y' = y) by congruence. subst y'.
  assert (Pr : pres y = flat_map (fun t => n_pre (x_heap x t)) (x_toks x)).
  { unfold pres. rewrite Y1. apply flat_map_ext. intros t. destruct (Y10 t) as (-> & _). auto. }
  split; [|split].
  - intros d e D I N. destruct (in_dec Nat.eq_dec d (concat cs0)) as [J|J]; [|destruct (Y9 d J) as (_ & Z & _); congruence].
    apply in_concat in J. destruct J as (c & C1 & C2). pose proof (file_order K _ _ _ Hf c C1) as S. apply in_split in C2. destruct C2 as (a & b & Ec). destruct (Y4 c C1 a d b Ec) as (_ & Nx & _). rewrite N in Nx.
    destruct b as [|e' b]; cbn in Nx; [discriminate|]. injection Nx as <-. rewrite Pr. apply (before_up (directives x)); [apply subl_filter|]. apply (before_up c); auto. exists a, [], b. auto.
  - intros i [Hi|[]]. rewrite Wh in Hi. rewrite Y3. apply (ul_bound _ U); auto.
  - intros t. rewrite T1, T2. apply C.
Qed.

(** ** Histories *)
Definition good (x : lex) (s : list id) : Prop := (exists cs, life x s cs) /\ ordered x /\ bounded x s /\ cur_ok x.
Lemma exec_good : forall o x s, good x s -> op_ok x o -> exists y s', exec o x s = Some (y, s') /\ good y s'.
Proof.
  intros o x s ((cs & L) & O & B & C) Ho. destruct (exec_life o x s cs L C Ho) as (y & s' & cs' & E & L' & C'). exists y, s'. split; auto. split; [eauto|].
  assert (Ret : softs (x_heap x) (x_heap y) -> subl (pres y) (pres x) -> bounded y s' -> ordered y /\ bounded y s' /\ cur_ok y).
  { intros S1 S2 S3. split; auto. eapply (ordered_less x s cs y s' cs'); eauto. }
  destruct o; cbn [exec op_ok] in *.
  - injection E as <- <-. apply Ret; [apply softs_refl|apply subl_refl|exact B].
  - unfold stamp in E. destruct (x_cur x) as [b|] eqn:Eb; injection E as <- <-; [|apply Ret; auto; [apply softs_refl|apply subl_refl]]. apply Ret; cbn [x_heap set_heap].
    + unfold token_ref. apply mod_softs; cbn; auto. intros e K. constructor; auto.
    + unfold pres. cbn [x_heap set_heap x_toks]. replace (flat_map (fun t => n_pre (token_ref b (x_heap x) t)) (x_toks x)) with (flat_map (fun t => n_pre (x_heap x t)) (x_toks x)); [apply subl_refl|].
      apply flat_map_ext. intros t. unfold token_ref. destruct (Nat.eq_dec t b) as [->|N]; [rewrite mod_eq; auto|rewrite mod_neq; auto].
    + intros i Hi. cbn [x_next set_heap x_toks x_heap] in *. apply B. destruct Hi as [Hi|[->|Hi]]; auto.
      * left. rewrite (whole_ext (x_heap x) (token_ref b (x_heap x))) in Hi; auto. intros t _. unfold token_ref. destruct (Nat.eq_dec t b) as [->|N]; [rewrite mod_eq; auto|rewrite mod_neq; auto].
      * left. apply whole_in. auto.
  - destruct Ho as (t & T1 & T2). destruct (unlink_full x s cs d t L T1 T2) as (g & cs1 & E1 & _ & _ & S1 & F1 & _). rewrite E1 in E. injection E as <- <-. apply Ret; auto.
    + unfold pres. cbn [x_heap set_heap x_toks]. rewrite (flat_map_ext (fun t => n_pre (g t)) (fun t => n_pre (x_heap x t))); [apply subl_refl|]. intros u. destruct (F1 u) as (-> & _). auto.
    + intros i Hi. apply B. cbn [x_heap set_heap x_toks] in Hi. rewrite (whole_ext (x_heap x) g) in Hi; auto. intros u _. destruct (F1 u) as (-> & -> & _). auto.
  - destruct Ho as (T1 & T2). destruct (not_eof_split _ _ _ (li_wfl _ _ _ L) T1 T2) as (a & nx & b & Et). destruct (remove_spec _ a tk nx b x (li_wfl _ _ _ L) Et) as (y' & E' & R & _). rewrite E' in E. injection E as -> ->.
    destruct (rm_rest _ _ _ _ _ _ _ R) as (En & _). pose proof (rm_toks _ _ _ _ _ _ _ R) as Ty.
    assert (Nt := whole_toks _ _ (wl_nodup _ _ (li_wfl _ _ _ L))). rewrite Et in Nt. destruct (nodup_split _ _ _ Nt) as (N1 & N2).
    assert (Nt' := whole_toks _ _ (wl_nodup _ _ (li_wfl _ _ _ L'))). rewrite Ty in Nt'. destruct (nodup_split _ _ _ Nt') as (N3 & N4). apply Ret.
    + intros i. destruct (rm_text _ _ _ _ _ _ _ R i) as (A1 & A2 & A3 & A4 & A5), (rm_links _ _ _ _ _ _ _ R i) as (A6 & A7). constructor; auto; try congruence. { unfold isdird. rewrite A1. auto. } { intros e K. constructor. congruence. }
    + unfold pres. rewrite Ty, Et. rewrite !flat_map_app. cbn [flat_map]. rewrite (rm_pre_nx _ _ _ _ _ _ _ R).
      assert (X : forall l, ~ In tk l -> ~ In nx l -> flat_map (fun t => n_pre (x_heap y t)) l = flat_map (fun t => n_pre (x_heap x t)) l).
      { induction l as [|t l IH]; intros K1 K2; auto. cbn. cbn in K1, K2. rewrite IH by tauto. rewrite (rm_pre _ _ _ _ _ _ _ R); auto. }
      rewrite X, X by (auto; intros K; apply N2; right; auto). rewrite <- app_assoc. apply subl_refl.
    + intros i Hi. rewrite En. apply B. destruct Hi as [Hi|Hi]; auto. left. apply in_flat_map in Hi. destruct Hi as (t & K1 & K2). assert (Kt : t <> tk) by (intros ->; rewrite Ty in K1; apply in_app_or in K1; tauto).
      assert (Ht : In t (x_toks x)) by (rewrite Ty in K1; rewrite Et; apply in_app_or in K1; apply in_or_app; destruct K1; auto; right; right; auto).
      apply in_app_or in K2. destruct K2 as [K2|[K2|K2]]; [|subst; apply whole_in; auto|].
      * destruct (Nat.eq_dec t nx) as [->|K].
        { rewrite (rm_pre_nx _ _ _ _ _ _ _ R) in K2. apply in_app_or in K2. destruct K2 as [K2|K2]; [apply (whole_pre _ _ tk); auto|apply (whole_pre _ _ nx); auto]. }
        rewrite (rm_pre _ _ _ _ _ _ _ R) in K2 by auto. apply (whole_pre _ _ t); auto.
      * destruct (Nat.eq_dec t (match rev a with [] => nx | pv :: _ => pv end)) as [K|K].
        { rewrite K, (rm_suf_pv _ _ _ _ _ _ _ R) in K2. rewrite <- K in K2. apply in_app_or in K2. destruct K2 as [K2|K2]; [apply (whole_suf _ _ t); auto|apply (whole_suf _ _ tk); auto]. }
        rewrite (rm_suf _ _ _ _ _ _ _ R) in K2 by auto. apply (whole_suf _ _ t); auto.
  - destruct Ho as (T1 & T2). destruct (not_eof_split _ _ _ (li_wfl _ _ _ L) T1 T2) as (a & nx & b & Et). destruct (remove_token_full x s cs a tk nx b L Et) as (y' & cs1 & E' & _ & Ty & S1 & Ar & _ & En). rewrite E' in E. injection E as -> ->.
    apply Ret; auto.
    + unfold pres. rewrite Ty, Et. fold (pres_of y (a ++ nx :: b)). rewrite (around_pres x y _ Ar). fold (pres_of x (a ++ tk :: nx :: b)). change (a ++ tk :: nx :: b) with (a ++ [tk] ++ nx :: b). rewrite !pres_of_app.
      apply subl_app; [apply subl_refl|]. apply subl_right.
    + apply (bounded_less x y s' a [tk] (nx :: b)); auto.
Qed.
