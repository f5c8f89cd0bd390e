(** Proofs about the grouping of local variables: putting the variables in place. *)
From Coq Require Import Permutation Sorted.
From Verif Require Import Base TokenModel UtilModel StreamModel StreamProofs TokListModel TokListProofs StaticModel ForwardProofs SdeclModel SdeclProofs.

(** The tokens [L] without those in [D], and the groups [gs] each behind its token, the last
    one made first. *)
Definition mem (t : id) (D : list id) : bool := existsb (Nat.eqb t) D.
Lemma mem_spec : forall t D, mem t D = true <-> In t D.
Proof. intros t D. unfold mem. rewrite existsb_exists. split; [intros (u & I & E); apply Nat.eqb_eq in E; subst; exact I|intros I; exists t; split; [exact I|apply Nat.eqb_refl]]. Qed.
Lemma mem_no : forall t D, mem t D = false <-> ~ In t D.
Proof. intros t D. rewrite <- mem_spec. destruct (mem t D); split; intros; try discriminate; try reflexivity; try (intros K; discriminate). exfalso. auto. Qed.
Definition behind (gs : list (id * list id)) (t : id) : list id := flat_map (fun g => if fst g =? t then snd g else []) gs.
Definition form (D : list id) (gs : list (id * list id)) (L : list id) : list id := flat_map (fun t => (if mem t D then [] else [t]) ++ behind gs t) L.
Lemma form_app : forall D gs a b, form D gs (a ++ b) = form D gs a ++ form D gs b.
Proof. intros. apply flat_map_app. Qed.
Lemma form_cons : forall D gs t b, form D gs (t :: b) = (if mem t D then [] else [t]) ++ behind gs t ++ form D gs b.
Proof. intros. unfold form at 1. cbn [flat_map]. rewrite <- app_assoc. reflexivity. Qed.
Lemma form_ext : forall D D' gs gs' L, (forall t, In t L -> (In t D <-> In t D') /\ behind gs t = behind gs' t) -> form D gs L = form D' gs' L.
Proof.
  intros D D' gs gs' L H. induction L as [|t L IH]; [reflexivity|]. rewrite !form_cons, IH by (intros u I; apply H; right; exact I). destruct (H t (or_introl eq_refl)) as [A ->].
  replace (mem t D') with (mem t D); [reflexivity|]. destruct (mem t D) eqn:E1, (mem t D') eqn:E2; try reflexivity; exfalso.
  - apply mem_spec in E1. apply mem_no in E2. tauto.
  - apply mem_spec in E2. apply mem_no in E1. tauto.
Qed.
Lemma behind_none : forall gs t, ~ In t (map fst gs) -> behind gs t = [].
Proof. induction gs as [|g gs IH]; intros t H; [reflexivity|]. cbn in *. destruct (Nat.eqb_spec (fst g) t); [exfalso; auto|]. apply IH. auto. Qed.
Lemma form_in : forall D gs L t, In t (form D gs L) <-> exists u, In u L /\ (t = u /\ ~ In u D \/ In t (behind gs u)).
Proof.
  intros D gs L t. unfold form. rewrite in_flat_map. split.
  - intros (u & I & K). exists u. split; [exact I|]. apply in_app_or in K. destruct K as [K|K]; [left|right; exact K]. destruct (mem u D) eqn:M; [destruct K|]. destruct K as [K|[]]. apply mem_no in M. auto.
  - intros (u & I & K). exists u. split; [exact I|]. apply in_or_app. destruct K as [[-> M]|K]; [left|right; exact K]. apply mem_no in M. rewrite M. left. reflexivity.
Qed.
Lemma behind_in : forall gs t i, In i (behind gs t) -> exists g, In g gs /\ fst g = t /\ In i (snd g).
Proof. intros gs t i H. unfold behind in H. apply in_flat_map in H. destruct H as (g & I & K). destruct (Nat.eqb_spec (fst g) t) as [E|E]; [|destruct K]. eauto. Qed.

Section Leaving.
Variable E : id -> nat.
Variable x0 : lex.
Hypothesis R0 : ready E x0.
Notation L0 := (x_toks x0).
Notation ty0 := (tyof x0).
Definition N0 : NoDup L0 := ready_nodup _ _ R0.

Record at_ (D : list id) (gs : list (id * list id)) (x : lex) : Prop := {
  at_ready : ready E x;
  at_keeps : keeps x0 x;
  at_toks : x_toks x = form D gs L0;
  at_new : forall g i, In g gs -> In i (snd g) -> i < x_next x /\ tyof x i <> T_EOF;
  at_semi : forall g, In g gs -> In (fst g) L0 /\ ty0 (fst g) = T_SEMI
}.
Lemma at_ty : forall D gs x t, at_ D gs x -> In t L0 -> tyof x t = ty0 t.
Proof. intros D gs x t A I. destruct (at_keeps _ _ _ A) as [_ K]. apply (K t). exact (ready_lt _ _ _ R0 I). Qed.
Lemma at_bare : forall D gs x t, at_ D gs x -> In t L0 -> bare (x_heap x0) t -> bare (x_heap x) t.
Proof. intros D gs x t A I B. eapply keeps_bare; [apply (at_keeps _ _ _ A)|exact (ready_lt _ _ _ R0 I)|exact B]. Qed.
Lemma at_str : forall D gs x t, at_ D gs x -> In t L0 -> n_str (x_heap x t) = n_str (x_heap x0 t).
Proof. intros D gs x t A I. destruct (at_keeps _ _ _ A) as [_ K]. apply (K t). exact (ready_lt _ _ _ R0 I). Qed.
Lemma at_ext : forall D D' gs x, at_ D gs x -> (forall t, In t D <-> In t D') -> at_ D' gs x.
Proof. intros D D' gs x [A B C F G] H. constructor; auto. rewrite C. apply form_ext. intros t _. split; [apply H|reflexivity]. Qed.
Lemma behind_not_semi : forall D gs x t, at_ D gs x -> ty0 t <> T_SEMI -> behind gs t = [].
Proof. intros D gs x t A H. apply behind_none. intros I. apply in_map_iff in I. destruct I as (g & <- & I). apply H. apply (at_semi _ _ _ A g I). Qed.

Lemma del_form : forall D gs x t, at_ D gs x -> In t L0 -> ~ In t D -> del t (x_toks x) = form (t :: D) gs L0 /\ In t (x_toks x).
Proof.
  intros D gs x t A I Nt. pose proof (ready_nodup _ _ (at_ready _ _ _ A)) as ND. rewrite (at_toks _ _ _ A) in *. destruct (in_split _ _ I) as (a & b & Ea).
  pose proof N0 as N. rewrite Ea in N, ND |- *. apply nodup_split in N. destruct N as (Na & Nb). rewrite form_app, form_cons in ND |- *. apply mem_no in Nt. rewrite Nt in ND |- *. cbn [app] in ND |- *.
  split; [|apply in_or_app; right; left; reflexivity]. rewrite del_split by (apply (nodup_split _ _ _ ND)). rewrite form_app, form_cons.
  replace (mem t (t :: D)) with true by (symmetry; apply mem_spec; left; reflexivity). cbn [app].
  rewrite (form_ext D (t :: D) gs gs a), (form_ext D (t :: D) gs gs b); [reflexivity| |]; intros u Iu; (split; [|reflexivity]); (split; [right; assumption|]); intros [<-|K]; try exact K; contradiction.
Qed.

Lemma st_remove : forall D gs x d, at_ D gs x -> In d L0 -> ~ In d D -> bare (x_heap x0) d -> ty0 d <> T_EOF ->
  exists y, remove d x = Some y /\ at_ (d :: D) gs y /\ keeps x y.
Proof.
  intros D gs x d A I Nd B T. destruct (del_form _ _ _ _ A I Nd) as [Dl Ix]. destruct (in_split _ _ Ix) as (a & r & Ea).
  destruct (remove_bare E x a d r (at_ready _ _ _ A) Ea) as (y & Ey & Ry & Ky & Ny & Ty); [eapply at_bare; eauto|rewrite (at_ty _ _ _ _ A I); exact T|].
  exists y. split; [exact Ey|]. split; [|exact Ky]. constructor.
  - exact Ry.
  - eapply keeps_trans; [apply (at_keeps _ _ _ A)|exact Ky].
  - rewrite <- Dl, Ty, Ea. symmetry. apply del_split. pose proof (ready_nodup _ _ (at_ready _ _ _ A)) as ND. rewrite Ea in ND. apply (nodup_split _ _ _ ND).
  - intros g i Ig Ii. destruct (at_new _ _ _ A g i Ig Ii) as [L Q]. split; [lia|]. destruct Ky as [_ Ky]. destruct (Ky i L) as (K & _). unfold tyof in *. congruence.
  - exact (at_semi _ _ _ A).
Qed.

Lemma at_last : forall D s G gs x, at_ D ((s, G) :: gs) x -> In s L0 -> ~ In s D -> ty0 s = T_SEMI -> tyof x (last G s) <> T_EOF.
Proof.
  intros D s G gs x A I Ns T. destruct G as [|g G] using rev_ind; [cbn; rewrite (at_ty _ _ _ _ A I), T; discriminate|]. rewrite last_last. apply (at_new _ _ _ A (s, G ++ [g])); [left; reflexivity|]. cbn. apply in_or_app. right. left. reflexivity.
Qed.
Lemma last_split : forall (G : list id) s, exists p, s :: G = p ++ [last G s].
Proof. intros G s. destruct G as [|g G] using rev_ind; [exists []; reflexivity|]. exists (s :: G). rewrite last_last. reflexivity. Qed.
(** Where the group being made ends. *)
Lemma form_grow : forall D s G gs, In s L0 -> ~ In s D -> exists p q, form D ((s, G) :: gs) L0 = p ++ last G s :: q /\ forall t, form D ((s, G ++ [t]) :: gs) L0 = p ++ last G s :: t :: q.
Proof.
  intros D s G gs I Ns. destruct (in_split _ _ I) as (a & b & Ea). pose proof N0 as N. rewrite Ea in N. apply nodup_split in N. destruct N as (Na & Nb).
  destruct (last_split G s) as (p & Ep). exists (form D gs a ++ p), (behind gs s ++ form D gs b).
  assert (X : forall G l, ~ In s l -> form D ((s, G) :: gs) l = form D gs l).
  { intros G' l Nl. apply form_ext. intros t It. split; [tauto|]. cbn. destruct (Nat.eqb_spec s t) as [->|_]; [contradiction|reflexivity]. }
  assert (Y : forall G', form D ((s, G') :: gs) L0 = form D gs a ++ (s :: G') ++ behind gs s ++ form D gs b).
  { intros G'. rewrite Ea, form_app, form_cons, !X by assumption. apply mem_no in Ns. rewrite Ns. unfold behind at 1. cbn [flat_map fst snd]. rewrite Nat.eqb_refl. cbn [app]. rewrite <- app_assoc. reflexivity. }
  split; [|intros t]; rewrite Y; [rewrite Ep|rewrite app_comm_cons, Ep]; rewrite <- !app_assoc; reflexivity.
Qed.

Lemma at_grown : forall D s G gs x y t p q, at_ D ((s, G) :: gs) x -> ready E y -> keeps x y -> x_toks y = p ++ last G s :: t :: q -> (forall t, form D ((s, G ++ [t]) :: gs) L0 = p ++ last G s :: t :: q) ->
  t < x_next y -> tyof y t <> T_EOF -> at_ D ((s, G ++ [t]) :: gs) y.
Proof.
  intros D s G gs x y t p q A Ry Ky Ty F Lt Nt. constructor.
  - exact Ry.
  - eapply keeps_trans; [apply (at_keeps _ _ _ A)|exact Ky].
  - rewrite F. exact Ty.
  - assert (K : forall g i, In g ((s, G) :: gs) -> In i (snd g) -> i < x_next y /\ tyof y i <> T_EOF).
    { intros g i Ig Ii. destruct (at_new _ _ _ A g i Ig Ii) as [L Q]. destruct Ky as [LL Ky]. split; [lia|]. destruct (Ky i L) as (K & _). unfold tyof in *. congruence. }
    intros g i [<-|Ig] Ii; [|apply (K g); [right; exact Ig|exact Ii]]. cbn in Ii. apply in_app_or in Ii. destruct Ii as [Ii|[<-|[]]]; [apply (K (s, G)); [left; reflexivity|exact Ii]|auto].
  - intros g [<-|Ig]; [apply (at_semi _ _ _ A (s, G)); left; reflexivity|apply (at_semi _ _ _ A); right; exact Ig].
Qed.

Lemma st_insert : forall D s G gs x def, at_ D ((s, G) :: gs) x -> ~ In s D -> n_type def <> T_EOF ->
  exists y t, insert_after (last G s) def x = Some (t, y) /\ at_ D ((s, G ++ [t]) :: gs) y /\ keeps x y /\ x_next x <= t /\ tyof y t = n_type def /\ n_str (x_heap y t) = n_str def /\ bare (x_heap y) t.
Proof.
  intros D s G gs x def A Ns Nd. destruct (at_semi _ _ _ A (s, G) (or_introl eq_refl)) as [I T]. cbn in I, T. destruct (form_grow D s G gs I Ns) as (p & q & F1 & F2).
  destruct (insert_ready E x def p (last G s) q (at_ready _ _ _ A)) as (y & t & Ey & Ry & Ky & Ty & Lt & T1 & T2 & T3); [rewrite (at_toks _ _ _ A); exact F1|eapply at_last; eauto|exact Nd|].
  exists y, t. split; [exact Ey|]. split; [eapply at_grown; eauto; [lia|congruence]|]. split; [exact Ky|]. split; [lia|]. auto.
Qed.
Lemma st_copy : forall D s G gs x src, at_ D ((s, G) :: gs) x -> ~ In s D -> In src L0 -> ~ In src D -> bare (x_heap x0) src -> ty0 src <> T_EOF ->
  exists y t, copy_after (last G s) src x = Some (t, y) /\ at_ D ((s, G ++ [t]) :: gs) y /\ keeps x y /\ x_next x <= t /\ tyof y t = ty0 src /\ n_str (x_heap y t) = n_str (x_heap x0 src) /\ bare (x_heap y) t.
Proof.
  intros D s G gs x src A Ns Is Nsrc B T0. destruct (at_semi _ _ _ A (s, G) (or_introl eq_refl)) as [I T]. cbn in I, T. destruct (form_grow D s G gs I Ns) as (p & q & F1 & F2).
  destruct (copy_ready E x src p (last G s) q (at_ready _ _ _ A)) as (y & t & Ey & Ry & Ky & Ty & Lt & T1 & T2 & T3).
  - rewrite (at_toks _ _ _ A). exact F1.
  - eapply at_last; eauto.
  - rewrite (at_toks _ _ _ A). apply form_in. exists src. auto.
  - eapply at_bare; eauto.
  - rewrite (at_ty _ _ _ _ A Is). exact T0.
  - rewrite (at_ty _ _ _ _ A Is) in T1. rewrite (at_str _ _ _ _ A Is) in T2. exists y, t. split; [exact Ey|]. split; [eapply at_grown; eauto; [lia|congruence]|]. split; [exact Ky|]. split; [lia|]. auto.
Qed.
Lemma st_move : forall D s G gs x t, at_ D ((s, G) :: gs) x -> ~ In s D -> In t L0 -> ~ In t D -> t <> s -> ty0 t <> T_EOF ->
  exists y, move_after (last G s) t x = Some y /\ at_ (t :: D) ((s, G ++ [t]) :: gs) y /\ keeps x y.
Proof.
  intros D s G gs x t A Ns It Nt Ts T0. destruct (at_semi _ _ _ A (s, G) (or_introl eq_refl)) as [I T]. cbn in I, T.
  destruct (del_form _ _ _ _ A It Nt) as [Dl Ix]. assert (Ns' : ~ In s (t :: D)) by (intros [K|K]; congruence). destruct (form_grow (t :: D) s G gs I Ns') as (p & q & F1 & F2).
  destruct (move_ready E x t p (last G s) q (at_ready _ _ _ A) Ix) as (y & Ey & Ry & Ky & Ny & Ty); [rewrite Dl; exact F1|eapply at_last; eauto|rewrite (at_ty _ _ _ _ A It); exact T0|].
  exists y. split; [exact Ey|]. split; [|exact Ky]. assert (L : t < x_next y) by (rewrite Ny; apply (ready_lt _ _ _ (at_ready _ _ _ A) Ix)).
  constructor.
  - exact Ry.
  - eapply keeps_trans; [apply (at_keeps _ _ _ A)|exact Ky].
  - rewrite F2. exact Ty.
  - assert (K : forall g i, In g ((s, G) :: gs) -> In i (snd g) -> i < x_next y /\ tyof y i <> T_EOF).
    { intros g i Ig Ii. destruct (at_new _ _ _ A g i Ig Ii) as [L' Q]. destruct Ky as [LL Ky]. split; [lia|]. destruct (Ky i L') as (K & _). unfold tyof in *. congruence. }
    intros g i [<-|Ig] Ii; [|apply (K g); [right; exact Ig|exact Ii]]. cbn in Ii. apply in_app_or in Ii. destruct Ii as [Ii|[<-|[]]]; [apply (K (s, G)); [left; reflexivity|exact Ii]|].
    split; [exact L|]. destruct Ky as [_ Ky]. destruct (Ky t ltac:(lia)) as (K1 & _). unfold tyof in *. rewrite K1. pose proof (at_ty _ _ _ _ A It) as Q. unfold tyof in Q. rewrite Q. exact T0.
  - intros g [<-|Ig]; [apply (at_semi _ _ _ A (s, G)); left; reflexivity|apply (at_semi _ _ _ A); right; exact Ig].
Qed.

(** The token behind another one. *)
Lemma form_next : forall D gs x l1 t m u l2, at_ D gs x -> L0 = l1 ++ t :: m ++ u :: l2 -> ~ In t D -> ~ In u D -> (forall i, In i m -> In i D) -> (forall i, In i (t :: m) -> behind gs i = []) ->
  next_of (x_toks x) t = Some u.
Proof.
  intros D gs x l1 t m u l2 A EL Nt Nu Dm Bm. pose proof (ready_nodup _ _ (at_ready _ _ _ A)) as ND. rewrite (at_toks _ _ _ A) in *. rewrite EL in *.
  assert (Fm : form D gs m = []).
  { assert (Bm' : forall i, In i m -> behind gs i = []) by (intros i I; apply Bm; right; exact I). clear -Dm Bm'. induction m as [|i m IH]; [reflexivity|]. rewrite form_cons, IH, Bm' by (auto using in_eq; intros; first [apply Dm|apply Bm']; right; assumption). replace (mem i D) with true by (symmetry; apply mem_spec; apply Dm; left; reflexivity). reflexivity. }
  rewrite form_app, form_cons, form_app, form_cons, Fm, (Bm t) in * by (left; reflexivity). apply mem_no in Nt, Nu. rewrite Nt, Nu in *. cbn [app] in *.
  rewrite next_split by (apply (nodup_split _ _ _ ND)). reflexivity.
Qed.

Definition copied (y : lex) (src t : id) : Prop := x_next x0 <= t /\ tyof y t = ty0 src /\ n_str (x_heap y t) = n_str (x_heap x0 src) /\ bare (x_heap y) t.
Lemma copied_keeps : forall y z src t, keeps y z -> t < x_next y -> copied y src t -> copied z src t.
Proof.
  intros y z src t [LL K] L (A & B & C & D). destruct (K t L) as (K1 & K2 & K3 & K4 & K5). repeat split; try congruence. unfold tyof in *. congruence. destruct D; congruence. destruct D; congruence. Qed.

Lemma st_copies : forall ts t l1 l2 D s G gs x fuel, at_ D ((s, G) :: gs) x -> ~ In s D -> L0 = l1 ++ (t :: ts) ++ l2 -> length ts < fuel ->
  (forall i, In i (t :: ts) -> ~ In i D /\ bare (x_heap x0) i /\ ty0 i <> T_EOF /\ ty0 i <> T_SEMI) ->
  exists y cs, foreach fuel (fun t after x => copy_after after t x) (last ts t) t (last G s) x = Some (last (G ++ cs) s, y) /\ at_ D ((s, G ++ cs) :: gs) y /\ keeps x y /\ Forall2 (copied y) (t :: ts) cs.
Proof.
  induction ts as [|u ts IH]; intros t l1 l2 D s G gs x fuel A Ns EL Lf H; (destruct fuel as [|fuel]; [cbn in Lf; lia|]); cbn [foreach].
  - destruct (H t (or_introl eq_refl)) as (Nt & Bt & T1 & T2). assert (It : In t L0) by (rewrite EL; apply in_or_app; right; left; reflexivity).
    destruct (st_copy D s G gs x t A Ns It Nt Bt T1) as (y & c & Ey & Ay & Ky & Lc & C1 & C2 & C3). rewrite Ey. cbn [last]. rewrite Nat.eqb_refl. exists y, [c]. rewrite last_last.
    split; [reflexivity|]. split; [exact Ay|]. split; [exact Ky|]. constructor; [|constructor]. split; [|auto]. pose proof (proj1 (at_keeps _ _ _ A)). lia.
  - destruct (H t (or_introl eq_refl)) as (Nt & Bt & T1 & T2). destruct (H u ltac:(right; left; reflexivity)) as (Nu & _). assert (It : In t L0) by (rewrite EL; apply in_or_app; right; left; reflexivity).
    destruct (st_copy D s G gs x t A Ns It Nt Bt T1) as (y & c & Ey & Ay & Ky & Lc & C1 & C2 & C3). rewrite Ey.
    rewrite (form_next D ((s, G) :: gs) x l1 t [] u (ts ++ l2) A); [|exact EL|exact Nt|exact Nu|intros i []|intros i [<-|[]]; eapply behind_not_semi; eauto].
    assert (Q : (t =? last (u :: ts) t) = false).
    { apply (in_last_neq l1); [|discriminate]. pose proof N0 as N. rewrite EL in N. rewrite app_assoc in N. apply nodup_app_l in N. exact N. }
    rewrite Q. change (last (u :: ts) t) with (last (u :: ts) t). rewrite last_cons_snoc.
    destruct (IH u (l1 ++ [t]) l2 D s (G ++ [c]) gs y fuel Ay Ns) as (z & cs & Ez & Az & Kz & Fz); [rewrite EL, <- app_assoc; reflexivity|cbn in Lf; lia|intros i Ii; apply H; right; exact Ii|].
    exists z, (c :: cs). rewrite last_last in Ez. rewrite <- app_assoc in Ez, Az. split; [exact Ez|]. split; [exact Az|]. split; [eapply keeps_trans; eauto|]. constructor; [|exact Fz]. eapply copied_keeps; [exact Kz| |].
    + apply (at_new _ _ _ Ay (s, G ++ [c])); [left; reflexivity|]. cbn. apply in_or_app. right. left. reflexivity.
    + split; [|auto]. pose proof (proj1 (at_keeps _ _ _ A)). lia.
Qed.

Lemma st_moves : forall ts t l1 l2 D s G gs x fuel, at_ D ((s, G) :: gs) x -> ~ In s D -> L0 = l1 ++ (t :: ts) ++ l2 -> length ts < fuel ->
  (forall i, In i (t :: ts) -> ~ In i D /\ ty0 i <> T_EOF /\ ty0 i <> T_SEMI) ->
  exists y, foreach fuel (fun t after x => do x <- move_after after t x; Some (t, x)) (last ts t) t (last G s) x = Some (last (G ++ t :: ts) s, y) /\ at_ ((t :: ts) ++ D) ((s, G ++ t :: ts) :: gs) y /\ keeps x y.
Proof.
  induction ts as [|u ts IH]; intros t l1 l2 D s G gs x fuel A Ns EL Lf H; (destruct fuel as [|fuel]; [cbn in Lf; lia|]); cbn [foreach];
    destruct (H t (or_introl eq_refl)) as (Nt & T1 & T2); assert (It : In t L0) by (rewrite EL; apply in_or_app; right; left; reflexivity);
    (assert (TS : t <> s) by (intros ->; apply T2; exact (proj2 (at_semi _ _ _ A (s, G) (or_introl eq_refl)))));
    destruct (st_move D s G gs x t A Ns It Nt TS T1) as (y & Ey & Ay & Ky); rewrite Ey.
  - cbn [last]. rewrite Nat.eqb_refl. exists y. rewrite last_last. auto.
  - destruct (H u ltac:(right; left; reflexivity)) as (Nu & _).
    rewrite (form_next D ((s, G) :: gs) x l1 t [] u (ts ++ l2) A); [|exact EL|exact Nt|exact Nu|intros i []|intros i [<-|[]]; eapply behind_not_semi; eauto].
    pose proof N0 as N. rewrite EL in N. 
    assert (Q : (t =? last (u :: ts) t) = false).
    { apply (in_last_neq l1); [|discriminate]. rewrite app_assoc in N. apply nodup_app_l in N. exact N. }
    rewrite Q. rewrite last_cons_snoc.
    destruct (IH u (l1 ++ [t]) l2 (t :: D) s (G ++ [t]) gs y fuel Ay) as (z & Ez & Az & Kz); [intros [K|K]; congruence|rewrite EL, <- app_assoc; reflexivity|cbn in Lf; lia| |].
    { intros i Ii. destruct (H i (or_intror Ii)) as (Ni & Q1 & Q2). split; [|auto]. intros [<-|K]; [|contradiction]. apply nodup_app_r in N. cbn in N. apply NoDup_cons_iff in N. apply (proj1 N). apply (in_or_app (u :: ts) l2). left. exact Ii. }
    exists z. rewrite last_last in Ez. rewrite <- app_assoc in Ez, Az. split; [exact Ez|]. split; [|eapply keeps_trans; eauto]. eapply at_ext; [exact Az|]. intros i. rewrite !in_app_iff. cbn. tauto.
Qed.

Lemma range_list_seg : forall ts t l1 l2 fuel, L0 = l1 ++ (t :: ts) ++ l2 -> length ts < fuel -> range_list fuel L0 (last ts t) t = t :: ts.
Proof.
  induction ts as [|u ts IH]; intros t l1 l2 fuel EL Lf; (destruct fuel as [|fuel]; [cbn in Lf; lia|]); cbn [range_list]; f_equal.
  - cbn. rewrite Nat.eqb_refl. reflexivity.
  - pose proof N0 as N. rewrite EL in N.
    assert (Q : (t =? last (u :: ts) t) = false) by (apply (in_last_neq l1); [rewrite app_assoc in N; apply nodup_app_l in N; exact N|discriminate]).
    rewrite Q. assert (NX : next_of L0 t = Some u) by (rewrite EL; cbn [app] in *; rewrite next_split by (apply (nodup_split _ _ _ N)); reflexivity). rewrite NX, last_cons_snoc.
    apply (IH u (l1 ++ [t]) l2); [rewrite EL, <- app_assoc; reflexivity|cbn in Lf; lia].
Qed.
Lemma over_seg : forall ts t l1 l2, L0 = l1 ++ (t :: ts) ++ l2 -> over x0 (t, last ts t) = t :: ts.
Proof. intros ts t l1 l2 EL. unfold over. cbn [fst snd]. eapply range_list_seg; [exact EL|]. rewrite EL, !app_length. cbn. lia. Qed.

(** Words of declarations: tokens as they are, or new ones. *)
Inductive word : Set := Old (t : id) | New (ty : ttype) (s : bytes).
Definition lays (y : lex) (w : word) (t : id) : Prop :=
  match w with Old u => t = u | New ty s => x_next x0 <= t /\ tyof y t = ty /\ n_str (x_heap y t) = s /\ bare (x_heap y) t end.
Lemma lays_keeps : forall y z, keeps y z -> forall ws l, (forall t, In t l -> t < x_next y) -> Forall2 (lays y) ws l -> Forall2 (lays z) ws l.
Proof.
  intros y z [LL K] ws l Hl H. induction H as [|w t ws l W H IH]; [constructor|]. constructor; [|apply IH; intros u I; apply Hl; right; exact I].
  destruct w as [u|ty s]; [exact W|]. destruct W as (A & B & C & [D1 D2]). destruct (K t (Hl t (or_introl eq_refl))) as (K1 & K2 & K3 & K4 & _). unfold lays, tyof, bare in *. repeat split; congruence.
Qed.
Definition copy_of (t : id) : word := New (ty0 t) (n_str (x_heap x0 t)).
Definition W (v : dvar) : list id := over x0 (v_range v).
Definition eat (v : dvar) : list id := W v ++ match v_delim v with Some d => [d] | None => [] end.
Definition further (v : dvar) : list word := New T_COMMA (s2b ",") :: map Old (W v).
Definition names (vs : list dvar) : list word := match vs with [] => [] | v :: vs => map Old (W v) ++ flat_map further vs end.
Definition group (ty : list id) (vs : list dvar) : list word := map copy_of ty ++ names vs ++ [New T_SEMI (s2b ";")].
(** Tokens that may be moved. *)
Definition fine (i : id) : Prop := In i L0 /\ bare (x_heap x0) i /\ ty0 i <> T_EOF /\ ty0 i <> T_SEMI.
Definition seg (r : range) : Prop := exists t ts l1 l2, r = (t, last ts t) /\ L0 = l1 ++ (t :: ts) ++ l2.

Lemma lays_old : forall y l, Forall2 (lays y) (map Old l) l.
Proof. induction l as [|t l IH]; constructor; [reflexivity|exact IH]. Qed.
Lemma at_lt : forall D s G gs x t, at_ D ((s, G) :: gs) x -> In t G -> t < x_next x.
Proof. intros D s G gs x t A I. apply (at_new _ _ _ A (s, G)); [left; reflexivity|exact I]. Qed.
Lemma at_len : forall D gs x l, at_ D gs x -> NoDup l -> (forall i, In i l -> In i L0 /\ ~ In i D) -> length l <= length (x_toks x).
Proof. intros D gs x l A N H. apply NoDup_incl_length; [exact N|]. intros i I. rewrite (at_toks _ _ _ A). apply form_in. exists i. destruct (H i I). auto. Qed.
Lemma seg_nodup : forall t ts l1 l2, L0 = l1 ++ (t :: ts) ++ l2 -> NoDup (t :: ts).
Proof. intros t ts l1 l2 EL. pose proof N0 as N. rewrite EL in N. apply nodup_app_r, nodup_app_l in N. exact N. Qed.

Lemma st_idents : forall vs first D s G gs x, at_ D ((s, G) :: gs) x -> ~ In s D -> Forall (fun v => seg (v_range v)) vs -> NoDup (flat_map eat vs) ->
  (forall i, In i (flat_map eat vs) -> fine i /\ ~ In i D) ->
  exists y G', move_idents first vs (last G s) x = Some (last (G ++ G') s, y) /\ at_ (flat_map eat vs ++ D) ((s, G ++ G') :: gs) y /\ keeps x y /\
    Forall2 (lays y) (if first then names vs else flat_map further vs) G'.
Proof.
  induction vs as [|v vs IH]; intros first D s G gs x A Ns Sg Nd H.
  - exists x, []. cbn. rewrite app_nil_r. split; [reflexivity|]. split; [exact A|]. split; [apply keeps_refl|]. destruct first; constructor.
  - pose proof (Forall_inv Sg) as (t & ts & l1 & l2 & Er & EL). apply Forall_inv_tail in Sg. cbn [flat_map] in Nd, H.
    assert (EW : W v = t :: ts) by (unfold W; rewrite Er; eapply over_seg; exact EL).
    assert (SS : ty0 s = T_SEMI) by (apply (at_semi _ _ _ A (s, G)); left; reflexivity).
    assert (Ne : forall i, In i (eat v) -> fine i /\ ~ In i D) by (intros i I; apply H; apply in_or_app; left; exact I).
    assert (Sv : ~ In s (eat v)) by (intros I; apply Ne in I; destruct I as [(_ & _ & _ & K) _]; contradiction).
    cbn [move_idents].
    assert (P1 : exists x1, (match v_delim v with Some d => remove d x | None => Some x end) = Some x1 /\ at_ (match v_delim v with Some d => [d] | None => [] end ++ D) ((s, G) :: gs) x1 /\ keeps x x1).
    { destruct (v_delim v) as [d|] eqn:Ed; [|exists x; split; [reflexivity|]; split; [exact A|apply keeps_refl]].
      destruct (Ne d) as [(Id & Bd & T1 & T2) Nd']; [unfold eat; rewrite Ed; apply in_or_app; right; left; reflexivity|].
      destruct (st_remove D _ x d A Id Nd' Bd T1) as (y & Ey & Ay & Ky). exists y. auto. }
    destruct P1 as (x1 & E1 & A1 & K1). rewrite E1. set (D1 := match v_delim v with Some d => [d] | None => [] end ++ D) in *.
    assert (Ns1 : ~ In s D1).
    { unfold D1. intros I. apply in_app_or in I. destruct I as [I|I]; [|contradiction]. apply Sv. unfold eat. apply in_or_app. right. exact I. }
    assert (P2 : exists x2 G1, (if first then Some (last G s, x1) else insert_after (last G s) comma_token x1) = Some (last (G ++ G1) s, x2) /\ at_ D1 ((s, G ++ G1) :: gs) x2 /\ keeps x1 x2 /\ Forall2 (lays x2) (if first then [] else [New T_COMMA (s2b ",")]) G1).
    { destruct first; [exists x1, []; rewrite app_nil_r; split; [reflexivity|]; split; [exact A1|]; split; [apply keeps_refl|constructor]|].
      destruct (st_insert D1 s G gs x1 comma_token A1 Ns1) as (x2 & c & E2 & A2 & K2 & Lc & C1 & C2 & C3); [discriminate|]. exists x2, [c]. rewrite last_last. split; [exact E2|]. split; [exact A2|]. split; [exact K2|].
      constructor; [|constructor]. split; [pose proof (proj1 (at_keeps _ _ _ A1)); lia|]. auto. }
    destruct P2 as (x2 & G1 & E2 & A2 & K2 & F2). rewrite E2.
    assert (Nv : forall i, In i (t :: ts) -> ~ In i D1 /\ ty0 i <> T_EOF /\ ty0 i <> T_SEMI).
    { intros i I. rewrite <- EW in I. destruct (Ne i) as [(_ & _ & T1 & T2) Q]; [unfold eat; apply in_or_app; left; exact I|]. split; [|auto]. unfold D1. intros J. apply in_app_or in J. destruct J as [J|J]; [|contradiction].
      apply nodup_app_l in Nd. unfold eat in Nd. eapply nodup_app_disj; eauto. }
    destruct (st_moves ts t l1 l2 D1 s (G ++ G1) gs x2 (length (x_toks x2)) A2 Ns1 EL) as (x3 & E3 & A3 & K3).
    { pose proof (at_len _ _ _ (t :: ts) A2 (seg_nodup _ _ _ _ EL)) as K. cbn in K. cut (S (length ts) <= length (x_toks x2)); [lia|]. apply K. intros i I. split; [rewrite EL; apply in_or_app; right; apply in_or_app; left; exact I|apply Nv; exact I]. }
    { exact Nv. }
    unfold move_ident. rewrite Er. cbn [fst snd]. rewrite E3.
    assert (A3' : at_ (eat v ++ D) ((s, (G ++ G1) ++ t :: ts) :: gs) x3).
    { eapply at_ext; [exact A3|]. intros i. unfold eat, D1. rewrite EW, !in_app_iff. tauto. }
    destruct (IH false (eat v ++ D) s ((G ++ G1) ++ t :: ts) gs x3 A3') as (y & G2 & Ey & Ay & Ky & Fy).
    + intros I. apply in_app_or in I. destruct I as [I|I]; contradiction.
    + exact Sg.
    + apply nodup_app_r in Nd. exact Nd.
    + intros i I. destruct (H i ltac:(apply in_or_app; right; exact I)) as [Fi Di]. split; [exact Fi|]. intros J. apply in_app_or in J. destruct J as [J|J]; [|contradiction]. eapply nodup_app_disj; eauto.
    + exists y, (G1 ++ (t :: ts) ++ G2). rewrite Ey. rewrite <- !app_assoc in *. split; [reflexivity|]. split; [|split].
      * eapply at_ext; [exact Ay|]. intros i. cbn [flat_map]. rewrite !in_app_iff. tauto.
      * eapply keeps_trans; [exact K1|]. eapply keeps_trans; [exact K2|]. eapply keeps_trans; eauto.
      * assert (F2' : Forall2 (lays y) (if first then [] else [New T_COMMA (s2b ",")]) G1).
        { eapply lays_keeps; [eapply keeps_trans; [exact K3|exact Ky]| |exact F2]. intros i I. eapply at_lt; [exact A2|]. apply in_or_app. right. exact I. }
        assert (F3 : Forall2 (lays y) (map Old (W v)) (t :: ts)) by (rewrite EW; apply lays_old).
        destruct first; cbn [names flat_map further].
        -- apply (Forall2_app F2'). apply (Forall2_app F3). exact Fy.
        -- change (Forall2 (lays y) ([New T_COMMA (s2b ",")] ++ map Old (W v) ++ flat_map further vs) (G1 ++ (t :: ts) ++ G2)). apply (Forall2_app F2'). apply (Forall2_app F3). exact Fy.
Qed.

Lemma at_begin : forall D gs x s, at_ D gs x -> In s L0 -> ty0 s = T_SEMI -> at_ D ((s, []) :: gs) x.
Proof.
  intros D gs x s [A B C F G] I T. constructor; auto.
  - rewrite C. apply form_ext. intros t _. split; [tauto|]. cbn. destruct (s =? t); reflexivity.
  - intros g i [<-|Ig] Ii; [destruct Ii|eauto].
  - intros g [<-|Ig]; auto.
Qed.

Definition anchor (sl : slot) : option id := match s_kept sl with Some k => Some k | None => s_fallback sl end.
Variable qsort : forall A, (A -> A -> Z) -> list A -> list A.
Hypothesis QP : forall h l, Permutation l (qsort dvar (var_cmp h) l) /\ StronglySorted (fun a b => (var_cmp h a b <= 0)%Z) (qsort dvar (var_cmp h) l).

Definition vars_ok (vs : list dvar) : Prop := Forall (fun v => seg (v_range v) /\ In (v_sort v) L0) vs.
Lemma flat_map_perm : forall A B (f : A -> list B) a b, Permutation a b -> Permutation (flat_map f a) (flat_map f b).
Proof. intros. apply Permutation_flat_map. assumption. Qed.
Lemma sorted_ext : forall A (P Q : A -> A -> Prop) l, (forall a b, In a l -> In b l -> P a b -> Q a b) -> StronglySorted P l -> StronglySorted Q l.
Proof.
  intros A P Q l H S. induction S as [|a l S IH F]; constructor; [apply IH; intros b c I J; apply H; right; assumption|]. rewrite Forall_forall in *. intros b I. apply H; [left; reflexivity|right; exact I|auto].
Qed.

Lemma st_slot : forall t sl s D gs x, at_ D gs x -> s_vars sl <> [] -> anchor sl = Some s -> In s L0 -> ty0 s = T_SEMI -> ~ In s D ->
  seg (t_range t) -> (forall i, In i (over x0 (t_range t)) -> fine i /\ ~ In i D) -> vars_ok (s_vars sl) -> NoDup (flat_map eat (s_vars sl)) -> (forall i, In i (flat_map eat (s_vars sl)) -> fine i /\ ~ In i D) ->
  exists y G vs, leave_slot qsort t sl x = Some y /\ at_ (flat_map eat (s_vars sl) ++ D) ((s, G) :: gs) y /\ keeps x y /\
    Permutation (s_vars sl) vs /\ StronglySorted (fun a b => (var_cmp (x_heap x0) a b <= 0)%Z) vs /\ Forall2 (lays y) (group (over x0 (t_range t)) vs) G.
Proof.
  intros t sl s D gs x A NE An Is Ts Ns (tt & tts & l1 & l2 & Er & EL) Ft Vo Nd Hv. unfold leave_slot.
  destruct (s_vars sl) as [|v0 vr] eqn:Ev; [contradiction|]. rewrite <- Ev in *. clear Ev NE. unfold anchor in An. rewrite An.
  rewrite (at_ty _ _ _ _ A Is), Ts. change (negb (ttype_eqb T_SEMI T_SEMI)) with false. cbn iota.
  destruct (QP (x_heap x) (s_vars sl)) as [QP1 QP2]. set (vs := qsort dvar (var_cmp (x_heap x)) (s_vars sl)) in *. clearbody vs.
  assert (Ow : over x0 (t_range t) = tt :: tts) by (rewrite Er; eapply over_seg; exact EL). rewrite Ow in Ft.
  unfold move_vars, copy_type. rewrite Er. cbn [fst snd].
  destruct (st_copies tts tt l1 l2 D s [] gs x (length (x_toks x)) (at_begin _ _ _ _ A Is Ts) Ns EL) as (x1 & cs & E1 & A1 & K1 & F1).
  { pose proof (at_len _ _ _ (tt :: tts) A (seg_nodup _ _ _ _ EL)) as K. cbn in K. cut (S (length tts) <= length (x_toks x)); [lia|]. apply K. intros i I. destruct (Ft i I) as [(J & _) N]. auto. }
  { intros i I. destruct (Ft i I) as [(J & B & T1 & T2) N]. auto. }
  cbn [last app] in E1. rewrite E1.
  assert (PF : Permutation (flat_map eat (s_vars sl)) (flat_map eat vs)) by (apply flat_map_perm, QP1).
  destruct (st_idents vs true D s cs gs x1 A1 Ns) as (x2 & G2 & E2 & A2 & K2 & F2).
  { rewrite Forall_forall. intros v I. apply Permutation_sym in QP1. eapply Permutation_in in I; [|exact QP1]. unfold vars_ok in Vo. rewrite Forall_forall in Vo. apply Vo in I. apply I. }
  { eapply Permutation_NoDup; eauto. }
  { intros i I. apply Hv. eapply Permutation_in; [symmetry; exact PF|exact I]. }
  rewrite E2. assert (A2' : at_ (flat_map eat (s_vars sl) ++ D) ((s, cs ++ G2) :: gs) x2).
  { eapply at_ext; [exact A2|]. intros i. rewrite !in_app_iff. split; (intros [I|I]; [left|right; exact I]); (eapply Permutation_in; [|exact I]); [symmetry|]; exact PF. }
  assert (Ns2 : ~ In s (flat_map eat (s_vars sl) ++ D)).
  { intros I. apply in_app_or in I. destruct I as [I|I]; [|contradiction]. apply Hv in I. destruct I as [(_ & _ & _ & K) _]. contradiction. }
  destruct (st_insert _ s (cs ++ G2) gs x2 semi_token A2' Ns2) as (x3 & c & E3 & A3 & K3 & Lc & C1 & C2 & C3); [discriminate|]. rewrite E3.
  assert (Lay3 : Forall2 (lays x3) (group (tt :: tts) vs) ((cs ++ G2) ++ [c])).
  { unfold group. rewrite app_assoc. apply Forall2_app; [apply Forall2_app|].
    - eapply lays_keeps; [eapply keeps_trans; [exact K2|exact K3]|intros i I; eapply at_lt; [exact A1|exact I]|]. clear -F1. induction F1; constructor; auto.
    - eapply lays_keeps; [exact K3|intros i I; eapply at_lt; [exact A2|apply in_or_app; right; exact I]|exact F2].
    - constructor; [|constructor]. split; [pose proof (proj1 (at_keeps _ _ _ A2)); lia|]. auto. }
  assert (Is3 : In s (x_toks x3)) by (rewrite (at_toks _ _ _ A3); apply form_in; exists s; auto).
  assert (Ic3 : In c (x_toks x3)).
  { rewrite (at_toks _ _ _ A3). apply form_in. exists s. split; [exact Is|]. right. cbn. rewrite Nat.eqb_refl. apply in_or_app. left. apply in_or_app. right. left. reflexivity. }
  assert (SC : s <> c). { intros ->. pose proof (proj1 (at_keeps _ _ _ A2)). pose proof (ready_lt _ _ _ R0 Is). lia. }
  destruct (spaces_ready E x3 s c (at_ready _ _ _ A3) Is3 Ic3 SC) as [R4 K4]. set (x4 := set_heap _ x3) in *.
  exists x4, ((cs ++ G2) ++ [c]), vs. split; [reflexivity|]. split; [|split; [|split; [exact QP1|split]]].
  - destruct A3 as [B1 B2 B3 B4 B5]. constructor; auto.
    + eapply keeps_trans; eauto.
    + intros g i Ig Ii. destruct (B4 g i Ig Ii) as [L Q]. destruct K4 as [LL K4]. split; [lia|]. destruct (K4 i L) as (K & _). unfold tyof in *. congruence.
  - eapply keeps_trans; [exact K1|]. eapply keeps_trans; [exact K2|]. eapply keeps_trans; eauto.
  - eapply sorted_ext; [|exact QP2]. intros a b Ia Ib. unfold var_cmp. unfold vars_ok in Vo. rewrite Forall_forall in Vo. apply Permutation_sym in QP1.
    pose proof (proj2 (Vo a (Permutation_in _ QP1 Ia))) as Ja. pose proof (proj2 (Vo b (Permutation_in _ QP1 Ib))) as Jb. rewrite (at_str _ _ _ _ A Ja), (at_str _ _ _ _ A Jb). auto.
  - rewrite Er in Ow. rewrite Ow. eapply lays_keeps; [exact K4| |exact Lay3]. intros i I. eapply at_lt; [exact A3|exact I].
Qed.

(** All slots that have variables. *)
Definition job : Set := (dtype * slot)%type.
Definition jobs (types : list dtype) : list job := flat_map (fun t => flat_map (fun sl => match s_vars sl with [] => [] | _ => [(t, sl)] end) (t_slots t)) types.
Fixpoint leave_jobs (js : list job) (x : lex) : option lex := match js with [] => Some x | (t, sl) :: js => do x <- leave_slot qsort t sl x; leave_jobs js x end.
Lemma leave_jobs_app : forall a b x, leave_jobs (a ++ b) x = do x <- leave_jobs a x; leave_jobs b x.
Proof. induction a as [|[t sl] a IH]; intros b x; [reflexivity|]. cbn. destruct (leave_slot qsort t sl x); [apply IH|reflexivity]. Qed.
Lemma leave_types_jobs : forall types x, leave_types qsort types x = leave_jobs (jobs types) x.
Proof.
  induction types as [|t types IH]; intros x; [reflexivity|]. cbn [leave_types jobs flat_map]. rewrite leave_jobs_app.
  assert (K : forall l x, leave_slots qsort t l x = leave_jobs (flat_map (fun sl => match s_vars sl with [] => [] | _ => [(t, sl)] end) l) x).
  { induction l as [|sl l IHl]; intros z; [reflexivity|]. cbn [leave_slots flat_map]. rewrite leave_jobs_app. destruct (s_vars sl) as [|v r] eqn:Ev.
    - cbn [leave_jobs]. unfold leave_slot at 1. rewrite Ev. apply IHl.
    - cbn [leave_jobs]. destruct (leave_slot qsort t sl z); [apply IHl|reflexivity]. }
  rewrite K. destruct (leave_jobs _ x); [apply IH|reflexivity].
Qed.

Definition job_vars (j : job) : list dvar := s_vars (snd j).
Record job_ok (j : job) : Prop := {
  jo_vars : job_vars j <> [];
  jo_anchor : exists s, anchor (snd j) = Some s /\ In s L0 /\ ty0 s = T_SEMI;
  jo_seg : seg (t_range (fst j));
  jo_type : forall i, In i (over x0 (t_range (fst j))) -> fine i;
  jo_ok : vars_ok (job_vars j)
}.
Definition made (y : lex) (j : job) (g : id * list id) : Prop :=
  anchor (snd j) = Some (fst g) /\ exists vs, Permutation (job_vars j) vs /\ StronglySorted (fun a b => (var_cmp (x_heap x0) a b <= 0)%Z) vs /\ Forall2 (lays y) (group (over x0 (t_range (fst j))) vs) (snd g).
Lemma st_jobs : forall js D gs x, at_ D gs x -> Forall job_ok js -> NoDup (flat_map eat (flat_map job_vars js)) -> (forall i, In i (flat_map eat (flat_map job_vars js)) -> fine i /\ ~ In i D) ->
  (forall j s, In j js -> anchor (snd j) = Some s -> ~ In s D) -> (forall j i, In j js -> In i (over x0 (t_range (fst j))) -> ~ In i D /\ ~ In i (flat_map eat (flat_map job_vars js))) ->
  exists y gs', leave_jobs js x = Some y /\ at_ (flat_map eat (flat_map job_vars js) ++ D) (rev gs' ++ gs) y /\ keeps x y /\ Forall2 (made y) js gs'.
Proof.
  induction js as [|[t sl] js IH]; intros D gs x A Jo Nd Hv An Ht.
  - exists x, []. split; [reflexivity|]. split; [exact A|]. split; [apply keeps_refl|constructor].
  - destruct (Forall_inv Jo) as [J1 (s & J2 & J3 & J4) J5 J6 J7]. apply Forall_inv_tail in Jo. cbn [fst snd] in *. cbn [flat_map] in *. rewrite flat_map_app in Nd, Hv, Ht. cbn [job_vars snd] in *. fold (job_vars (t, sl)) in *.
    assert (Hv1 : forall i, In i (flat_map eat (job_vars (t, sl))) -> fine i /\ ~ In i D) by (intros i I; apply Hv; apply in_or_app; left; exact I).
    assert (Nsv : forall s, ty0 s = T_SEMI -> ~ In s (flat_map eat (job_vars (t, sl)))) by (intros u Tu I; apply Hv1 in I; destruct I as [(_ & _ & _ & K) _]; contradiction).
    destruct (st_slot t sl s D gs x A J1 J2 J3 J4) as (x1 & G & vs & E1 & A1 & K1 & P1 & S1 & F1).
    + apply (An (t, sl)); [left; reflexivity|exact J2].
    + exact J5.
    + intros i I. split; [apply J6; exact I|]. apply (Ht (t, sl) i); [left; reflexivity|exact I].
    + exact J7.
    + apply nodup_app_l in Nd. exact Nd.
    + exact Hv1.
    + destruct (IH (flat_map eat (job_vars (t, sl)) ++ D) ((s, G) :: gs) x1 A1 Jo) as (y & gs' & Ey & Ay & Ky & Fy).
      * apply nodup_app_r in Nd. exact Nd.
      * intros i I. destruct (Hv i ltac:(apply in_or_app; right; exact I)) as [Fi Di]. split; [exact Fi|]. intros J. apply in_app_or in J. destruct J as [J|J]; [|contradiction]. eapply nodup_app_disj; eauto.
      * intros j u Ij Au I. apply in_app_or in I. destruct I as [I|I]; [|eapply An; [right; exact Ij|exact Au|exact I]]. rewrite Forall_forall in Jo. destruct (jo_anchor _ (Jo j Ij)) as (u' & Au' & _ & Tu). assert (u' = u) as -> by congruence. exact (Nsv u Tu I).
      * intros j i Ij Ii. destruct (Ht j i (or_intror Ij) Ii) as [H1 H2]. rewrite in_app_iff in *. tauto.
      * exists y, ((s, G) :: gs'). cbn [leave_jobs]. rewrite E1. split; [exact Ey|]. split; [|split].
        -- cbn [rev]. rewrite <- app_assoc. cbn [app]. eapply at_ext; [exact Ay|]. intros i. rewrite flat_map_app, !in_app_iff. tauto.
        -- eapply keeps_trans; eauto.
        -- constructor; [|exact Fy]. split; [exact J2|]. exists vs. split; [exact P1|]. split; [exact S1|]. eapply lays_keeps; [exact Ky| |exact F1]. intros i I. eapply at_lt; [exact A1|exact I].
Qed.

(** Declarations left empty. *)
Lemma first_out : forall (D : list id) b e, ~ In (last b e) D -> b <> [] -> exists m u b', b = m ++ u :: b' /\ (forall i, In i m -> In i D) /\ ~ In u D.
Proof.
  intros D b e H NE. induction b as [|t b IH]; [contradiction|]. destruct (in_dec Nat.eq_dec t D) as [I|I].
  - destruct b as [|u b]; [cbn in H; contradiction|]. destruct IH as (m & v & b' & -> & A & B); [exact H|discriminate|]. exists (t :: m), v, b'. split; [reflexivity|]. split; [|exact B]. intros i [<-|J]; auto.
  - exists [], t, b. split; [reflexivity|]. split; [intros i []|exact I].
Qed.
Lemma st_removes : forall n b t l1 l2 D gs x fuel, length b < n -> at_ D gs x -> L0 = l1 ++ (t :: b) ++ l2 -> ~ In t D -> ~ In (last b t) D ->
  (forall i, In i (t :: b) -> ~ In i D -> bare (x_heap x0) i /\ ty0 i <> T_EOF) -> (forall i, In i (t :: b) -> i <> last b t -> behind gs i = []) ->
  length (filter (fun i => negb (mem i D)) b) < fuel ->
  exists y, foreach fuel (fun t (_ : unit) x => do x <- remove t x; Some (tt, x)) (last b t) t tt x = Some (tt, y) /\ at_ ((t :: b) ++ D) gs y /\ keeps x y.
Proof.
  induction n as [|n IH]; intros b t l1 l2 D gs x fuel Ln A EL Nt Ne Hb Bh Lf; [lia|]. destruct fuel as [|fuel]; [lia|]. cbn [foreach].
  assert (It : In t L0) by (rewrite EL; apply in_or_app; right; left; reflexivity). destruct (Hb t (or_introl eq_refl) Nt) as [Bt Tt].
  destruct (st_remove D gs x t A It Nt Bt Tt) as (y & Ey & Ay & Ky). rewrite Ey. destruct b as [|b0 br] eqn:Eb.
  - cbn [last]. rewrite Nat.eqb_refl. exists y. auto.
  - rewrite <- Eb in *. assert (NE : b <> []) by (rewrite Eb; discriminate). clear Eb b0 br.
    pose proof N0 as N. rewrite EL in N. 
    assert (Q : (t =? last b t) = false) by (apply (in_last_neq l1); [rewrite app_assoc in N; apply nodup_app_l in N; exact N|exact NE]). rewrite Q. apply Nat.eqb_neq in Q.
    destruct (first_out D b t Ne NE) as (m & u & b' & -> & Dm & Nu).
    assert (EL2 : L0 = l1 ++ t :: m ++ u :: b' ++ l2) by (rewrite EL; cbn [app]; rewrite <- app_assoc; reflexivity).
    assert (Lst : last (m ++ u :: b') t = last b' u) by (rewrite last_app_ne by discriminate; apply last_cons_snoc). rewrite Lst in *.
    assert (Tb : ~ In t (m ++ u :: b')).
    { apply nodup_app_r in N. cbn [app] in N. apply NoDup_cons_iff in N. intros I. apply (proj1 N). apply in_or_app. left. exact I. }
    rewrite (form_next D gs x l1 t m u (b' ++ l2) A EL2 Nt Nu Dm).
    2:{ intros i I. apply Bh; [destruct I as [<-|I]; [left; reflexivity|right; apply in_or_app; left; exact I]|]. destruct I as [<-|I]; [exact Q|]. intros ->. apply Ne. apply Dm. exact I. }
    assert (NI : forall i, In i (m ++ u :: b') -> ~ In i D -> ~ In i (t :: D)) by (intros i I J [<-|K]; contradiction).
    destruct (IH b' u (l1 ++ t :: m) l2 (t :: D) gs y fuel) as (z & Ez & Az & Kz).
    + rewrite app_length in Ln. cbn in Ln. lia.
    + exact Ay.
    + rewrite EL2, <- app_assoc. reflexivity.
    + apply NI; [apply in_or_app; right; left; reflexivity|exact Nu].
    + apply NI; [|exact Ne]. apply in_or_app. right. destruct b' as [|w b']; [left; reflexivity|right]. rewrite last_cons_snoc. destruct (last_split b' w) as (p & Ep). rewrite Ep. apply in_or_app. right. left. reflexivity.
    + intros i I J. apply Hb; [right; apply in_or_app; right; exact I|]. intros K. apply J. right. exact K.
    + intros i I J. apply Bh; [right; apply in_or_app; right; exact I|exact J].
    + rewrite filter_app, app_length in Lf. cbn [filter] in Lf. apply mem_no in Nu. rewrite Nu in Lf. cbn [negb length] in Lf.
      assert (F : filter (fun i => negb (mem i (t :: D))) b' = filter (fun i => negb (mem i D)) b').
      { apply filter_ext_in. intros i I. f_equal. cbn. destruct (Nat.eqb_spec i t) as [->|_]; [|reflexivity]. exfalso. apply Tb. apply in_or_app. right. right. exact I. }
      rewrite F. lia.
    + exists z. split; [exact Ez|]. split; [|eapply keeps_trans; eauto]. eapply at_ext; [exact Az|]. intros i. pose proof (Dm i) as DI. cbn. rewrite !in_app_iff. cbn. tauto.
Qed.

Definition body_of (d : decl) (b : list id) : Prop := exists t r l1 l2, b = t :: r /\ d_range d = (t, last r t) /\ L0 = l1 ++ b ++ l2.
Lemma st_empties : forall ds bs D gs x, at_ D gs x -> Forall2 body_of ds bs -> NoDup (concat bs) ->
  (forall t r, In (t :: r) bs -> ~ In t D /\ ~ In (last r t) D /\ (forall i, In i (t :: r) -> ~ In i D -> bare (x_heap x0) i /\ ty0 i <> T_EOF) /\ (forall i, In i (t :: r) -> i <> last r t -> behind gs i = [])) ->
  exists y, remove_empty ds x = Some y /\ at_ (concat bs ++ D) gs y /\ keeps x y.
Proof.
  induction ds as [|d ds IH]; intros bs D gs x A F Nd H; inv F; [exists x; auto using keeps_refl|]. match goal with K : body_of _ ?b |- _ => rename b into bd; destruct K as (t & r & l1 & l2 & -> & Er & EL) end.
  cbn [remove_empty concat]. rewrite Er. cbn [fst snd]. destruct (H t r (or_introl eq_refl)) as (Nt & Ne & Hb & Bh).
  destruct (st_removes (S (length r)) r t l1 l2 D gs x (length (x_toks x)) ltac:(lia) A EL Nt Ne Hb Bh) as (y & Ey & Ay & Ky).
  { assert (SN := seg_nodup _ _ _ _ EL). assert (K : length (t :: filter (fun i => negb (mem i D)) r) <= length (x_toks x)); [|cbn in K; lia].
    apply (at_len _ _ _ _ A).
    - apply NoDup_cons_iff in SN. constructor; [intros I; apply filter_In in I; tauto|apply NoDup_filter; tauto].
    - assert (IL : forall i, In i (t :: r) -> In i L0) by (intros i I; rewrite EL; apply in_or_app; right; apply in_or_app; left; exact I).
      intros i [<-|I]; [split; [apply IL; left; reflexivity|exact Nt]|]. apply filter_In in I. destruct I as [I M]. split; [apply IL; right; exact I|]. apply mem_no. destruct (mem i D); [discriminate|reflexivity]. }
  rewrite Ey. cbn [concat] in Nd.
  match goal with K : Forall2 body_of ds ?l |- _ => destruct (IH l ((t :: r) ++ D) gs y Ay K) as (z & Ez & Az & Kz) end.
  - apply nodup_app_r in Nd. exact Nd.
  - intros u q I. destruct (H u q (or_intror I)) as (Nu & Nl & Hq & Bq).
    assert (X : forall i, In i (u :: q) -> ~ In i (t :: r)) by (intros i Ii Ij; eapply nodup_app_disj; [exact Nd|exact Ij|]; apply in_concat; eauto).
    assert (Il : In (last q u) (u :: q)) by (destruct (last_split q u) as (p & ->); apply in_or_app; right; left; reflexivity).
    split; [rewrite in_app_iff; intros [K|K]; [exact (X u (or_introl eq_refl) K)|contradiction]|].
    split; [rewrite in_app_iff; intros [K|K]; [exact (X _ Il K)|contradiction]|]. split; [|exact Bq].
    intros i Ii Ni. apply Hq; [exact Ii|]. intros K. apply Ni. apply in_or_app. right. exact K.
  - exists z. split; [exact Ez|]. split; [|eapply keeps_trans; eauto]. eapply at_ext; [exact Az|]. intros i. rewrite !in_app_iff. tauto.
Qed.

Lemma at_start : at_ [] [] x0.
Proof.
  constructor.
  - exact R0.
  - apply keeps_refl.
  - induction L0 as [|t l IH]; [reflexivity|]. rewrite form_cons, <- IH. reflexivity.
  - intros g i [].
  - intros g [].
Qed.
Lemma st_leave : forall s bs, let js := jobs (c_types s) in let D := flat_map eat (flat_map job_vars js) in
  Forall job_ok js -> NoDup D -> (forall i, In i D -> fine i) -> (forall j i, In j js -> In i (over x0 (t_range (fst j))) -> ~ In i D) ->
  Forall2 body_of (c_empty s) bs -> NoDup (concat bs) ->
  (forall t r, In (t :: r) bs -> ~ In t D /\ ~ In (last r t) D /\ (forall i, In i (t :: r) -> ~ In i D -> bare (x_heap x0) i /\ ty0 i <> T_EOF) /\ (forall i, In i (t :: r) -> i <> last r t -> ty0 i <> T_SEMI)) ->
  exists y gs, sd_leave qsort s x0 = Some y /\ at_ (concat bs ++ D) (rev gs) y /\ Forall2 (made y) js gs.
Proof.
  intros s bs js D Jo Nd Fi Ht Fb Nb Hb. unfold sd_leave. rewrite leave_types_jobs. fold js.
  destruct (st_jobs js [] [] x0 at_start Jo Nd) as (x1 & gs & E1 & A1 & K1 & F1).
  - intros i I. split; [apply Fi; exact I|intros []].
  - intros j u _ _ [].
  - intros j i Ij Ii. split; [intros []|]. apply (Ht j); assumption.
  - rewrite E1. fold D in A1. rewrite !app_nil_r in A1.
    destruct (st_empties (c_empty s) bs D (rev gs) x1 A1 Fb Nb) as (y & Ey & Ay & Ky).
    + intros t r I. destruct (Hb t r I) as (H1 & H2 & H3 & H4). repeat split; try assumption; try (apply H3; assumption). intros i Ii Ni. eapply behind_not_semi; [exact A1|]. apply H4; assumption.
    + exists y, gs. split; [exact Ey|]. split; [exact Ay|].
      assert (IN : forall g, In g gs -> In g (rev gs)) by (intros g; apply in_rev). clear -F1 Ky A1 IN. pose proof (fun g i I => at_new _ _ _ A1 g i (IN g I)) as NW. clear A1 IN. revert F1 NW.
      generalize js. induction gs as [|g gs IH]; intros l F NW; inv F; constructor; [|apply IH; [assumption|intros g' i I; apply NW; right; exact I]].
      match goal with K : made _ _ _ |- _ => destruct K as (M1 & vs & M2 & M3 & M4) end. split; [exact M1|]. exists vs. split; [exact M2|]. split; [exact M3|]. eapply lays_keeps; [exact Ky| |exact M4]. intros i I. apply (NW g i); [left; reflexivity|exact I].
Qed.
End Leaving.
