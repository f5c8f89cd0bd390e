(** Proofs about libks/map.c. *)
From Coq Require Import NArith ZArith Lia Permutation.
From Verif Require Import Base MapModel.

(** ** Doubly linked lists over two views of memory. *)
Definition view := id -> option (option id).
Definition first (l : list id) (q : option id) : option id := match l with [] => q | x :: _ => Some x end.
Definition final (p : option id) (l : list id) : option id := match rev l with [] => p | x :: _ => Some x end.

Fixpoint dll (NX PV : view) (p : option id) (l : list id) (q : option id) : Prop :=
  match l with
  | [] => True
  | i :: r => NX i = Some (first r q) /\ PV i = Some p /\ dll NX PV (Some i) r q
  end.

Lemma final_cons : forall p x l, final p (x :: l) = final (Some x) l.
Proof.
  intros p x l. unfold final. cbn [rev]. destruct (rev l) as [|y r] eqn:E; reflexivity.
Qed.
Lemma final_app : forall l p x, final p (l ++ [x]) = Some x.
Proof. intros l p x. unfold final. rewrite rev_app_distr. reflexivity. Qed.
Lemma final_in : forall l p y, final p l = Some y -> p = Some y \/ In y l.
Proof.
  intros l p y. unfold final. destruct (rev l) as [|z r] eqn:E; intros H; [left; exact H|].
  right. apply in_rev. rewrite E. left. congruence.
Qed.
Lemma final_none : forall l, final None l = None -> l = [].
Proof.
  intros l. unfold final. destruct (rev l) as [|z r] eqn:E; intros H; [|discriminate].
  apply (f_equal (@rev _)) in E. rewrite rev_involutive in E. exact E.
Qed.
Lemma dll_app : forall NX PV a p b q, dll NX PV p (a ++ b) q <-> dll NX PV p a (first b q) /\ dll NX PV (final p a) b q.
Proof.
  intros NX PV. induction a as [|x a IH]; intros p b q.
  - cbn [app dll]. unfold final. cbn. tauto.
  - cbn [app dll]. rewrite final_cons, IH. destruct a; cbn [app first]; tauto.
Qed.
Lemma dll_frame : forall NX PV NX' PV' l p q, (forall x, In x l -> NX' x = NX x /\ PV' x = PV x) -> dll NX PV p l q -> dll NX' PV' p l q.
Proof.
  intros NX PV NX' PV'. induction l as [|x l IH]; intros p q F; cbn [dll]; [auto|].
  intros (A & B & C). destruct (F x (or_introl eq_refl)) as [E1 E2]. rewrite E1, E2. split; [exact A|split; [exact B|]].
  apply IH; [|exact C]. intros y Hy. apply F. right. exact Hy.
Qed.
(** Changing what the last one points to. *)
Lemma dll_last : forall NX PV NX' l p q q', NoDup l -> dll NX PV p l q ->
  (forall x, In x l -> final p l <> Some x -> NX' x = NX x) -> (forall x, In x l -> final p l = Some x -> NX' x = Some q') -> dll NX' PV p l q'.
Proof.
  intros NX PV NX'. induction l as [|x l IH]; intros p q q' ND D F L; cbn [dll] in *; [auto|].
  destruct D as (A & B & C). inversion ND; subst. rewrite final_cons in *. destruct l as [|y l].
  - cbn [first dll] in *. split; [|auto]. apply L; [left; reflexivity|reflexivity].
  - split; [|split; [exact B|]].
    + rewrite F; [exact A|left; reflexivity|]. rewrite final_cons. intros E. apply final_in in E.
      destruct E as [E|E]; [inversion E; subst; apply H1; left; reflexivity|apply H1; right; exact E].
    + apply (IH (Some x) q q'); auto.
      * intros z Hz. apply F. right. exact Hz.
      * intros z Hz. apply L. right. exact Hz.
Qed.
(** Changing what the first one points back to. *)
Lemma dll_first : forall NX PV PV' l p p' q, NoDup l -> dll NX PV p l q ->
  (forall x, In x l -> first l None <> Some x -> PV' x = PV x) -> (forall x, first l None = Some x -> PV' x = Some p') -> dll NX PV' p' l q.
Proof.
  intros NX PV PV' [|x l] p p' q ND D F L; cbn [dll] in *; [auto|].
  destruct D as (A & B & C). inversion ND; subst. split; [exact A|split; [apply L; reflexivity|]].
  apply (dll_frame NX PV); [|exact C]. intros y Hy. split; [reflexivity|]. apply F; [right; exact Hy|].
  cbn [first]. intros E. inversion E; subst. contradiction.
Qed.
Lemma dll_unlink : forall NX PV NX' PV' a i b, NoDup (a ++ i :: b) -> dll NX PV None (a ++ i :: b) None ->
  (forall x, In x (a ++ b) -> final None a <> Some x -> NX' x = NX x) -> (forall x, final None a = Some x -> NX' x = Some (first b None)) ->
  (forall x, In x (a ++ b) -> first b None <> Some x -> PV' x = PV x) -> (forall x, first b None = Some x -> PV' x = Some (final None a)) ->
  dll NX' PV' None (a ++ b) None.
Proof.
  intros NX PV NX' PV' a i b ND D F1 L1 F2 L2. apply dll_app in D. destruct D as [Da D]. cbn [dll] in D. destruct D as (_ & _ & Db).
  assert (NDa : NoDup a) by (apply NoDup_remove_1 in ND; revert ND; clear; induction a; cbn [app]; intros H; [constructor|inversion H; subst; constructor; [intros I; apply H2; apply in_or_app; left; exact I|apply IHa; assumption]]).
  assert (NDb : NoDup b) by (apply NoDup_remove_1 in ND; revert ND; clear; induction a; cbn [app]; intros H; [exact H|inversion H; auto]).
  assert (DJ : forall x, In x a -> In x b -> False).
  { intros x Ia Ib. apply NoDup_remove_1 in ND. revert ND Ia Ib. clear. induction a as [|y a IH]; cbn [app In]; intros H; [tauto|].
    inversion H; subst. intros [E|Ia] Ib; [subst; apply H2; apply in_or_app; right; exact Ib|apply IH; auto]. }
  apply dll_app. split.
  - apply (dll_frame NX' PV).
    { intros x Hx. split; [reflexivity|]. apply F2; [apply in_or_app; left; exact Hx|]. intros E. destruct b as [|y b]; [discriminate|]. cbn [first] in E. inversion E; subst.
      apply (DJ x Hx). left. reflexivity. }
    apply (dll_last NX PV NX' a None (first (i :: b) None)); auto.
    intros x Hx Hf. apply F1; [apply in_or_app; left; exact Hx|exact Hf].
  - apply (dll_frame NX PV').
    { intros x Hx. split; [|reflexivity]. apply F1; [apply in_or_app; right; exact Hx|]. intros E. apply final_in in E. destruct E as [E|E]; [discriminate|]. exact (DJ x E Hx). }
    apply (dll_first NX PV PV' b (Some i)); auto.
    intros x Hx Hf. apply F2; [apply in_or_app; right; exact Hx|exact Hf].
Qed.
Lemma dll_push : forall NX PV NX' PV' c i, NoDup c -> ~ In i c -> dll NX PV None c None ->
  (forall x, In x c -> NX' x = NX x) -> NX' i = Some (first c None) -> PV' i = Some None ->
  (forall x, In x c -> first c None <> Some x -> PV' x = PV x) -> (forall x, first c None = Some x -> PV' x = Some (Some i)) ->
  dll NX' PV' None (i :: c) None.
Proof.
  intros NX PV NX' PV' c i ND NI D F1 E1 E2 F2 L2. cbn [dll]. split; [exact E1|split; [exact E2|]].
  apply (dll_frame NX PV'); [intros x Hx; split; [apply F1; exact Hx|reflexivity]|].
  apply (dll_first NX PV PV' c None); auto.
Qed.
Lemma dll_snoc : forall NX PV NX' PV' l i, NoDup l -> ~ In i l -> dll NX PV None l None ->
  (forall x, In x l -> PV' x = PV x) -> NX' i = Some None -> PV' i = Some (final None l) ->
  (forall x, In x l -> final None l <> Some x -> NX' x = NX x) -> (forall x, In x l -> final None l = Some x -> NX' x = Some (Some i)) ->
  dll NX' PV' None (l ++ [i]) None.
Proof.
  intros NX PV NX' PV' l i ND NI D F1 E1 E2 F2 L2. apply dll_app. split; [|cbn [dll first]; auto].
  apply (dll_frame NX' PV); [intros x Hx; split; [reflexivity|apply F1; exact Hx]|].
  apply (dll_last NX PV NX' l None None); auto.
Qed.

(** ** Memory. *)
Definition nxv (h : heap) : view := fun i => option_map e_next (h i).
Definition pvv (h : heap) : view := fun i => option_map e_prev (h i).
Definition hnv (h : heap) : view := fun i => option_map e_hnext (h i).
Definition hpv (h : heap) : view := fun i => option_map e_hprev (h i).
(** Key, hash and value never change. *)
Definition data (e : elem) : bytes * N * bytes := (e_key e, e_hash e, e_val e).
Definition dat (h : heap) (i : id) : option (bytes * N * bytes) := option_map data (h i).

Lemma modify_ok : forall i f h e, h i = Some e -> exists h', modify i f h = Some h' /\ h' i = Some (f e) /\ forall j, j <> i -> h' j = h j.
Proof.
  intros i f h e E. unfold modify. rewrite E. eexists. split; [reflexivity|]. cbv beta; rewrite Nat.eqb_refl. split; [reflexivity|].
  intros j Hj. apply Nat.eqb_neq in Hj. cbv beta. rewrite Hj. reflexivity.
Qed.
Lemma modify_opt_ok : forall o f h, (forall i, o = Some i -> exists e, h i = Some e) ->
  exists h', modify_opt o f h = Some h' /\ (forall i e, o = Some i -> h i = Some e -> h' i = Some (f e)) /\ forall j, o <> Some j -> h' j = h j.
Proof.
  intros [i|] f h H; cbn [modify_opt].
  - destruct (H i eq_refl) as [e E]. destruct (modify_ok i f h e E) as (h' & A & B & C). exists h'. split; [exact A|]. split.
    + intros j e' Hj. inversion Hj; subst. rewrite E. intros X. inversion X; subst. exact B.
    + intros j Hj. apply C. congruence.
  - exists h. split; [reflexivity|]. split; [discriminate|reflexivity].
Qed.

Lemma nth_set_same : forall l n b x, nth_error l n = Some x -> nth_error (set_nth n b l) n = Some b.
Proof. induction l as [|y l IH]; intros [|n] b x H; cbn in *; try discriminate; auto. eapply IH; eauto. Qed.
Lemma nth_set_other : forall l n m b, n <> m -> nth_error (set_nth n b l) m = nth_error l m.
Proof. induction l as [|y l IH]; intros [|n] [|m] b H; cbn; auto; try congruence. Qed.
Lemma set_nth_length : forall l n b, length (set_nth n b l) = length l.
Proof. induction l as [|y l IH]; intros [|n] b; cbn; auto. Qed.

Lemma to_bkt_lt : forall h k, (k < 32)%N -> (to_bkt h (2 ^ k) < N.to_nat (2 ^ k))%nat.
Proof.
  intros h k _. unfold to_bkt. replace (2 ^ k - 1)%N with (N.ones k) by (rewrite N.ones_equiv; lia).
  rewrite N.land_ones. assert (H : (h mod 2 ^ k < 2 ^ k)%N) by (apply N.mod_lt; apply N.pow_nonzero; lia). lia.
Qed.

(** ** Buckets hold the chains [C]. *)
Definition hashat (h : heap) (i : id) : N := match h i with Some e => e_hash e | None => 0%N end.
Record chains (h : heap) (bs : list bucket) (k : N) (C : nat -> list id) : Prop := {
  ch_k : (k < 32)%N;
  ch_len : length bs = N.to_nat (2 ^ k);
  ch_head : forall i b, nth_error bs i = Some b -> k_head b = first (C i) None;
  ch_dll : forall i, dll (hnv h) (hpv h) None (C i) None;
  ch_nd : forall i, NoDup (C i);
  ch_idx : forall i x, In x (C i) -> i = to_bkt (hashat h x) (2 ^ k) /\ exists e, h x = Some e
}.

Lemma first_in : forall c x, first c None = Some x -> In x c.
Proof. intros [|y c] x H; [discriminate|]. cbn in H. inversion H; subst. left. reflexivity. Qed.

(** Pushing [i] in front of its chain: what adding and moving have in common. *)
Definition push (C : nat -> list id) (n : nat) (i : id) : nat -> list id := fun m => if Nat.eqb m n then i :: C n else C m.
Lemma chains_push : forall h bs k C i e b cnt mult,
  chains h bs k C -> h i = Some e -> (forall m, ~ In i (C m)) ->
  nth_error bs (to_bkt (e_hash e) (2 ^ k)) = Some b ->
  exists h1 h2, modify i (fun e => set_hnext (k_head b) (set_hprev None e)) h = Some h1 /\ modify i (fun e => set_hprev None (set_hnext (k_head b) e)) h = Some h1 /\
    modify_opt (k_head b) (set_hprev (Some i)) h1 = Some h2 /\
    chains h2 (set_nth (to_bkt (e_hash e) (2 ^ k)) (mkbucket (Some i) cnt mult) bs) k (push C (to_bkt (e_hash e) (2 ^ k)) i) /\
    (forall j, (forall m, ~ In j (C m)) -> j <> i -> h2 j = h j) /\ (forall j, dat h2 j = dat h j) /\ (forall j, nxv h2 j = nxv h j) /\ (forall j, pvv h2 j = pvv h j).
Proof.
  intros h bs k C i e b cnt mult CH Hi NI Hb. destruct CH as [K L HD DL ND IX].
  set (n := to_bkt (e_hash e) (2 ^ k)) in *. pose proof (HD _ _ Hb) as Hh.
  destruct (modify_ok i (fun e => set_hnext (k_head b) (set_hprev None e)) h e Hi) as (h1 & A1 & B1 & C1).
  assert (NE : forall j, k_head b = Some j -> j <> i).
  { intros j Hj E. subst j. rewrite Hj in Hh. symmetry in Hh. apply first_in in Hh. exact (NI _ Hh). }
  destruct (modify_opt_ok (k_head b) (set_hprev (Some i)) h1) as (h2 & A2 & B2 & C2).
  { intros j Hj. rewrite (C1 j (NE j Hj)). rewrite Hj in Hh. symmetry in Hh. apply first_in in Hh. apply (proj2 (IX _ _ Hh)). }
  assert (H2i : h2 i = Some (set_hnext (k_head b) (set_hprev None e))).
  { rewrite C2; [exact B1|]. intros E. exact (NE i E eq_refl). }
  assert (Hj : forall j, j <> i -> h2 j = h j \/ (k_head b = Some j /\ exists f, h j = Some f /\ h2 j = Some (set_hprev (Some i) f))).
  { intros j Hj. destruct (k_head b) as [y|] eqn:EY.
    - destruct (Nat.eq_dec y j) as [E|E].
      + subst y. right. split; [reflexivity|]. symmetry in Hh. apply first_in in Hh. destruct (IX _ _ Hh) as [_ [f Ef]]. exists f. split; [exact Ef|].
        apply (B2 j f eq_refl). rewrite (C1 j Hj). exact Ef.
      + left. rewrite C2 by congruence. apply C1. exact Hj.
    - left. rewrite C2 by congruence. apply C1. exact Hj. }
  assert (DAT : forall j, dat h2 j = dat h j /\ nxv h2 j = nxv h j /\ pvv h2 j = pvv h j /\ hashat h2 j = hashat h j /\ (j <> i -> hnv h2 j = hnv h j)).
  { intros j. unfold dat, nxv, pvv, hashat, hnv. destruct (Nat.eq_dec j i) as [E|E].
    - subst j. rewrite H2i, Hi. cbn. repeat split; tauto.
    - destruct (Hj j E) as [E'|(_ & f & Ef & E')]; rewrite E'; [repeat split; reflexivity|rewrite Ef; cbn; repeat split; reflexivity]. }
  exists h1, h2. split; [exact A1|]. split; [exact A1|]. split; [exact A2|]. split.
  - constructor.
    + exact K.
    + rewrite set_nth_length. exact L.
    + intros m b' Hm. unfold push. destruct (Nat.eqb_spec m n) as [E|E].
      * subst m. rewrite (nth_set_same _ _ _ _ Hb) in Hm. inversion Hm; subst. reflexivity.
      * rewrite nth_set_other in Hm by congruence. apply HD. exact Hm.
    + intros m. unfold push. destruct (Nat.eqb_spec m n) as [E|E].
      * apply (dll_push (hnv h) (hpv h)); auto.
        -- intros x Hx. apply DAT. intros E'. subst. exact (NI _ Hx).
        -- unfold hnv. rewrite H2i. cbn. rewrite Hh. reflexivity.
        -- unfold hpv. rewrite H2i. reflexivity.
        -- intros x Hx Hf. rewrite <- Hh in Hf. unfold hpv. destruct (Hj x) as [E'|(E' & _)]; [intros E'; subst; exact (NI _ Hx)|rewrite E'; reflexivity|contradiction].
        -- intros x Hf. rewrite <- Hh in Hf. unfold hpv. pose proof (NE x Hf) as Hx.
           pose proof Hf as Hf'. rewrite Hh in Hf'. apply first_in in Hf'. destruct (IX _ _ Hf') as [_ [f Ef]].
           rewrite (B2 x f Hf); [reflexivity|]. rewrite (C1 x Hx). exact Ef.
      * apply (dll_frame (hnv h) (hpv h)); [|apply DL]. intros x Hx.
        assert (x <> i) by (intros E'; subst; exact (NI _ Hx)). split; [apply DAT; auto|].
        unfold hpv. destruct (Hj x) as [E'|(E' & _)]; [auto|rewrite E'; reflexivity|].
        exfalso. rewrite E' in Hh. symmetry in Hh. apply first_in in Hh. apply E. rewrite (proj1 (IX _ _ Hx)), (proj1 (IX _ _ Hh)). reflexivity.
    + intros m. unfold push. destruct (Nat.eqb_spec m n) as [E|E]; [|apply ND]. constructor; [apply NI|apply ND].
    + intros m x. unfold push. replace (hashat h2 x) with (hashat h x) by (symmetry; apply DAT).
      assert (EX : forall y, (exists f, h y = Some f) -> exists f, h2 y = Some f).
      { intros y [f Ef]. pose proof (proj1 (DAT y)) as D. unfold dat in D. rewrite Ef in D. destruct (h2 y); [eexists; reflexivity|discriminate]. }
      destruct (Nat.eqb_spec m n) as [E|E].
      * cbn [In]. intros [E'|Hx].
        -- subst x. split; [|exists (set_hnext (k_head b) (set_hprev None e)); exact H2i]. unfold hashat. rewrite Hi. exact E.
        -- subst m. destruct (IX _ _ Hx) as [P Q]. split; [exact P|apply EX; exact Q].
      * intros Hx. destruct (IX _ _ Hx) as [P Q]. split; [exact P|apply EX; exact Q].
  - split; [|split; [|split]]; try (intros j; apply DAT).
    intros j NJ Hji. destruct (Hj j Hji) as [E|(E & _)]; [exact E|]. rewrite E in Hh. symmetry in Hh. apply first_in in Hh. exfalso. exact (NJ _ Hh).
Qed.

(** ** Expansion. *)
Fixpoint sll (NX : view) (s : option id) (l : list id) : Prop :=
  match l with [] => s = None | i :: r => s = Some i /\ exists n, NX i = Some n /\ sll NX n r end.
Lemma dll_sll : forall NX PV l p, dll NX PV p l None -> sll NX (first l None) l.
Proof.
  intros NX PV. induction l as [|x l IH]; intros p D; cbn [sll dll first] in *; [reflexivity|].
  destruct D as (A & _ & B). split; [reflexivity|]. exists (first l None). split; [exact A|]. eapply IH. exact B.
Qed.
Lemma sll_frame : forall NX NX' l s, (forall x, In x l -> NX' x = NX x) -> sll NX s l -> sll NX' s l.
Proof.
  intros NX NX'. induction l as [|x l IH]; intros s F; cbn [sll]; [auto|]. intros (A & n & B & D). split; [exact A|].
  exists n. split; [rewrite F; [exact B|left; reflexivity]|]. apply IH; [|exact D]. intros y Hy. apply F. right. exact Hy.
Qed.

(** What moving elements to other buckets leaves alone. *)
Definition kept (h h' : heap) : Prop := forall j, dat h' j = dat h j /\ nxv h' j = nxv h j /\ pvv h' j = pvv h j.
Lemma kept_refl : forall h, kept h h.
Proof. intros h j. auto. Qed.
Lemma kept_trans : forall a b c, kept a b -> kept b c -> kept a c.
Proof. intros a b c A B j. destruct (A j) as (A1 & A2 & A3), (B j) as (B1 & B2 & B3). rewrite B1, B2, B3. auto. Qed.
Lemma kept_some : forall h h' j, kept h h' -> (exists e, h j = Some e) -> exists e, h' j = Some e.
Proof. intros h h' j K [e E]. destruct (K j) as (D & _). unfold dat in D. rewrite E in D. destruct (h' j); [eexists; reflexivity|discriminate]. Qed.
Lemma kept_hash : forall h h' j, kept h h' -> hashat h' j = hashat h j.
Proof.
  intros h h' j K. destruct (K j) as (D & _). unfold dat in D. unfold hashat. destruct (h' j), (h j); cbn in D; try discriminate; [|reflexivity].
  inversion D. reflexivity.
Qed.

Definition moved (h h' : heap) (C C' : nat -> list id) (l : list id) : Prop :=
  kept h h' /\ (forall j, (forall m, ~ In j (C m)) -> ~ In j l -> h' j = h j) /\
  (forall m x, In x (C' m) -> In x (C m) \/ In x l) /\ (forall m x, In x (C m) -> In x (C' m)) /\ (forall x, In x l -> exists m, In x (C' m)).

Lemma moved_nil : forall h C, moved h h C C [].
Proof. intros h C. split; [apply kept_refl|]. split; [auto|]. split; [auto|]. split; [auto|]. intros x []. Qed.
Lemma moved_trans : forall h h1 h2 C C1 C2 l1 l2, moved h h1 C C1 l1 -> moved h1 h2 C1 C2 l2 -> moved h h2 C C2 (l1 ++ l2).
Proof.
  intros h h1 h2 C C1 C2 l1 l2 (A1 & A2 & A3 & A4 & A5) (B1 & B2 & B3 & B4 & B5). split; [eapply kept_trans; eauto|]. split; [|split; [|split]].
  - intros j N1 N2. rewrite B2.
    + apply A2; [exact N1|]. intros I. apply N2. apply in_or_app. left. exact I.
    + intros m I. apply A3 in I. destruct I as [I|I]; [exact (N1 _ I)|]. apply N2. apply in_or_app. left. exact I.
    + intros I. apply N2. apply in_or_app. right. exact I.
  - intros m x I. rewrite in_app_iff. apply B3 in I. destruct I as [I|I]; [|tauto]. apply A3 in I. tauto.
  - intros m x I. auto.
  - intros x I. apply in_app_or in I. destruct I as [I|I]; [|auto]. destruct (A5 x I) as [m M]. exists m. auto.
Qed.

Lemma move_chain_ok : forall ideal k l fuel h bs C ni s,
  (length l <= fuel)%nat -> chains h bs k C -> sll (hnv h) s l -> NoDup l -> (forall x, In x l -> exists e, h x = Some e) -> (forall x m, In x l -> ~ In x (C m)) ->
  exists h' bs' ni' C', move_chain fuel (2 ^ k) ideal s (h, bs, ni) = Some (h', bs', ni') /\ chains h' bs' k C' /\ moved h h' C C' l.
Proof.
  intros ideal k. induction l as [|i l IH]; intros fuel h bs C ni s Hf CH S ND EX DJ.
  - cbn [sll] in S. subst s. exists h, bs, ni, C. split; [destruct fuel; reflexivity|]. split; [exact CH|apply moved_nil].
  - cbn [sll] in S. destruct S as (-> & n & Sn & S). cbn [length] in Hf. destruct fuel as [|fuel]; [lia|]. inversion ND; subst.
    destruct (EX i (or_introl eq_refl)) as [e Ei]. cbn [move_chain]. rewrite Ei. cbn [bind].
    destruct (nth_error bs (to_bkt (e_hash e) (2 ^ k))) as [b|] eqn:Eb.
    2:{ exfalso. apply nth_error_None in Eb. rewrite (ch_len _ _ _ _ CH) in Eb. pose proof (to_bkt_lt (e_hash e) k (ch_k _ _ _ _ CH)). lia. }
    cbn [bind]. set (cnt := w32 (k_count b + 1)).
    set (mult := if (ideal <? cnt)%N && (w32 (k_mult b * ideal) <? cnt)%N then w32 (k_mult b + 1) else k_mult b).
    set (ni' := if (ideal <? cnt)%N then w32 (ni + 1) else ni).
    destruct (chains_push h bs k C i e b cnt mult CH Ei (fun m => DJ i m (or_introl eq_refl)) Eb) as (h1 & h2 & M1 & _ & M2 & CH2 & FR & D1 & D2 & D3).
    rewrite M1. cbn [bind]. rewrite M2. cbn [bind].
    assert (KP : kept h h2) by (intros j; auto).
    assert (Hn : e_hnext e = n) by (unfold hnv in Sn; rewrite Ei in Sn; cbn in Sn; congruence). rewrite Hn.
    assert (FL : forall x, In x l -> h2 x = h x).
    { intros x Hx. apply FR; [intros m; apply DJ; right; exact Hx|]. intros E. subst. contradiction. }
    destruct (IH fuel h2 (set_nth (to_bkt (e_hash e) (2 ^ k)) (mkbucket (Some i) cnt mult) bs) (push C (to_bkt (e_hash e) (2 ^ k)) i) ni' n) as (h' & bs' & ni2 & C' & R & CH' & MV).
    + lia.
    + exact CH2.
    + apply (sll_frame (hnv h)); [|exact S]. intros x Hx. unfold hnv. rewrite FL by exact Hx. reflexivity.
    + assumption.
    + intros x Hx. rewrite FL by exact Hx. apply EX. right. exact Hx.
    + intros x m Hx. unfold push. destruct (Nat.eqb_spec m (to_bkt (e_hash e) (2 ^ k))) as [E|E].
      * cbn [In]. intros [E'|I]; [subst; contradiction|]. exact (DJ x _ (or_intror Hx) I).
      * apply DJ. right. exact Hx.
    + exists h', bs', ni2, C'. split; [exact R|]. split; [exact CH'|].
      change (i :: l) with ([i] ++ l). eapply moved_trans; [|exact MV].
      split; [exact KP|]. split; [|split; [|split]].
      * intros j N1 N2. apply FR; [exact N1|]. intros E. apply N2. left. auto.
      * intros m x. unfold push. destruct (Nat.eqb_spec m (to_bkt (e_hash e) (2 ^ k))) as [E|E]; cbn [In]; [|tauto]. subst m. tauto.
      * intros m x I. unfold push. destruct (Nat.eqb_spec m (to_bkt (e_hash e) (2 ^ k))) as [E|E]; [subst; right; exact I|exact I].
      * intros x [E|[]]. subst x. exists (to_bkt (e_hash e) (2 ^ k)). unfold push. rewrite Nat.eqb_refl. left. reflexivity.
Qed.

Lemma nodup_split : forall (a b : list id), NoDup (a ++ b) -> NoDup a /\ NoDup b /\ forall x, In x a -> ~ In x b.
Proof.
  induction a as [|x a IH]; intros b H; cbn [app] in H.
  - split; [constructor|]. split; [exact H|]. intros x [].
  - inversion H; subst. destruct (IH _ H3) as (A & B & D). split; [|split; [exact B|]].
    + constructor; [|exact A]. intros I. apply H2. apply in_or_app. left. exact I.
    + intros y [E|I]; [subst; intros I; apply H2; apply in_or_app; right; exact I|apply D; exact I].
Qed.

Lemma move_all_ok : forall ideal k old Ds fuel h bs C ni,
  (length (concat Ds) <= fuel)%nat -> chains h bs k C -> Forall2 (fun b c => sll (hnv h) (k_head b) c) old Ds -> NoDup (concat Ds) ->
  (forall x, In x (concat Ds) -> exists e, h x = Some e) -> (forall x m, In x (concat Ds) -> ~ In x (C m)) ->
  exists h' bs' ni' C', move_all fuel (2 ^ k) ideal old (h, bs, ni) = Some (h', bs', ni') /\ chains h' bs' k C' /\ moved h h' C C' (concat Ds).
Proof.
  intros ideal k. induction old as [|b old IH]; intros Ds fuel h bs C ni Hf CH F ND EX DJ; inversion F; subst.
  - cbn [concat]. exists h, bs, ni, C. split; [reflexivity|]. split; [exact CH|apply moved_nil].
  - cbn [concat] in *. rename y into c. rename l' into Ds.
    rewrite app_length in Hf. destruct (nodup_split _ _ ND) as (NDc & NDr & DD).
    destruct (move_chain_ok ideal k c fuel h bs C ni (k_head b)) as (h1 & bs1 & ni1 & C1 & R1 & CH1 & MV1); auto.
    { lia. }
    { intros x Hx. apply EX. apply in_or_app. left. exact Hx. }
    { intros x m Hx. apply DJ. apply in_or_app. left. exact Hx. }
    assert (FL : forall x, In x (concat Ds) -> h1 x = h x).
    { intros x Hx. apply MV1; [intros m; apply DJ; apply in_or_app; right; exact Hx|]. intros I. exact (DD x I Hx). }
    destruct (IH Ds fuel h1 bs1 C1 ni1) as (h2 & bs2 & ni2 & C2 & R2 & CH2 & MV2); auto.
    { lia. }
    { clear - H3 FL. induction H3 as [|b c old Ds S F IH]; [constructor|]. constructor.
      - apply (sll_frame (hnv h)); [|exact S]. intros x Hx. unfold hnv. rewrite FL; [reflexivity|]. cbn [concat]. apply in_or_app. left. exact Hx.
      - apply IH. intros x Hx. apply FL. cbn [concat]. apply in_or_app. right. exact Hx. }
    { intros x Hx. rewrite FL by exact Hx. apply EX. apply in_or_app. right. exact Hx. }
    { intros x m Hx I. apply MV1 in I. destruct I as [I|I]; [|exact (DD x I Hx)]. revert I. apply DJ. apply in_or_app. right. exact Hx. }
    exists h2, bs2, ni2, C2. split; [|split; [exact CH2|eapply moved_trans; eauto]].
    cbn [move_all]. rewrite R1. cbn [bind]. exact R2.
Qed.

Lemma nodup_bound : forall n (l : list id), NoDup l -> (forall x, In x l -> (x < n)%nat) -> (length l <= n)%nat.
Proof.
  intros n l ND B. rewrite <- (seq_length n 0). apply NoDup_incl_length; [exact ND|]. intros x Hx. apply in_seq. specialize (B x Hx). lia.
Qed.
Lemma nodup_concat : forall (C : nat -> list id) (f : id -> nat) n s, (forall i, NoDup (C i)) -> (forall i x, In x (C i) -> i = f x) ->
  NoDup (concat (List.map C (seq s n))).
Proof.
  intros C f. induction n as [|n IH]; intros s ND F; cbn [seq List.map concat]; [constructor|].
  assert (H : forall a b : list id, NoDup a -> NoDup b -> (forall x, In x a -> ~ In x b) -> NoDup (a ++ b)).
  { clear. induction a as [|x a IH]; intros b A B D; cbn [app]; [exact B|]. inversion A; subst. constructor.
    - intros I. apply in_app_or in I. destruct I as [I|I]; [contradiction|]. exact (D x (or_introl eq_refl) I).
    - apply IH; auto. intros y Hy. apply D. right. exact Hy. }
  apply H; auto. intros x Hx I. apply in_concat in I. destruct I as (c & Hc & Ic). apply in_map_iff in Hc. destruct Hc as (j & <- & Hj).
  apply in_seq in Hj. apply F in Hx. apply F in Ic. lia.
Qed.
Lemma forall2_map : forall (P : bucket -> list id -> Prop) (C : nat -> list id) bs s,
  (forall i b, nth_error bs i = Some b -> P b (C (s + i)%nat)) -> Forall2 P bs (List.map C (seq s (length bs))).
Proof.
  intros P C. induction bs as [|b bs IH]; intros s H; cbn [length seq List.map]; [constructor|]. constructor.
  - specialize (H 0%nat b eq_refl). rewrite Nat.add_0_r in H. exact H.
  - apply IH. intros i b' Hb. replace (S s + i)%nat with (s + S i)%nat by lia. apply H. exact Hb.
Qed.
Lemma chains_in : forall h bs k C m x, chains h bs k C -> In x (C m) -> (m < length bs)%nat.
Proof.
  intros h bs k C m x CH I. rewrite (ch_len _ _ _ _ CH). destruct (ch_idx _ _ _ _ CH _ _ I) as [-> _]. apply to_bkt_lt. apply (ch_k _ _ _ _ CH).
Qed.
Lemma pow2_lt : forall k, (k < 31)%N -> (2 ^ k * 2 < 2 ^ 32)%N.
Proof.
  intros k H. replace (2 ^ k * 2)%N with (2 ^ (N.succ k))%N by (rewrite N.pow_succ_r'; lia). apply N.pow_lt_mono_r; lia.
Qed.
Lemma chains_empty : forall h k, (k < 32)%N -> chains h (repeat (mkbucket None 0 0) (N.to_nat (2 ^ k))) k (fun _ => []).
Proof.
  intros h k K. constructor; auto.
  - apply repeat_length.
  - intros i b H. apply nth_error_In in H. apply repeat_spec in H. subst. reflexivity.
  - intros i. exact I.
  - intros i. constructor.
  - intros i x [].
Qed.

Lemma expand_ok : forall ok fuel h t k C, chains h (t_bkts t) k C -> t_num t = (2 ^ k)%N -> (forall x m, In x (C m) -> (x < fuel)%nat) ->
  (expand ok fuel h t = Some (true, h, t) /\ (ok = false \/ k = 31%N)) \/
  exists h' t' C', expand ok fuel h t = Some (false, h', t') /\ chains h' (t_bkts t') (k + 1) C' /\ t_num t' = (2 ^ (k + 1))%N /\ t_tail t' = t_tail t /\ kept h h' /\
    (forall x, (exists m, In x (C m)) <-> (exists m, In x (C' m))).
Proof.
  intros ok fuel h t k C CH NB BD. unfold expand. rewrite NB. pose proof (ch_k _ _ _ _ CH) as K.
  destruct (N.leb_spec (2 ^ 32) (2 ^ k * 2)) as [G|G].
  { left. split; [reflexivity|]. right. destruct (N.lt_ge_cases k 31) as [A|A]; [|lia]. apply pow2_lt in A. lia. }
  destruct ok; cbn [negb]; [|left; auto]. right.
  assert (K1 : (k + 1 < 32)%N). { destruct (N.lt_ge_cases (k + 1) 32) as [A|A]; [exact A|]. assert (k = 31)%N by lia. subst. vm_compute in G. discriminate. }
  replace (2 ^ k * 2)%N with (2 ^ (k + 1))%N by (rewrite N.add_1_r, N.pow_succ_r'; lia).
  set (ideal := w32 _).
  set (Ds := List.map C (seq 0 (length (t_bkts t)))).
  assert (IN : forall x, In x (concat Ds) <-> exists m, In x (C m)).
  { intros x. unfold Ds. rewrite in_concat. split.
    - intros (c & Hc & Ic). apply in_map_iff in Hc. destruct Hc as (j & <- & _). exists j. exact Ic.
    - intros (m & Im). exists (C m). split; [|exact Im]. apply in_map. apply in_seq. pose proof (chains_in _ _ _ _ _ _ CH Im). lia. }
  assert (NDs : NoDup (concat Ds)).
  { apply (nodup_concat C (fun x => to_bkt (hashat h x) (2 ^ k))); [apply (ch_nd _ _ _ _ CH)|]. intros i x Hx. apply (ch_idx _ _ _ _ CH). exact Hx. }
  destruct (move_all_ok ideal (k + 1) (t_bkts t) Ds fuel h (repeat (mkbucket None 0 0) (N.to_nat (2 ^ (k + 1)))) (fun _ => []) 0) as (h' & bs' & ni & C' & R & CH' & MV).
  - apply nodup_bound; [exact NDs|]. intros x Hx. apply IN in Hx. destruct Hx as [m Hm]. eapply BD; eauto.
  - apply chains_empty. exact K1.
  - apply forall2_map. intros i b Hb. cbn [Nat.add]. rewrite (ch_head _ _ _ _ CH _ _ Hb). eapply dll_sll. apply (ch_dll _ _ _ _ CH).
  - exact NDs.
  - intros x Hx. apply IN in Hx. destruct Hx as [m Hm]. apply (ch_idx _ _ _ _ CH) in Hm. apply Hm.
  - intros x m _ [].
  - rewrite R. cbn [bind]. eexists h', _, C'. split; [reflexivity|]. cbn [t_bkts t_num t_tail]. split; [exact CH'|]. split; [reflexivity|]. split; [reflexivity|].
    destruct MV as (M1 & _ & M3 & _ & M5). split; [exact M1|]. intros x. split.
    + intros H. apply IN in H. apply M5 in H. exact H.
    + intros (m & Hm). apply M3 in Hm. destruct Hm as [[]|Hm]. apply IN. exact Hm.
Qed.

Lemma add_ok : forall ok fuel hashv add e h t k C, chains h (t_bkts t) k C -> t_num t = (2 ^ k)%N -> h add = Some e -> e_hash e = hashv -> (forall m, ~ In add (C m)) ->
  (forall x m, In x (C m) -> (x < fuel)%nat) -> (add < fuel)%nat ->
  exists r h' t' k' C', add_to_table ok fuel hashv add h t = Some (r, h', t') /\ chains h' (t_bkts t') k' C' /\ t_num t' = (2 ^ k')%N /\ t_tail t' = t_tail t /\ kept h h' /\
    (forall x, (exists m, In x (C' m)) <-> x = add \/ exists m, In x (C m)) /\ (r = true -> ok = false \/ k = 31%N).
Proof.
  intros ok fuel hashv add e h t k C CH NB Ha Hh NI BD BA. unfold add_to_table. rewrite NB. rewrite <- Hh.
  destruct (nth_error (t_bkts t) (to_bkt (e_hash e) (2 ^ k))) as [b|] eqn:Eb.
  2:{ exfalso. apply nth_error_None in Eb. rewrite (ch_len _ _ _ _ CH) in Eb. pose proof (to_bkt_lt (e_hash e) k (ch_k _ _ _ _ CH)). lia. }
  cbn [bind]. set (cnt := w32 (k_count b + 1)).
  destruct (chains_push h (t_bkts t) k C add e b cnt (k_mult b) CH Ha NI Eb) as (h1 & h2 & _ & M1 & M2 & CH2 & FR & D1 & D2 & D3).
  rewrite M1. cbn [bind]. rewrite M2. cbn [bind].
  set (t2 := mktable _ _ _ _ _ _ _ _ _).
  assert (KP : kept h h2) by (intros j; auto).
  set (C2 := push C (to_bkt (e_hash e) (2 ^ k)) add) in *.
  assert (IN : forall x, (exists m, In x (C2 m)) <-> x = add \/ exists m, In x (C m)).
  { intros x. unfold C2, push. split.
    - intros (m & Hm). destruct (Nat.eqb m _); [|right; exists m; exact Hm]. destruct Hm as [Hm|Hm]; [left; auto|right; eexists; exact Hm].
    - intros [E|(m & Hm)].
      + exists (to_bkt (e_hash e) (2 ^ k)). rewrite Nat.eqb_refl. left. auto.
      + exists m. destruct (Nat.eqb_spec m (to_bkt (e_hash e) (2 ^ k))) as [E|E]; [subst; right; exact Hm|exact Hm]. }
  destruct ((w32 ((k_mult b + 1) * 10) <=? cnt)%N && negb (t_noexp t2)).
  - destruct (expand_ok ok fuel h2 t2 k C2) as [(R & Q)|(h' & t' & C' & R & CH' & NB' & TL & KP' & IN')].
    + exact CH2.
    + reflexivity.
    + intros x m Hm. assert (H : exists m, In x (C2 m)) by (exists m; exact Hm). apply IN in H. destruct H as [->|(m' & H)]; [exact BA|eapply BD; eauto].
    + exists true, h2, t2, k, C2. split; [exact R|]. split; [exact CH2|]. split; [reflexivity|]. split; [reflexivity|]. split; [exact KP|]. split; [exact IN|]. intros _. exact Q.
    + exists false, h', t', (k + 1)%N, C'. split; [exact R|]. split; [exact CH'|]. split; [exact NB'|]. split; [exact TL|]. split; [eapply kept_trans; eauto|].
      split; [|discriminate]. intros x. rewrite <- IN'. apply IN.
  - exists false, h2, t2, k, C2. split; [reflexivity|]. split; [exact CH2|]. split; [reflexivity|]. split; [reflexivity|]. split; [exact KP|]. split; [exact IN|]. discriminate.
Qed.

(** ** The map. *)
Section Hash.
Variable hash : bytes -> N.

(** [m] is a well-formed map whose elements are [l], in insertion order. *)
Record rep (m : map) (l : list id) : Prop := {
  r_head : p_head m = first l None;
  r_dll : dll (nxv (p_heap m)) (pvv (p_heap m)) None l None;
  r_nd : NoDup l;
  r_fresh : forall j, (p_fresh m <= j)%nat -> p_heap m j = None;
  r_hash : forall x, In x l -> exists e, p_heap m x = Some e /\ e_hash e = hash (e_key e);
  r_tbl : l <> [] -> exists t k C, p_tbl m = Some t /\ t_num t = (2 ^ k)%N /\ t_tail t = final None l /\ chains (p_heap m) (t_bkts t) k C /\ (forall x, In x l <-> exists j, In x (C j))
}.

Lemma rep_lt : forall m l x, rep m l -> In x l -> (x < p_fresh m)%nat.
Proof.
  intros m l x R H. destruct (r_hash _ _ R x H) as (e & E & _). destruct (Nat.lt_ge_cases x (p_fresh m)) as [A|A]; [exact A|].
  rewrite (r_fresh _ _ R x A) in E. discriminate.
Qed.

(** Search along a chain. *)
Lemma search_ok : forall h hashv key l fuel s, (length l <= fuel)%nat -> sll (hnv h) s l -> 
  exists r, search fuel h hashv key s = Some r /\
    match r with
    | Some i => In i l /\ exists e, h i = Some e /\ e_key e = key /\ e_hash e = hashv
    | None => forall i e, In i l -> h i = Some e -> ~ (e_key e = key /\ e_hash e = hashv)
    end.
Proof.
  intros h hashv key. induction l as [|i l IH]; intros fuel s Hf S; cbn [sll] in S.
  - subst s. exists None. split; [destruct fuel; reflexivity|]. intros i e [].
  - destruct S as (-> & n & Sn & S). cbn [length] in Hf. destruct fuel as [|fuel]; [lia|]. cbn [search]. unfold hnv in Sn.
    destruct (h i) as [e|] eqn:Ei; [|discriminate]. cbn [option_map] in Sn. cbn [bind]. destruct (N.eqb_spec (e_hash e) hashv) as [E1|E1]; cbn [andb].
    + destruct (list_eq_dec ascii_dec (e_key e) key) as [E2|E2].
      * exists (Some i). split; [reflexivity|]. split; [left; reflexivity|]. exists e. auto.
      * inversion Sn; subst n. destruct (IH fuel (e_hnext e)) as (r & R1 & R2); [lia|exact S|]. exists r. split; [exact R1|]. destruct r as [j|].
        -- destruct R2 as [R2 R3]. split; [right; exact R2|exact R3].
        -- intros j e' [Hj|Hj] Ej; [subst j; rewrite Ei in Ej; inversion Ej; subst; tauto|]. eapply R2; eauto.
    + inversion Sn; subst n. destruct (IH fuel (e_hnext e)) as (r & R1 & R2); [lia|exact S|]. exists r. split; [exact R1|]. destruct r as [j|].
      * destruct R2 as [R2 R3]. split; [right; exact R2|exact R3].
      * intros j e' [Hj|Hj] Ej; [subst j; rewrite Ei in Ej; inversion Ej; subst; tauto|]. eapply R2; eauto.
Qed.

Lemma find_ok : forall m l key, rep m l ->
  exists r, find hash key m = Some r /\
    match r with
    | Some i => In i l /\ exists e, p_heap m i = Some e /\ e_key e = key
    | None => forall i e, In i l -> p_heap m i = Some e -> e_key e <> key
    end.
Proof.
  intros m l key R. unfold find. rewrite (r_head _ _ R). destruct l as [|y l'] eqn:El.
  - cbn [first]. exists None. split; [reflexivity|]. intros i e [].
  - cbn [first]. rewrite <- El in *. assert (NE : l <> []) by (rewrite El; discriminate). destruct (r_tbl _ _ R NE) as (t & k & C & T & NB & TL & CH & IN).
    rewrite T. cbn [bind]. rewrite NB. destruct (nth_error (t_bkts t) (to_bkt (hash key) (2 ^ k))) as [b|] eqn:Eb.
    2:{ exfalso. apply nth_error_None in Eb. rewrite (ch_len _ _ _ _ CH) in Eb. pose proof (to_bkt_lt (hash key) k (ch_k _ _ _ _ CH)). lia. }
    cbn [bind]. rewrite (ch_head _ _ _ _ CH _ _ Eb). set (n := to_bkt (hash key) (2 ^ k)) in *.
    destruct (search_ok (p_heap m) (hash key) key (C n) (p_fresh m) (first (C n) None)) as (r & R1 & R2).
    + apply nodup_bound; [apply (ch_nd _ _ _ _ CH)|]. intros x Hx. eapply rep_lt; [exact R|]. apply IN. exists n. exact Hx.
    + eapply dll_sll. apply (ch_dll _ _ _ _ CH).
    + exists r. split; [exact R1|]. destruct r as [i|].
      * destruct R2 as (I & e & E1 & E2 & _). split; [apply IN; exists n; exact I|]. exists e. auto.
      * intros i e Hi Ei Ek. destruct (r_hash _ _ R i Hi) as (e' & Ei' & Eh). rewrite Ei in Ei'. inversion Ei'; subst e'.
        apply (R2 i e); [|exact Ei|]; [|split; [exact Ek|congruence]].
        apply IN in Hi. destruct Hi as (j & Hj). destruct (ch_idx _ _ _ _ CH _ _ Hj) as [Ej _]. unfold hashat in Ej. rewrite Ei, Eh, Ek in Ej. unfold n. rewrite <- Ej. exact Hj.
Qed.

(** Inserting. *)
Lemma insert_ok : forall ok1 ok2 ok3 zero key m l, rep m l ->
  exists r m', insert hash ok1 ok2 ok3 zero key m = Some (r, m') /\
    (forall j, j <> p_fresh m -> dat (p_heap m') j = dat (p_heap m) j) /\
    ((r = None /\ rep m' l /\ (ok1 = false \/ ok2 = false /\ l = [])) \/
     (rep m' (l ++ [p_fresh m]) /\ dat (p_heap m') (p_fresh m) = Some (key, hash key, zero) /\
      (r = Some (p_fresh m) \/ (r = None /\ (ok3 = false \/ exists t, p_tbl m = Some t /\ t_num t = (2 ^ 31)%N))))).
Proof.
  intros ok1 ok2 ok3 zero key m l R. unfold insert. destruct ok1; cbn [negb].
  2:{ exists None, m. split; [reflexivity|]. split; [reflexivity|]. left. auto. }
  set (add := p_fresh m). set (e := mkelem None None None None key (hash key) zero).
  set (h := (fun j => if Nat.eqb j add then Some e else p_heap m j) : heap).
  assert (Ha : h add = Some e) by (unfold h; rewrite Nat.eqb_refl; reflexivity).
  assert (Ho : forall j, j <> add -> h j = p_heap m j) by (intros j Hj; unfold h; apply Nat.eqb_neq in Hj; rewrite Hj; reflexivity).
  assert (NA : ~ In add l) by (intros I; pose proof (rep_lt m l add R I); unfold add in *; lia).
  assert (HL : forall x, In x l -> h x = p_heap m x) by (intros x Hx; apply Ho; intros E; subst; contradiction).
  rewrite (r_head _ _ R). destruct l as [|y l'] eqn:El; cbn [first].
  - destruct ok2.
    + destruct (add_ok ok3 (S add) (hash key) add e h (make_table add) 5 (fun _ => [])) as (r & h' & t' & k' & C' & A & CH & NB & TL & KP & IN & ER).
      * exact (chains_empty h 5 eq_refl).
      * reflexivity.
      * exact Ha.
      * reflexivity.
      * intros m' [].
      * intros x m' [].
      * lia.
      * rewrite A. cbn [bind]. eexists _, _. split; [reflexivity|]. cbn [p_heap p_fresh p_head p_tbl]. split; [intros j Hj; destruct (KP j) as (-> & _); unfold dat; rewrite Ho by exact Hj; reflexivity|].
        right. split; [|split].
        -- constructor; cbn [p_heap p_fresh p_head p_tbl app].
           ++ reflexivity.
           ++ cbn [dll first]. destruct (KP add) as (_ & -> & ->). unfold nxv, pvv. rewrite Ha. auto.
           ++ constructor; [intros []|constructor].
           ++ intros j Hj. destruct (KP j) as (D & _). unfold dat in D. rewrite Ho in D by lia. rewrite (r_fresh _ _ R j) in D by (unfold add in Hj; lia). destruct (h' j); [discriminate|reflexivity].
           ++ intros x [<-|[]]. destruct (KP add) as (D & _). unfold dat in D. rewrite Ha in D. destruct (h' add) as [e'|]; [|discriminate]. exists e'. split; [reflexivity|]. inversion D. congruence.
           ++ intros _. exists t', k', C'. split; [reflexivity|]. split; [exact NB|]. split; [rewrite TL; reflexivity|]. split; [exact CH|].
              intros x. rewrite IN. cbn [In]. split; [intros [<-|[]]; left; reflexivity|intros [->|(? & [])]; left; reflexivity].
        -- destruct (KP add) as (-> & _). unfold dat. rewrite Ha. reflexivity.
        -- destruct r; [|left; reflexivity]. right. split; [reflexivity|]. left. destruct (ER eq_refl) as [E|E]; [exact E|discriminate].
    + exists None, (mkmap h (S add) None None). split; [reflexivity|]. cbn [p_heap]. split; [intros j Hj; unfold dat; rewrite Ho by exact Hj; reflexivity|].
      left. split; [reflexivity|]. split; [|auto]. constructor; cbn [p_heap p_fresh p_head p_tbl].
      * reflexivity.
      * exact I.
      * constructor.
      * intros j Hj. rewrite Ho by lia. apply (r_fresh _ _ R). unfold add in Hj. lia.
      * intros x [].
      * congruence.
  - rewrite <- El in *. assert (NE : l <> []) by (rewrite El; discriminate). destruct (r_tbl _ _ R NE) as (t & k & C & T & NB & TL & CH & IN).
    rewrite T. cbn [bind]. unfold append_list. rewrite TL.
    destruct (final None l) as [tl|] eqn:Etl.
    2:{ apply final_none in Etl. contradiction. }
    assert (Itl : In tl l) by (apply final_in in Etl; destruct Etl as [E|E]; [discriminate|exact E]).
    assert (Ntl : tl <> add) by (intros E; subst; contradiction).
    destruct (modify_ok add (fun e => set_prev (Some tl) (set_next None e)) h e Ha) as (h1 & M1 & B1 & F1). rewrite M1. cbn [bind].
    destruct (r_hash _ _ R tl Itl) as (etl & Eetl & _).
    assert (H1tl : h1 tl = Some etl) by (rewrite F1 by exact Ntl; rewrite HL by exact Itl; exact Eetl).
    destruct (modify_ok tl (set_next (Some add)) h1 etl H1tl) as (h2 & M2 & B2 & F2). rewrite M2. cbn [bind fst snd].
    assert (H2a : h2 add = Some (set_prev (Some tl) (set_next None e))) by (rewrite F2 by congruence; exact B1).
    assert (H2o : forall j, j <> add -> j <> tl -> h2 j = p_heap m j) by (intros j A B; rewrite F2, F1, Ho by assumption; reflexivity).
    assert (V2 : forall j, j <> add -> dat h2 j = dat (p_heap m) j /\ pvv h2 j = pvv (p_heap m) j /\ hnv h2 j = hnv (p_heap m) j /\ hpv h2 j = hpv (p_heap m) j /\ hashat h2 j = hashat (p_heap m) j).
    { intros j Hj. unfold dat, pvv, hnv, hpv, hashat. destruct (Nat.eq_dec j tl) as [->|E]; [rewrite B2, Eetl; cbn; auto|rewrite H2o by assumption; auto]. }
    assert (NC : forall j, ~ In add (C j)) by (intros j I; apply NA; apply IN; exists j; exact I).
    assert (CH2 : chains h2 (t_bkts t) k C).
    { destruct CH as [K L HD DL ND IX]. constructor; auto.
      - intros i. apply (dll_frame (hnv (p_heap m)) (hpv (p_heap m))); [|apply DL]. intros x Hx. assert (x <> add) by (intros E; subst; exact (NC _ Hx)). split; apply V2; assumption.
      - intros i x Hx. assert (Q : x <> add) by (intros E; subst; exact (NC _ Hx)). destruct (IX i x Hx) as [A (ex & B)]. destruct (V2 x Q) as (D & _ & _ & _ & ->). split; [exact A|].
        unfold dat in D. rewrite B in D. destruct (h2 x); [eexists; reflexivity|discriminate]. }
    set (t2 := mktable (t_bkts t) _ _ _ _ _ _ _ _).
    destruct (add_ok ok3 (S add) (hash key) add _ h2 t2 k C CH2 NB H2a eq_refl NC) as (r & h' & t' & k' & C' & A & CH' & NB' & TL' & KP & IN' & ER).
    + intros x j Hx. assert (I : In x l) by (apply IN; exists j; exact Hx). pose proof (rep_lt m l x R I). unfold add. lia.
    + lia.
    + rewrite A. cbn [bind]. eexists _, _. split; [reflexivity|]. cbn [p_heap p_fresh p_head p_tbl]. split; [intros j Hj; destruct (KP j) as (-> & _); apply V2; exact Hj|].
      right. split; [|split].
      * constructor; cbn [p_heap p_fresh p_head p_tbl].
        -- rewrite El. reflexivity.
        -- apply (dll_snoc (nxv (p_heap m)) (pvv (p_heap m))); [apply (r_nd _ _ R)|exact NA|apply (r_dll _ _ R)|..].
           ++ intros x Hx. destruct (KP x) as (_ & _ & ->). apply V2. intros E; subst; contradiction.
           ++ destruct (KP add) as (_ & -> & _). unfold nxv. rewrite H2a. reflexivity.
           ++ destruct (KP add) as (_ & _ & ->). unfold pvv. rewrite H2a, Etl. reflexivity.
           ++ intros x Hx Hf. destruct (KP x) as (_ & -> & _). unfold nxv. rewrite H2o; [reflexivity|intros E; subst; contradiction|congruence].
           ++ intros x Hx Hf. destruct (KP x) as (_ & -> & _). assert (x = tl) by congruence. subst x. unfold nxv. rewrite B2. reflexivity.
        -- assert (Q : NoDup (add :: l)) by (constructor; [exact NA|apply (r_nd _ _ R)]).
           revert Q. clear. intros Q. apply (Permutation.Permutation_NoDup (l := add :: l)); [|exact Q]. apply Permutation.Permutation_cons_append.
        -- intros j Hj. destruct (KP j) as (D & _). unfold dat in D. unfold add in Hj. assert (j <> add) by (unfold add; lia).
           rewrite H2o in D; [|assumption|pose proof (rep_lt m l tl R Itl); lia]. rewrite (r_fresh _ _ R j) in D by lia. destruct (h' j); [discriminate|reflexivity].
        -- intros x Hx. apply in_app_or in Hx. destruct (KP x) as (D & _). destruct Hx as [Hx|[<-|[]]].
           ++ assert (Q : x <> add) by (intros E; subst; contradiction). rewrite (proj1 (V2 x Q)) in D. destruct (r_hash _ _ R x Hx) as (ex & Ex & Hh). unfold dat in D. rewrite Ex in D.
              destruct (h' x) as [e'|]; [|discriminate]. exists e'. split; [reflexivity|]. inversion D. congruence.
           ++ unfold dat in D. rewrite H2a in D. destruct (h' add) as [e'|]; [|discriminate]. exists e'. split; [reflexivity|]. inversion D. congruence.
        -- intros _. exists t', k', C'. split; [reflexivity|]. split; [exact NB'|]. split; [rewrite TL', final_app; reflexivity|]. split; [exact CH'|].
           intros x. rewrite IN', in_app_iff, IN. cbn [In]. split; [intros [Q|[->|[]]]; auto|intros [->|Q]; auto].
      * destruct (KP add) as (-> & _). unfold dat. rewrite H2a. reflexivity.
      * destruct r; [|left; reflexivity]. right. split; [reflexivity|]. destruct (ER eq_refl) as [E|E]; [left; exact E|]. right. exists t. split; [reflexivity|]. rewrite NB, E. reflexivity.
Qed.

(** Deleting. *)
Lemma mo_next : forall o x h, (forall i, o = Some i -> exists e, h i = Some e) -> exists h', modify_opt o (set_next x) h = Some h' /\
  (forall j, o = Some j -> nxv h' j = Some x) /\ (forall j, o <> Some j -> nxv h' j = nxv h j) /\
  forall j, pvv h' j = pvv h j /\ hnv h' j = hnv h j /\ hpv h' j = hpv h j /\ dat h' j = dat h j.
Proof.
  intros o x h H. destruct (modify_opt_ok o (set_next x) h H) as (h' & A & B & C). exists h'. split; [exact A|]. unfold nxv, pvv, hnv, hpv, dat. split; [|split].
  - intros j Hj. destruct (H j Hj) as [e E]. rewrite (B j e Hj E). reflexivity.
  - intros j Hj. rewrite (C j Hj). reflexivity.
  - intros j. assert (D : o = Some j \/ o <> Some j) by (destruct o as [i|]; [destruct (Nat.eq_dec i j); [left; congruence|right; congruence]|right; congruence]).
    destruct D as [D|D]; [destruct (H j D) as [e E]; rewrite (B j e D E), E; auto|rewrite (C j D); auto].
Qed.
Lemma mo_prev : forall o x h, (forall i, o = Some i -> exists e, h i = Some e) -> exists h', modify_opt o (set_prev x) h = Some h' /\
  (forall j, o = Some j -> pvv h' j = Some x) /\ (forall j, o <> Some j -> pvv h' j = pvv h j) /\
  forall j, nxv h' j = nxv h j /\ hnv h' j = hnv h j /\ hpv h' j = hpv h j /\ dat h' j = dat h j.
Proof.
  intros o x h H. destruct (modify_opt_ok o (set_prev x) h H) as (h' & A & B & C). exists h'. split; [exact A|]. unfold nxv, pvv, hnv, hpv, dat. split; [|split].
  - intros j Hj. destruct (H j Hj) as [e E]. rewrite (B j e Hj E). reflexivity.
  - intros j Hj. rewrite (C j Hj). reflexivity.
  - intros j. assert (D : o = Some j \/ o <> Some j) by (destruct o as [i|]; [destruct (Nat.eq_dec i j); [left; congruence|right; congruence]|right; congruence]).
    destruct D as [D|D]; [destruct (H j D) as [e E]; rewrite (B j e D E), E; auto|rewrite (C j D); auto].
Qed.
Lemma mo_hnext : forall o x h, (forall i, o = Some i -> exists e, h i = Some e) -> exists h', modify_opt o (set_hnext x) h = Some h' /\
  (forall j, o = Some j -> hnv h' j = Some x) /\ (forall j, o <> Some j -> hnv h' j = hnv h j) /\
  forall j, pvv h' j = pvv h j /\ nxv h' j = nxv h j /\ hpv h' j = hpv h j /\ dat h' j = dat h j.
Proof.
  intros o x h H. destruct (modify_opt_ok o (set_hnext x) h H) as (h' & A & B & C). exists h'. split; [exact A|]. unfold nxv, pvv, hnv, hpv, dat. split; [|split].
  - intros j Hj. destruct (H j Hj) as [e E]. rewrite (B j e Hj E). reflexivity.
  - intros j Hj. rewrite (C j Hj). reflexivity.
  - intros j. assert (D : o = Some j \/ o <> Some j) by (destruct o as [i|]; [destruct (Nat.eq_dec i j); [left; congruence|right; congruence]|right; congruence]).
    destruct D as [D|D]; [destruct (H j D) as [e E]; rewrite (B j e D E), E; auto|rewrite (C j D); auto].
Qed.
Lemma mo_hprev : forall o x h, (forall i, o = Some i -> exists e, h i = Some e) -> exists h', modify_opt o (set_hprev x) h = Some h' /\
  (forall j, o = Some j -> hpv h' j = Some x) /\ (forall j, o <> Some j -> hpv h' j = hpv h j) /\
  forall j, pvv h' j = pvv h j /\ nxv h' j = nxv h j /\ hnv h' j = hnv h j /\ dat h' j = dat h j.
Proof.
  intros o x h H. destruct (modify_opt_ok o (set_hprev x) h H) as (h' & A & B & C). exists h'. split; [exact A|]. unfold nxv, pvv, hnv, hpv, dat. split; [|split].
  - intros j Hj. destruct (H j Hj) as [e E]. rewrite (B j e Hj E). reflexivity.
  - intros j Hj. rewrite (C j Hj). reflexivity.
  - intros j. assert (D : o = Some j \/ o <> Some j) by (destruct o as [i|]; [destruct (Nat.eq_dec i j); [left; congruence|right; congruence]|right; congruence]).
    destruct D as [D|D]; [destruct (H j D) as [e E]; rewrite (B j e D E), E; auto|rewrite (C j D); auto].
Qed.
Lemma dat_some : forall h h' j, dat h' j = dat h j -> (exists e, h j = Some e) -> exists e, h' j = Some e.
Proof. intros h h' j D [e E]. unfold dat in D. rewrite E in D. destruct (h' j); [eexists; reflexivity|discriminate]. Qed.
Lemma dat_hash : forall h h' j, dat h' j = dat h j -> hashat h' j = hashat h j.
Proof. intros h h' j D. unfold dat in D. unfold hashat. destruct (h' j), (h j); cbn in D; try discriminate; [inversion D; reflexivity|reflexivity]. Qed.

Lemma dll_at : forall NX PV a i b, dll NX PV None (a ++ i :: b) None -> NX i = Some (first b None) /\ PV i = Some (final None a).
Proof. intros NX PV a i b D. apply dll_app in D. destruct D as (_ & D). cbn [dll] in D. tauto. Qed.
Lemma final_last : forall a i b, b <> [] -> NoDup (a ++ i :: b) -> final None (a ++ i :: b) <> Some i /\ final None (a ++ i :: b) = final None (a ++ b).
Proof.
  intros a i b NB ND. destruct (exists_last NB) as (b' & y & ->). rewrite !app_comm_cons, !app_assoc, !final_app. split; [|reflexivity].
  intros E. inversion E; subst. apply NoDup_remove_2 in ND. apply ND. apply in_or_app. right. apply in_or_app. right. left. reflexivity.
Qed.


(** The branch of HASH_DELETE for elements that are not alone. *)
Definition delete_linked (del : id) (pv nx : option id) (t : table) (m : map) : option map :=
  let tail := match t_tail t with Some i => if Nat.eqb i del then pv else t_tail t | None => None end in
  bind (modify_opt pv (set_next nx) (p_heap m)) (fun h =>
  let head := match pv with Some _ => p_head m | None => nx end in
  bind (modify_opt nx (set_prev pv) h) (fun h =>
  bind (del_in_bkt del h (mktable (t_bkts t) (t_num t) (t_log2 t) (t_items t) tail (t_ideal t) (t_nonideal t) (t_ineff t) (t_noexp t))) (fun ht =>
  let t := snd ht in
  bind (release del (fst ht)) (fun h =>
  Some (mkmap h (p_fresh m) head (Some (mktable (t_bkts t) (t_num t) (t_log2 t) (w32 (t_items t + (2 ^ 32 - 1))) (t_tail t) (t_ideal t) (t_nonideal t) (t_ineff t) (t_noexp t)))))))).
Lemma delete_eq : forall del m, delete del m =
  bind (p_tbl m) (fun t => bind (p_heap m del) (fun e =>
  match e_prev e, e_next e with
  | None, None => bind (release del (p_heap m)) (fun h => Some (mkmap h (p_fresh m) None None))
  | pv, nx => delete_linked del pv nx t m
  end)).
Proof. reflexivity. Qed.

(** Removing [i] from its chain. *)
Lemma del_in_bkt_ok : forall h t k C i e, chains h (t_bkts t) k C -> t_num t = (2 ^ k)%N -> h i = Some e -> In i (C (to_bkt (e_hash e) (2 ^ k))) ->
  exists h' t' C', del_in_bkt i h t = Some (h', t') /\ kept h h' /\ t_num t' = (2 ^ k)%N /\ t_tail t' = t_tail t /\
    (forall h2 : heap, (forall j, j <> i -> h2 j = h' j) -> chains h2 (t_bkts t') k C') /\ (forall x, (exists j, In x (C' j)) <-> x <> i /\ exists j, In x (C j)).
Proof.
  intros h t k C i e CH NB Hi Ic. unfold del_in_bkt. rewrite Hi. cbn [bind]. rewrite NB. set (n := to_bkt (e_hash e) (2 ^ k)) in *.
  destruct (nth_error (t_bkts t) n) as [b|] eqn:Eb.
  2:{ exfalso. apply nth_error_None in Eb. rewrite (ch_len _ _ _ _ CH) in Eb. pose proof (to_bkt_lt (e_hash e) k (ch_k _ _ _ _ CH)). fold n in H. lia. }
  cbn [bind]. destruct (in_split _ _ Ic) as (c1 & c2 & Ec).
  pose proof (ch_dll _ _ _ _ CH n) as D. pose proof (ch_nd _ _ _ _ CH n) as ND. rewrite Ec in D, ND.
  destruct (dll_at _ _ _ _ _ D) as [NXi PVi]. unfold hnv in NXi. unfold hpv in PVi. rewrite Hi in NXi, PVi. cbn [option_map] in NXi, PVi.
  replace (e_hprev e) with (final None c1) by congruence. replace (e_hnext e) with (first c2 None) by congruence.
  assert (EX : forall j x, In x (C j) -> exists e, h x = Some e) by (intros j x Hx; apply (ch_idx _ _ _ _ CH) in Hx; apply Hx).
  assert (I1 : forall x, final None c1 = Some x -> In x (C n)).
  { intros x Hx. apply final_in in Hx. destruct Hx as [Hx|Hx]; [discriminate|]. rewrite Ec. apply in_or_app. left. exact Hx. }
  assert (I2 : forall x, first c2 None = Some x -> In x (C n)).
  { intros x Hx. apply first_in in Hx. rewrite Ec. apply in_or_app. right. right. exact Hx. }
  assert (Hd : match k_head b with Some i0 => if Nat.eqb i0 i then first c2 None else k_head b | None => None end = first (c1 ++ c2) None).
  { rewrite (ch_head _ _ _ _ CH _ _ Eb), Ec. destruct c1 as [|x c1]; cbn [app first]; [rewrite Nat.eqb_refl; reflexivity|].
    destruct (Nat.eqb_spec x i) as [E|E]; [|reflexivity]. exfalso. subst x. apply NoDup_remove_2 in ND. apply ND. left. reflexivity. }
  rewrite Hd.
  destruct (mo_hnext (final None c1) (first c2 None) h) as (h1 & M1 & A1 & B1 & F1).
  { intros x Hx. eapply EX. apply I1. exact Hx. }
  rewrite M1. cbn [bind].
  destruct (mo_hprev (first c2 None) (final None c1) h1) as (h2 & M2 & A2 & B2 & F2).
  { intros x Hx. apply (dat_some h); [apply F1|]. eapply EX. apply I2. exact Hx. }
  rewrite M2. cbn [bind].
  assert (KP : kept h h2).
  { intros j. destruct (F1 j) as (P1 & P2 & _ & P4), (F2 j) as (Q1 & Q2 & _ & Q4). rewrite Q4, Q2, Q1. auto. }
  set (C' := fun m => if Nat.eqb m n then c1 ++ c2 else C m).
  assert (IC : forall m x, In x (C' m) <-> In x (C m) /\ x <> i).
  { intros m x. unfold C'. destruct (Nat.eqb_spec m n) as [E|E].
    - subst m. rewrite Ec, !in_app_iff. cbn [In]. apply NoDup_remove_2 in ND. rewrite in_app_iff in ND. split.
      + intros A. split; [tauto|]. intros E. subst. contradiction.
      + intros [[A|[A|A]] B]; auto. congruence.
    - split; [|tauto]. intros A. split; [exact A|]. intros E'. subst x. apply E. rewrite (proj1 (ch_idx _ _ _ _ CH _ _ A)), (proj1 (ch_idx _ _ _ _ CH _ _ Ic)). reflexivity. }
  eexists h2, _, C'. split; [reflexivity|]. cbn [t_num t_tail t_bkts]. split; [exact KP|]. split; [reflexivity|]. split; [reflexivity|]. split.
  2:{ intros x. split.
    - intros (j & Hj). apply IC in Hj. destruct Hj as [A B]. split; [exact B|]. exists j. exact A.
    - intros (A & j & Hj). exists j. apply IC. auto. }
  intros h3 F3. destruct CH as [K L HD DL NDC IX].
  assert (V3 : forall x j, In x (C' j) -> hnv h3 x = hnv h2 x /\ hpv h3 x = hpv h2 x).
  { intros x j Hx. apply IC in Hx. unfold hnv, hpv. rewrite F3 by tauto. auto. }
  constructor.
  - exact K.
  - rewrite set_nth_length. exact L.
  - intros m b' Hm. unfold C'. destruct (Nat.eqb_spec m n) as [E|E].
    + subst m. rewrite (nth_set_same _ _ _ _ Eb) in Hm. inversion Hm; subst. reflexivity.
    + rewrite nth_set_other in Hm by congruence. apply HD. exact Hm.
  - intros m. apply (dll_frame (hnv h2) (hpv h2)); [intros x Hx; eapply V3; exact Hx|]. unfold C'. destruct (Nat.eqb_spec m n) as [E|E].
    + apply (dll_unlink (hnv h) (hpv h) (hnv h2) (hpv h2) c1 i c2 ND D).
      * intros x Hx Hf. destruct (F2 x) as (_ & _ & -> & _). apply B1. exact Hf.
      * intros x Hf. destruct (F2 x) as (_ & _ & -> & _). apply A1. exact Hf.
      * intros x Hx Hf. rewrite B2 by exact Hf. apply F1.
      * intros x Hf. apply A2. exact Hf.
    + apply (dll_frame (hnv h) (hpv h)); [|apply DL]. intros x Hx.
      assert (N : ~ In x (C n)) by (intros I; apply E; rewrite (proj1 (IX _ _ Hx)), (proj1 (IX _ _ I)); reflexivity).
      split.
      * destruct (F2 x) as (_ & _ & -> & _). apply B1. intros Q. apply N. apply I1. exact Q.
      * rewrite B2; [apply F1|]. intros Q. apply N. apply I2. exact Q.
  - intros m. unfold C'. destruct (Nat.eqb_spec m n) as [E|E]; [|apply NDC]. apply NoDup_remove_1 in ND. exact ND.
  - intros m x Hx. apply IC in Hx. destruct Hx as [Hx Nx]. destruct (IX _ _ Hx) as [A B].
    assert (D2 : dat h3 x = dat h x) by (destruct (KP x) as (<- & _); unfold dat; rewrite F3 by exact Nx; reflexivity).
    rewrite (dat_hash _ _ _ D2). split; [exact A|]. apply (dat_some h); assumption.
Qed.

Lemma delete_ok : forall m a i b, rep m (a ++ i :: b) -> exists m', delete i m = Some m' /\ rep m' (a ++ b) /\ p_heap m' i = None /\ (forall j, j <> i -> dat (p_heap m') j = dat (p_heap m) j) /\ p_fresh m' = p_fresh m.
Proof.
  intros m a i b R. set (l := a ++ i :: b) in *.
  assert (NE : l <> []) by (unfold l; destruct a; discriminate).
  assert (Ii : In i l) by (unfold l; apply in_or_app; right; left; reflexivity).
  destruct (r_tbl _ _ R NE) as (t & k & C & T & NB & TL & CH & IN).
  destruct (r_hash _ _ R i Ii) as (e & Ei & Eh). destruct (dll_at _ _ _ _ _ (r_dll _ _ R)) as [NXi PVi].
  unfold nxv in NXi. unfold pvv in PVi. rewrite Ei in NXi, PVi. cbn [option_map] in NXi, PVi.
  rewrite delete_eq. rewrite T. cbn [bind]. rewrite Ei. cbn [bind].
  replace (e_prev e) with (final None a) by congruence. replace (e_next e) with (first b None) by congruence.
  assert (ND := r_nd _ _ R). fold l in ND.
  assert (EX : forall x, In x l -> exists e, p_heap m x = Some e) by (intros x Hx; destruct (r_hash _ _ R x Hx) as (ex & A & _); exists ex; exact A).
  assert (Ni : forall x, In x (a ++ b) -> x <> i) by (intros x Hx E; subst; unfold l in ND; apply NoDup_remove_2 in ND; contradiction).
  assert (Il : forall x, In x l <-> In x (a ++ b) \/ x = i).
  { intros x. unfold l. rewrite !in_app_iff. cbn [In]. split; [intros [A|[A|A]]; auto|intros [[A|A]|A]; auto]. }
  assert (REL : forall h : heap, (exists e, h i = Some e) -> release i h = Some (fun j => if Nat.eqb j i then None else h j)).
  { intros h (e' & E). unfold release. rewrite E. reflexivity. }
  destruct (list_eq_dec Nat.eq_dec (a ++ b) []) as [AL|AL].
  - apply app_eq_nil in AL. destruct AL as [Ea Eb]. unfold l in *. clear l. subst a b.
    unfold final. cbn [rev first]. rewrite REL by (exists e; exact Ei). cbn [bind]. eexists. split; [reflexivity|]. cbn [p_heap p_fresh]. split; [|split; [rewrite Nat.eqb_refl; reflexivity|split; [|reflexivity]]].
    + constructor; cbn [p_heap p_fresh p_head p_tbl app].
      * reflexivity.
      * exact I.
      * constructor.
      * intros j Hj. destruct (Nat.eqb j i); [reflexivity|]. apply (r_fresh _ _ R). exact Hj.
      * intros x [].
      * intros E; exfalso; apply E; reflexivity.
    + intros j Hj. unfold dat. apply Nat.eqb_neq in Hj. rewrite Hj. reflexivity.
  - assert (G : forall P, (exists m', delete_linked i (final None a) (first b None) t m = Some m' /\ P m') ->
       exists m', match final None a with None => match first b None with None => bind (release i (p_heap m)) (fun h => Some (mkmap h (p_fresh m) None None)) | Some _ => delete_linked i (final None a) (first b None) t m end | Some _ => delete_linked i (final None a) (first b None) t m end = Some m' /\ P m').
    { intros P H. destruct (final None a) as [x|] eqn:E1; [exact H|]. destruct (first b None) as [y|] eqn:E2; [exact H|]. exfalso. apply final_none in E1. destruct b; [|discriminate]. subst a. apply AL. reflexivity. }
    assert (G' := G (fun m' => rep m' (a ++ b) /\ p_heap m' i = None /\ (forall j, j <> i -> dat (p_heap m') j = dat (p_heap m) j) /\ p_fresh m' = p_fresh m)).
    assert (Q : exists m', delete_linked i (final None a) (first b None) t m = Some m' /\ (fun m' => rep m' (a ++ b) /\ p_heap m' i = None /\ (forall j, j <> i -> dat (p_heap m') j = dat (p_heap m) j) /\ p_fresh m' = p_fresh m) m').
    2:{ specialize (G' Q). destruct (final None a); [exact G'|]. destruct (first b None); exact G'. }
    clear G G'. cbv beta. unfold delete_linked.
    assert (Ia : forall x, final None a = Some x -> In x (a ++ b)).
    { intros x Hx. apply final_in in Hx. destruct Hx as [Hx|Hx]; [discriminate|]. apply in_or_app. left. exact Hx. }
    assert (Ib : forall x, first b None = Some x -> In x (a ++ b)).
    { intros x Hx. apply first_in in Hx. apply in_or_app. right. exact Hx. }
    destruct (mo_next (final None a) (first b None) (p_heap m)) as (h1 & M1 & A1 & B1 & F1).
    { intros x Hx. apply EX. apply Il. left. apply Ia. exact Hx. }
    rewrite M1. cbn [bind].
    destruct (mo_prev (first b None) (final None a) h1) as (h2 & M2 & A2 & B2 & F2).
    { intros x Hx. apply (dat_some (p_heap m)); [apply F1|]. apply EX. apply Il. left. apply Ib. exact Hx. }
    rewrite M2. cbn [bind].
    set (tl := match t_tail t with Some i0 => if Nat.eqb i0 i then final None a else t_tail t | None => None end).
    assert (TL2 : tl = final None (a ++ b)).
    { unfold tl. rewrite TL. destruct b as [|b0 b'].
      - unfold l. rewrite final_app, Nat.eqb_refl, app_nil_r. reflexivity.
      - destruct (final_last a i (b0 :: b')) as [U V]; [discriminate|exact ND|]. fold l in U, V. rewrite <- V. destruct (final None l) as [z|]; [|reflexivity].
        destruct (Nat.eqb_spec z i); [subst; congruence|reflexivity]. }
    set (t1 := mktable (t_bkts t) _ _ _ tl _ _ _ _).
    assert (D12 : forall j, dat h2 j = dat (p_heap m) j /\ hnv h2 j = hnv (p_heap m) j /\ hpv h2 j = hpv (p_heap m) j).
    { intros j. destruct (F1 j) as (_ & P2 & P3 & P4), (F2 j) as (_ & Q2 & Q3 & Q4). rewrite Q2, Q3, Q4. auto. }
    assert (CH2 : chains h2 (t_bkts t1) k C).
    { destruct CH as [K L HD DL NDC IX]. constructor; auto.
      - intros j. apply (dll_frame (hnv (p_heap m)) (hpv (p_heap m))); [|apply DL]. intros x _. split; apply D12.
      - intros j x Hx. destruct (IX _ _ Hx) as [U V]. rewrite (dat_hash (p_heap m)) by apply D12. split; [exact U|]. apply (dat_some (p_heap m)); [apply D12|exact V]. }
    destruct (dat_some (p_heap m) h2 i) as [e2 Ei2]; [apply D12|exists e; exact Ei|].
    assert (Hh2 : e_hash e2 = e_hash e).
    { destruct (D12 i) as (D & _). unfold dat in D. rewrite Ei, Ei2 in D. inversion D. reflexivity. }
    destruct (del_in_bkt_ok h2 t1 k C i e2 CH2 NB Ei2) as (h3 & t3 & C' & DB & KP & NB3 & TL3 & CH3 & IN3).
    { assert (Q : exists j, In i (C j)) by (apply IN; exact Ii). destruct Q as (j & Hj). destruct (ch_idx _ _ _ _ CH _ _ Hj) as [U _]. unfold hashat in U. rewrite Ei in U. rewrite Hh2, <- U. exact Hj. }
    rewrite DB. cbn [bind fst snd]. rewrite REL by (apply (kept_some h2); [exact KP|exists e2; exact Ei2]). cbn [bind].
    eexists. split; [reflexivity|]. cbn [p_heap p_fresh]. split; [|split; [rewrite Nat.eqb_refl; reflexivity|split; [|reflexivity]]].
    2:{ intros j Hj. unfold dat. apply Nat.eqb_neq in Hj. rewrite Hj. destruct (KP j) as (D & _). unfold dat in D. rewrite D. apply D12. }
    assert (VW : forall x, x <> i -> nxv (fun j => if Nat.eqb j i then None else h3 j) x = nxv h2 x /\ pvv (fun j => if Nat.eqb j i then None else h3 j) x = pvv h2 x).
    { intros x Hx. unfold nxv, pvv. apply Nat.eqb_neq in Hx. rewrite Hx. destruct (KP x) as (_ & U & V). unfold nxv in U. unfold pvv in V. rewrite U, V. auto. }
    constructor; cbn [p_heap p_fresh p_head p_tbl].
    + rewrite (r_head _ _ R). unfold l. destruct a as [|a0 a']; [reflexivity|]. cbn [app first]. destruct (final None (a0 :: a')) eqn:E; [reflexivity|]. apply final_none in E. discriminate.
    + apply (dll_unlink (nxv (p_heap m)) (pvv (p_heap m)) _ _ a i b ND (r_dll _ _ R)).
      * intros x Hx Hf. etransitivity; [exact (proj1 (VW x (Ni x Hx)))|]. rewrite (proj1 (F2 x)). apply B1. exact Hf.
      * intros x Hf. etransitivity; [exact (proj1 (VW x (Ni x (Ia x Hf))))|]. rewrite (proj1 (F2 x)). apply A1. exact Hf.
      * intros x Hx Hf. etransitivity; [exact (proj2 (VW x (Ni x Hx)))|]. rewrite B2 by exact Hf. apply F1.
      * intros x Hf. etransitivity; [exact (proj2 (VW x (Ni x (Ib x Hf))))|]. apply A2. exact Hf.
    + apply NoDup_remove_1 in ND. exact ND.
    + intros j Hj. destruct (Nat.eqb j i); [reflexivity|]. destruct (KP j) as (D & _). rewrite (proj1 (D12 j)) in D. unfold dat in D. rewrite (r_fresh _ _ R j Hj) in D. destruct (h3 j); [discriminate|reflexivity].
    + intros x Hx. assert (Q : In x l) by (apply Il; left; exact Hx). destruct (r_hash _ _ R x Q) as (ex & U & V). pose proof (Ni x Hx) as Nx. apply Nat.eqb_neq in Nx. rewrite Nx.
      destruct (KP x) as (D & _). rewrite (proj1 (D12 x)) in D. unfold dat in D. rewrite U in D. destruct (h3 x) as [e3|]; [|discriminate]. exists e3. split; [reflexivity|]. inversion D. congruence.
    + intros _. eexists _, k, C'. split; [reflexivity|]. cbn [t_num t_tail t_bkts]. split; [exact NB3|]. split; [rewrite TL3; exact TL2|]. split.
      * apply CH3. intros j Hj. apply Nat.eqb_neq in Hj. rewrite Hj. reflexivity.
      * intros x. rewrite IN3, <- IN, Il. split; [intros Hx; split; [apply Ni; exact Hx|left; exact Hx]|intros [U [V|V]]; [exact V|contradiction]].
Qed.

(** Iterating. *)
Lemma iterate_ok : forall m b a it fuel, rep m (a ++ b) -> (length b < fuel)%nat -> it_el it <> None -> it_nx it = first b None -> iterate_all fuel m it = Some b.
Proof.
  intros m. induction b as [|x b IH]; intros a it fuel R Hf He Hn; destruct fuel as [|fuel]; cbn [length] in Hf; try lia; cbn [iterate_all]; unfold iterate; destruct (it_el it) eqn:E; try congruence; rewrite Hn; cbn [first].
  - reflexivity.
  - destruct (r_hash _ _ R x) as (e & Ex & _); [apply in_or_app; right; left; reflexivity|]. rewrite Ex. cbn [bind].
    destruct (dll_at _ _ _ _ _ (r_dll _ _ R)) as [NX _]. unfold nxv in NX. rewrite Ex in NX. cbn [option_map] in NX.
    rewrite (IH (a ++ [x])).
    + reflexivity.
    + rewrite <- app_assoc. exact R.
    + lia.
    + cbn. congruence.
    + cbn. congruence.
Qed.
Lemma iterate_start : forall m l fuel, rep m l -> (length l < fuel)%nat -> iterate_all fuel m {| it_el := None; it_nx := None |} = Some l.
Proof.
  intros m l fuel R Hf. destruct fuel as [|fuel]; [lia|]. cbn [iterate_all]. unfold iterate. cbn [it_el it_nx]. rewrite (r_head _ _ R). destruct l as [|x l]; cbn [first].
  - reflexivity.
  - destruct (r_hash _ _ R x) as (e & Ex & _); [left; reflexivity|]. rewrite Ex. cbn [bind].
    destruct (dll_at _ _ [] _ _ (r_dll _ _ R)) as [NX _]. unfold nxv in NX. rewrite Ex in NX. cbn [option_map] in NX.
    rewrite (iterate_ok m l [x]); [reflexivity|exact R|cbn [length] in Hf; lia|cbn; congruence|cbn; congruence].
Qed.

(** Freeing. *)
Lemma free_ok : forall l m fuel, rep m l -> (length l <= fuel)%nat -> exists m', free_from fuel (first l None) m = Some m' /\ rep m' [] /\ (forall x, In x l -> p_heap m' x = None) /\ (forall x, ~ In x l -> dat (p_heap m') x = dat (p_heap m) x).
Proof.
  induction l as [|i l IH]; intros m fuel R Hf.
  - exists m. split; [destruct fuel; reflexivity|]. split; [exact R|]. split; [intros x []|auto].
  - cbn [length] in Hf. destruct fuel as [|fuel]; [lia|]. cbn [first free_from].
    destruct (r_hash _ _ R i) as (e & Ei & _); [left; reflexivity|]. rewrite Ei. cbn [bind].
    destruct (dll_at _ _ [] _ _ (r_dll _ _ R)) as [NX _]. unfold nxv in NX. rewrite Ei in NX. cbn [option_map] in NX.
    destruct (delete_ok m [] i l R) as (m1 & D & R1 & Z & F & _). rewrite D. cbn [bind]. cbn [app] in R1.
    destruct (IH m1 fuel R1) as (m2 & A & R2 & B & G); [lia|]. replace (e_next e) with (first l None) by congruence.
    pose proof (r_nd _ _ R) as ND. inversion ND; subst.
    exists m2. split; [exact A|]. split; [exact R2|]. split.
    + intros x [<-|Hx]; [|apply B; exact Hx]. specialize (G i H1). unfold dat in G. rewrite Z in G. destruct (p_heap m2 i); [discriminate|reflexivity].
    + intros x Hx. rewrite G by (intros I; apply Hx; right; exact I). apply F. intros E. apply Hx. left. auto.
Qed.
Lemma rep_empty : rep empty [].
Proof. constructor; cbn; auto; [constructor|intros x []|congruence]. Qed.
End Hash.
