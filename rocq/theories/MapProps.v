(** C42: maps are finite maps iterated in insertion order, whatever the hash function. *)
From Coq Require Import NArith Lia Permutation.
From Verif Require Import Base MapModel MapProofs.

(** ** Specification: a list of keys with values, in insertion order. *)
Definition amap := list (bytes * bytes).
Definition same (a b : bytes) : bool := if list_eq_dec ascii_dec a b then true else false.
Fixpoint alookup (k : bytes) (s : amap) : option bytes := match s with [] => None | (a, v) :: r => if same a k then Some v else alookup k r end.
Fixpoint aset (k v : bytes) (s : amap) : amap := match s with [] => [] | (a, w) :: r => if same a k then (a, v) :: r else (a, w) :: aset k v r end.
Fixpoint aremove (k : bytes) (s : amap) : amap := match s with [] => [] | (a, w) :: r => if same a k then r else (a, w) :: aremove k r end.

(** What a client does with a map and what it sees.  [MInsert] stores the value behind the
    pointer that map_insert returned, [MSet] behind the one map_find returned. *)
Inductive mop := MInsert (ok1 ok2 ok3 : bool) (zero k v : bytes) | MGet (k : bytes) | MSet (k v : bytes) | MRemove (k : bytes) | MIter.
Inductive mout := RUnit | RNull | RVal (v : option bytes) | RAll (l : amap).

Definition spec_step (o : mop) (s : amap) : mout * amap :=
  match o with
  | MInsert _ _ _ _ k v => (RUnit, s ++ [(k, v)])
  | MGet k => (RVal (alookup k s), s)
  | MSet k v => (RUnit, aset k v s)
  | MRemove k => (RUnit, aremove k s)
  | MIter => (RAll s, s)
  end.
(** A key is not inserted twice. *)
Definition okop (o : mop) (s : amap) : Prop := match o with MInsert _ _ _ _ k _ => alookup k s = None | _ => True end.
Fixpoint okops (os : list mop) (s : amap) : Prop := match os with [] => True | o :: r => okop o s /\ okops r (snd (spec_step o s)) end.
Fixpoint spec_run (os : list mop) (s : amap) : list mout := match os with [] => [] | o :: r => fst (spec_step o s) :: spec_run r (snd (spec_step o s)) end.

(** The client using the model. *)
Definition store (i : id) (v : bytes) (m : map) : option map :=
  bind (modify i (fun e => mkelem (e_prev e) (e_next e) (e_hprev e) (e_hnext e) (e_key e) (e_hash e) v) (p_heap m)) (fun h => Some (mkmap h (p_fresh m) (p_head m) (p_tbl m))).
Definition load (i : id) (m : map) : option (bytes * bytes) := option_map (fun e => (e_key e, e_val e)) (p_heap m i).
Fixpoint load_all (l : list id) (m : map) : option amap := match l with [] => Some [] | i :: r => bind (load i m) (fun x => bind (load_all r m) (fun y => Some (x :: y))) end.
Definition mstep (hash : bytes -> N) (o : mop) (m : map) : option (mout * map) :=
  match o with
  | MInsert ok1 ok2 ok3 zero k v => bind (insert hash ok1 ok2 ok3 zero k m) (fun r => match r with (Some i, m) => bind (store i v m) (fun m => Some (RUnit, m)) | (None, m) => Some (RNull, m) end)
  | MGet k => bind (find hash k m) (fun r => match r with Some i => bind (load i m) (fun x => Some (RVal (Some (snd x)), m)) | None => Some (RVal None, m) end)
  | MSet k v => bind (find hash k m) (fun r => match r with Some i => bind (store i v m) (fun m => Some (RUnit, m)) | None => Some (RUnit, m) end)
  | MRemove k => bind (remove hash k m) (fun m => Some (RUnit, m))
  | MIter => bind (iterate_all (S (p_fresh m)) m {| it_el := None; it_nx := None |}) (fun l => bind (load_all l m) (fun s => Some (RAll s, m)))
  end.
(** Stops at the first insertion that returns NULL. *)
Fixpoint mrun (hash : bytes -> N) (os : list mop) (m : map) : option (list mout) :=
  match os with
  | [] => Some []
  | o :: r => bind (mstep hash o m) (fun x => match x with (RNull, _) => Some [RNull] | (out, m) => bind (mrun hash r m) (fun l => Some (out :: l)) end)
  end.

(** [m] holds exactly the elements [L]: address, key, value, in insertion order. *)
Definition holds (hash : bytes -> N) (m : map) (L : list (id * (bytes * bytes))) : Prop :=
  rep hash m (List.map fst L) /\ forall x k v, In (x, (k, v)) L -> load x m = Some (k, v).
(** Nothing else is allocated. *)
Definition noleak (m : map) (L : list (id * (bytes * bytes))) : Prop := forall x, p_heap m x <> None -> In x (List.map fst L).

Lemma load_dat : forall m m' x, dat (p_heap m') x = dat (p_heap m) x -> load x m' = load x m.
Proof. intros m m' x D. unfold load. unfold dat in D. destruct (p_heap m' x), (p_heap m x); cbn in *; try discriminate; [inversion D; reflexivity|reflexivity]. Qed.
Lemma in_fst : forall (L : list (id * (bytes * bytes))) x p, In (x, p) L -> In x (List.map fst L).
Proof. intros L x p H. change x with (fst (x, p)). apply in_map. exact H. Qed.
Lemma dat_none : forall h h' x, dat h' x = dat h x -> h' x <> None -> h x <> None.
Proof. intros h h' x D H E. unfold dat in D. rewrite E in D. destruct (h' x); [discriminate|congruence]. Qed.

(** ** One operation at a time. *)

(** Inserting appends a new element with a zeroed value; all others keep their address, key
    and value.  NULL is returned only when memory runs out or the table has 2^31 buckets. *)
Theorem C42_insert : forall hash ok1 ok2 ok3 zero key m L, holds hash m L ->
  exists r m', insert hash ok1 ok2 ok3 zero key m = Some (r, m') /\
    match r with
    | Some x => ~ In x (List.map fst L) /\ holds hash m' (L ++ [(x, (key, zero))]) /\ (noleak m L -> noleak m' (L ++ [(x, (key, zero))]))
    | None => ok1 = false \/ ok2 = false /\ L = [] \/ ok3 = false \/ exists t, p_tbl m = Some t /\ t_num t = (2 ^ 31)%N
    end.
Proof.
  intros hash ok1 ok2 ok3 zero key m L [R V]. destruct (insert_ok hash ok1 ok2 ok3 zero key m _ R) as (r & m' & E & D & Q). exists r, m'. split; [exact E|].
  destruct Q as [(-> & R' & C)|(R' & Dn & [->|(-> & C)])].
  - destruct C as [C|(C1 & C2)]; [left; exact C|]. right. left. split; [exact C1|]. destruct L; [reflexivity|discriminate].
  - assert (N : ~ In (p_fresh m) (List.map fst L)) by (intros I; pose proof (rep_lt hash m _ _ R I); lia). split; [exact N|]. split; [split|].
    + rewrite map_app. exact R'.
    + intros x k v H. apply in_app_or in H. destruct H as [H|[H|[]]].
      * rewrite <- (V x k v H). apply load_dat. apply D. intros ->. apply N. eapply in_fst. exact H.
      * inversion H; subst. unfold load. unfold dat in Dn. destruct (p_heap m' (p_fresh m)); [|discriminate]. cbn in *. inversion Dn. reflexivity.
    + intros NL x Hx. rewrite map_app. apply in_or_app. destruct (Nat.eq_dec x (p_fresh m)) as [->|Hn]; [right; left; reflexivity|]. left. apply NL. apply (dat_none (p_heap m) (p_heap m')); auto.
  - right. right. exact C.
Qed.

(** Looking up delivers an element with that key if there is one and NULL otherwise. *)
Theorem C42_find : forall hash key m L, holds hash m L ->
  (exists x v, find hash key m = Some (Some x) /\ In (x, (key, v)) L) \/ (find hash key m = Some None /\ forall x v, ~ In (x, (key, v)) L).
Proof.
  intros hash key m L [R V]. destruct (find_ok hash m _ key R) as (r & E & Q). destruct r as [i|].
  - left. destruct Q as (I & e & Ei & Ek). apply in_map_iff in I. destruct I as ([x [k v]] & <- & I). cbn [fst] in *. exists x, v. split; [exact E|].
    pose proof (V x k v I) as W. unfold load in W. rewrite Ei in W. cbn in W. inversion W. subst. exact I.
  - right. split; [exact E|]. intros x v I. pose proof (V x key v I) as W. unfold load in W. destruct (p_heap m x) as [e|] eqn:Ex; [|discriminate]. cbn in W. inversion W.
    apply (Q x e); [eapply in_fst; exact I|exact Ex|congruence].
Qed.

(** Removing takes out the element with that key, frees it and touches nothing else; if there
    is none the map is the same. *)
Theorem C42_remove : forall hash key m L, holds hash m L -> NoDup (List.map (fun p => fst (snd p)) L) ->
  (exists A x v B m', L = A ++ (x, (key, v)) :: B /\ remove hash key m = Some m' /\ holds hash m' (A ++ B) /\ p_heap m' x = None /\ (noleak m L -> noleak m' (A ++ B))) \/
  (remove hash key m = Some m /\ forall x v, ~ In (x, (key, v)) L).
Proof.
  intros hash key m L H ND. unfold remove. destruct (C42_find hash key m L H) as [(x & v & E & I)|(E & N)]; rewrite E; cbn [bind]; [left|right; auto].
  destruct (in_split _ _ I) as (A & B & ->). destruct H as [R V]. rewrite map_app in R. cbn [List.map fst] in R.
  destruct (delete_ok hash m _ x _ R) as (m' & D & R' & Z & F & _). exists A, x, v, B, m'. split; [reflexivity|]. split; [exact D|].
  assert (Nx : forall y p, In (y, p) (A ++ B) -> y <> x).
  { intros y p Iy ->. pose proof (r_nd _ _ _ R) as NDx. apply NoDup_remove_2 in NDx. apply NDx. rewrite <- map_app. eapply in_fst. exact Iy. }
  split; [split|split].
  - rewrite map_app. exact R'.
  - intros y k w Iy. rewrite (load_dat m m') by (apply F; eapply Nx; exact Iy). apply V. apply in_app_or in Iy. apply in_or_app. destruct Iy; [left|right; right]; assumption.
  - exact Z.
  - intros NL y Hy. assert (Hn : y <> x) by (intros ->; congruence). assert (Q : p_heap m y <> None) by (apply (dat_none (p_heap m) (p_heap m')); auto).
    apply NL in Q. rewrite map_app in *. cbn [List.map fst] in Q. apply in_app_or in Q. apply in_or_app. destruct Q as [Q|[Q|Q]]; [left; exact Q|congruence|right; exact Q].
Qed.

(** Iterating visits the elements in insertion order, each once. *)
Theorem C42_iterate : forall hash m L, holds hash m L -> forall fuel, (length L < fuel)%nat ->
  iterate_all fuel m {| it_el := None; it_nx := None |} = Some (List.map fst L).
Proof. intros hash m L [R _] fuel Hf. apply (iterate_start hash); [exact R|]. rewrite map_length. exact Hf. Qed.

(** map_free frees every element. *)
Theorem C42_free : forall hash m L, holds hash m L -> exists m', free m = Some m' /\ (forall x, In x (List.map fst L) -> p_heap m' x = None) /\ (noleak m L -> forall x, p_heap m' x = None).
Proof.
  intros hash m L [R V]. unfold free. rewrite (r_head _ _ _ R). destruct (free_ok hash (List.map fst L) m (p_fresh m) R) as (m' & E & R' & Z & F).
  { apply nodup_bound; [apply (r_nd _ _ _ R)|]. intros x Hx. eapply rep_lt; eauto. }
  exists m'. split; [exact E|]. split; [exact Z|]. intros NL x. destruct (in_dec Nat.eq_dec x (List.map fst L)) as [I|I]; [apply Z; exact I|].
  specialize (F x I). unfold dat in F. destruct (p_heap m x) eqn:Ex; [exfalso; apply I; apply NL; congruence|]. destruct (p_heap m' x); [discriminate|reflexivity].
Qed.

Theorem C42_empty : forall hash, holds hash empty [] /\ noleak empty [].
Proof. intros hash. split; [split; [apply rep_empty|intros x k v []]|intros x H; cbn in H; congruence]. Qed.

(** ** Any sequence of operations. *)
Lemma store_ok : forall hash m A x k v B w, holds hash m (A ++ (x, (k, v)) :: B) -> exists m', store x w m = Some m' /\ holds hash m' (A ++ (x, (k, w)) :: B) /\ p_tbl m' = p_tbl m.
Proof.
  intros hash m A x k v B w [R V]. unfold store.
  assert (W : load x m = Some (k, v)) by (apply V; apply in_or_app; right; left; reflexivity). unfold load in W. destruct (p_heap m x) as [e|] eqn:Ex; [|discriminate]. cbn in W.
  destruct (modify_ok x (fun e => mkelem (e_prev e) (e_next e) (e_hprev e) (e_hnext e) (e_key e) (e_hash e) w) (p_heap m) e Ex) as (h' & M & S & F).
  rewrite M. cbn [bind]. eexists. split; [reflexivity|]. split; [|reflexivity].
  assert (VW : forall j, nxv h' j = nxv (p_heap m) j /\ pvv h' j = pvv (p_heap m) j /\ hnv h' j = hnv (p_heap m) j /\ hpv h' j = hpv (p_heap m) j /\ hashat h' j = hashat (p_heap m) j).
  { intros j. unfold nxv, pvv, hnv, hpv, hashat. destruct (Nat.eq_dec j x) as [->|E]; [rewrite S, Ex; cbn; auto|rewrite F by exact E; auto]. }
  assert (EX : forall j f, p_heap m j = Some f -> exists f', h' j = Some f' /\ e_key f' = e_key f /\ e_hash f' = e_hash f).
  { intros j f Ef. destruct (Nat.eq_dec j x) as [->|E]; [rewrite S; rewrite Ex in Ef; inversion Ef; subst; eexists; split; [reflexivity|auto]|rewrite F by exact E; exists f; auto]. }
  split.
  - rewrite map_app in *. cbn [List.map fst] in *. destruct R as [R1 R2 R3 R4 R5 R6]. constructor; cbn [p_heap p_fresh p_head p_tbl]; auto.
    + apply (dll_frame (nxv (p_heap m)) (pvv (p_heap m))); [|exact R2]. intros j _. split; apply VW.
    + intros j Hj. destruct (Nat.eq_dec j x) as [->|E]; [rewrite (R4 x Hj) in Ex; discriminate|rewrite F by exact E; apply R4; exact Hj].
    + intros y Hy. destruct (R5 y Hy) as (f & Ef & Hf). destruct (EX y f Ef) as (f' & E1 & E2 & E3). exists f'. split; [exact E1|congruence].
    + intros NE. destruct (R6 NE) as (t & kk & C & T1 & T2 & T3 & CH & IN). exists t, kk, C. split; [exact T1|]. split; [exact T2|]. split; [exact T3|]. split; [|exact IN].
      destruct CH as [K L HD DL ND IX]. constructor; auto.
      * intros i. apply (dll_frame (hnv (p_heap m)) (hpv (p_heap m))); [|apply DL]. intros j _. split; apply VW.
      * intros i y Hy. destruct (IX i y Hy) as (U & f & Ef). destruct (VW y) as (_ & _ & _ & _ & ->). split; [exact U|]. destruct (EX y f Ef) as (f' & E1 & _). exists f'. exact E1.
  - pose proof (r_nd _ _ _ R) as ND. rewrite map_app in ND. cbn [List.map fst] in ND. apply NoDup_remove_2 in ND. rewrite <- map_app in ND.
    intros y k' v' I. apply in_app_or in I. unfold load. cbn [p_heap].
    assert (O : In (y, (k', v')) (A ++ B) -> option_map (fun e => (e_key e, e_val e)) (h' y) = Some (k', v')).
    { intros I'. assert (y <> x) by (intros ->; apply ND; eapply in_fst; exact I'). rewrite F by assumption. apply V. apply in_app_or in I'. apply in_or_app. destruct I'; [left|right; right]; assumption. }
    destruct I as [I|[I|I]]; [apply O; apply in_or_app; left; exact I| |apply O; apply in_or_app; right; exact I].
    inversion I; subst. rewrite S. cbn. congruence.
Qed.

Definition abs (L : list (id * (bytes * bytes))) : amap := List.map snd L.
Definition keys (s : amap) : list bytes := List.map fst s.
Lemma same_true : forall a b, same a b = true <-> a = b.
Proof. intros a b. unfold same. destruct (list_eq_dec ascii_dec a b); split; congruence. Qed.
Lemma same_refl : forall a, same a a = true.
Proof. intros a. apply same_true. reflexivity. Qed.
Lemma same_false : forall a b, a <> b -> same a b = false.
Proof. intros a b H. unfold same. destruct (list_eq_dec ascii_dec a b); congruence. Qed.
Lemma alookup_none : forall k s, alookup k s = None <-> ~ In k (keys s).
Proof.
  intros k. induction s as [|[a v] s IH]; cbn [alookup keys List.map fst In]; [tauto|].
  destruct (same a k) eqn:E; [apply same_true in E; subst; split; [discriminate|tauto]|].
  rewrite IH. unfold keys. split; [|tauto]. intros H [H'|H']; [subst; rewrite same_refl in E; discriminate|tauto].
Qed.
Lemma at_first : forall k v A B, ~ In k (keys A) -> alookup k (A ++ (k, v) :: B) = Some v /\ aremove k (A ++ (k, v) :: B) = A ++ B /\ forall w, aset k w (A ++ (k, v) :: B) = A ++ (k, w) :: B.
Proof.
  intros k v. induction A as [|[a w] A IH]; intros B N; cbn [app alookup aremove aset].
  - rewrite same_refl. auto.
  - cbn [keys List.map fst In] in N. rewrite same_false by tauto. destruct (IH B) as (I1 & I2 & I3); [unfold keys; tauto|]. rewrite I1, I2. split; [reflexivity|]. split; [reflexivity|]. intros w'. rewrite I3. reflexivity.
Qed.
Lemma not_there : forall k s, ~ In k (keys s) -> aremove k s = s /\ forall w, aset k w s = s.
Proof.
  intros k. induction s as [|[a v] s IH]; intros N; cbn [aremove aset]; [auto|]. cbn [keys List.map fst In] in N. rewrite same_false by tauto.
  destruct IH as (I1 & I2); [unfold keys; tauto|]. rewrite I1. split; [reflexivity|]. intros w. rewrite I2. reflexivity.
Qed.
Lemma keys_aset : forall k w s, keys (aset k w s) = keys s.
Proof. intros k w. induction s as [|[a v] s IH]; cbn [aset]; [reflexivity|]. destruct (same a k); cbn [keys List.map fst]; [reflexivity|]. f_equal. exact IH. Qed.
Lemma load_all_ok : forall m L, (forall x k v, In (x, (k, v)) L -> load x m = Some (k, v)) -> load_all (List.map fst L) m = Some (abs L).
Proof.
  intros m. induction L as [|[x [k v]] L IH]; intros V; cbn [List.map fst load_all]; [reflexivity|]. rewrite (V x k v) by (left; reflexivity). cbn [bind].
  rewrite IH; [reflexivity|]. intros y k' v' I. apply V. right. exact I.
Qed.

Lemma mstep_ok : forall hash o m L, holds hash m L -> NoDup (keys (abs L)) -> okop o (abs L) ->
  exists out m', mstep hash o m = Some (out, m') /\
    (out = RNull \/ exists L', out = fst (spec_step o (abs L)) /\ abs L' = snd (spec_step o (abs L)) /\ holds hash m' L' /\ NoDup (keys (abs L'))).
Proof.
  intros hash o m L H ND OK.
  assert (ND' : NoDup (List.map (fun p => fst (snd p)) L)) by (unfold keys, abs in ND; rewrite map_map in ND; exact ND).
  destruct o as [ok1 ok2 ok3 zero k v|k|k v|k|]; cbn [mstep spec_step okop fst snd] in *.
  - destruct (C42_insert hash ok1 ok2 ok3 zero k m L H) as (r & m' & E & Q). rewrite E. cbn [bind]. destruct r as [x|]; [|exists RNull, m'; auto].
    destruct Q as (N & H' & _). destruct (store_ok hash m' L x k zero [] v H') as (m2 & S & H2 & _). rewrite S. cbn [bind]. exists RUnit, m2. split; [reflexivity|]. right.
    exists (L ++ [(x, (k, v))]). split; [reflexivity|]. unfold abs. rewrite map_app. split; [reflexivity|]. split; [exact H2|].
    apply alookup_none in OK. unfold keys, abs in *. rewrite map_app. cbn [List.map fst snd].
    apply (Permutation.Permutation_NoDup (l := k :: List.map fst (List.map snd L))); [apply Permutation.Permutation_cons_append|]. constructor; assumption.
  - destruct (C42_find hash k m L H) as [(x & v & E & I)|(E & N)]; rewrite E; cbn [bind].
    + destruct H as [R V]. rewrite (V _ _ _ I). cbn [bind snd]. eexists _, m. split; [reflexivity|]. right. exists L. split; [|split; [reflexivity|split; [split; assumption|exact ND]]].
      destruct (in_split _ _ I) as (A & B & ->). unfold abs in *. rewrite map_app in *. cbn [List.map snd] in *. unfold keys in ND. rewrite map_app in ND. cbn [List.map fst] in ND.
      apply NoDup_remove_2 in ND. rewrite (proj1 (at_first k v (List.map snd A) (List.map snd B) ltac:(intros Q; apply ND; apply in_or_app; left; exact Q))). reflexivity.
    + exists (RVal None), m. split; [reflexivity|]. right. exists L. split; [|split; [reflexivity|split; assumption]].
      f_equal. symmetry. apply alookup_none. intros I. unfold keys, abs in I. rewrite map_map in I. apply in_map_iff in I. destruct I as ([x [k' v]] & Ek & I). cbn in Ek. subst. exact (N x v I).
  - destruct (C42_find hash k m L H) as [(x & w & E & I)|(E & N)]; rewrite E; cbn [bind].
    + destruct (in_split _ _ I) as (A & B & ->). destruct (store_ok hash m A x k w B v H) as (m2 & S & H2 & _). rewrite S. cbn [bind]. exists RUnit, m2. split; [reflexivity|]. right.
      exists (A ++ (x, (k, v)) :: B). split; [reflexivity|]. unfold abs in *. rewrite !map_app in *. cbn [List.map snd] in *.
      assert (Q : ~ In k (keys (List.map snd A))) by (unfold keys in *; rewrite map_app in ND; cbn [List.map fst] in ND; apply NoDup_remove_2 in ND; intros Q; apply ND; apply in_or_app; left; exact Q).
      destruct (at_first k w (List.map snd A) (List.map snd B) Q) as (_ & _ & Z). rewrite Z. split; [reflexivity|]. split; [exact H2|]. rewrite <- Z. rewrite keys_aset. exact ND.
    + exists RUnit, m. split; [reflexivity|]. right. exists L. split; [reflexivity|].
      assert (Q : ~ In k (keys (abs L))) by (intros I; unfold keys, abs in I; rewrite map_map in I; apply in_map_iff in I; destruct I as ([x [k' w]] & Ek & I); cbn in Ek; subst; exact (N x w I)).
      destruct (not_there k (abs L) Q) as (_ & Z). rewrite Z. split; [reflexivity|]. split; assumption.
  - destruct (C42_remove hash k m L H ND') as [(A & x & v & B & m' & -> & E & H' & _)|(E & N)]; rewrite E; cbn [bind].
    + exists RUnit, m'. split; [reflexivity|]. right. exists (A ++ B). split; [reflexivity|]. unfold abs in *. rewrite !map_app in *. cbn [List.map snd] in *. unfold keys in *. rewrite map_app in *. cbn [List.map fst] in *.
      assert (Q : ~ In k (keys (List.map snd A))) by (apply NoDup_remove_2 in ND; intros Q; apply ND; apply in_or_app; left; exact Q).
      destruct (at_first k v (List.map snd A) (List.map snd B) Q) as (_ & Z & _). rewrite Z. split; [reflexivity|]. split; [exact H'|]. apply NoDup_remove_1 in ND. exact ND.
    + exists RUnit, m. split; [reflexivity|]. right. exists L. split; [reflexivity|].
      assert (Q : ~ In k (keys (abs L))) by (intros I; unfold keys, abs in I; rewrite map_map in I; apply in_map_iff in I; destruct I as ([x [k' w]] & Ek & I); cbn in Ek; subst; exact (N x w I)).
      destruct (not_there k (abs L) Q) as (Z & _). rewrite Z. split; [reflexivity|]. split; assumption.
  - rewrite (C42_iterate hash m L H).
    2:{ destruct H as [R _]. apply Nat.lt_succ_r. rewrite <- (map_length fst). apply nodup_bound; [apply (r_nd _ _ _ R)|]. intros x Hx. eapply rep_lt; eauto. }
    cbn [bind]. destruct H as [R V]. rewrite (load_all_ok m L V). cbn [bind]. eexists _, m. split; [reflexivity|]. right. exists L. split; [reflexivity|]. split; [reflexivity|]. split; [split; assumption|exact ND].
Qed.

(** For every hash function and every sequence of operations that inserts no key twice, a
    client sees what it would see of a list of keys and values in insertion order, up to the
    first insertion that fails; nothing is accessed outside of an allocated element or the
    bucket array. *)
Theorem C42_run : forall hash os, okops os [] -> exists outs, mrun hash os empty = Some outs /\
  (outs = spec_run os [] \/ exists p q, outs = p ++ [RNull] /\ spec_run os [] = p ++ q).
Proof.
  intros hash os.
  assert (G : forall os m L, holds hash m L -> NoDup (keys (abs L)) -> okops os (abs L) -> exists outs, mrun hash os m = Some outs /\
    (outs = spec_run os (abs L) \/ exists p q, outs = p ++ [RNull] /\ spec_run os (abs L) = p ++ q)).
  { clear os. induction os as [|o os IH]; intros m L H ND OK; cbn [mrun spec_run okops] in *; [exists []; auto|].
    destruct OK as [O1 O2]. destruct (mstep_ok hash o m L H ND O1) as (out & m' & E & Q). rewrite E. cbn [bind].
    assert (NU : out = RNull -> exists outs, match out with RNull => Some [RNull] | _ => bind (mrun hash os m') (fun l => Some (out :: l)) end = Some outs /\
       (outs = fst (spec_step o (abs L)) :: spec_run os (snd (spec_step o (abs L))) \/ exists p q, outs = p ++ [RNull] /\ fst (spec_step o (abs L)) :: spec_run os (snd (spec_step o (abs L))) = p ++ q)).
    { intros ->. exists [RNull]. split; [reflexivity|]. right. exists [], (fst (spec_step o (abs L)) :: spec_run os (snd (spec_step o (abs L)))). auto. }
    destruct Q as [Q|(L' & E1 & E2 & H' & ND')]; [apply NU; exact Q|].
    rewrite <- E2 in *. destruct (IH m' L' H' ND' O2) as (outs & R1 & R2). rewrite R1. cbn [bind]. rewrite <- E1 in *.
    assert (G : exists outs', Some (out :: outs) = Some outs' /\ (outs' = out :: spec_run os (abs L') \/ exists p q, outs' = p ++ [RNull] /\ out :: spec_run os (abs L') = p ++ q)).
    { exists (out :: outs). split; [reflexivity|]. destruct R2 as [->|(p & q & -> & ->)]; [left; reflexivity|]. right. exists (out :: p), q. auto. }
    destruct out; [exact G|apply NU; reflexivity|exact G|exact G]. }
  intros OK. apply (G os empty []); [apply (proj1 (C42_empty hash))|constructor|exact OK].
Qed.

(** *** Examples *)
Definition key1 (n : nat) : bytes := [ascii_of_nat n].
(** 40 keys that all have the same hash: the table grows and everything is found. *)
Definition ex_ops : list mop :=
  List.map (fun n => MInsert true true true (s2b "0") (key1 n) (key1 (n + 1))) (seq 1 40) ++ [MGet (key1 7); MSet (key1 9) (s2b "x"); MRemove (key1 1); MRemove (key1 99); MRemove (key1 40); MGet (key1 9); MIter].
Example C42_run_ex : okops ex_ops [] /\ exists outs, mrun (fun _ => 12%N) ex_ops empty = Some outs /\ outs = spec_run ex_ops [] /\ nth 45 outs RNull = RVal (Some (s2b "x")).
Proof. split; [vm_compute; repeat (split; [reflexivity|]); exact I|]. eexists. split; [vm_compute; reflexivity|]. split; vm_compute; reflexivity. Qed.
Example C42_grows : match fold_left (fun m n => match m with Some m => option_map snd (insert (fun k => N.of_nat (nat_of_ascii (hd Ascii.zero k))) true true true [] (key1 (32 * n)) m) | None => None end) (seq 1 7 ++ seq 0 1 ++ seq 1 3) (Some empty) with
  | Some m => option_map t_num (p_tbl m) = Some 64%N | None => False end.
Proof. vm_compute. reflexivity. Qed.

(** Without memory for more buckets map_insert returns NULL although the element is in the
    map: a caller that takes NULL for "not inserted" is wrong. *)
Theorem C42_null_refuted : exists hash m L key, holds hash m L /\ find hash key m = Some None /\
  exists m' x, insert hash true true false [] key m = Some (None, m') /\ find hash key m' = Some (Some x).
Proof.
  pose (f := fun m n => match insert (fun _ => 0%N) true true true [] (key1 n) m with Some (Some _, m) => m | _ => m end).
  assert (H : forall n m L, holds (fun _ => 0%N) m L -> exists L', holds (fun _ => 0%N) (f m n) L').
  { intros n m L H. unfold f. destruct (C42_insert (fun _ => 0%N) true true true [] (key1 n) m L H) as (r & m' & E & Q). rewrite E. destruct r as [x|]; [destruct Q as (_ & Q & _); eexists; exact Q|exists L; exact H]. }
  assert (G : forall l m L, holds (fun _ => 0%N) m L -> exists L', holds (fun _ => 0%N) (fold_left f l m) L').
  { induction l as [|n l IH]; intros m L HL; cbn [fold_left]; [exists L; exact HL|]. destruct (H n m L HL) as (L' & HL'). eapply IH. exact HL'. }
  destruct (G (seq 1 9) empty [] (proj1 (C42_empty _))) as (L & HL).
  exists (fun _ => 0%N), (fold_left f (seq 1 9) empty), L, (key1 10). split; [exact HL|]. split; [vm_compute; reflexivity|].
  eexists _, _. split; vm_compute; reflexivity.
Qed.

(** Inserting a key twice makes two elements; which of them map_find delivers changes when
    the table grows. *)
Theorem C42_twice_refuted : exists hash os, ~ okops os [] /\ exists m a b, 
  (fix go os m := match os with [] => Some m | o :: r => bind (mstep hash o m) (fun x => go r (snd x)) end) os empty = Some m /\
  find hash (s2b "a") m = Some (Some b) /\
  exists m', option_map snd (insert hash true true true [] (s2b "z") m) = Some m' /\ find hash (s2b "a") m' = Some (Some a) /\ a <> b.
Proof.
  exists (fun _ => 0%N), ([MInsert true true true [] (s2b "a") (s2b "1"); MInsert true true true [] (s2b "a") (s2b "2")] ++ List.map (fun n => MInsert true true true [] (key1 n) []) (seq 1 7)).
  split; [intros (_ & (H & _)); vm_compute in H; discriminate|]. eexists _, 0%nat, 1%nat. split; [vm_compute; reflexivity|]. split; [vm_compute; reflexivity|].
  eexists. split; [vm_compute; reflexivity|]. split; [vm_compute; reflexivity|discriminate].
Qed.

Print Assumptions C42_insert.
Print Assumptions C42_find.
Print Assumptions C42_remove.
Print Assumptions C42_iterate.
Print Assumptions C42_free.
Print Assumptions C42_run.
Print Assumptions C42_null_refuted.
Print Assumptions C42_twice_refuted.
