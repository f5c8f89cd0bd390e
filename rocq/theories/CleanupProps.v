(** C71: functions called when a scope is left, and copies of strings, in an arena. *)
From Coq Require Import NArith ZArith Lia.
From Verif Require Import Base ArenaModel ArenaProofs ArenaProps CleanupModel.
Open Scope N_scope.

(** ** Numbers as bytes *)
Lemma store_length : forall k n, length (store k n) = k.
Proof. induction k as [|k IH]; intros n; cbn [store length]; [reflexivity|]. rewrite IH. reflexivity. Qed.
Lemma load_store : forall k n, n < 256 ^ N.of_nat k -> load (store k n) = n.
Proof.
  induction k as [|k IH]; intros n H; cbn [store load]; [cbn in H; lia|]. rewrite N_ascii_embedding by (apply N.mod_lt; discriminate).
  rewrite IH; [pose proof (N.div_mod n 256); lia|]. apply N.div_lt_upper_bound; [discriminate|]. rewrite Nat2N.inj_succ, N.pow_succ_r' in H. exact H.
Qed.
Definition word (n : N) : Prop := n < 256 ^ 8.

(** ** The functions as steps of the client of C43 *)
Lemma reach_more : forall c os c', reachable c -> aops_ok os c -> crun os c = Ret c' -> reachable c'.
Proof.
  intros c os c' (page & poison & mem & m & a & os0 & H1 & H2 & H3 & H4 & H5 & H6) OK R.
  exists page, poison, mem, m, a, (os0 ++ os). refine (conj H1 (conj H2 (conj H3 (conj H4 (conj _ _))))).
  - apply ok_app. rewrite H6. auto.
  - rewrite run_app, H6. exact R.
Qed.
Lemma upd_last : forall (l : list obj) o o', upd (length l) o' (l ++ [o]) = l ++ [o'].
Proof. intros l o o'. unfold upd. rewrite firstn_app, Nat.sub_diag, firstn_all. cbn [firstn]. rewrite app_nil_r, skipn_all2; [reflexivity|]. rewrite app_length. cbn [length]. lia. Qed.
Lemma nth_last : forall (l : list obj) o, nth_error (l ++ [o]) (length l) = Some o.
Proof. intros l o. rewrite nth_error_app2, Nat.sub_diag by lia. reflexivity. Qed.
(** Writing to the object allocated last. *)
Lemma write_last : forall a ss l p n d k h off w, (off + length w <= length d)%nat ->
  cstep (OWrite (length l) off w) (mkclient a ss (l ++ [mkobj p n d k]) h) =
    Ret (mkclient (set_mem (blit (p + N.of_nat off) w (a_mem a)) a) ss (l ++ [mkobj p n (firstn off d ++ w ++ skipn (off + length w) d) k]) h).
Proof.
  intros a ss l p n d k h off w H. cbn [cstep c_a c_scopes c_objs c_hist]. rewrite nth_last. cbn [o_data o_addr o_size o_depth]. destruct (Nat.leb_spec (off + length w) (length d)); [|lia]. rewrite upd_last. reflexivity.
Qed.
Definition with_obj (c : client) (a : arena) (p n : N) (d : bytes) : client := mkclient a (c_scopes c) (c_objs c ++ [mkobj p n d (length (c_scopes c))]) (c_hist c).

Lemma crun_cons : forall o os c, crun (o :: os) c = match cstep o c with Ret c => crun os c | x => x end.
Proof. reflexivity. Qed.
Lemma malloc_step : forall c s ss n m p a, c_scopes c = s :: ss -> malloc s n m (c_a c) = Ret (p, a) -> cstep (OMalloc n m) c = Ret (with_obj c a p n (readn (a_mem a) p (N.to_nat n))).
Proof. intros c s ss n m p a Es E. cbn [cstep]. unfold with_obj. rewrite Es, E. reflexivity. Qed.

Lemma cleanup_steps : forall c s ss h fn ptr m ac a, c_scopes c = s :: ss -> cleanup (s, h) fn ptr m (c_a c) = Ret ((s, ac), a) ->
  crun [OMalloc RECORD m; OWrite (length (c_objs c)) 0 (store 8 ptr); OWrite (length (c_objs c)) 8 (store 8 fn); OWrite (length (c_objs c)) 16 (store 8 h)] c =
    Ret (with_obj c a ac RECORD (record ptr fn h)).
Proof.
  intros c s ss h fn ptr m ac a Es E. unfold cleanup in E. cbn [fst snd] in E. destruct (malloc s RECORD m (c_a c)) as [| |[p a']] eqn:EM; try discriminate.
  pose proof (store_length 8 ptr) as Lp. pose proof (store_length 8 fn) as Lf. pose proof (store_length 8 h) as Lh. unfold record. set (wp := store 8 ptr) in *. set (wf := store 8 fn) in *. set (wh := store 8 h) in *. clearbody wp wf wh. injection E as -> <-.
  rewrite crun_cons, (malloc_step _ _ _ _ _ _ _ Es EM). unfold with_obj.
  change (N.to_nat RECORD) with 24%nat. set (d := readn (a_mem a') ac 24). assert (Ld : length d = 24%nat) by apply readn_length.
  rewrite crun_cons, write_last by (rewrite Lp, Ld; lia). cbn [firstn app]. rewrite Lp.
  set (d1 := wp ++ skipn (0 + 8) d). assert (L1 : length d1 = 24%nat) by (unfold d1; rewrite app_length, Lp, skipn_length, Ld; reflexivity).
  rewrite crun_cons, write_last by (rewrite Lf, L1; lia). rewrite Lf.
  set (d2 := firstn 8 d1 ++ wf ++ skipn (8 + 8) d1). assert (L2 : length d2 = 24%nat) by (unfold d2; rewrite !app_length, Lf, skipn_length, firstn_length, L1; reflexivity).
  rewrite crun_cons, write_last by (rewrite Lh, L2; lia). rewrite Lh. cbn [set_mem a_mem a_frames a_fsize a_poison a_refs]. change (N.of_nat 0) with 0. change (N.of_nat 8) with 8. change (N.of_nat 16) with 16. rewrite N.add_0_r.
  cbn [crun]. do 3 f_equal. f_equal.
  assert (A : firstn 8 d1 = wp) by (unfold d1; rewrite firstn_app, Lp, Nat.sub_diag, firstn_all2 by (rewrite Lp; lia); apply app_nil_r).
  assert (B : firstn 16 d2 = wp ++ wf).
  { unfold d2. rewrite A, app_assoc, firstn_app, app_length, Lp, Lf. change (16 - (8 + 8))%nat with 0%nat. rewrite firstn_all2 by (rewrite app_length, Lp, Lf; lia). apply app_nil_r. }
  rewrite B, skipn_all2 by (rewrite L2; cbn; lia). rewrite app_nil_r, <- app_assoc. reflexivity.
Qed.
Lemma strndup_steps : forall c s ss src m p a, c_scopes c = s :: ss -> strndup s src m (c_a c) = Ret (p, a) ->
  crun [OMalloc (N.of_nat (length src) + 1) m; OWrite (length (c_objs c)) 0 src; OWrite (length (c_objs c)) (length src) [NUL]] c = Ret (with_obj c a p (N.of_nat (length src) + 1) (src ++ [NUL])).
Proof.
  intros c s ss src m p a Es E. unfold strndup in E. destruct (SIZE_LIMIT <=? _); [discriminate|]. destruct (malloc s _ m (c_a c)) as [| |[q a']] eqn:EM; try discriminate. injection E as -> <-. rewrite crun_cons, (malloc_step _ _ _ _ _ _ _ Es EM). unfold with_obj.
  replace (N.to_nat (N.of_nat (length src) + 1)) with (S (length src)) by lia. set (d := readn (a_mem a') p (S (length src))). assert (Ld : length d = S (length src)) by apply readn_length.
  rewrite crun_cons, write_last by (rewrite Ld; lia). cbn [firstn app]. set (d1 := src ++ skipn (0 + length src) d). assert (L1 : length d1 = S (length src)) by (unfold d1; rewrite app_length, skipn_length, Ld; lia).
  rewrite crun_cons, write_last by (rewrite L1; cbn [length]; lia). cbn [set_mem a_mem a_frames a_fsize a_poison a_refs length]. change (N.of_nat 0) with 0. rewrite N.add_0_r.
  cbn [crun]. do 3 f_equal. f_equal. rewrite skipn_all2 by (rewrite L1; lia). unfold d1. rewrite firstn_app, Nat.sub_diag, firstn_all. cbn [firstn]. rewrite !app_nil_r. reflexivity.
Qed.
Lemma sprintf_steps : forall c s ss t m p a, c_scopes c = s :: ss -> sprintf s (Some t) m (c_a c) = Ret (p, a) ->
  crun [OMalloc (N.of_nat (length t) + 1) m; OWrite (length (c_objs c)) 0 (t ++ [NUL])] c = Ret (with_obj c a p (N.of_nat (length t) + 1) (t ++ [NUL])).
Proof.
  intros c s ss t m p a Es E. unfold sprintf in E. destruct (malloc s _ m (c_a c)) as [| |[q a']] eqn:EM; try discriminate. injection E as -> <-. rewrite crun_cons, (malloc_step _ _ _ _ _ _ _ Es EM). unfold with_obj.
  replace (N.to_nat (N.of_nat (length t) + 1)) with (S (length t)) by lia. set (d := readn (a_mem a') p (S (length t))). assert (Ld : length d = S (length t)) by apply readn_length.
  rewrite crun_cons, write_last by (rewrite Ld, app_length; cbn [length]; lia). cbn [firstn app]. change (N.of_nat 0) with 0. rewrite N.add_0_r.
  cbn [crun]. do 3 f_equal. f_equal. rewrite skipn_all2 by (rewrite Ld, app_length; cbn [length]; lia). rewrite app_nil_r. reflexivity.
Qed.

(** ** Strings *)
(** A copy is new memory: the bytes and a NUL; all that was allocated before stays as it is. *)
Definition copied (c : client) (text : bytes) (p : N) (a : arena) : Prop :=
  let c' := with_obj c a p (N.of_nat (length text) + 1) (text ++ [NUL]) in
  reachable c' /\ sound c' /\ (forall i, (i < length text)%nat -> a_mem a (p + N.of_nat i) = nth i text NUL) /\ a_mem a (p + N.of_nat (length text)) = NUL /\
  (forall o, In o (c_objs c) -> disjoint p (N.of_nat (length text) + 1) (o_addr o) (o_size o) /\ readn (a_mem a) (o_addr o) (N.to_nat (o_size o)) = readn (a_mem (c_a c)) (o_addr o) (N.to_nat (o_size o))).
Lemma copied_ok : forall c text p a os, reachable c -> aops_ok os c -> crun os c = Ret (with_obj c a p (N.of_nat (length text) + 1) (text ++ [NUL])) -> copied c text p a.
Proof.
  intros c text p a os RE OK R. assert (RE' := reach_more _ _ _ RE OK R). assert (SO := C43_sound _ RE'). assert (S0 := C43_sound _ RE).
  assert (D : readn (a_mem a) p (S (length text)) = text ++ [NUL]).
  { pose proof (so_data _ SO (mkobj p (N.of_nat (length text) + 1) (text ++ [NUL]) (length (c_scopes c))) (in_or_app _ [_] _ (or_intror (in_eq _ _)))) as D. cbn [o_addr o_size o_data c_a with_obj] in D. replace (N.to_nat (N.of_nat (length text) + 1)) with (S (length text)) in D by lia. exact D. }
  split; [exact RE'|]. split; [exact SO|]. split; [|split].
  - intros i Hi. rewrite <- (nth_readn (a_mem a) p (S (length text)) i NUL) by lia. rewrite D. apply app_nth1. exact Hi.
  - rewrite <- (nth_readn (a_mem a) p (S (length text)) (length text) NUL) by lia. rewrite D. rewrite app_nth2, Nat.sub_diag by lia. reflexivity.
  - intros o Ho. split.
    + destruct (In_nth_error _ _ Ho) as [i Hi]. pose proof (nth_error_Some (c_objs c) i) as Q. rewrite Hi in Q. assert (Li : (i < length (c_objs c))%nat) by (apply Q; discriminate).
      pose proof (so_disjoint _ SO (length (c_objs c)) i) as DJ. cbn [c_objs with_obj] in DJ. rewrite nth_last in DJ. rewrite (nth_error_app1 (c_objs c) _ Li) in DJ. apply (DJ _ _ ltac:(lia) eq_refl Hi).
    + rewrite (so_data _ S0 o Ho). apply (so_data _ SO o). apply in_or_app. left. exact Ho.
Qed.
Theorem C71_strndup : forall c s ss src m p a, reachable c -> c_scopes c = s :: ss -> msys_ok (c_a c) (N.of_nat (length src) + 1) m -> strndup s src m (c_a c) = Ret (p, a) -> copied c src p a.
Proof. intros c s ss src m p a RE Es MS E. eapply copied_ok; [exact RE| |eapply strndup_steps; eauto]. cbn [aops_ok aop_ok]. split; [exact MS|]. repeat (destruct (cstep _ _); [exact I|exact I|]; split; [exact I|]). destruct (cstep _ _); exact I. Qed.
Theorem C71_sprintf : forall c s ss t m p a, reachable c -> c_scopes c = s :: ss -> msys_ok (c_a c) (N.of_nat (length t) + 1) m -> sprintf s (Some t) m (c_a c) = Ret (p, a) -> copied c t p a.
Proof. intros c s ss t m p a RE Es MS E. eapply copied_ok; [exact RE| |eapply sprintf_steps; eauto]. cbn [aops_ok aop_ok]. split; [exact MS|]. repeat (destruct (cstep _ _); [exact I|exact I|]; split; [exact I|]). destruct (cstep _ _); exact I. Qed.

(** ** Functions called when a scope is left *)
(** A client that also registers functions.  [k_heads]: s->cleanup of every scope entered;
    [k_recs]: where its records are, which the client never gets to know. *)
Record kclient := mkk { k_c : client; k_heads : list N; k_recs : list N }.
Inductive kop := KEnter | KLeave | KOp (o : aop) | KCleanup (fn ptr : N) (m : sys) | KStrndup (src : bytes) (m : sys) | KSprintf (t : bytes) (m : sys).
Definition lift (k : kclient) (r : res client) : res (kclient * list (list (N * N))) := match r with Ret c => Ret (mkk c (k_heads k) (k_recs k), []) | Exit => Exit | Trap => Trap end.
(** One operation; the list is that of the calls made, if a scope is left. *)
Definition kstep (fuel : nat) (o : kop) (k : kclient) : res (kclient * list (list (N * N))) :=
  let c := k_c k in
  match o, c_scopes c, k_heads k with
  | KEnter, _, hs => match cstep OEnter c with Ret c => Ret (mkk c (0 :: hs) (k_recs k), []) | Exit => Exit | Trap => Trap end
  | KLeave, s :: ss, h :: hs =>
      match leave_scope fuel (s, h) (c_a c) with
      | Some (calls, a) => Ret (mkk (mkclient a ss (filter (fun o => Nat.leb (o_depth o) (length ss)) (c_objs c)) (tl (c_hist c))) hs (k_recs k), [calls])
      | None => Trap
      end
  | KOp o, _, _ => lift k (cstep o c)
  | KCleanup fn ptr m, s :: ss, h :: hs =>
      match cleanup (s, h) fn ptr m (c_a c) with
      | Ret ((s', h'), a) => Ret (mkk (mkclient a (s' :: ss) (c_objs c ++ [mkobj h' RECORD (readn (a_mem a) h' 24) (length (c_scopes c))]) (c_hist c)) (h' :: hs) (h' :: k_recs k), [])
      | Exit => Exit | Trap => Trap
      end
  | KStrndup src m, s :: ss, _ => match strndup s src m (c_a c) with Ret (p, a) => Ret (mkk (with_obj c a p (N.of_nat (length src) + 1) (src ++ [NUL])) (k_heads k) (k_recs k), []) | Exit => Exit | Trap => Trap end
  | KSprintf t m, s :: ss, _ => match sprintf s (Some t) m (c_a c) with Ret (p, a) => Ret (mkk (with_obj c a p (N.of_nat (length t) + 1) (t ++ [NUL])) (k_heads k) (k_recs k), []) | Exit => Exit | Trap => Trap end
  | _, _, _ => Ret (k, [])
  end.
(** Pointers are 64 bits.  The client may do anything with its own allocations. *)
Definition foreign (i : nat) (k : kclient) : Prop := forall o, nth_error (c_objs (k_c k)) i = Some o -> ~ In (o_addr o) (k_recs k).
Definition kop_ok (o : kop) (k : kclient) : Prop :=
  match o with
  | KEnter | KLeave => True
  | KOp o => aop_ok o (k_c k) /\ match o with OEnter | OLeave => False | OWrite i _ _ | ORealloc i _ _ => foreign i k | _ => True end
  | KCleanup fn ptr m => word fn /\ word ptr /\ msys_ok (c_a (k_c k)) RECORD m
  | KStrndup t m | KSprintf t m => msys_ok (c_a (k_c k)) (N.of_nat (length t) + 1) m
  end.
Fixpoint krun (fuel : nat) (os : list kop) (k : kclient) : res (kclient * list (list (N * N))) :=
  match os with
  | [] => Ret (k, [])
  | o :: r => match kstep fuel o k with Ret (k, l) => match krun fuel r k with Ret (k, l') => Ret (k, l ++ l') | x => x end | x => x end
  end.
Fixpoint kops_ok (fuel : nat) (os : list kop) (k : kclient) : Prop :=
  match os with [] => True | o :: r => kop_ok o k /\ match kstep fuel o k with Ret (k, _) => kops_ok fuel r k | _ => True end end.
(** What has to be called: a stack of lists, one per scope. *)
Fixpoint due (os : list kop) (st : list (list (N * N))) : list (list (N * N)) :=
  match os with
  | [] => []
  | KEnter :: r => due r ([] :: st)
  | KLeave :: r => match st with t :: st => t :: due r st | [] => due r [] end
  | KCleanup fn ptr _ :: r => match st with t :: st => due r (((fn, ptr) :: t) :: st) | [] => due r [] end
  | _ :: r => due r st
  end.

(** *** Chains of records *)
Fixpoint chain (objs : list obj) (recs : list N) (d : nat) (h : N) (l : list (N * N)) : Prop :=
  match l with
  | [] => h = 0
  | (fn, ptr) :: l => exists next, In (mkobj h RECORD (record ptr fn next) d) objs /\ In h recs /\ word fn /\ word ptr /\ word next /\ h <> 0 /\ chain objs recs d next l
  end.
Fixpoint levels (objs : list obj) (recs : list N) (hs : list N) (st : list (list (N * N))) : Prop :=
  match hs, st with
  | [], [] => True
  | h :: hs, l :: st => chain objs recs (S (length hs)) h l /\ levels objs recs hs st
  | _, _ => False
  end.
Record kinv (k : kclient) (st : list (list (N * N))) : Prop := {
  ki_reach : reachable (k_c k);
  ki_len : length (k_heads k) = length (c_scopes (k_c k));
  ki_levels : levels (c_objs (k_c k)) (k_recs k) (k_heads k) st;
}.
Definition keeps (d : nat) (recs recs' : list N) (objs objs' : list obj) : Prop :=
  (forall x, In x recs -> In x recs') /\ forall o, In o objs -> In (o_addr o) recs -> (o_depth o <= d)%nat -> In o objs'.
Lemma chain_keeps : forall objs objs' recs recs' D d, keeps D recs recs' objs objs' -> (d <= D)%nat -> forall l h, chain objs recs d h l -> chain objs' recs' d h l.
Proof.
  intros objs objs' recs recs' D d [K1 K2] LE. induction l as [|[fn ptr] l IH]; intros h H; cbn [chain] in *; [exact H|]. destruct H as (nx & H1 & H2 & H3 & H4 & H5 & H6 & H7). exists nx. split; [apply K2; [exact H1|exact H2|exact LE]|]. split; [apply K1; exact H2|]. auto 10.
Qed.
Lemma levels_keeps : forall objs objs' recs recs' D, keeps D recs recs' objs objs' -> forall hs st, (length hs <= D)%nat -> levels objs recs hs st -> levels objs' recs' hs st.
Proof.
  intros objs objs' recs recs' D K. induction hs as [|h hs IH]; intros st LE H; destruct st as [|l st]; cbn [levels length] in *; try tauto. destruct H as [H1 H2]. split; [eapply chain_keeps; eauto|]. apply IH; [lia|exact H2].
Qed.
Lemma keeps_app : forall d recs objs x, keeps d recs recs objs (objs ++ x).
Proof. intros d recs objs x. split; [auto|]. intros o H _ _. apply in_or_app. left. exact H. Qed.
Lemma keeps_upd : forall d recs objs i o, (forall o, nth_error objs i = Some o -> ~ In (o_addr o) recs) -> keeps d recs recs objs (upd i o objs).
Proof.
  intros d recs objs i o F. split; [auto|]. intros q Hq Hr _. destruct (In_nth_error _ _ Hq) as [j Hj]. assert (NE : i <> j) by (intros ->; apply (F _ Hj Hr)). unfold upd.
  destruct (Nat.lt_ge_cases j i) as [L|L].
  - apply in_or_app. left. apply (nth_error_In _ j). rewrite <- Hj. rewrite <- (firstn_skipn i objs) at 2. rewrite nth_error_app1; [reflexivity|]. rewrite firstn_length. apply Nat.min_glb_lt; [exact L|]. apply nth_error_Some. congruence.
  - apply in_or_app. right. right. apply (nth_error_In _ (j - S i)). rewrite <- Hj. rewrite <- (firstn_skipn (S i) objs) at 2. assert (J : (j < length objs)%nat) by (apply nth_error_Some; congruence).
    rewrite nth_error_app2 by (rewrite firstn_length; lia). rewrite firstn_length. f_equal. lia.
Qed.
Lemma keeps_filter : forall d recs objs, keeps d recs recs objs (filter (fun o => Nat.leb (o_depth o) d) objs).
Proof. intros d recs objs. split; [auto|]. intros o H _ L. apply filter_In. split; [exact H|]. apply Nat.leb_le. exact L. Qed.

(** *** Reading a chain *)
Lemma readn_split : forall mem p a b, readn mem p (a + b) = readn mem p a ++ readn mem (p + N.of_nat a) b.
Proof.
  intros mem p a b. unfold readn. rewrite seq_app, map_app. f_equal. cbn [Nat.add]. rewrite <- (Nat.add_0_r a) at 1. generalize 0%nat as z. induction b as [|b IH]; intros z; cbn [seq List.map]; [reflexivity|]. f_equal; [f_equal; lia|]. rewrite <- IH. f_equal. f_equal. lia.
Qed.
Lemma read_record : forall mem h ptr fn next, word ptr -> word fn -> word next -> readn mem h 24 = record ptr fn next ->
  load (readn mem h 8) = ptr /\ load (readn mem (h + 8) 8) = fn /\ load (readn mem (h + 16) 8) = next.
Proof.
  intros mem h ptr fn next W1 W2 W3 H. change 24%nat with (8 + (8 + 8))%nat in H. rewrite readn_split, (readn_split mem (h + _)) in H. unfold record in H.
  assert (C : forall (a b c d : bytes), length a = length c -> a ++ b = c ++ d -> a = c /\ b = d).
  { induction a as [|x a IH]; intros b [|y c] d L Q; cbn [length] in L; try discriminate; [auto|]. cbn [app] in Q. injection Q as -> Q. destruct (IH b c d ltac:(lia) Q) as [-> ->]. auto. }
  apply C in H; [|rewrite readn_length, store_length; reflexivity]. destruct H as [H1 H]. apply C in H; [|rewrite readn_length, store_length; reflexivity]. destruct H as [H2 H3].
  change (N.of_nat 8) with 8 in *. rewrite <- N.add_assoc in H3. change (8 + 8) with 16 in H3. rewrite H1, H2, H3. rewrite !load_store by assumption. auto.
Qed.
Lemma run_chain : forall c recs d l h fuel, sound c -> chain (c_objs c) recs d h l -> (length l <= fuel)%nat -> run_cleanups fuel (a_mem (c_a c)) h = Some l.
Proof.
  intros c recs d. induction l as [|[fn ptr] l IH]; intros h fuel SO H L; cbn [chain length] in *.
  - subst h. destruct fuel; reflexivity.
  - destruct fuel as [|fuel]; [lia|]. destruct H as (nx & H1 & _ & H3 & H4 & H5 & H6 & H7). cbn [run_cleanups]. destruct (N.eqb_spec h 0) as [|_]; [contradiction|].
    pose proof (so_data _ SO _ H1) as D. cbn [o_addr o_size o_data] in D. change (N.to_nat RECORD) with 24%nat in D. destruct (read_record _ _ _ _ _ H4 H3 H5 D) as (-> & -> & ->). rewrite (IH nx fuel SO H7 ltac:(lia)). reflexivity.
Qed.

(** *** Steps *)
Lemma reach_step : forall c os, reachable c -> aops_ok os c -> crun os c = Exit \/ exists c', crun os c = Ret c' /\ reachable c'.
Proof.
  intros c os RE OK. destruct RE as (page & poison & mem & m & a & os0 & H1 & H2 & H3 & H4 & H5 & H6).
  assert (OK' : aops_ok (os0 ++ os) (start a)) by (apply ok_app; rewrite H6; auto).
  destruct (C43_run _ _ _ _ _ _ H1 H2 H3 H4 OK') as [E|(c' & E & _)]; rewrite run_app, H6 in E; [left; exact E|]. right. exists c'. split; [exact E|].
  exists page, poison, mem, m, a, (os0 ++ os). refine (conj H1 (conj H2 (conj H3 (conj H4 (conj OK' _))))). rewrite run_app, H6. exact E.
Qed.
Lemma reach_one : forall c o, reachable c -> aop_ok o c -> cstep o c = Exit \/ exists c', cstep o c = Ret c' /\ reachable c'.
Proof.
  intros c o RE OK. destruct (reach_step c [o] RE) as [E|(c' & E & R)].
  - cbn [aops_ok]. split; [exact OK|]. destruct (cstep o c); exact I.
  - left. cbn [crun] in E. destruct (cstep o c); [reflexivity|discriminate|discriminate].
  - right. exists c'. split; [|exact R]. cbn [crun] in E. destruct (cstep o c); [discriminate|discriminate|exact E].
Qed.
(** An object has an address that fits, and is not NULL. *)
Lemma addr_word : forall c o, reachable c -> In o (c_objs c) -> o_addr o <> 0 /\ word (o_addr o).
Proof.
  intros c o RE H. destruct (so_inside _ (C43_sound _ RE) o H) as (f & Hf & A & B). destruct (reach_inv c RE) as [L I]. destruct (ci_frames _ _ I) as [FO _]. pose proof (fo_top _ (FO f Hf)) as T.
  unfold word. change FRAME with 32 in A. assert (Q : HALF < 256 ^ 8) by reflexivity. clear - A B T Q. lia.
Qed.
Lemma oks_write : forall n m i off w rest c, msys_ok (c_a c) n m -> (forall c, aops_ok rest c) -> aops_ok (OMalloc n m :: OWrite i off w :: rest) c.
Proof. intros n m i off w rest c MS R. cbn [aops_ok aop_ok]. split; [exact MS|]. destruct (cstep (OMalloc n m) c); [exact I|exact I|]. split; [exact I|]. destruct (cstep _ _); [exact I|exact I|apply R]. Qed.
Lemma oks_nil : forall c, aops_ok [] c. Proof. intros c. exact I. Qed.
Lemma oks_w : forall i off w rest, (forall c, aops_ok rest c) -> forall c, aops_ok (OWrite i off w :: rest) c.
Proof. intros i off w rest R c. cbn [aops_ok aop_ok]. split; [exact I|]. destruct (cstep _ _); [exact I|exact I|apply R]. Qed.
Lemma no_trap : forall c s ss n m, reachable c -> c_scopes c = s :: ss -> msys_ok (c_a c) n m -> malloc s n m (c_a c) <> Trap.
Proof. intros c s ss n m RE Es MS E. destruct (reach_one c (OMalloc n m) RE MS) as [Q|(c' & Q & _)]; cbn [cstep] in Q; rewrite Es, E in Q; discriminate. Qed.
Definition after (o : kop) (st : list (list (N * N))) : list (list (N * N)) :=
  match o with KEnter => [] :: st | KLeave => tl st | KCleanup fn ptr _ => match st with t :: st => ((fn, ptr) :: t) :: st | [] => [] end | _ => st end.
Definition now (o : kop) (st : list (list (N * N))) : list (list (N * N)) := match o, st with KLeave, t :: _ => [t] | _, _ => [] end.
Lemma due_step : forall o os st, due (o :: os) st = now o st ++ due os (after o st).
Proof. intros o os st. destruct o; destruct st; reflexivity. Qed.
Lemma kinv_objs : forall k st c', kinv k st -> reachable c' -> c_scopes c' = c_scopes (k_c k) -> keeps (length (k_heads k)) (k_recs k) (k_recs k) (c_objs (k_c k)) (c_objs c') -> kinv (mkk c' (k_heads k) (k_recs k)) st.
Proof. intros k st c' [I1 I2 I3] RE ES K. constructor; cbn [k_c k_heads k_recs]; [exact RE|rewrite ES; exact I2|]. eapply levels_keeps; [exact K| |exact I3]. lia. Qed.
Lemma levels_length : forall objs recs hs st, levels objs recs hs st -> length st = length hs.
Proof. induction hs as [|h hs IH]; intros [|l st] H; cbn [levels length] in *; try tauto. f_equal. apply IH. tauto. Qed.
Lemma kstep_ok : forall fuel o k st, kinv k st -> kop_ok o k -> Forall (fun l => (length l <= fuel)%nat) st ->
  kstep fuel o k = Exit \/ exists k', kstep fuel o k = Ret (k', now o st) /\ kinv k' (after o st).
Proof.
  intros fuel o k st I OK FU. pose proof I as I0. destruct I as [RE LN LV]. destruct o as [| |o|fn ptr m|src m|t m]; unfold kstep; cbn [kop_ok] in OK.
  - (* enter *) destruct (reach_one _ OEnter RE Logic.I) as [E|(c' & E & R')]; rewrite E; [auto|]. right. eexists. split; [destruct st; reflexivity|]. cbn [cstep] in E. destruct (enter (c_a (k_c k))) as [[s a']|]; [|discriminate]. injection E as <-.
    constructor; cbn [k_c k_heads k_recs c_scopes c_objs after length]; [exact R'|lia|]. cbn [levels chain]. split; [reflexivity|exact LV].
  - (* leave *) destruct (c_scopes (k_c k)) as [|s ss] eqn:Es.
    { destruct (k_heads k) as [|h hs] eqn:Eh; [|cbn [length] in LN; lia]. destruct st as [|l st]; [|cbn [levels] in LV; tauto]. right. exists k. split; [reflexivity|exact I0]. }
    destruct (k_heads k) as [|h hs] eqn:Eh; [cbn [length] in LN; lia|]. destruct st as [|l st]; [cbn [levels] in LV; tauto|]. cbn [levels] in LV. destruct LV as [LV1 LV2]. inversion FU as [|? ? FU1 FU2]; subst. right.
    unfold leave_scope. cbn [fst snd]. rewrite (run_chain _ _ _ _ _ _ (C43_sound _ RE) LV1 FU1). eexists. split; [reflexivity|]. destruct (reach_one _ OLeave RE Logic.I) as [E|(c' & E & R')]; cbn [cstep] in E; rewrite Es in E; [discriminate|]. injection E as <-.
    cbn [length] in LN. assert (LN' : length hs = length ss) by lia. constructor; cbn [k_c k_heads k_recs c_scopes c_objs after tl]; [exact R'|exact LN'|]. eapply levels_keeps; [apply keeps_filter| |exact LV2]. lia.
  - (* other operations *) destruct OK as [OK1 OK2]. destruct (reach_one _ o RE OK1) as [E|(c' & E & R')]; rewrite E; cbn [lift]; [auto|]. right. eexists. split; [destruct st; reflexivity|]. cbn [after].
    destruct o as [| |n m|x n m|i n m|i off d]; try contradiction; cbn [cstep] in E.
    + destruct (c_scopes (k_c k)) as [|s ss] eqn:Es; [injection E as <-; destruct k; exact I0|]. destruct (malloc _ _ _ _) as [| |[p a]]; try discriminate. injection E as <-. apply kinv_objs; cbn [c_scopes c_objs]; [exact I0|exact R'|congruence|apply keeps_app].
    + destruct (c_scopes (k_c k)) as [|s ss] eqn:Es; [injection E as <-; destruct k; exact I0|]. destruct (calloc _ _ _ _ _) as [| |[p a]]; try discriminate. injection E as <-. apply kinv_objs; cbn [c_scopes c_objs]; [exact I0|exact R'|congruence|apply keeps_app].
    + destruct (c_scopes (k_c k)) as [|s ss] eqn:Es; [injection E as <-; destruct k; exact I0|]. destruct (nth_error (c_objs (k_c k)) i) as [q|] eqn:EN; [|injection E as <-; destruct k; exact I0]. destruct (realloc _ _ _ _ _ _) as [| |[[p|] a]]; try discriminate. injection E as <-.
      apply kinv_objs; cbn [c_scopes c_objs]; [exact I0|exact R'|congruence|]. apply keeps_upd. exact OK2.
    + destruct (nth_error (c_objs (k_c k)) i) as [q|] eqn:EN; [|injection E as <-; destruct k; exact I0]. destruct (Nat.leb _ _); [|injection E as <-; destruct k; exact I0]. injection E as <-.
      apply kinv_objs; cbn [c_scopes c_objs]; [exact I0|exact R'|reflexivity|]. apply keeps_upd. exact OK2.
  - (* a function *) destruct OK as (W1 & W2 & MS). destruct (c_scopes (k_c k)) as [|s ss] eqn:Es.
    { destruct (k_heads k) as [|h hs] eqn:Eh; [|cbn [length] in LN; lia]. destruct st as [|l st]; [|cbn [levels] in LV; tauto]. right. exists k. split; [reflexivity|exact I0]. }
    destruct (k_heads k) as [|h hs] eqn:Eh; [cbn [length] in LN; lia|]. destruct st as [|l st]; [cbn [levels] in LV; tauto|].
    destruct (cleanup (s, h) fn ptr m (c_a (k_c k))) as [| |[[s' ac] a]] eqn:EC; [auto| |].
    { exfalso. apply (no_trap _ _ _ _ _ RE Es MS). unfold cleanup in EC. cbn [fst snd] in EC. destruct (malloc s RECORD m (c_a (k_c k))) as [| |[? ?]]; congruence. }
    assert (s' = s) as ->. { unfold cleanup in EC. cbn [fst snd] in EC. destruct (malloc s RECORD m (c_a (k_c k))) as [| |[? ?]]; try discriminate. congruence. }
    pose proof (cleanup_steps _ _ _ _ _ _ _ _ _ Es EC) as ST.
    assert (R' : reachable (with_obj (k_c k) a ac RECORD (record ptr fn h))).
    { eapply reach_more; [exact RE| |exact ST]. apply oks_write; [exact MS|]. apply oks_w, oks_w, oks_nil. }
    right. eexists. split; [reflexivity|].
    assert (IN : In (mkobj ac RECORD (record ptr fn h) (length (c_scopes (k_c k)))) (c_objs (with_obj (k_c k) a ac RECORD (record ptr fn h)))) by (unfold with_obj; cbn [c_objs]; apply in_or_app; right; left; reflexivity).
    pose proof (so_data _ (C43_sound _ R') _ IN) as D. cbn [o_addr o_size o_data with_obj c_a] in D. change (N.to_nat RECORD) with 24%nat in D.
    destruct (addr_word _ _ R' IN) as [A1 A2]. cbn [o_addr] in A1, A2.
    assert (WH : word h). { cbn [levels] in LV. destruct LV as [LV _]. destruct l as [|[f2 p2] l]; cbn [chain] in LV; [subst h; reflexivity|]. destruct LV as (nx & H1 & _). apply (addr_word _ _ RE H1). }
    rewrite <- Es, D. fold (with_obj (k_c k) a ac RECORD (record ptr fn h)). constructor; cbn [k_c k_heads k_recs]; [exact R'|unfold with_obj; cbn [c_scopes]; rewrite Es; exact LN|].
    cbn [after]. cbn [levels] in LV |- *. destruct LV as [LV1 LV2]. assert (K : keeps (S (length hs)) (k_recs k) (ac :: k_recs k) (c_objs (k_c k)) (c_objs (with_obj (k_c k) a ac RECORD (record ptr fn h)))).
    { split; [intros x H; right; exact H|]. intros o H _ _. unfold with_obj. cbn [c_objs]. apply in_or_app. left. exact H. }
    split; [|eapply levels_keeps; [exact K| |exact LV2]; lia]. cbn [chain]. exists h. cbn [length] in LN. rewrite Es in IN. cbn [length] in IN. injection LN as LN'. rewrite <- LN' in IN. split; [exact IN|]. split; [left; reflexivity|]. repeat (split; [assumption|]). eapply chain_keeps; [exact K| |exact LV1]. lia.
  - (* strings *) destruct (c_scopes (k_c k)) as [|s ss] eqn:Es; [right; exists k; split; [destruct st; reflexivity|exact I0]|]. destruct (strndup s src m (c_a (k_c k))) as [| |[p a]] eqn:EC; [auto| |].
    { exfalso. apply (no_trap _ _ _ _ _ RE Es OK). unfold strndup in EC. destruct (SIZE_LIMIT <=? _); [discriminate|]. destruct (malloc s _ m (c_a (k_c k))) as [| |[? ?]]; congruence. }
    right. eexists. split; [destruct st; reflexivity|]. apply kinv_objs; [exact I0| |reflexivity|apply keeps_app]. eapply C71_strndup; eauto.
  - destruct (c_scopes (k_c k)) as [|s ss] eqn:Es; [right; exists k; split; [destruct st; reflexivity|exact I0]|]. destruct (sprintf s (Some t) m (c_a (k_c k))) as [| |[p a]] eqn:EC; [auto| |].
    { exfalso. apply (no_trap _ _ _ _ _ RE Es OK). unfold sprintf in EC. destruct (malloc s _ m (c_a (k_c k))) as [| |[? ?]]; congruence. }
    right. eexists. split; [destruct st; reflexivity|]. apply kinv_objs; [exact I0| |reflexivity|apply keeps_app]. eapply C71_sprintf; eauto.
Qed.
Lemma krun_ok : forall fuel os k st, kinv k st -> kops_ok fuel os k -> Forall (fun l => (length l + length os <= fuel)%nat) st -> (length os <= fuel)%nat ->
  krun fuel os k = Exit \/ exists k', krun fuel os k = Ret (k', due os st) /\ reachable (k_c k').
Proof.
  intros fuel. induction os as [|o os IH]; intros k st I OK FU LE; cbn [krun kops_ok] in *; [right; exists k; split; [reflexivity|apply I]|]. destruct OK as [OK1 OK2].
  destruct (kstep_ok fuel o k st I OK1) as [E|(k' & E & I')]; [eapply Forall_impl; [|exact FU]; cbn [length]; intros; lia| |]; rewrite E in *; [auto|].
  cbn [length] in *. destruct (IH k' (after o st) I' OK2) as [E2|(k2 & E2 & R2)]; [| lia | |].
  - destruct o; cbn [after]; try (eapply Forall_impl; [|exact FU]; intros; cbn beta in *; lia).
    + constructor; [cbn [length]; lia|]. eapply Forall_impl; [|exact FU]. intros. cbn beta in *. lia.
    + destruct st as [|t st]; [constructor|]. inversion FU; subst. cbn [tl]. eapply Forall_impl; [|eassumption]. intros. cbn beta in *. lia.
    + destruct st as [|t st]; [constructor|]. inversion FU; subst. constructor; [cbn [length]; lia|]. eapply Forall_impl; [|eassumption]. intros. cbn beta in *. lia.
  - rewrite E2. auto.
  - right. exists k2. rewrite E2, due_step. auto.
Qed.
(** Every function registered with arena_cleanup is called exactly once, with its argument, when
    the scope it was registered in is left, the one registered last first; whatever else is
    allocated, reallocated, written or registered meanwhile. *)
Theorem C71_cleanup : forall page poison mem m a os fuel, pok poison -> 2 <= page -> sys_ok [] m (16 * page) -> alloc page poison mem m = Ret a ->
  (length os <= fuel)%nat -> kops_ok fuel os (mkk (start a) [] []) ->
  krun fuel os (mkk (start a) [] []) = Exit \/ exists k, krun fuel os (mkk (start a) [] []) = Ret (k, due os []) /\ reachable (k_c k) /\ sound (k_c k).
Proof.
  intros page poison mem m a os fuel H1 H2 H3 H4 LE OK. destruct (krun_ok fuel os (mkk (start a) [] []) [] ) as [E|(k & E & R)]; auto.
  - constructor; cbn [k_c k_heads k_recs levels]; [|reflexivity|exact I]. exists page, poison, mem, m, a, []. refine (conj H1 (conj H2 (conj H3 (conj H4 (conj I eq_refl))))).
  - right. exists k. split; [exact E|]. split; [exact R|apply C43_sound; exact R].
Qed.

(** ** Checking hypotheses by computation *)
Definition foreignb (i : nat) (k : kclient) : bool := match nth_error (c_objs (k_c k)) i with Some o => negb (existsb (N.eqb (o_addr o)) (k_recs k)) | None => true end.
Definition kop_okb (o : kop) (k : kclient) : bool :=
  match o with
  | KEnter | KLeave => true
  | KOp o => aop_okb o (k_c k) && match o with OEnter | OLeave => false | OWrite i _ _ | ORealloc i _ _ => foreignb i k | _ => true end
  | KCleanup fn ptr m => (fn <? 256 ^ 8) && (ptr <? 256 ^ 8) && msys_okb (c_a (k_c k)) RECORD m
  | KStrndup t m | KSprintf t m => msys_okb (c_a (k_c k)) (N.of_nat (length t) + 1) m
  end.
Fixpoint kops_okb (fuel : nat) (os : list kop) (k : kclient) : bool :=
  match os with [] => true | o :: r => kop_okb o k && match kstep fuel o k with Ret (k, _) => kops_okb fuel r k | _ => true end end.
Lemma foreignb_ok : forall i k, foreignb i k = true -> foreign i k.
Proof. intros i k H o E IN. unfold foreignb in H. rewrite E in H. apply negb_true_iff in H. assert (T : existsb (N.eqb (o_addr o)) (k_recs k) = true) by (apply existsb_exists; exists (o_addr o); split; [exact IN|apply N.eqb_refl]). congruence. Qed.
Lemma kop_okb_ok : forall o k, kop_okb o k = true -> kop_ok o k.
Proof.
  intros o k H. destruct o as [| |o|fn ptr m|src m|t m]; cbn [kop_okb kop_ok] in *; auto using msys_okb_ok.
  - apply andb_true_iff in H. destruct H as [H1 H2]. split.
    + destruct o; cbn [aop_okb aop_ok] in *; try exact I; apply msys_okb_ok; exact H1.
    + destruct o; try discriminate; try exact I; apply foreignb_ok; exact H2.
  - rewrite !andb_true_iff in H. destruct H as [[H1 H2] H3]. apply N.ltb_lt in H1. apply N.ltb_lt in H2. split; [exact H1|]. split; [exact H2|]. apply msys_okb_ok. exact H3.
Qed.
Lemma kops_okb_ok : forall fuel os k, kops_okb fuel os k = true -> kops_ok fuel os k.
Proof.
  intros fuel. induction os as [|o r IH]; intros k H; cbn [kops_okb kops_ok] in *; [exact I|]. apply andb_true_iff in H. destruct H as [H1 H2]. split; [apply kop_okb_ok; exact H1|]. destruct (kstep fuel o k) as [| |[? ?]]; auto.
Qed.
(** Two scopes, three functions, one of them registered twice, memory from a second frame, a
    string and an allocation that moves. *)
Definition a1 : arena := match alloc 8 0 mem0 (Some (4096, mem0)) with Ret a => a | _ => mkarena [] 0 0 0 mem0 end.
Definition ks0 : list kop := [KEnter; KCleanup 101 7 (Some (8192, mem0)); KStrndup (s2b "abc") (Some (9216, mem0)); KEnter; KCleanup 102 8 (Some (10240, mem0)); KCleanup 103 9 (Some (16384, mem0)); KOp (OWrite 1 0 (s2b "xyz")); KOp (ORealloc 1 64 (Some (24576, mem0)));
  KSprintf (s2b "n=1") (Some (32768, mem0)); KLeave; KCleanup 102 8 (Some (40960, mem0)); KLeave; KLeave].
Example C71_ex : kops_ok 20 ks0 (mkk (start a1) [] []) /\ (exists k, krun 20 ks0 (mkk (start a1) [] []) = Ret (k, [[(103, 9); (102, 8)]; [(102, 8); (101, 7)]])).
Proof.
  split; [apply kops_okb_ok; vm_compute; reflexivity|].
  destruct (C71_cleanup 8 0 mem0 (Some (4096, mem0)) a1 ks0 20) as [E|(k & E & _)]; [left; reflexivity|lia|apply sys_okb_ok; vm_compute; reflexivity|reflexivity|cbn; lia|apply kops_okb_ok; vm_compute; reflexivity| |].
  - assert (T : match krun 20 ks0 (mkk (start a1) [] []) with Ret _ => true | _ => false end = true) by (vm_compute; reflexivity). rewrite E in T. discriminate.
  - exists k. exact E.
Qed.
Definition dup_ok (src : bytes) (m : sys) (c : client) : bool :=
  match c_scopes c with [] => false | s :: _ => msys_okb (c_a c) (N.of_nat (length src) + 1) m && match strndup s src m (c_a c) with Ret (p, a) => (if list_eq_dec ascii_dec (readn (a_mem a) p (S (length src))) (src ++ [NUL]) then true else false) | _ => false end end.
Lemma dup_ok_ex : forall src m c, reachable c -> dup_ok src m c = true -> exists s ss p a, c_scopes c = s :: ss /\ msys_ok (c_a c) (N.of_nat (length src) + 1) m /\ strndup s src m (c_a c) = Ret (p, a) /\ copied c src p a.
Proof.
  intros src m c RE H. unfold dup_ok in H. destruct (c_scopes c) as [|s ss] eqn:Es; [discriminate|]. apply andb_true_iff in H. destruct H as [H1 H2]. destruct (strndup s src m (c_a c)) as [| |[p a]] eqn:E; try discriminate.
  apply msys_okb_ok in H1. exists s, ss, p, a. split; [reflexivity|]. split; [exact H1|]. split; [exact E|]. exact (C71_strndup c s ss src m p a RE Es H1 E).
Qed.
Example C71_ex_str : reachable c0 /\ dup_ok (s2b "hello") (Some (20480, mem0)) c0 = true.
Proof. split; [apply C43_reachable|vm_compute; reflexivity]. Qed.

Print Assumptions C71_strndup.
Print Assumptions C71_sprintf.
Print Assumptions C71_cleanup.
