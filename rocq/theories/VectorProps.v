(** Property C41: growable vectors. *)
From Coq Require Import NArith ZifyBool ZifyNat ZifyN Permutation.
From Verif Require Import Base BufferModel BufferProofs VectorModel.
Open Scope N_scope.

(** ** Specification *)
(** [v] holds the sequence [l] of elements. *)
Record holds (v : vec) (l : list bytes) : Prop := {
  ho_stride : 0 < v_stride v;
  ho_elem : Forall (fun e => lenN e = v_stride v) l;
  ho_len : v_len v = N.of_nat (length l);
  ho_mem : firstn (N.to_nat (v_len v * v_stride v)) (v_mem v) = concat l;
  ho_room : lenN (v_mem v) = v_siz v * v_stride v;
  ho_le : v_len v <= v_siz v;
  ho_max : HDR + v_siz v * v_stride v <= ULONG_MAX;
  ho_siz : v_siz v = 0 \/ exists k, 4 <= k <= 63 /\ v_siz v = 2 ^ k }.
(** Effects on sequences of elements of [stride] bytes. *)
Inductive vstep (stride : N) : vop -> list bytes -> vres -> list bytes -> Prop :=
| vs_reserve : forall n l, vstep stride (VReserve n) l (VRet false) l
| vs_alloc : forall zero l e, lenN e = stride -> (zero = true -> e = repeat NUL (N.to_nat stride)) ->
    vstep stride (VAlloc zero) l (VIdx (Some (N.of_nat (length l)))) (l ++ [e])
| vs_set : forall a x b d, vstep stride (VSet (N.of_nat (length a)) d) (a ++ x :: b) (VRet false) (a ++ d :: b)
| vs_pop0 : vstep stride VPop [] (VIdx None) []
| vs_pop : forall l e, vstep stride VPop (l ++ [e]) (VIdx (Some (N.of_nat (length l)))) l
| vs_clear : forall l, vstep stride VClear l (VRet false) []
| vs_first0 : vstep stride VFirst [] (VIdx None) []
| vs_first : forall e l, vstep stride VFirst (e :: l) (VIdx (Some 0)) (e :: l)
| vs_last0 : vstep stride VLast [] (VIdx None) []
| vs_last : forall l e, vstep stride VLast (l ++ [e]) (VIdx (Some (N.of_nat (length l)))) (l ++ [e])
| vs_sort : forall l p, Permutation l p -> vstep stride (VSort p) l (VRet false) p.
(** Elements are stored where there are some, with their size; qsort permutes; a number is a size_t. *)
Definition vop_ok (stride : N) (o : vop) (l : list bytes) : Prop :=
  match o with
  | VSet i d => i < N.of_nat (length l) /\ lenN d = stride
  | VSort p => Permutation l p
  | VReserve n => n <= ULONG_MAX
  | _ => True
  end.
Definition vneed (o : vop) : N := match o with VReserve n => n | VAlloc _ => 1 | _ => 0 end.
Definition vfailed (o : vop) (r : vres) : Prop := match o with VReserve _ => r = VRet true | VAlloc _ => r = VIdx None | _ => False end.

(** ** Lemmas *)
Lemma grow_tight : forall fuel n newlen m, n <= 2 ^ 63 -> grow fuel n newlen = Some (Some m) -> m = n \/ m < 2 * newlen.
Proof.
  induction fuel as [|f IH]; intros n newlen m Hn E; [discriminate|]. cbn [grow] in E. destruct (N.ltb_spec n newlen); [|left; congruence].
  rewrite half_max in E. destruct (N.ltb_spec (2 ^ 63 - 1) n); [discriminate|]. rewrite wrap_small in E by (rewrite max_eq; pose proof p63; lia).
  pose proof p63. assert (2 ^ 63 = 2 * 2 ^ 62) by reflexivity. destruct (N.le_gt_cases n (2 ^ 62)).
  - apply IH in E; lia.
  - destruct f; [discriminate|]. cbn [grow] in E. rewrite half_max in E. destruct (N.ltb_spec (n * 2) newlen); [destruct (N.ltb_spec (2 ^ 63 - 1) (n * 2)); [discriminate|lia]|]. right. injection E as <-. lia.
Qed.
Lemma concat_len : forall (l : list bytes) n, Forall (fun e => lenN e = n) l -> lenN (concat l) = N.of_nat (length l) * n.
Proof. induction l as [|e l IH]; intros n H; auto. inversion H; subst. cbn [concat length]. rewrite lenN_app, IH with (n := lenN e) by auto. lia. Qed.

Lemma vreserve_spec : forall ok junk n v l, holds v l -> n <= ULONG_MAX ->
  (exists v1, vreserve ok junk n v = Some (false, v1) /\ holds v1 l /\ v_stride v1 = v_stride v /\ v_len v1 = v_len v /\ v_len v + n <= v_siz v1)
  \/ (vreserve ok junk n v = Some (true, v) /\ (ok = false \/ 2 ^ 63 < v_len v + n \/ ULONG_MAX < HDR + v_stride v * N.max 16 (2 * (v_len v + n)))).
Proof.
  intros ok junk n v l H Hn. assert (H' := H). destruct H as [H1 H2 H3 H4 H5 H6 H7 H8]. unfold vreserve.
  assert (Hs : v_siz v <= 2 ^ 63) by (destruct H8 as [->|(k & K & ->)]; [lia|apply pow_le63; lia]).
  pose proof p63. destruct (N.ltb_spec (ULONG_MAX - n) (v_len v)).
  { right. split; auto. right. left. rewrite max_eq in *. lia. }
  rewrite wrap_small by (rewrite max_eq in *; lia).
  destruct (N.leb_spec (v_len v + n) (v_siz v)). { left. exists v. auto. }
  set (s0 := if v_siz v =? 0 then 16 else v_siz v).
  assert (exists k, 4 <= k <= 63 /\ s0 = 2 ^ k /\ (s0 = 16 \/ s0 = v_siz v)) as (k & K & Ek & Es0).
  { unfold s0. destruct (N.eqb_spec (v_siz v) 0); [exists 4; split; [lia|auto]|]. destruct H8 as [|(k & K & Ek)]; [lia|]. exists k. auto. }
  rewrite Ek. destruct (grow_spec 65 k (v_len v + n) K ltac:(lia)) as [(A & j & J & Jk & C & E)|(A & E)]; rewrite E; [|right; auto].
  assert (T : 2 ^ j <= N.max 16 (2 * (v_len v + n))). { destruct (grow_tight _ _ _ _ (pow_le63 k ltac:(lia)) E) as [T|T]; [|lia]. rewrite <- Ek in T. destruct Es0 as [Q|Q]; rewrite Q in T; lia. }
  destruct (N.eqb_spec (v_stride v) 0); [lia|].
  destruct (N.ltb_spec (ULONG_MAX / v_stride v) (2 ^ j)) as [Q|Q].
  { right. split; auto. right. right. assert (ULONG_MAX < v_stride v * 2 ^ j) by (pose proof (N.mul_succ_div_gt ULONG_MAX (v_stride v) ltac:(lia)); nia). nia. }
  assert (Q' : 2 ^ j * v_stride v <= ULONG_MAX) by (pose proof (N.mul_div_le ULONG_MAX (v_stride v) ltac:(lia)); nia).
  rewrite (wrap_small (2 ^ j * v_stride v)) by auto.
  destruct (N.ltb_spec (ULONG_MAX - HDR) (2 ^ j * v_stride v)).
  { right. split; auto. right. right. assert (ULONG_MAX < HDR + 2 ^ j * v_stride v) by (unfold HDR in *; rewrite max_eq in *; lia). nia. }
  destruct ok; [|right; auto]. left. rewrite (wrap_small (2 ^ j * v_stride v + HDR)) by (unfold HDR in *; rewrite max_eq in *; lia).
  assert (M : v_len v * v_stride v <= v_siz v * v_stride v) by nia.
  rewrite wrap_small by lia. eexists. split; [reflexivity|]. cbn [v_stride v_len v_siz]. split; [|repeat split; auto; lia].
  unfold vrealloc. replace (HDR + v_len v * v_stride v - HDR) with (v_len v * v_stride v) by lia. replace (2 ^ j * v_stride v + HDR - HDR) with (2 ^ j * v_stride v) by lia.
  rewrite H4. pose proof (concat_len l _ H2) as Lc. rewrite <- H3 in Lc. assert (M2 : v_len v * v_stride v <= 2 ^ j * v_stride v) by nia.
  constructor; cbn [v_stride v_len v_siz v_mem]; auto; try lia.
  - rewrite firstn_firstn, firstn_app. unfold lenN in Lc. rewrite Nat.min_l by lia. rewrite firstn_all2 by lia. replace (N.to_nat (v_len v * v_stride v) - length (concat l))%nat with 0%nat by lia. cbn. apply app_nil_r.
  - unfold lenN in *. rewrite firstn_length, app_length, map_length, seq_length. lia.
  - right. exists j. auto.
Qed.
Lemma write_mid : forall a x b rest, write (lenN a) x (a ++ b ++ rest) = (if lenN x <=? lenN (b ++ rest) then Some (a ++ x ++ skipn (length x) (b ++ rest)) else None).
Proof.
  intros a x b rest. unfold write. rewrite (lenN_app a). destruct (N.leb_spec (lenN a + lenN x) (lenN a + lenN (b ++ rest))), (N.leb_spec (lenN x) (lenN (b ++ rest))); try lia; auto.
  f_equal. unfold lenN. rewrite firstn_app, Nat2N.id, firstn_all, Nat.sub_diag. cbn [firstn]. rewrite app_nil_r. f_equal. f_equal.
  rewrite skipn_app. rewrite skipn_all2 by lia. cbn [app]. f_equal. lia.
Qed.
Lemma split_mem : forall v l, holds v l -> exists rest, v_mem v = concat l ++ rest.
Proof. intros v l H. exists (skipn (N.to_nat (v_len v * v_stride v)) (v_mem v)). rewrite <- (ho_mem v l H). symmetry. apply firstn_skipn. Qed.
Lemma holds_of : forall v l rest, 0 < v_stride v -> Forall (fun e => lenN e = v_stride v) l -> v_len v = N.of_nat (length l) -> v_mem v = concat l ++ rest ->
  lenN (v_mem v) = v_siz v * v_stride v -> v_len v <= v_siz v -> HDR + v_siz v * v_stride v <= ULONG_MAX -> (v_siz v = 0 \/ exists k, 4 <= k <= 63 /\ v_siz v = 2 ^ k) -> holds v l.
Proof.
  intros v l rest A B C D E F G K. constructor; auto. rewrite D. pose proof (concat_len l _ B) as L. rewrite <- C in L. unfold lenN in L.
  rewrite firstn_app. rewrite firstn_all2 by lia. replace (N.to_nat (v_len v * v_stride v) - length (concat l))%nat with 0%nat by lia. cbn. apply app_nil_r.
Qed.

Lemma vexec_spec : forall ok junk o v l, holds v l -> vop_ok (v_stride v) o l ->
  exists r v' l', vexec ok junk o v = Some (r, v') /\ holds v' l' /\ v_stride v' = v_stride v /\
    (vstep (v_stride v) o l r l' \/
     vfailed o r /\ l' = l /\ v' = v /\ (ok = false \/ 2 ^ 63 < v_len v + vneed o \/ ULONG_MAX < HDR + v_stride v * N.max 16 (2 * (v_len v + vneed o)))).
Proof.
  intros ok junk o v l H Ho. assert (H' := H). destruct H as [H1 H2 H3 H4 H5 H6 H7 H8]. destruct (split_mem v l H') as (rest & Em).
  pose proof (concat_len l _ H2) as Lc. rewrite <- H3 in Lc.
  destruct o as [n|zero|i d| | | | |p]; cbn [vexec vop_ok vneed vfailed] in *.
  - destruct (vreserve_spec ok junk n v l H' Ho) as [(v1 & -> & A & B & _)|(-> & A)]; eexists; eexists; exists l; (split; [reflexivity|]); (split; [auto|]); split; auto; left; constructor.
  - unfold valloc. destruct (vreserve_spec ok junk 1 v l H' ltac:(rewrite max_eq; lia)) as [(v1 & -> & A & B & C & D)|(-> & A)].
    2: { eexists. eexists. exists l. split; [reflexivity|]. split; auto. split; auto. }
    destruct (split_mem v1 l A) as (rest1 & Em1). pose proof (ho_room _ _ A) as R1. rewrite Em1, lenN_app in R1. rewrite B in R1.
    assert (Lr : v_stride v <= lenN rest1) by nia. pose proof (ho_max _ _ A) as M1. pose proof (ho_siz _ _ A) as Z1.
    assert (S1 : v_siz v1 <= 2 ^ 63) by (destruct Z1 as [->|(k & K & ->)]; [lia|apply pow_le63; lia]).
    assert (Hl1 : wrap (v_len v1 + 1) = N.of_nat (length l) + 1) by (rewrite C, wrap_small by (rewrite max_eq; pose proof p63; lia); lia).
    destruct zero.
    + assert (W : wrap (v_stride v1 * v_len v1) = lenN (concat l)) by (rewrite Lc, B, C; rewrite wrap_small by (unfold HDR in *; nia); lia).
      rewrite W, Em1. pose proof (write_mid (concat l) (repeat NUL (N.to_nat (v_stride v1))) [] rest1) as Wm. cbn [app] in Wm. rewrite Wm.
      assert (Lz : lenN (repeat NUL (N.to_nat (v_stride v1))) = v_stride v) by (unfold lenN; rewrite repeat_length, B; lia). rewrite Lz. destruct (N.leb_spec (v_stride v) (lenN rest1)); [|lia].
      eexists. eexists. exists (l ++ [repeat NUL (N.to_nat (v_stride v1))]). split; [reflexivity|]. split; [|split; [cbn; auto|]].
      * apply holds_of with (skipn (length (repeat NUL (N.to_nat (v_stride v1)))) rest1); cbn [v_stride v_len v_siz v_mem]; rewrite ?B; auto; try lia.
        -- apply Forall_app. split; auto. constructor; auto. rewrite B in Lz. auto.
        -- rewrite Hl1, app_length. cbn [length]. lia.
        -- rewrite concat_app. cbn [concat]. rewrite app_nil_r, <- app_assoc. reflexivity.
        -- rewrite !lenN_app. rewrite B in Lz. rewrite Lz. unfold lenN in *. rewrite skipn_length, repeat_length. lia.
      * left. rewrite C, H3. constructor; [auto|]. intros _. rewrite B. auto.
    + eexists. eexists. exists (l ++ [firstn (N.to_nat (v_stride v)) rest1]). split; [reflexivity|].
      assert (Lz : lenN (firstn (N.to_nat (v_stride v)) rest1) = v_stride v) by (unfold lenN in *; rewrite firstn_length; lia).
      split; [|split; [cbn; auto|]].
      * apply holds_of with (skipn (N.to_nat (v_stride v)) rest1); cbn [v_stride v_len v_siz v_mem]; rewrite ?B; auto; try lia.
        -- apply Forall_app. split; auto.
        -- rewrite Hl1, app_length. cbn [length]. lia.
        -- rewrite concat_app. cbn [concat]. rewrite app_nil_r, <- app_assoc, firstn_skipn. auto.
        -- rewrite Em1, lenN_app. auto.
      * left. rewrite C, H3. constructor; [auto|discriminate].
  - destruct Ho as (Hi & Hd). unfold vset. assert (exists a x b, l = a ++ x :: b /\ i = N.of_nat (length a)) as (a & x & b & El & Ei).
    { destruct (nth_error l (N.to_nat i)) as [x|] eqn:En; [|apply nth_error_None in En; lia]. apply nth_error_split in En. destruct En as (a & b & -> & La). exists a, x, b. split; auto. lia. }
    subst l. rewrite Em. rewrite concat_app. cbn [concat]. apply Forall_app in H2. destruct H2 as (Fa & Fxb). inversion Fxb as [|? ? Fx Fb]; subst.
    pose proof (concat_len a _ Fa) as La. rewrite <- La. rewrite <- !app_assoc. rewrite write_mid. rewrite lenN_app. destruct (N.leb_spec (lenN d) (lenN x + lenN (concat b ++ rest))); [|lia].
    assert (Ed : skipn (length d) (x ++ concat b ++ rest) = concat b ++ rest). { replace (length d) with (length x) by (unfold lenN in *; lia). rewrite skipn_app, skipn_all, Nat.sub_diag. reflexivity. } rewrite Ed.
    eexists. eexists. exists (a ++ d :: b). split; [reflexivity|]. split; [|split; [cbn; auto|left; constructor]].
    apply holds_of with rest; cbn [v_stride v_len v_siz v_mem]; auto.
    + apply Forall_app. split; auto.
    + rewrite H3, !app_length. cbn [length]. auto.
    + rewrite concat_app. cbn [concat]. rewrite <- !app_assoc. auto.
    + rewrite <- H5, Em. rewrite concat_app. cbn [concat]. rewrite !lenN_app. lia.
  - unfold vpop. destruct (N.eqb_spec (v_len v) 0).
    + eexists. eexists. exists l. split; [reflexivity|]. split; auto. split; auto. left. assert (l = []) by (destruct l; auto; cbn in H3; lia). subst. constructor.
    + destruct (rev l) as [|x r] eqn:Er; [apply (f_equal (@rev _)) in Er; rewrite rev_involutive in Er; cbn in Er; subst; cbn in H3; lia|].
      apply (f_equal (@rev _)) in Er. rewrite rev_involutive in Er. cbn in Er. subst l. rewrite app_length in H3. cbn [length] in H3.
      eexists. eexists. exists (rev r). split; [reflexivity|]. apply Forall_app in H2. destruct H2 as (F1 & F2). split; [|split; [cbn; auto|]].
      * apply holds_of with (x ++ rest); cbn [v_stride v_len v_siz v_mem]; auto; try lia. rewrite Em, concat_app. cbn [concat]. rewrite app_nil_r, <- app_assoc. auto.
      * left. replace (v_len v - 1) with (N.of_nat (length (rev r))) by lia. constructor.
  - eexists. eexists. exists []. split; [reflexivity|]. split; [|split; [cbn; auto|left; constructor]].
    apply holds_of with (v_mem v); cbn; auto; lia.
  - unfold vfirst. eexists. eexists. exists l. split; [reflexivity|]. split; auto. split; auto. left. destruct l as [|e l].
    + rewrite H3. cbn. constructor.
    + destruct (N.eqb_spec (v_len v) 0); [cbn in H3; lia|]. constructor.
  - unfold vlast. eexists. eexists. exists l. split; [reflexivity|]. split; auto. split; auto. left.
    destruct (rev l) as [|x r] eqn:Er; apply (f_equal (@rev _)) in Er; rewrite rev_involutive in Er; cbn in Er; subst l.
    + rewrite H3. cbn. constructor.
    + rewrite app_length in H3. cbn [length] in H3. destruct (N.eqb_spec (v_len v) 0); [lia|]. replace (v_len v - 1) with (N.of_nat (length (rev r))) by lia. constructor.
  - unfold vsort. destruct (N.eqb_spec (v_len v) 0).
    + eexists. eexists. exists l. split; [reflexivity|]. split; auto. split; auto. left. assert (l = []) by (destruct l; auto; cbn in H3; lia). subst. apply Permutation_nil in Ho. subst. constructor. auto.
    + assert (Fp : Forall (fun e => lenN e = v_stride v) p) by (apply (Permutation_Forall Ho); auto). pose proof (concat_len p _ Fp) as Lp. rewrite <- (Permutation_length Ho), <- H3 in Lp.
      rewrite Em. pose proof (write_mid [] (concat p) (concat l) rest) as Wm. cbn [app] in Wm. change (lenN []) with 0 in Wm. rewrite Wm. rewrite lenN_app. destruct (N.leb_spec (lenN (concat p)) (lenN (concat l) + lenN rest)); [|lia].
      replace (length (concat p)) with (length (concat l)) by (unfold lenN in *; lia). rewrite skipn_app, skipn_all, Nat.sub_diag. cbn [skipn app].
      eexists. eexists. exists p. split; [reflexivity|]. split; [|split; [cbn; auto|left; constructor; auto]].
      apply holds_of with rest; cbn [v_stride v_len v_siz v_mem]; auto.
      * rewrite H3, (Permutation_length Ho). auto.
      * rewrite <- H5, Em, !lenN_app. lia.
Qed.

(** ** C41 *)
(** Runs; between them the caller may look at the elements. *)
Inductive vruns (stride : N) : list (bool * (nat -> byte) * vop) -> list bytes -> list vres -> list bytes -> Prop :=
| vr_nil : forall l, vruns stride [] l [] l
| vr_step : forall ok junk o ops l r l' rs l'', vstep stride o l r l' -> vruns stride ops l' rs l'' -> vruns stride ((ok, junk, o) :: ops) l (r :: rs) l''
| vr_fail : forall ok junk o ops l r rs l'', vfailed o r ->
    ok = false \/ 2 ^ 63 < N.of_nat (length l) + vneed o \/ ULONG_MAX < HDR + stride * N.max 16 (2 * (N.of_nat (length l) + vneed o)) ->
    vruns stride ops l rs l'' -> vruns stride ((ok, junk, o) :: ops) l (r :: rs) l''.
(** Executions in which the caller keeps to what there is. *)
Inductive vtrace : list (bool * (nat -> byte) * vop) -> vec -> list vres -> vec -> Prop :=
| vt_nil : forall v, vtrace [] v [] v
| vt_step : forall ok junk o ops v r v' rs v'', vexec ok junk o v = Some (r, v') -> vtrace ops v' rs v'' -> vtrace ((ok, junk, o) :: ops) v (r :: rs) v''.

Theorem C41_step : forall ok junk o v l, holds v l -> vop_ok (v_stride v) o l ->
  exists r v' l', vexec ok junk o v = Some (r, v') /\ holds v' l' /\ v_stride v' = v_stride v /\
    (vstep (v_stride v) o l r l' \/
     vfailed o r /\ l' = l /\ v' = v /\ (ok = false \/ 2 ^ 63 < v_len v + vneed o \/ ULONG_MAX < HDR + v_stride v * N.max 16 (2 * (v_len v + vneed o)))).
Proof. exact vexec_spec. Qed.
Theorem C41_init : forall stride, 0 < stride -> exists v, vinit true stride = Some v /\ holds v [] /\ v_stride v = stride.
Proof.
  intros stride H. eexists. split; [reflexivity|]. split; auto. apply holds_of with []; cbn [v_stride v_len v_siz v_mem]; auto; try lia; rewrite N.mul_0_l; first [reflexivity|discriminate].
Qed.
(** The elements are what one reads, in bounds. *)
Theorem C41_read : forall v l i, holds v l -> (i < length l)%nat ->
  vget (N.of_nat i) v = nth i l [] /\ N.of_nat i * v_stride v + v_stride v <= lenN (v_mem v) /\ HDR + N.of_nat i * v_stride v + v_stride v <= ULONG_MAX.
Proof.
  intros v l i H Hi. destruct (split_mem v l H) as (rest & Em). destruct H as [H1 H2 H3 H4 H5 H6 H7 H8]. split; [|split; nia].
  destruct (nth_error l i) as [x|] eqn:En; [|apply nth_error_None in En; lia]. rewrite (nth_error_nth _ _ _ En). apply nth_error_split in En. destruct En as (a & b & El & La). subst l.
  apply Forall_app in H2. destruct H2 as (Fa & Fxb). inversion Fxb as [|? ? Fx Fb]; subst. pose proof (concat_len a _ Fa) as Lc. unfold vget. rewrite <- Lc. unfold lenN in *. rewrite Nat2N.id.
  rewrite Em, concat_app, <- app_assoc. rewrite skipn_app, skipn_all, Nat.sub_diag. cbn [skipn app concat]. rewrite <- app_assoc.
  rewrite firstn_app. rewrite firstn_all2 by lia. replace (N.to_nat (v_stride v) - length x)%nat with 0%nat by lia. cbn. apply app_nil_r.
Qed.
Theorem C41_run : forall ops v l rs v', holds v l -> vtrace ops v rs v' ->
  (forall ops1 ok junk o ops2 rs1 v1 l1, ops = ops1 ++ (ok, junk, o) :: ops2 -> vtrace ops1 v rs1 v1 -> holds v1 l1 -> vop_ok (v_stride v) o l1) ->
  exists l', holds v' l' /\ vruns (v_stride v) ops l rs l'.
Proof.
  intros ops v l rs v' H T. revert l H. induction T as [v|ok junk o ops v r v' rs v'' E T IH]; intros l H Ho.
  - exists l. split; auto. constructor.
  - assert (Hop : vop_ok (v_stride v) o l) by (apply (Ho [] ok junk o ops [] v l); auto; constructor).
    destruct (vexec_spec ok junk o v l H Hop) as (r0 & v0 & l0 & E0 & H0 & S0 & R0). rewrite E in E0. injection E0 as <- <-.
    destruct (IH l0 H0) as (l' & Hl & R). { intros ops1 ok1 jk1 o1 ops2 rs1 v1 l1 Eo T1 H1. rewrite S0. apply (Ho ((ok, junk, o) :: ops1) ok1 jk1 o1 ops2 (r :: rs1) v1); auto; [rewrite Eo; auto|econstructor; eauto]. }
    exists l'. split; auto. rewrite S0 in R. destruct R0 as [R0|(F & -> & -> & W)]; [eapply vr_step; eauto|apply vr_fail; auto]. rewrite <- (ho_len _ _ H). auto.
Qed.
Definition j1 : nat -> byte := fun _ => "?"%char.
Example C41_ex :
  match vinit true 3 with
  | Some v =>
    match vexec true j1 VPop v with Some (VIdx None, v) =>
    match vexec true j1 (VAlloc false) v with Some (VIdx (Some 0), v) =>
    match vexec true j1 (VSet 0 (s2b "abc")) v with Some (_, v) =>
    match vexec true j1 (VAlloc true) v with Some (VIdx (Some 1), v) =>
    match vexec true j1 (VReserve 40) v with Some (VRet false, v) =>
    match vexec true j1 (VReserve (2 ^ 62)) v with Some (VRet true, v) =>
      vget 0 v = s2b "abc" /\ vget 1 v = [NUL; NUL; NUL] /\ v_siz v = 64 /\ v_len v = 2 /\ vlast v = Some 1
    | _ => False end | _ => False end | _ => False end | _ => False end | _ => False end | _ => False end
  | None => False end.
Proof. vm_compute. auto 10. Qed.
Print Assumptions C41_step.
Print Assumptions C41_init.
Print Assumptions C41_read.
Print Assumptions C41_run.
