(** Proofs about growable buffers. *)
From Coq Require Import NArith ZifyBool ZifyNat ZifyN.
From Verif Require Import Base BufferModel.
Open Scope N_scope.

(** ** Specification *)
Definition content (b : buf) : bytes := firstn (N.to_nat (b_len b)) (b_mem b).
(** A consistent buffer: the storage has the recorded size, which is a power of two. *)
Record inv (b : buf) : Prop := {
  in_mem : lenN (b_mem b) = b_siz b;
  in_len : b_len b <= b_siz b;
  in_siz : b_siz b = 0 \/ exists k, 4 <= k <= 63 /\ b_siz b = 2 ^ k }.
(** The operations on byte strings. *)
Definition ends_nul (c : bytes) : bool := match rev c with x :: _ => x =c NUL | [] => false end.
Definition sop (o : bop) (c : bytes) : bres * bytes :=
  match o with
  | BPuts None => (Ret false, c)
  | BPuts (Some s) => (Ret false, c ++ s)
  | BPutc x => (Ret false, c ++ [x])
  | BPrintf None => (Ret true, c)
  | BPrintf (Some s) => (Ret false, c ++ s)
  | BStr => (Str (Some (if ends_nul c then c else c ++ [NUL])), [])
  | BRelease => (Str (Some c), [])
  | BReset => (Ret false, [])
  | BPop n => (Count (N.min n (lenN c)), firstn (length c - N.to_nat n) c)
  end.
(** Failing is reported. *)
Definition failed (r : bres) : Prop := r = Ret true \/ r = Str None.
(** Room an operation asks for. *)
Definition need (o : bop) (c : bytes) : N :=
  match o with
  | BPuts (Some s) => lenN s
  | BPutc _ => 1
  | BPrintf (Some s) => lenN s + 1
  | BStr => if ends_nul c then 0 else 1
  | _ => 0
  end.
Definition printable (o : bop) : Prop := match o with BPrintf (Some s) => lenN s <= INT_MAX | BPrintf None => False | _ => True end.

(** ** Lemmas *)
Lemma lenN_app : forall a b, lenN (a ++ b) = lenN a + lenN b.
Proof. intros. unfold lenN. rewrite app_length. lia. Qed.
Lemma max_eq : ULONG_MAX = 2 ^ 64 - 1. Proof. reflexivity. Qed.
Lemma wrap_small : forall n, n <= ULONG_MAX -> wrap n = n.
Proof. intros n H. apply N.mod_small. rewrite max_eq in H. lia. Qed.
Lemma p63 : 2 ^ 63 * 2 = 2 ^ 64. Proof. reflexivity. Qed.
Lemma half_max : ULONG_MAX / 2 = 2 ^ 63 - 1. Proof. reflexivity. Qed.
Lemma pow_le63 : forall k, k <= 63 -> 2 ^ k <= 2 ^ 63.
Proof. intros k H. apply N.pow_le_mono_r; lia. Qed.
Lemma pow_pos2 : forall k, 0 < 2 ^ k.
Proof. intros k. assert (2 ^ k <> 0) by (apply N.pow_nonzero; lia). lia. Qed.
Lemma grow_spec : forall fuel k newlen, 4 <= k <= 63 -> (64 - N.to_nat k < fuel)%nat ->
  (newlen <= 2 ^ 63 /\ exists j, 4 <= j <= 63 /\ k <= j /\ newlen <= 2 ^ j /\ grow fuel (2 ^ k) newlen = Some (Some (2 ^ j))) \/ (2 ^ 63 < newlen /\ grow fuel (2 ^ k) newlen = Some None).
Proof.
  induction fuel as [|f IH]; intros k newlen Hk Hf; [lia|]. cbn [grow]. pose proof (pow_le63 k ltac:(lia)). pose proof p63.
  destruct (N.ltb_spec (2 ^ k) newlen).
  - rewrite half_max. destruct (N.ltb_spec (2 ^ 63 - 1) (2 ^ k)).
    + right. split; auto. lia.
    + assert (k <> 63) by (intros ->; lia). rewrite wrap_small by (rewrite max_eq; lia).
      replace (2 ^ k * 2) with (2 ^ (k + 1)) by (rewrite N.pow_add_r; reflexivity).
      destruct (IH (k + 1) newlen) as [(A & j & B & C & D & E)|(A & B)]; try lia; [left|right; auto]. split; auto. exists j. repeat split; auto; lia.
  - left. split; [lia|]. exists k. repeat split; auto; lia.
Qed.
Lemma lenN_realloc : forall junk m n, lenN (realloc junk m n) = n.
Proof. intros. unfold lenN, realloc. rewrite firstn_length, app_length, map_length, seq_length. lia. Qed.
Lemma reserve_spec : forall ok junk b n, inv b ->
  (exists b1, reserve ok junk b n = Some (false, b1) /\ inv b1 /\ content b1 = content b /\ b_len b1 = b_len b /\ b_len b + n <= b_siz b1 /\ 0 < b_siz b1 /\ b_siz b <= b_siz b1 /\ b_len b + n <= 2 ^ 63)
  \/ (reserve ok junk b n = Some (true, b) /\ (ok = false \/ 2 ^ 63 < b_len b + n)).
Proof.
  intros ok junk b n [I1 I2 I3]. unfold reserve. pose proof p63. pose proof (pow_le63 63 ltac:(lia)).
  assert (Hs : b_siz b <= 2 ^ 63). { destruct I3 as [->|(k & K & ->)]; [lia|apply pow_le63; lia]. }
  destruct (N.ltb_spec (ULONG_MAX - b_len b) n).
  { right. split; auto. right. rewrite max_eq in *. lia. }
  rewrite wrap_small by (rewrite max_eq in *; lia).
  destruct (N.ltb_spec 0 (b_siz b)); cbn [andb]; [destruct (N.leb_spec (b_len b + n) (b_siz b))|].
  - left. exists b. repeat split; auto; lia.
  - destruct I3 as [I3|(k & K & Ek)]; [lia|]. destruct (N.eqb_spec (b_siz b) 0); [lia|]. rewrite Ek.
    destruct (grow_spec 65 k (b_len b + n) K ltac:(lia)) as [(A & j & J & Jk & C & E)|(A & E)]; rewrite E; [|right; auto].
    destruct ok; [|right; auto]. left. eexists. split; [reflexivity|].
    assert (2 ^ k <= 2 ^ j) by (apply N.pow_le_mono_r; lia). pose proof (pow_pos2 j).
    split; [constructor; cbn; [apply lenN_realloc|lia|right; exists j; split; auto; lia]|].
    split; [|cbn; repeat split; auto; lia].
    unfold content, realloc. cbn. unfold lenN in I1. rewrite firstn_firstn. rewrite firstn_app.
    replace (Nat.min (N.to_nat (b_len b)) (N.to_nat (2 ^ j))) with (N.to_nat (b_len b)) by lia.
    replace (N.to_nat (b_len b) - length (b_mem b))%nat with 0%nat by lia. cbn. apply app_nil_r.
  - assert (Z : b_siz b = 0) by lia. rewrite Z. cbn [N.eqb]. change 16 with (2 ^ 4).
    destruct (grow_spec 65 4 (b_len b + n) ltac:(lia) ltac:(lia)) as [(A & j & J & Jk & C & E)|(A & E)]; rewrite E; [|right; auto].
    destruct ok; [|right; auto]. left. eexists. split; [reflexivity|]. pose proof (pow_pos2 j).
    split; [constructor; cbn; [apply lenN_realloc|lia|right; exists j; split; auto; lia]|].
    split; [|cbn; repeat split; auto; lia]. unfold content. cbn. replace (b_len b) with 0 by lia. reflexivity.
Qed.
Lemma len_content : forall b, inv b -> lenN (content b) = b_len b.
Proof. intros b [I1 I2 I3]. unfold content, lenN in *. rewrite firstn_length. lia. Qed.
Lemma write_at : forall b s t, inv b -> b_len b + lenN (s ++ t) <= b_siz b ->
  exists m, write (b_len b) (s ++ t) (b_mem b) = Some m /\ lenN m = b_siz b /\ firstn (N.to_nat (b_len b + lenN s)) m = content b ++ s.
Proof.
  intros b s t [I1 I2 I3] H. unfold write. rewrite lenN_app in *. destruct (N.leb_spec (b_len b + (lenN s + lenN t)) (lenN (b_mem b))); [|lia].
  eexists. split; [reflexivity|]. unfold lenN in *. split.
  - rewrite !app_length, firstn_length, skipn_length. lia.
  - unfold content. rewrite <- app_assoc. rewrite (app_assoc (firstn _ _)). rewrite firstn_app. rewrite firstn_all2 by (rewrite app_length, firstn_length; lia).
    replace (N.to_nat (b_len b + N.of_nat (length s)) - length (firstn (N.to_nat (b_len b)) (b_mem b) ++ s))%nat with 0%nat by (rewrite app_length, firstn_length; lia).
    cbn. apply app_nil_r.
Qed.
Lemma inv_siz : forall b, inv b -> b_siz b <= 2 ^ 63.
Proof. intros b [I1 I2 [->|(k & K & ->)]]; [lia|apply pow_le63; lia]. Qed.

(** What appending does. *)
Lemma puts_spec : forall ok junk s b, inv b ->
  (exists b1, puts ok junk (Some s) b = Some (false, b1) /\ inv b1 /\ content b1 = content b ++ s /\ b_siz b <= b_siz b1)
  \/ (puts ok junk (Some s) b = Some (true, b) /\ (ok = false \/ 2 ^ 63 < b_len b + lenN s)).
Proof.
  intros ok junk s b I. destruct s as [|c s].
  - left. exists b. cbn. rewrite app_nil_r. repeat split; try apply I. lia.
  - unfold puts. set (s' := c :: s). destruct (reserve_spec ok junk b (lenN s') I) as [(b1 & E & I1 & C1 & L1 & S1 & S2 & S3 & S4)|(E & A)]; rewrite E; [left|right; auto].
    destruct (write_at b1 s' [] I1) as (m & W & Lm & Cm); [rewrite app_nil_r, L1; lia|]. rewrite app_nil_r in W. rewrite W. eexists. split; [reflexivity|].
    pose proof (inv_siz b1 I1). rewrite wrap_small by (rewrite max_eq, L1; pose proof p63; lia).
    split; [constructor; cbn [b_mem b_siz b_len]; [auto|rewrite L1; lia|apply I1]|]. split; [|cbn [b_siz]; auto]. unfold content at 1. cbn [b_mem b_len]. rewrite Cm, C1. auto.
Qed.
Lemma printf_spec : forall ok junk s b, inv b -> lenN s <= INT_MAX ->
  (exists b1, printf ok junk (Some s) b = Some (false, b1) /\ inv b1 /\ content b1 = content b ++ s)
  \/ (printf ok junk (Some s) b = Some (true, b) /\ (ok = false \/ 2 ^ 63 < b_len b + (lenN s + 1))).
Proof.
  intros ok junk s b I Hs. unfold printf. destruct (N.ltb_spec INT_MAX (lenN s)); [lia|].
  destruct (reserve_spec ok junk b (lenN s + 1) I) as [(b1 & E & I1 & C1 & L1 & S1 & S2 & S3 & S4)|(E & A)]; rewrite E; [left|right; auto].
  destruct (N.eqb_spec (b_siz b1 - b_len b1) 0); [lia|].
  rewrite firstn_all2 by (unfold lenN in *; lia).
  destruct (write_at b1 s [NUL] I1) as (m & W & Lm & Cm); [rewrite L1, lenN_app; change (lenN [NUL]) with 1; lia|]. rewrite W.
  destruct (N.leb_spec (b_siz b1 - b_len b1) (lenN s)); [lia|]. eexists. split; [reflexivity|].
  pose proof (inv_siz b1 I1). rewrite wrap_small by (rewrite max_eq, L1; pose proof p63; lia).
  split; [constructor; cbn [b_mem b_siz b_len]; [auto|rewrite L1; lia|apply I1]|]. unfold content at 1. cbn [b_mem b_len]. rewrite Cm, C1. auto.
Qed.
Lemma inv0 : inv (mkbuf [] 0 0).
Proof. constructor; cbn; auto; lia. Qed.
Lemma last_content : forall b, inv b -> b_len b <> 0 -> exists l c, content b = l ++ [c] /\ nth_error (b_mem b) (N.to_nat (b_len b - 1)) = Some c.
Proof.
  intros b I H. pose proof (len_content b I) as L. destruct (rev (content b)) as [|c r] eqn:E.
  - apply (f_equal (@rev _)) in E. rewrite rev_involutive in E. rewrite E in L. cbn in L. lia.
  - apply (f_equal (@rev _)) in E. rewrite rev_involutive in E. cbn in E. exists (rev r), c. split; auto.
    rewrite E, lenN_app in L. change (lenN [c]) with 1 in L. unfold content in E. rewrite <- (firstn_skipn (N.to_nat (b_len b)) (b_mem b)), E.
    unfold lenN in L. rewrite <- app_assoc. rewrite nth_error_app2 by lia. replace (N.to_nat (b_len b - 1) - length (rev r))%nat with 0%nat by lia. auto.
Qed.

(** One operation. *)
Lemma bexec_spec : forall ok junk o b, inv b ->
  exists r b', bexec ok junk o b = Some (r, b') /\ inv b' /\
    ((r, content b') = sop o (content b) /\ printable o \/
     failed r /\ content b' = content b /\ (ok = false \/ 2 ^ 63 < lenN (content b) + need o (content b) \/ ~ printable o)).
Proof.
  intros ok junk o b I. rewrite len_content by auto. destruct o as [[s|]|c|[s|]| | | |n]; cbn [bexec sop need printable].
  - destruct (puts_spec ok junk s b I) as [(b1 & -> & I1 & C & _)|(-> & A)]; eexists; eexists; (split; [reflexivity|]); split; auto; [left; rewrite C; auto|right; unfold failed; tauto].
  - eexists. eexists. split; [reflexivity|]. auto.
  - unfold putc. destruct (puts_spec ok junk [c] b I) as [(b1 & -> & I1 & C & _)|(-> & A)]; eexists; eexists; (split; [reflexivity|]); split; auto; [left; rewrite C; auto|right; unfold failed; change (lenN [c]) with 1 in A; tauto].
  - destruct (N.leb_spec (lenN s) INT_MAX).
    + destruct (printf_spec ok junk s b I) as [(b1 & -> & I1 & C)|(-> & A)]; auto; eexists; eexists; (split; [reflexivity|]); split; auto; [left; rewrite C; auto|right; unfold failed; tauto].
    + unfold printf. destruct (N.ltb_spec INT_MAX (lenN s)); [|lia]. eexists. eexists. split; [reflexivity|]. split; auto. right. unfold failed. split; auto. split; auto. right. right. lia.
  - eexists. eexists. split; [reflexivity|]. split; auto. right. unfold failed. tauto.
  - unfold str. destruct (N.eqb_spec (b_len b) 0) as [Z|Z].
    + assert (Cn : content b = []) by (unfold content; rewrite Z; auto). unfold putc.
      destruct (puts_spec ok junk [NUL] b I) as [(b1 & -> & I1 & C & _)|(-> & A)]; cbn; eexists; eexists; (split; [reflexivity|]).
      * split; [apply inv0|]. left. split; auto. fold (content b1). rewrite C, Cn. reflexivity.
      * split; auto. right. unfold failed. rewrite Cn. cbn. change (lenN [NUL]) with 1 in A. tauto.
    + destruct (last_content b I Z) as (l & c & Ec & En). rewrite En. assert (Hn : ends_nul (content b) = (c =c NUL)) by (rewrite Ec; unfold ends_nul; rewrite rev_app_distr; auto).
      rewrite Hn. destruct (c =c NUL) eqn:Ez; cbn [negb].
      * cbn. eexists. eexists. split; [reflexivity|]. split; [apply inv0|]. left. auto.
      * unfold putc. destruct (puts_spec ok junk [NUL] b I) as [(b1 & -> & I1 & C & _)|(-> & A)]; cbn; eexists; eexists; (split; [reflexivity|]).
        -- split; [apply inv0|]. left. split; auto. fold (content b1). rewrite C. reflexivity.
        -- split; auto. right. unfold failed. change (lenN [NUL]) with 1 in A. tauto.
  - eexists. eexists. split; [reflexivity|]. split; [apply inv0|]. left. auto.
  - eexists. eexists. split; [reflexivity|]. split; [|left; auto]. destruct I. constructor; cbn; auto. lia.
  - unfold pop. eexists. eexists. split; [reflexivity|]. split; [destruct I; constructor; cbn; auto; lia|]. left. split; auto. f_equal.
    + f_equal. rewrite len_content by auto. destruct (N.ltb_spec (b_len b) n); lia.
    + unfold content at 1. cbn [b_len b_mem]. pose proof (len_content b I) as L. unfold lenN in L. unfold content. rewrite firstn_firstn. f_equal. fold (content b).
      destruct (N.ltb_spec (b_len b) n); lia.
Qed.
Lemma cmp_spec : forall a b, inv a -> inv b -> cmp a b = false <-> content a = content b.
Proof.
  intros a b Ia Ib. unfold cmp. pose proof (len_content a Ia) as La. pose proof (len_content b Ib) as Lb. destruct (N.eqb_spec (b_len a) (b_len b)) as [E|E]; cbn [negb].
  - destruct (N.eqb_spec (b_len a) 0) as [Z|Z].
    + split; auto. intros _. unfold content. rewrite <- E, Z. auto.
    + unfold content. rewrite <- E. destruct (list_eq_dec _ _ _); cbn; split; auto; intros K; try discriminate K; contradiction.
  - split; [discriminate|]. intros H. rewrite H in La. congruence.
Qed.

(** ** Reading *)
Lemma read_spec : forall fuel junk pat src b, inv b -> b_len b < b_siz b -> (length src < fuel)%nat ->
  exists e b', read_fd fuel junk pat src b = Some (e, b') /\ inv b' /\
    (e = false -> content b' = content b ++ src) /\
    (e = true -> (exists got rest, src = got ++ rest /\ content b' = content b ++ got) /\
       ((exists st, In st pat /\ (r_read st = None \/ r_ok st = false)) \/ 2 ^ 63 < lenN (content b') + b_siz b' / 2)).
Proof.
  induction fuel as [|f IH]; intros junk pat src b I Hl Hf; [lia|]. cbn [read_fd].
  destruct (r_read (hd calm pat)) as [k|] eqn:Er.
  2: { exists true, b. split; auto. split; auto. split; [discriminate|]. intros _. split; [exists [], src; rewrite app_nil_r; auto|]. left. exists (hd calm pat). split; auto. destruct pat; [discriminate|left; auto]. }
  set (n := N.to_nat (N.min (b_siz b - b_len b) (k + 1))). assert (Hn : (0 < n)%nat) by lia.
  assert (Hg : lenN (firstn n src) <= b_siz b - b_len b) by (unfold lenN; rewrite firstn_length; lia).
  destruct src as [|c src].
  { rewrite firstn_nil. exists false, b. split; auto. split; auto. split; [|discriminate]. intros _. symmetry. apply app_nil_r. }
  destruct (firstn n (c :: src)) as [|g got'] eqn:Eg; [destruct n; [lia|discriminate]|]. rewrite <- Eg in *. clear g got' Eg. set (got := firstn n (c :: src)) in *.
  assert (Es : c :: src = got ++ skipn (length got) (c :: src)).
  { unfold got. rewrite firstn_length. destruct (Nat.le_gt_cases n (length (c :: src))).
    - rewrite Nat.min_l by auto. symmetry. apply firstn_skipn.
    - rewrite Nat.min_r by lia. rewrite firstn_all2 by lia. rewrite skipn_all. symmetry. apply app_nil_r. }
  assert (Gp : (0 < length got)%nat) by (unfold got; rewrite firstn_length; cbn [length]; lia).
  destruct (write_at b got [] I) as (m & W & Lm & Cm); [rewrite app_nil_r; lia|]. rewrite app_nil_r in W. rewrite W.
  pose proof (inv_siz b I). rewrite wrap_small by (rewrite max_eq; pose proof p63; lia).
  set (b1 := mkbuf m (b_siz b) (b_len b + lenN got)).
  assert (I1 : inv b1). { constructor; cbn [b1 b_mem b_siz b_len]; [auto|lia|apply I]. }
  assert (C1 : content b1 = content b ++ got). { unfold content at 1. cbn [b1 b_mem b_len]. auto. }
  assert (S2 : 2 <= b_siz b). { destruct (in_siz b I) as [Z|(j & J & ->)]; [lia|]. assert (2 ^ 1 <= 2 ^ j) by (apply N.pow_le_mono_r; lia). auto. }
  destruct (reserve_spec (r_ok (hd calm pat)) junk b1 (b_siz b / 2) I1) as [(b2 & E & I2 & C2 & L2 & S3 & S4 & S5 & S6)|(E & A)]; rewrite E.
  - assert (0 < b_siz b / 2) by (apply N.div_str_pos; lia).
    destruct (IH junk (tl pat) (skipn (length got) (c :: src)) b2 I2) as (e & b' & R & Ib & R1 & R2); [rewrite L2; lia|rewrite skipn_length; revert Gp; generalize (length got); clear - Hf; cbn [length] in *; intros; lia|].
    exists e, b'. split; auto. split; auto. split; [intros He; rewrite (R1 He), C2, C1, <- app_assoc, <- Es; auto|].
    intros He. destruct (R2 He) as ((gt & rest & G1 & G2) & R3). split.
    + exists (got ++ gt), rest. rewrite <- app_assoc, <- G1. split; auto. rewrite G2, C2, C1, app_assoc. auto.
    + destruct R3 as [(st & P & Q)|R3]; [left|right; auto]. exists st. split; auto. destruct pat; [contradiction|right; auto].
  - exists true, b1. split; auto. split; auto. split; [discriminate|]. intros _. split; [exists got, (skipn (length got) (c :: src)); auto|].
    destruct A as [A|A]; [left|right; rewrite len_content by auto; auto]. exists (hd calm pat). split; auto. destruct pat; [discriminate|left; auto].
Qed.

(** ** Lines *)
Lemma skipn_plus : forall (l : bytes) a b, skipn (a + b) l = skipn a (skipn b l).
Proof. intros l a b. revert l. induction b as [|b IH]; intros l; [rewrite Nat.add_0_r; auto|]. rewrite Nat.add_succ_r. destruct l; cbn; [rewrite skipn_nil; auto|apply IH]. Qed.
Lemma memchr_some : forall s i, memchr s = Some i -> exists a b, s = a ++ NL :: b /\ length a = i /\ ~ In NL a.
Proof.
  induction s as [|c s IH]; intros i H; [discriminate|]. cbn in H. destruct (Ascii.eqb_spec c NL) as [->|N].
  - injection H as <-. exists [], s. auto.
  - destruct (memchr s) as [j|]; [|discriminate]. injection H as <-. destruct (IH j eq_refl) as (a & b & -> & <- & K). exists (c :: a), b. split; auto. split; auto. intros [->|F]; auto.
Qed.
Lemma memchr_none : forall s, memchr s = None -> ~ In NL s.
Proof. induction s as [|c s IH]; intros H; auto. cbn in H. destruct (Ascii.eqb_spec c NL) as [->|N]; [discriminate|]. destruct (memchr s); [discriminate|]. intros [->|F]; auto. apply IH; auto. Qed.

(** The lines of a text, each without its newline; a newline at the end starts no line. *)
Inductive lines : bytes -> list bytes -> Prop :=
| li_nil : lines [] []
| li_last : forall l, l <> [] -> ~ In NL l -> lines l [l]
| li_more : forall l s ls, ~ In NL l -> lines s ls -> lines (l ++ NL :: s) (l :: ls).
Definition gbuf_ok (g : getline) : Prop := match g_buf g with Some b => inv b | None => True end.
Lemma alloc_spec : forall junk n, n <= 2 ^ 63 -> exists b, alloc true junk n = Some (Some b) /\ inv b /\ content b = [] /\ n <= b_siz b.
Proof.
  intros junk n H. unfold alloc. destruct (reserve_spec true junk _ n inv0) as [(b1 & -> & I & C & L & S & _)|(_ & [A|A])]; [|discriminate|cbn in A; lia].
  exists b1. cbn in *. repeat split; auto; apply I.
Qed.
Lemma line_put : forall junk l gb, inv gb -> lenN l + 1 <= 2 ^ 63 -> exists g1 g2, puts true junk (Some l) (reset gb) = Some (false, g1) /\ putc true junk NUL g1 = Some (false, g2) /\ inv g2 /\ content g2 = l ++ [NUL].
Proof.
  intros junk l gb I H. assert (Ir : inv (reset gb)) by (destruct I; constructor; cbn; auto; lia).
  destruct (puts_spec true junk l (reset gb) Ir) as [(g1 & E1 & I1 & C1 & _)|(_ & [A|A])]; [|discriminate|cbn [reset b_len] in A; lia].
  assert (C1' : content g1 = l) by (rewrite C1; reflexivity). pose proof (len_content g1 I1) as L1. rewrite C1' in L1.
  destruct (puts_spec true junk [NUL] g1 I1) as [(g2 & E2 & I2 & C2 & _)|(_ & [A|A])]; [|discriminate|change (lenN [NUL]) with 1 in A; lia].
  exists g1, g2. rewrite C1' in C2. auto.
Qed.
Lemma getlines_spec : forall fuel junk bf off rest gb, inv bf -> b_len bf < 2 ^ 63 -> gbuf_ok {| g_buf := gb; g_off := off |} -> off <= b_len bf + 1 ->
  rest = skipn (N.to_nat off) (content bf) -> (length rest < fuel)%nat ->
  exists ls, getlines fuel junk bf {| g_buf := gb; g_off := off |} = Some (map (fun l => l ++ [NUL]) ls, g0) /\ lines rest ls.
Proof.
  induction fuel as [|f IH]; intros junk bf off rest gb I Hb Hg Ho Er Hf; [lia|]. cbn [getlines]. unfold getline_next. cbn [g_buf g_off].
  assert (exists gb', (match gb with Some b => Some (Some b) | None => alloc true junk 1024 end) = Some (Some gb') /\ inv gb') as (gb' & -> & Ig).
  { destruct gb as [b|]; [exists b; auto|]. destruct (alloc_spec junk 1024) as (b & -> & Ib & _); [lia|eauto]. }
  pose proof (len_content bf I) as Lc. unfold lenN in Lc.
  destruct (N.leb_spec (b_len bf) off) as [Hle|Hlt].
  - exists []. split; auto. rewrite Er. rewrite skipn_all2 by lia. constructor.
  - fold (content bf). rewrite <- Er. assert (Lr : length rest = N.to_nat (b_len bf - off)) by (rewrite Er, skipn_length; lia).
    destruct (memchr rest) as [i|] eqn:Em.
    + destruct (memchr_some _ _ Em) as (a & b & Es & Ea & Ha). rewrite Nat2N.id. rewrite Es. rewrite firstn_app, <- Ea, firstn_all, Nat.sub_diag. cbn [firstn]. rewrite app_nil_r.
      destruct (line_put junk a gb' Ig) as (g1 & g2 & E1 & E2 & I2 & C2); [rewrite Es, app_length in Lr; cbn in Lr; unfold lenN; lia|].
      rewrite E1, E2. fold (content g2). rewrite C2. rewrite Es, app_length in Lr. cbn in Lr. rewrite wrap_small by (rewrite max_eq; pose proof p63; lia).
      destruct (IH junk bf (off + N.of_nat (length a) + 1) b (Some g2) I Hb I2) as (ls & E & Hl); try lia.
      * replace (N.to_nat (off + N.of_nat (length a) + 1)) with (length (a ++ [NL]) + N.to_nat off)%nat by (rewrite app_length; cbn; lia). rewrite skipn_plus, <- Er, Es.
        change (a ++ NL :: b) with (a ++ [NL] ++ b). rewrite app_assoc. rewrite skipn_app, skipn_all, Nat.sub_diag. reflexivity.
      * rewrite Es, app_length in Hf. cbn in Hf. lia.
      * rewrite E. exists (a :: ls). split; auto. constructor; auto.
    + replace (N.to_nat (b_len bf - off)) with (length rest) by lia. rewrite firstn_all.
      destruct (line_put junk rest gb' Ig) as (g1 & g2 & E1 & E2 & I2 & C2); [unfold lenN; lia|]. rewrite E1, E2. fold (content g2). rewrite C2. rewrite wrap_small by (rewrite max_eq; pose proof p63; lia).
      destruct (IH junk bf (off + (b_len bf - off) + 1) [] (Some g2) I Hb I2) as (ls & E & Hl); try lia.
      * rewrite skipn_all2; auto. lia.
      * cbn. destruct rest; cbn in *; lia.
      * rewrite E. exists (rest :: ls). split; auto. assert (ls = []) by (inversion Hl; subst; auto; [contradiction|destruct l; discriminate]). subst ls. constructor; [|apply memchr_none; auto]. intros ->. cbn in Lr. lia.
Qed.
Lemma lines_join : forall s ls, lines s ls -> Forall (fun l => ~ In NL l) ls /\
  (concat (map (fun l => l ++ [NL]) ls) = s \/ (concat (map (fun l => l ++ [NL]) ls) = s ++ [NL] /\ s <> [] /\ hd_error (rev s) <> Some NL)).
Proof.
  intros s ls H. induction H as [|l Hl Hn|l s ls Hn H (IH1 & IH2)]; [auto| |].
  - split; auto. right. cbn. rewrite app_nil_r. split; auto. split; auto. intros K. destruct (rev l) as [|x r] eqn:E; [discriminate|]. injection K as ->. apply Hn. apply in_rev. rewrite E. left; auto.
  - split; auto. cbn [map concat]. destruct IH2 as [->|(-> & A & B)]; [left; rewrite <- app_assoc; auto|right]. rewrite <- !app_assoc. split; auto. split; [destruct l; discriminate|].
    rewrite rev_app_distr. cbn. destruct (rev s) as [|x r] eqn:E; [|cbn; auto]. apply (f_equal (@rev _)) in E. rewrite rev_involutive in E. contradiction.
Qed.
