(** Property C45: the overflow-checked helpers are exact. *)
From Coq Require Import ZArith Bool Lia.
From Verif Require Import ArithModel.
Open Scope Z_scope.

(** What such a helper should do for a type with values from [lo] to [hi]. *)
Definition exact (lo hi : Z) (op : Z -> Z -> Z) (g : Z -> Z -> res) (a b : Z) : Prop :=
  lo <= a <= hi -> lo <= b <= hi ->
  (lo <= op a b <= hi -> g a b = Val (op a b)) /\ (~ lo <= op a b <= hi -> g a b = Ovf).

Lemma chk_in : forall lo hi v k, lo <= v <= hi -> chk lo hi v k = k v.
Proof. intros lo hi v k [A B]. unfold chk. apply Z.leb_le in A, B. rewrite A, B. auto. Qed.

Ltac ifs := repeat match goal with |- context [if (?a <? ?b) then _ else _] => destruct (Z.ltb_spec a b) end.

Section Signed.
Variables lo hi : Z.
Hypothesis Hlo : lo = - hi - 1.
Hypothesis Hhi : 0 < hi.
Lemma signed_add_exact : forall a b, exact lo hi Z.add (signed_add lo hi) a b.
Proof.
  intros a b Ha Hb. unfold signed_add, andthen.
  destruct (Z.ltb_spec 0 b); [rewrite chk_in by lia|]; ifs; try lia; try (split; intros; auto; lia);
  try (rewrite (chk_in _ _ (lo - b)) by lia; ifs); try (split; intros; auto; lia); split; intros; try lia; rewrite chk_in by lia; auto.
Qed.
Lemma signed_sub_exact : forall a b, exact lo hi Z.sub (signed_sub lo hi) a b.
Proof.
  intros a b Ha Hb. unfold signed_sub, andthen.
  destruct (Z.ltb_spec 0 b); [rewrite chk_in by lia|]; ifs; try lia; try (split; intros; auto; lia);
  try (rewrite (chk_in _ _ (hi + b)) by lia; ifs); try (split; intros; auto; lia); split; intros; try lia; rewrite chk_in by lia; auto.
Qed.
(** Truncated quotients as bounds. *)
Lemma quot_pp : forall n d, 0 <= n -> 0 < d -> d * Z.quot n d <= n < d * (Z.quot n d + 1) /\ 0 <= Z.quot n d <= n.
Proof. intros n d Hn Hd. rewrite Z.quot_div_nonneg by lia. pose proof (Z.mul_div_le n d Hd). pose proof (Z.mul_succ_div_gt n d Hd). pose proof (Z.div_pos n d Hn Hd). split; [lia|]. split; auto. apply Z.div_le_upper_bound; nia. Qed.
Lemma quot_np : forall n d, n <= 0 -> 0 < d -> d * (Z.quot n d - 1) < n <= d * Z.quot n d /\ n <= Z.quot n d <= 0.
Proof. intros n d Hn Hd. replace n with (- - n) by lia. rewrite Z.quot_opp_l by lia. destruct (quot_pp (- n) d); nia. Qed.
Lemma quot_pn : forall n d, 0 <= n -> d < 0 -> d * Z.quot n d <= n < d * (Z.quot n d - 1) /\ - n <= Z.quot n d <= 0.
Proof. intros n d Hn Hd. replace d with (- - d) by lia. rewrite Z.quot_opp_r by lia. destruct (quot_pp n (- d)); nia. Qed.
Lemma signed_mul_exact : forall a b, exact lo hi Z.mul (signed_mul lo hi) a b.
Proof.
  intros a b Ha Hb. unfold signed_mul, andthen, cdiv.
  destruct (Z.ltb_spec 0 a), (Z.ltb_spec 0 b), (Z.ltb_spec a 0), (Z.ltb_spec b 0); try lia; cbn [andb].
  - destruct (Z.eqb_spec b 0); [lia|]. destruct (quot_pp hi b) as (Q1 & Q2); try lia. rewrite chk_in by lia. destruct (Z.ltb_spec (Z.quot hi b) a); split; intros; auto; try nia. rewrite chk_in by lia; auto.
  - destruct (Z.eqb_spec a 0); [lia|]. destruct (quot_np lo a) as (Q1 & Q2); try lia. rewrite chk_in by lia. destruct (Z.ltb_spec b (Z.quot lo a)); split; intros; auto; try nia. rewrite chk_in by lia; auto.
  - assert (b = 0) by lia. subst. rewrite Z.mul_0_r. split; intros; [rewrite chk_in by lia; auto|lia].
  - destruct (Z.eqb_spec b 0); [lia|]. destruct (quot_np lo b) as (Q1 & Q2); try lia. rewrite chk_in by lia. destruct (Z.ltb_spec a (Z.quot lo b)); split; intros; auto; try nia. rewrite chk_in by lia; auto.
  - assert (a = 0) by lia. subst. split; intros; [rewrite chk_in by lia; auto|lia].
  - destruct (Z.eqb_spec a 0); [lia|]. destruct (quot_pn hi a) as (Q1 & Q2); try lia. rewrite chk_in by lia. destruct (Z.ltb_spec b (Z.quot hi a)); split; intros; auto; try nia. rewrite chk_in by lia; auto.
  - assert (b = 0) by lia. subst. rewrite Z.mul_0_r. split; intros; [rewrite chk_in by lia; auto|lia].
  - assert (a = 0) by lia. subst. split; intros; [rewrite chk_in by lia; auto|lia].
  - assert (a = 0) by lia. subst. split; intros; [rewrite chk_in by lia; auto|lia].
Qed.
End Signed.

Section Unsigned.
Variable hi : Z.
Hypothesis Hhi : 0 < hi.
Lemma wrap_in : forall v, 0 <= v <= hi -> wrap hi v = v.
Proof. intros. apply Z.mod_small. lia. Qed.
Lemma unsigned_add_exact : forall a b, exact 0 hi Z.add (unsigned_add hi) a b.
Proof. intros a b Ha Hb. unfold unsigned_add. rewrite wrap_in by lia. ifs; split; intros; try lia; auto. rewrite wrap_in by lia; auto. Qed.
Lemma unsigned_sub_exact : forall a b, exact 0 hi Z.sub (unsigned_sub hi) a b.
Proof. intros a b Ha Hb. unfold unsigned_sub. ifs; split; intros; try lia; auto. rewrite wrap_in by lia; auto. Qed.
Lemma unsigned_mul_exact : forall a b, b <> 0 -> exact 0 hi Z.mul (unsigned_mul hi) a b.
Proof.
  intros a b Hn Ha Hb. unfold unsigned_mul. destruct (Z.eqb_spec b 0); [contradiction|].
  pose proof (Z.mul_div_le hi b ltac:(lia)). pose proof (Z.mul_succ_div_gt hi b ltac:(lia)).
  destruct (Z.ltb_spec (hi / b) a); split; intros; auto; try nia. rewrite wrap_in by nia; auto.
Qed.
End Unsigned.

Theorem C45_signed : forall a b,
  exact INT32_MIN INT32_MAX Z.add i32_add_overflow0 a b /\ exact INT32_MIN INT32_MAX Z.sub i32_sub_overflow0 a b /\
  exact INT32_MIN INT32_MAX Z.mul i32_mul_overflow0 a b /\ exact INT64_MIN INT64_MAX Z.add i64_add_overflow0 a b /\
  exact INT64_MIN INT64_MAX Z.sub i64_sub_overflow0 a b /\ exact INT64_MIN INT64_MAX Z.mul i64_mul_overflow0 a b.
Proof.
  intros a b. repeat split; first [apply signed_add_exact|apply signed_sub_exact|apply signed_mul_exact]; auto; reflexivity.
Qed.
Theorem C45_unsigned : forall a b,
  exact 0 UINT32_MAX Z.add u32_add_overflow0 a b /\ exact 0 UINT32_MAX Z.sub u32_sub_overflow0 a b /\
  exact 0 UINT64_MAX Z.add u64_add_overflow0 a b /\ exact 0 UINT64_MAX Z.sub u64_sub_overflow0 a b /\
  exact 0 SIZE_MAX Z.add size_add_overflow0 a b /\ exact 0 SIZE_MAX Z.sub size_sub_overflow0 a b.
Proof.
  intros a b. repeat split; first [apply unsigned_add_exact|apply unsigned_sub_exact]; auto; reflexivity.
Qed.
(** Multiplication of unsigned numbers: exact unless the second factor is zero. *)
Theorem C45_unsigned_mul_partial : forall a b, b <> 0 ->
  exact 0 UINT32_MAX Z.mul u32_mul_overflow0 a b /\ exact 0 UINT64_MAX Z.mul u64_mul_overflow0 a b /\
  exact 0 SIZE_MAX Z.mul size_mul_overflow0 a b.
Proof. intros a b Hb. repeat split; apply unsigned_mul_exact; auto; reflexivity. Qed.
(** If it is zero, the portable version divides by zero although the product is 0. *)
Theorem C45_unsigned_mul_refuted : exists a b, 0 <= a <= SIZE_MAX /\ 0 <= b <= SIZE_MAX /\ 0 <= a * b <= SIZE_MAX /\ size_mul_overflow0 a b = Undef.
Proof. exists 5, 0. vm_compute. repeat split; discriminate. Qed.

Example C45_ex :
  i32_add_overflow0 INT32_MAX 1 = Ovf /\ i32_add_overflow0 INT32_MIN (-1) = Ovf /\ i32_add_overflow0 INT32_MAX (-1) = Val 2147483646 /\
  i32_sub_overflow0 0 INT32_MIN = Ovf /\ i32_sub_overflow0 (-1) INT32_MIN = Val INT32_MAX /\ i32_mul_overflow0 INT32_MIN (-1) = Ovf /\
  i32_mul_overflow0 (-1) INT32_MIN = Ovf /\ i64_mul_overflow0 (2 ^ 32) (- 2 ^ 31) = Val INT64_MIN /\ size_mul_overflow0 (2 ^ 32) (2 ^ 32) = Ovf /\
  size_mul_overflow0 (2 ^ 32 - 1) (2 ^ 32 + 1) = Val SIZE_MAX /\ u32_sub_overflow0 3 4 = Ovf.
Proof. vm_compute. repeat split. Qed.
Print Assumptions C45_signed.
Print Assumptions C45_unsigned.
Print Assumptions C45_unsigned_mul_partial.
Print Assumptions C45_unsigned_mul_refuted.
