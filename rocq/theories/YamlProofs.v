(** Proofs about reading the configuration: the tokens of a text. *)
From Coq Require Import ZArith.
From Verif Require Import Base StrModel StrProofs UtilModel UtilProofs TokenModel LexModel LexSpec LexRefine LexBlank YamlModel.

(** ** Arithmetic *)
Definition i32 (n : Z) : Prop := (- 2 ^ 31 <= n < 2 ^ 31)%Z.
(** What the overflow checks promise: exact if the result fits, flagged otherwise. *)
Definition arith_ok (ar : arith) : Prop :=
  (forall a b, i32 a -> i32 b -> if ((- 2 ^ 31 <=? a * b) && (a * b <? 2 ^ 31))%Z then a_mul ar a b = (false, a * b)%Z else fst (a_mul ar a b) = true /\ i32 (snd (a_mul ar a b))) /\
  (forall a b, i32 a -> i32 b -> if ((- 2 ^ 31 <=? a + b) && (a + b <? 2 ^ 31))%Z then a_add ar a b = (false, a + b)%Z else fst (a_add ar a b) = true /\ i32 (snd (a_add ar a b))).
(** The value of digits. *)
Definition dval (ds : bytes) : Z := fold_left (fun n c => (n * 10 + digit c)%Z) ds 0%Z.

Lemma digit_bound : forall c, isdigit c = true -> (0 <= digit c <= 9)%Z.
Proof.
  intros c H. unfold digit. destruct c as [b0 b1 b2 b3 b4 b5 b6 b7].
  destruct b0, b1, b2, b3, b4, b5, b6, b7; vm_compute in H; try discriminate; vm_compute; split; discriminate.
Qed.
Lemma dval_mono : forall ds n, Forall (fun c => isdigit c = true) ds -> (0 <= n)%Z ->
  (n <= fold_left (fun n c => n * 10 + digit c) ds n)%Z.
Proof.
  induction ds as [|c ds IH]; intros n HF Hn; [simpl; lia|]. inv HF. cbn [fold_left].
  pose proof (digit_bound c H1). specialize (IH (n * 10 + digit c)%Z H2). lia.
Qed.

Section Text.
Variable ar : arith.
Variable inp : bytes.
Notation L := (length inp).
Notation R := (R inp).

(** The bytes left are [s]. *)
Definition Rat (lx : lexer) (s : bytes) : Prop :=
  exists v, R lx v /\ (v <= L /\ skipn v inp = s \/ v = S L /\ s = []).

Lemma skipn_cons : forall v c r, skipn v inp = c :: r -> v < L /\ nth_error inp v = Some c /\ skipn (S v) inp = r.
Proof.
  intros v c r H. assert (Hv : v < L).
  { destruct (Nat.lt_ge_cases v L); auto. rewrite skipn_all2 in H by auto. discriminate. }
  split; auto. clear Hv. revert inp H. induction v; intros [|x l] H; try discriminate.
  - inv H. auto.
  - apply IHv; auto.
Qed.
Lemma skipn_app_n : forall a v b, skipn v inp = a ++ b -> skipn (v + length a) inp = b /\ (v <= L -> v + length a <= L).
Proof.
  induction a as [|c a IH]; intros v b H; cbn [length app] in *.
  - rewrite Nat.add_0_r. auto.
  - apply skipn_cons in H as (H1 & H2 & H3). destruct (IH (S v) b H3) as (I1 & I2).
    replace (v + S (length a)) with (S v + length a) by lia. split; auto.
Qed.
Lemma slice_at : forall v a b, skipn v inp = a ++ b -> slice inp v (v + length a) = a.
Proof. intros v a b H. unfold slice. rewrite H. replace (v + length a - v) with (length a) by lia. rewrite firstn_app, Nat.sub_diag, firstn_all, app_nil_r. auto. Qed.

(** Reading a byte at a position. *)
Lemma getc_at : forall lx v c r, R lx v -> skipn v inp = c :: r -> exists lx', getc inp lx = (Some c, lx') /\ R lx' (S v).
Proof. intros lx v c r HR H. apply skipn_cons in H as (H1 & H2 & H3). eapply getc_some; eauto. apply inp_vinp; auto. Qed.
Lemma getc_end : forall lx, R lx L -> exists lx', getc inp lx = (Some NUL, lx') /\ R lx' (S L).
Proof. intros lx HR. eapply getc_some; eauto. apply vinp_L. Qed.
Lemma getc_past : forall lx, R lx (S L) -> getc inp lx = (None, lx).
Proof. intros lx HR. eapply getc_none; eauto. apply nth_error_None. rewrite vinp_length. lia. Qed.
Lemma unget_at : forall lx v, R lx (S v) -> v < L -> R (ungetc inp lx) v.
Proof. intros lx v HR Hv. apply ungetc_R in HR. rewrite p_unget_S in HR; auto. Qed.
Lemma unget_past : forall lx, R lx (S L) -> R (ungetc inp lx) (S L).
Proof. intros lx HR. pose proof (ungetc_R _ _ _ HR) as H. unfold p_unget in H. replace (L <? S L) with true in H by (symmetry; apply Nat.ltb_lt; lia). auto. Qed.
Lemma fuel_at : forall v, length (skipn v inp) < FUEL inp.
Proof. intros. rewrite skipn_length. unfold FUEL. lia. Qed.

(** ** Blanks *)
Definition blank (c : byte) : Prop := c = SP \/ c = TAB \/ c = NL.
Lemma els_at : forall lx v g rest, R lx v -> v <= L -> skipn v inp = g ++ rest -> Forall blank g ->
  match rest with [] => True | c :: _ => ~ bl c end ->
  exists lx', fst (eat_lines_and_spaces inp lx (l_st lx)) = lx' /\ R lx' (v + length g).
Proof.
  intros lx v g rest HR Hv Hs Hg Hr.
  destruct (els_R inp lx v v HR (le_n _)) as (lx' & E & HR' & _ & Hge).
  rewrite (R_st _ _ _ HR), E. exists lx'. split; auto.
  pose proof (p_els_spec inp v v (R_le _ _ _ HR)) as (E1 & E2 & E3 & E4 & _).
  set (v' := fst (p_els inp v v)) in *.
  destruct (skipn_app_n _ _ _ Hs) as (Hs2 & Hv2). specialize (Hv2 Hv).
  replace (v + length g) with v'; auto.
  destruct (Nat.lt_trichotomy v' (v + length g)) as [H|[H|H]]; auto; exfalso.
  - destruct (nth_error inp v') as [c|] eqn:Ec; [|apply nth_error_None in Ec; lia].
    assert (Hc : In c g).
    { assert (Hn : nth_error (skipn v inp) (v' - v) = Some c) by (rewrite nth_error_skipn_add; replace (v + (v' - v)) with v' by lia; auto).
      rewrite Hs, nth_error_app1 in Hn by lia. eapply nth_error_In; eauto. }
    rewrite Forall_forall in Hg. apply Hg in Hc. specialize (E3 c eq_refl). unfold blank in Hc. unfold sp in E3.
    assert (c = NL) by tauto. subst c. apply (E4 v' (le_n _)); auto. rewrite slice_nil. auto.
  - destruct rest as [|c rest].
    + assert (v + length g = L).
      { apply (f_equal (@length byte)) in Hs. rewrite skipn_length, app_length in Hs. cbn [length] in Hs. lia. }
      lia.
    + destruct (skipn_cons _ _ _ Hs2) as (H1 & H2 & _). apply Hr.
      eapply Forall_slice_nth; [exact E2| |exact H2]. lia.
Qed.

(** ** Loops *)
Definition wordc (c : byte) : bool := negb (isspace c) && negb (c =c ":"%char).
Lemma word_at : forall w fuel lx v rest, R lx v -> v <= L -> skipn v inp = w ++ rest -> Forall (fun c => wordc c = true) w ->
  match rest with [] => True | c :: _ => wordc c = false end -> length w + 1 < fuel ->
  exists v', R (word_loop inp fuel lx) (S v') /\ (rest = [] /\ v' = L \/ rest <> [] /\ v' = v + length w).
Proof.
  induction w as [|c w IH]; intros fuel lx v rest HR Hv Hs HF Hr Hf; (destruct fuel as [|f]; [cbn [length] in Hf; lia|]); cbn [word_loop]; cbn [app length] in *.
  - destruct rest as [|c rest].
    + assert (v = L). { apply (f_equal (@length byte)) in Hs. rewrite skipn_length in Hs. cbn [length] in Hs. lia. } subst v.
      destruct (getc_end lx HR) as (lx1 & E & HR1). rewrite E. change (negb (isspace NUL) && negb (NUL =c ":"%char)) with true. cbv iota.
      destruct f as [|f]; [lia|]. cbn [word_loop]. rewrite (getc_past _ HR1). eauto.
    + destruct (getc_at _ _ _ _ HR Hs) as (lx1 & E & HR1). rewrite E. unfold wordc in Hr. rewrite Hr. exists v. split; auto. right. split; [discriminate|lia].
  - inv HF. destruct (getc_at _ _ _ _ HR Hs) as (lx1 & E & HR1). rewrite E. unfold wordc in H1. rewrite H1.
    apply skipn_cons in Hs as (S1 & S2 & S3).
    destruct (IH f lx1 (S v) rest HR1 S1 S3 H2 Hr) as (v' & I1 & I2); [lia|]. exists v'. split; auto.
    destruct I2 as [I2|[I2 I3]]; [left; auto|right; split; auto; lia].
Qed.

Lemma same_at : forall w fuel lx v needle c rest, R lx v -> skipn v inp = w ++ c :: rest -> Forall (eq needle) w -> c <> needle -> length w < fuel ->
  exists lx', same_loop inp fuel needle lx = (true, lx') /\ R lx' (S (v + length w)).
Proof.
  induction w as [|x w IH]; intros fuel lx v needle c rest HR Hs HF Hc Hf; (destruct fuel as [|f]; [cbn [length] in Hf; lia|]); cbn [same_loop]; cbn [app length] in *.
  - destruct (getc_at _ _ _ _ HR Hs) as (lx1 & E & HR1). rewrite E. replace (c =c needle) with false by (symmetry; apply Ascii.eqb_neq; auto). rewrite Nat.add_0_r. eauto.
  - inv HF. destruct (getc_at _ _ _ _ HR Hs) as (lx1 & E & HR1). rewrite E. rewrite Ascii.eqb_refl.
    apply skipn_cons in Hs as (S1 & S2 & S3).
    destruct (IH f lx1 (S v) x c rest HR1 S3 H2 Hc) as (lx2 & I1 & I2); [lia|]. exists lx2. split; auto. replace (v + S (length w)) with (S v + length w) by lia. auto.
Qed.
Lemma str_at : forall w fuel lx v rest, R lx v -> skipn v inp = w ++ "'"%char :: rest -> ~ In "'"%char w -> length w < fuel ->
  exists lx', str_loop inp fuel lx = (true, lx') /\ R lx' (S (v + length w)).
Proof.
  induction w as [|x w IH]; intros fuel lx v rest HR Hs HF Hf; (destruct fuel as [|f]; [cbn [length] in Hf; lia|]); cbn [str_loop]; cbn [app length] in *.
  - destruct (getc_at _ _ _ _ HR Hs) as (lx1 & E & HR1). rewrite E. rewrite Ascii.eqb_refl. rewrite Nat.add_0_r. eauto.
  - destruct (getc_at _ _ _ _ HR Hs) as (lx1 & E & HR1). rewrite E.
    replace (x =c "'"%char) with false by (symmetry; apply Ascii.eqb_neq; intros ->; apply HF; left; auto).
    apply skipn_cons in Hs as (S1 & S2 & S3).
    destruct (IH f lx1 (S v) rest HR1 S3) as (lx2 & I1 & I2); [intros H; apply HF; right; auto|lia|]. exists lx2. split; auto. replace (v + S (length w)) with (S v + length w) by lia. auto.
Qed.
Lemma comment_at : forall w fuel lx v rest, R lx v -> skipn v inp = w ++ NL :: rest -> ~ In NL w -> length w < fuel ->
  exists lx', comment_loop inp fuel lx = (true, lx') /\ R lx' (S (v + length w)).
Proof.
  induction w as [|x w IH]; intros fuel lx v rest HR Hs HF Hf; (destruct fuel as [|f]; [cbn [length] in Hf; lia|]); cbn [comment_loop]; cbn [app length] in *.
  - destruct (getc_at _ _ _ _ HR Hs) as (lx1 & E & HR1). rewrite E. rewrite Ascii.eqb_refl. rewrite Nat.add_0_r. eauto.
  - destruct (getc_at _ _ _ _ HR Hs) as (lx1 & E & HR1). rewrite E.
    replace (x =c NL) with false by (symmetry; apply Ascii.eqb_neq; intros ->; apply HF; left; auto).
    apply skipn_cons in Hs as (S1 & S2 & S3).
    destruct (IH f lx1 (S v) rest HR1 S3) as (lx2 & I1 & I2); [intros H; apply HF; right; auto|lia|]. exists lx2. split; auto. replace (v + S (length w)) with (S v + length w) by lia. auto.
Qed.

(** ** Numerals *)
(** The digits are [d :: ds], [d] has been read. *)
Lemma int_at : arith_ok ar -> forall ds fuel lx v rest d n ovf, R lx v -> v <= L -> skipn v inp = ds ++ rest ->
  isdigit d = true -> Forall (fun c => isdigit c = true) ds -> match rest with [] => True | c :: _ => isdigit c = false end ->
  i32 n -> (0 <= n)%Z \/ ovf = true -> length ds + 1 < fuel ->
  exists lx' m o v', int_loop ar inp fuel lx d n ovf = (Some (m, o), lx') /\ i32 m /\
    R lx' (S v') /\ (rest = [] /\ v' = L \/ rest <> [] /\ v' = v + length ds) /\
    let x := fold_left (fun n c => (n * 10 + digit c)%Z) (d :: ds) n in
    (ovf = false -> (x < 2 ^ 31)%Z -> m = x /\ o = false) /\ (ovf = true \/ (2 ^ 31 <= x)%Z -> o = true).
Proof.
  intros (AM & AA). induction ds as [|d' ds IH]; intros fuel lx v rest d n ovf HR Hv Hs Hd HF Hr Hn Hpos Hf;
    (destruct fuel as [|f]; [cbn [length] in Hf; lia|]); cbn [int_loop]; rewrite Hd; cbn [app length] in *.
  all: pose proof (digit_bound d Hd) as Hdb.
  all: pose proof (AM n 10%Z Hn ltac:(unfold i32; lia)) as M.
  all: assert (STEP : exists n2 o, (let '(o1, n1) := a_mul ar n 10 in let '(o, n2) := if o1 then (true, n1) else a_add ar n1 (digit d) in (n2, o)) = (n2, o) /\ i32 n2 /\
         (ovf = false -> (n * 10 + digit d < 2 ^ 31)%Z -> n2 = (n * 10 + digit d)%Z /\ o = false) /\ (ovf = false -> (2 ^ 31 <= n * 10 + digit d)%Z -> o = true)).
  1, 3: destruct (a_mul ar n 10) as [o1 n1]; cbn [fst snd] in M;
    destruct ((- 2 ^ 31 <=? n * 10) && (n * 10 <? 2 ^ 31))%Z eqn:EM;
    [ injection M; intros -> ->; apply andb_true_iff in EM as [EM1 EM2]; apply Z.leb_le in EM1; apply Z.ltb_lt in EM2;
      pose proof (AA (n * 10)%Z (digit d) ltac:(unfold i32 in *; lia) ltac:(unfold i32; lia)) as A;
      destruct (a_add ar (n * 10) (digit d)) as [o2 n2]; cbn [fst snd] in A;
      destruct ((- 2 ^ 31 <=? n * 10 + digit d) && (n * 10 + digit d <? 2 ^ 31))%Z eqn:EA;
      [ injection A; intros -> ->; apply andb_true_iff in EA as [EA1 EA2]; apply Z.leb_le in EA1; apply Z.ltb_lt in EA2;
        exists (n * 10 + digit d)%Z, false; split; [auto|]; split; [unfold i32; lia|]; split; [auto|lia]
      | destruct A as [-> A2]; exists n2, true; split; [auto|]; split; [auto|]; split;
        [intros HO HL; destruct Hpos as [Hpos|Hpos]; [|congruence]; apply andb_false_iff in EA; rewrite Z.leb_gt, Z.ltb_ge in EA; lia|auto] ]
    | destruct M as [-> M2]; exists n1, true; split; [auto|]; split; [auto|]; split;
      [intros HO HL; destruct Hpos as [Hpos|Hpos]; [|congruence]; apply andb_false_iff in EM; rewrite Z.leb_gt, Z.ltb_ge in EM; lia|auto] ].
  all: destruct STEP as (n2 & o & ST & Hn2 & ST1 & ST2); destruct (a_mul ar n 10) as [o1 n1]; destruct (if o1 then (true, n1) else a_add ar n1 (digit d)) as [o' n2'];
    injection ST; intros -> ->; clear ST.
  - destruct rest as [|c rest].
    + assert (v = L). { apply (f_equal (@length byte)) in Hs. rewrite skipn_length in Hs. cbn [length] in Hs. lia. } subst v.
      destruct (getc_end lx HR) as (lx1 & E & HR1). rewrite E. destruct f as [|f]; [lia|]. cbn [int_loop]. change (isdigit NUL) with false. cbv iota.
      exists lx1, n2, (ovf || o), L. split; auto. split; auto. split; auto. split; auto. cbn [fold_left].
      split; [intros -> Hx; destruct (ST1 eq_refl Hx) as [-> ->]; auto|].
      intros [->|Hx]; auto. destruct ovf; auto.
    + destruct (getc_at _ _ _ _ HR Hs) as (lx1 & E & HR1). rewrite E. destruct f as [|f]; [lia|]. cbn [int_loop]. rewrite Hr.
      exists lx1, n2, (ovf || o), v. split; auto. split; auto. split; auto. split; [right; split; [discriminate|lia]|]. cbn [fold_left].
      split; [intros -> Hx; destruct (ST1 eq_refl Hx) as [-> ->]; auto|].
      intros [->|Hx]; auto. destruct ovf; auto.
  - inv HF. destruct (getc_at _ _ _ _ HR Hs) as (lx1 & E & HR1). rewrite E. apply skipn_cons in Hs as (S1 & S2 & S3).
    assert (Hp2 : (0 <= n2)%Z \/ ovf || o = true).
    { destruct ovf; [right; auto|]. destruct Hpos as [Hpos|Hpos]; [|discriminate].
      destruct (Z_lt_le_dec (n * 10 + digit d) (2 ^ 31)) as [Hx|Hx]; [destruct (ST1 eq_refl Hx) as [-> _]; left; lia|right; apply ST2; auto]. }
    destruct (IH f lx1 (S v) rest d' n2 (ovf || o) HR1 S1 S3 H1 H2 Hr Hn2 Hp2) as (lx' & m & oo & v' & I1 & I2 & I3 & I4 & I5 & I6); [lia|].
    exists lx', m, oo, v'. split; auto. split; auto. split; auto. split; [destruct I4 as [I4|[I4 I4']]; [left; auto|right; split; auto; lia]|].
    cbn [fold_left]. cbn [fold_left] in I5, I6. split.
    + intros -> Hx. destruct Hpos as [Hpos|Hpos]; [|discriminate].
      pose proof (digit_bound d' H1). pose proof (dval_mono ds ((n * 10 + digit d) * 10 + digit d')%Z H2 ltac:(lia)).
      destruct (ST1 eq_refl ltac:(lia)) as [-> ->]. apply I5; auto.
    + intros [->|Hx]; [apply I6; auto|]. destruct ovf; [apply I6; auto|]. cbn [orb] in *.
      destruct (Z_lt_le_dec (n * 10 + digit d) (2 ^ 31)) as [Hy|Hy].
      * destruct (ST1 eq_refl Hy) as [-> ->]. apply I6; auto.
      * apply I6. left. apply ST2; auto.
Qed.

(** The text of a numeral; [q]: quoted. *)
Definition num_text (neg q : bool) (ds : bytes) : bytes :=
  (if q then ["'"%char] else []) ++ (if neg then ["-"%char] else []) ++ ds ++ (if q then ["'"%char] else []).
Definition num_val (neg : bool) (ds : bytes) : Z := if neg then (- dval ds)%Z else dval ds.
Definition num_follow (q : bool) (rest : bytes) : Prop :=
  if q then True else match rest with [] => True | c :: _ => isdigit c = false end.

(** After the quote and the sign: the digits and what is left. *)
Lemma digits_at : arith_ok ar -> forall (q neg : bool) lx v d ds rest st,
  R lx v -> v <= L -> skipn v inp = ds ++ (if q then ["'"%char] else []) ++ rest -> s_off st <= v ->
  isdigit d = true -> Forall (fun c => isdigit c = true) ds -> num_follow q rest ->
  exists lx' m o,
    match int_loop ar inp (FUEL inp) lx d 0 false with
    | (None, lx) => (None, lx)
    | (Some (n, ovf), lx) =>
        let lx := if q then lx else ungetc inp lx in
        let '(o, v) := a_mul ar n (if neg then (-1)%Z else 1%Z) in
        (Some (YTok Integer None v (slice inp (s_off st) (off lx)), ovf || o), lx)
    end = (Some (YTok Integer None m (slice inp (s_off st) (v + length ds + (if q then 1 else 0))), o), lx') /\
    Rat lx' rest /\
    ((dval (d :: ds) < 2 ^ 31)%Z -> m = num_val neg (d :: ds) /\ o = false) /\ ((2 ^ 31 <= dval (d :: ds))%Z -> o = true).
Proof.
  intros AOK q neg lx v d ds rest st HR Hv Hs Hst Hd HF Hfol.
  destruct (int_at AOK ds (FUEL inp) lx v ((if q then ["'"%char] else []) ++ rest) d 0%Z false HR Hv Hs Hd HF) as (lx1 & m & o & v' & E & Hm & HR1 & Hv' & X1 & X2).
  { destruct q; [reflexivity|exact Hfol]. }
  { unfold i32; lia. }
  { left; lia. }
  { pose proof (skipn_app_n _ _ _ Hs) as (_ & HH). specialize (HH Hv). unfold FUEL. lia. }
  rewrite E. change (fold_left (fun n c => (n * 10 + digit c)%Z) (d :: ds) 0%Z) with (dval (d :: ds)) in X1, X2.
  destruct AOK as (AM & _). pose proof (AM m (if neg then (-1)%Z else 1%Z) Hm ltac:(destruct neg; unfold i32; lia)) as M.
  destruct (a_mul ar m (if neg then (-1)%Z else 1%Z)) as [o2 m2].
  assert (OFF : off (if q then lx1 else ungetc inp lx1) = v + length ds + (if q then 1 else 0) /\ Rat (if q then lx1 else ungetc inp lx1) rest).
  { destruct (skipn_app_n _ _ _ Hs) as (Hs2 & Hv2). specialize (Hv2 Hv). destruct q; cbn [app] in *.
    - destruct Hv' as [[Hv' _]|[_ ->]]; [discriminate|].
      destruct (skipn_cons _ _ _ Hs2) as (S1 & S2 & S3).
      split; [rewrite (R_off _ _ _ HR1), clamp_id; lia|]. exists (S (v + length ds)). split; auto.
    - destruct Hv' as [[Hr ->]|[Hr ->]].
      + subst rest. apply unget_past in HR1. split; [|exists (S L); auto].
        rewrite (R_off _ _ _ HR1). unfold clamp.
        apply (f_equal (@length byte)) in Hs2. rewrite skipn_length in Hs2. cbn [length] in Hs2. lia.
      + destruct rest as [|c rest]; [congruence|]. destruct (skipn_cons _ _ _ Hs2) as (S1 & S2 & S3).
        apply unget_at in HR1; auto. split; [rewrite (R_off _ _ _ HR1), clamp_id; lia|]. exists (v + length ds). split; auto. }
  destruct OFF as (OFF & HRat). cbv zeta. rewrite OFF. exists (if q then lx1 else ungetc inp lx1), m2, (o || o2).
  split; [destruct q; auto|]. split; auto.
  pose proof (dval_mono (d :: ds) 0%Z ltac:(constructor; auto) ltac:(lia)) as Hpos. change (0 <= dval (d :: ds))%Z in Hpos.
  split.
  - intros Hx. destruct (X1 eq_refl Hx) as [-> ->].
    replace ((- 2 ^ 31 <=? dval (d :: ds) * (if neg then -1 else 1)) && (dval (d :: ds) * (if neg then -1 else 1) <? 2 ^ 31))%Z with true in M.
    + injection M; intros -> ->. split; auto. unfold num_val. destruct neg; lia.
    + symmetry. apply andb_true_iff. rewrite Z.leb_le, Z.ltb_lt. destruct neg; lia.
  - intros Hx. rewrite X2; auto.
Qed.

Lemma isdigit_not : forall c, isdigit c = true -> (c =c "'"%char) = false /\ (c =c "-"%char) = false.
Proof.
  intros c H. destruct c as [b0 b1 b2 b3 b4 b5 b6 b7].
  destruct b0, b1, b2, b3, b4, b5, b6, b7; vm_compute in H; try discriminate; auto.
Qed.

Lemma read_integer_at : arith_ok ar -> forall neg q d ds rest lx v,
  R lx v -> v <= L -> skipn v inp = num_text neg q (d :: ds) ++ rest ->
  isdigit d = true -> Forall (fun c => isdigit c = true) ds -> num_follow q rest ->
  exists lx' m o, read_integer ar inp lx = (Some (YTok Integer None m (num_text neg q (d :: ds)), o), lx') /\ Rat lx' rest /\
    ((dval (d :: ds) < 2 ^ 31)%Z -> m = num_val neg (d :: ds) /\ o = false) /\ ((2 ^ 31 <= dval (d :: ds))%Z -> o = true).
Proof.
  intros AOK neg q d ds rest lx v HR Hv Hs Hd HF Hfol.
  pose proof (slice_at _ _ _ Hs) as SL.
  assert (Hst : s_off (l_st lx) = v) by (rewrite (R_st _ _ _ HR); cbn [s_off mkst]; apply clamp_id; auto).
  unfold num_text in Hs, SL |- *. destruct (isdigit_not d Hd) as [D1 D2].
  assert (FIN : forall lx1 v1 q' neg', R lx1 v1 -> v1 <= L -> skipn v1 inp = ds ++ (if q' : bool then ["'"%char] else []) ++ rest -> num_follow q' rest -> v <= v1 ->
     v1 + length ds + (if q' then 1 else 0) = v + length (num_text neg q (d :: ds)) -> neg' = neg ->
     exists lx' m o,
    match int_loop ar inp (FUEL inp) lx1 d 0 false with
    | (None, lx) => (None, lx)
    | (Some (n, ovf), lx1) =>
        let lx1 := if q' then lx1 else ungetc inp lx1 in
        let '(o, v) := a_mul ar n (if neg' : bool then (-1)%Z else 1%Z) in
        (Some (YTok Integer None v (slice inp (s_off (l_st lx)) (off lx1)), ovf || o), lx1)
    end = (Some (YTok Integer None m (num_text neg q (d :: ds)), o), lx') /\ Rat lx' rest /\
    ((dval (d :: ds) < 2 ^ 31)%Z -> m = num_val neg (d :: ds) /\ o = false) /\ ((2 ^ 31 <= dval (d :: ds))%Z -> o = true)).
  { intros lx1 v1 q' neg' HR1 Hv1 Hs1 Hfol' Hle Hlen ->.
    destruct (digits_at AOK q' neg lx1 v1 d ds rest (l_st lx) HR1 Hv1 Hs1) as (lx' & m & o & E & X); auto; [lia|].
    exists lx', m, o. rewrite E. split; auto. rewrite Hst, Hlen. fold (num_text neg q (d :: ds)) in SL. rewrite SL. auto. }
  unfold num_text in FIN. unfold read_integer.
  destruct q, neg; cbn [app] in *; destruct (getc_at _ _ _ _ HR Hs) as (lx1 & E1 & HR1); rewrite E1; apply skipn_cons in Hs as (S1 & _ & Hs1).
  - change ("'"%char =c "'"%char) with true. cbv iota.
    destruct (getc_at _ _ _ _ HR1 Hs1) as (lx2 & E2 & HR2); rewrite E2. apply skipn_cons in Hs1 as (S2 & _ & Hs2).
    change (isdigit "-"%char) with false. change ("-"%char =c "-"%char) with true. cbv iota.
    destruct (getc_at _ _ _ _ HR2 Hs2) as (lx3 & E3 & HR3); rewrite E3, Hd. apply skipn_cons in Hs2 as (S3 & _ & Hs3). cbn [negb]. cbv iota.
    rewrite <- app_assoc in Hs3.
    refine (FIN lx3 _ true true HR3 _ Hs3 _ _ _ eq_refl); auto; try lia. cbn [length]. rewrite app_length. cbn [length]. lia.
  - change ("'"%char =c "'"%char) with true. cbv iota.
    destruct (getc_at _ _ _ _ HR1 Hs1) as (lx2 & E2 & HR2); rewrite E2. apply skipn_cons in Hs1 as (S2 & _ & Hs2). rewrite Hd. cbn [negb]. cbv iota.
    rewrite <- app_assoc in Hs2.
    refine (FIN lx2 _ true false HR2 _ Hs2 _ _ _ eq_refl); auto; try lia. cbn [length]. rewrite app_length. cbn [length]. lia.
  - change ("-"%char =c "'"%char) with false. cbv iota. change (isdigit "-"%char) with false. change ("-"%char =c "-"%char) with true. cbv iota.
    destruct (getc_at _ _ _ _ HR1 Hs1) as (lx2 & E2 & HR2); rewrite E2, Hd. apply skipn_cons in Hs1 as (S2 & _ & Hs2). cbn [negb]. cbv iota.
    rewrite <- app_assoc in Hs2.
    refine (FIN lx2 _ false true HR2 _ Hs2 _ _ _ eq_refl); auto; try lia. cbn [length]. rewrite app_length. cbn [length]. lia.
  - rewrite D1. cbv iota. rewrite Hd. cbn [negb]. cbv iota. rewrite <- app_assoc in Hs1.
    refine (FIN lx1 _ false false HR1 _ Hs1 _ _ _ eq_refl); auto; try lia. cbn [length]. rewrite app_length. cbn [length]. lia.
Qed.

(** Text that is no numeral is left alone. *)
Definition no_num (s : bytes) : Prop :=
  match s with
  | [] => False
  | c :: r =>
      if c =c "'"%char then
        match r with
        | [] => False
        | c2 :: r2 => isdigit c2 = false /\ (c2 = "-"%char -> match r2 with [] => False | c3 :: _ => isdigit c3 = false end)
        end
      else isdigit c = false /\ (c = "-"%char -> match r with [] => False | c2 :: _ => isdigit c2 = false end)
  end.
Lemma read_integer_none : forall lx v s, R lx v -> skipn v inp = s -> no_num s ->
  exists lx', read_integer ar inp lx = (None, lx') /\ R lx' v.
Proof.
  intros lx v s HR Hs HN. unfold no_num in HN. destruct s as [|c r]; [contradiction|].
  destruct (getc_at _ _ _ _ HR Hs) as (lx1 & E1 & HR1). apply skipn_cons in Hs as (S1 & _ & Hs1). unfold read_integer. rewrite E1.
  destruct (c =c "'"%char) eqn:EQ.
  - destruct r as [|c2 r2]; [contradiction|]. destruct HN as (N1 & N2).
    destruct (getc_at _ _ _ _ HR1 Hs1) as (lx2 & E2 & HR2). apply skipn_cons in Hs1 as (S2 & _ & Hs2). rewrite E2, N1.
    destruct (c2 =c "-"%char) eqn:ED.
    + apply Ascii.eqb_eq in ED. specialize (N2 ED). destruct r2 as [|c3 r3]; [contradiction|].
      destruct (getc_at _ _ _ _ HR2 Hs2) as (lx3 & E3 & HR3). apply skipn_cons in Hs2 as (S3 & _ & Hs3). rewrite E3, N2. cbn [negb]. cbv iota.
      eexists. split; [reflexivity|]. apply unget_at in HR3; auto. apply unget_at in HR3; auto. apply unget_at in HR3; auto.
    + cbn [negb]. cbv iota. eexists. split; [reflexivity|]. apply unget_at in HR2; auto. apply unget_at in HR2; auto.
  - destruct HN as (N1 & N2). rewrite N1. destruct (c =c "-"%char) eqn:ED.
    + apply Ascii.eqb_eq in ED. specialize (N2 ED). destruct r as [|c2 r2]; [contradiction|].
      destruct (getc_at _ _ _ _ HR1 Hs1) as (lx2 & E2 & HR2). apply skipn_cons in Hs1 as (S2 & _ & Hs2). rewrite E2, N2. cbn [negb]. cbv iota.
      eexists. split; [reflexivity|]. apply unget_at in HR2; auto. apply unget_at in HR2; auto.
    + cbn [negb]. cbv iota. eexists. split; [reflexivity|]. apply unget_at in HR1; auto.
Qed.

(** ** Tokens *)
(** What a text consists of: words, numerals, colons, dashes, document marks and quoted strings. *)
Inductive lexeme :=
| LWord (w : bytes)
| LNum (neg q : bool) (ds : bytes)
| LMark (c : byte) (n : nat)
| LStr (s : bytes).
Definition ltext (l : lexeme) : bytes :=
  match l with
  | LWord w => w
  | LNum neg q ds => num_text neg q ds
  | LMark c n => repeat c (S n)
  | LStr s => "'"%char :: s ++ ["'"%char]
  end.
(** A well-formed lexeme followed by [rest]. *)
Definition lex_ok (l : lexeme) (rest : bytes) : Prop :=
  match l with
  | LWord w => match w with [] => False | c :: w => (isalpha c || (c =c "_"%char)) = true /\ Forall (fun c => wordc c = true) w end /\
               match rest with [] => True | c :: _ => wordc c = false end
  | LNum neg q ds => ds <> [] /\ Forall (fun c => isdigit c = true) ds /\ num_follow q rest /\ (dval ds < 2 ^ 31)%Z
  | LMark c n => (c = "-"%char \/ c = "."%char \/ c = ":"%char) /\ match rest with [] => False | d :: _ => d <> c /\ isdigit d = false end
  | LStr s => ~ In "'"%char s /\ no_num ("'"%char :: s ++ ["'"%char])
  end.
Definition kw_tok (s : bytes) : ytok :=
  match s with
  | [] => YTok Unknown None 0 []
  | _ => match find_sopt s with
         | None => YTok Unknown None 0 s
         | Some o => YTok (so_type o) (match so_parse o with None => None | Some _ => Some o end) 0 s
         end
  end.
Definition ltok (l : lexeme) : ytok :=
  match l with
  | LWord w => kw_tok w
  | LNum neg q ds => YTok Integer None (num_val neg ds) (num_text neg q ds)
  | LMark c n => kw_tok (repeat c (S n))
  | LStr s => match y_type (kw_tok s) with Unknown => YTok YString None 0 s | _ => kw_tok s end
  end.

Lemma kw_tok_str : forall s, y_str (kw_tok s) = s.
Proof. intros [|c s]; auto. unfold kw_tok. destruct (find_sopt (c :: s)); auto. Qed.
Lemma keyword_at : forall lx v v' s st, R lx v' -> s_off st = v -> clamp inp v' = v + length s -> slice inp v (v + length s) = s ->
  yaml_keyword inp lx st = kw_tok s.
Proof.
  intros lx v v' s st HR Hst Hc HS. unfold yaml_keyword, buffer_slice. rewrite (R_off _ _ _ HR), Hst, Hc.
  replace (v + length s - v) with (length s) by lia. rewrite HS. unfold kw_tok. destruct s as [|c s]; cbn [length]; [reflexivity|].
  cbn [Nat.eqb]. destruct (find_sopt (c :: s)); auto.
Qed.

Lemma alpha_facts : forall c, (isalpha c || (c =c "_"%char)) = true ->
  (c =c "'"%char) = false /\ isdigit c = false /\ c <> "-"%char /\ (c =c "#"%char) = false /\ ~ bl c /\ wordc c = true.
Proof.
  intros c H. destruct c as [b0 b1 b2 b3 b4 b5 b6 b7].
  destruct b0, b1, b2, b3, b4, b5, b6, b7; vm_compute in H; try discriminate; (split; [reflexivity|]; split; [reflexivity|]; split; [discriminate|]; split; [reflexivity|]; split; [|reflexivity]);
    unfold bl; intuition discriminate.
Qed.
Lemma wordc_nbl : forall c, isdigit c = true -> ~ bl c.
Proof.
  intros c H. destruct c as [b0 b1 b2 b3 b4 b5 b6 b7].
  destruct b0, b1, b2, b3, b4, b5, b6, b7; vm_compute in H; try discriminate; unfold bl; intuition discriminate.
Qed.
Lemma ltext_nbl : forall l rest, lex_ok l rest -> match ltext l ++ rest with [] => False | c :: _ => ~ bl c end.
Proof.
  intros [w|neg q ds|c n|s] rest H; cbn [ltext lex_ok] in *.
  - destruct w as [|c w]; [tauto|]. cbn [app]. destruct H as ((H & _) & _). apply (alpha_facts c H).
  - destruct H as (H1 & H2 & _). destruct ds as [|d ds]; [congruence|]. inv H2. unfold num_text. destruct q, neg; cbn [app]; try (unfold bl; intuition discriminate). apply wordc_nbl; auto.
  - destruct H as ([ -> |[ -> | -> ]] & _); cbn [repeat app]; unfold bl; intuition discriminate.
  - cbn [app]. unfold bl; intuition discriminate.
Qed.

Lemma read_at : arith_ok ar -> forall f g l rest lx v, R lx v -> v <= L -> skipn v inp = g ++ ltext l ++ rest -> Forall blank g -> lex_ok l rest ->
  exists lx', yaml_read ar inp (S f) lx = (Some (ltok l), lx') /\ Rat lx' rest.
Proof.
  intros AOK f g l rest lx v HR Hv Hs Hg HL. cbn [yaml_read].
  pose proof (ltext_nbl l rest HL) as HB.
  destruct (els_at lx v g _ HR Hv Hs Hg) as (lx1 & E1 & HR1). { destruct (ltext l ++ rest); auto. }
  destruct (eat_lines_and_spaces inp lx (l_st lx)) as [lx1' st1]. cbn [fst] in E1. subst lx1'.
  destruct (skipn_app_n _ _ _ Hs) as (Hs1 & Hv1). specialize (Hv1 Hv). clear Hs HR Hv st1 HB. clear lx. rename lx1 into lx, HR1 into HR. revert Hs1 Hv1 HR. generalize (v + length g). clear v. intros v Hs Hv HR.
  pose proof (slice_at _ _ _ Hs) as SL.
  destruct l as [w|neg q ds|c n|s]; cbn [ltext lex_ok ltok] in *.
  - destruct w as [|c w]; [tauto|]. destruct HL as ((H1 & H2) & H3). destruct (alpha_facts c H1) as (A1 & A2 & A3 & A4 & _ & A6).
    destruct (read_integer_none lx v _ HR Hs) as (lx2 & E2 & HR2). { cbn [app no_num]. rewrite A1. split; auto. intros ->. congruence. }
    rewrite E2. cbn [app] in Hs. destruct (getc_at _ _ _ _ HR2 Hs) as (lx3 & E3 & HR3). rewrite E3, A4, H1. cbv iota.
    pose proof Hs as Hs0. apply skipn_cons in Hs as (S1 & _ & Hs1).
    destruct (word_at w (FUEL inp) lx3 (S v) rest HR3 S1 Hs1 H2 H3) as (v' & HR4 & Hv').
    { destruct (skipn_app_n _ _ _ Hs1) as (_ & X). specialize (X S1). unfold FUEL. lia. }
    assert (HST : s_off (l_st lx2) = v) by (rewrite (R_st _ _ _ HR2); cbn [s_off mkst]; apply clamp_id; auto).
    destruct (skipn_app_n _ _ _ Hs1) as (Hs2 & Hv2). specialize (Hv2 S1).
    destruct Hv' as [[Hr ->]|[Hr ->]].
    + apply unget_past in HR4. eexists. split; [|exists (S L); eauto]. f_equal. f_equal. eapply keyword_at; eauto.
      subst rest. apply (f_equal (@length byte)) in Hs2. rewrite skipn_length in Hs2. cbn [length] in Hs2. unfold clamp. cbn [length]. lia.
    + destruct rest as [|x rest]; [congruence|]. destruct (skipn_cons _ _ _ Hs2) as (S2 & _ & S3). apply unget_at in HR4; auto.
      eexists. split; [|exists (S v + length w); eauto]. f_equal. f_equal. eapply keyword_at; eauto. cbn [length]. rewrite clamp_id; lia.
  - destruct HL as (H1 & H2 & H3 & H4). destruct ds as [|d ds]; [congruence|]. inv H2.
    destruct (read_integer_at AOK neg q d ds rest lx v HR Hv Hs) as (lx2 & m & o & E2 & HR2 & X1 & X2); auto. rewrite E2.
    destruct (X1 H4) as [-> ->]. eauto.
  - destruct HL as (H1 & H2). destruct rest as [|x rest]; [contradiction|]. destruct H2 as (H2 & H3).
    destruct (read_integer_none lx v _ HR Hs) as (lx2 & E2 & HR2).
    { destruct n; cbn [repeat app no_num]; destruct H1 as [ -> |[ -> | -> ]]; cbv [Ascii.eqb Bool.eqb]; (split; [reflexivity|]); intros; auto; discriminate. }
    rewrite E2. change (repeat c (S n) ++ x :: rest) with (c :: (repeat c n ++ x :: rest)) in Hs.
    destruct (getc_at _ _ _ _ HR2 Hs) as (lx3 & E3 & HR3). rewrite E3.
    replace (c =c "#"%char) with false by (destruct H1 as [ -> |[ -> | -> ]]; auto).
    replace (isalpha c || (c =c "_"%char)) with false by (destruct H1 as [ -> |[ -> | -> ]]; auto).
    replace ((c =c "-"%char) || (c =c "."%char) || (c =c ":"%char)) with true by (destruct H1 as [ -> |[ -> | -> ]]; auto).
    apply skipn_cons in Hs as (S1 & _ & Hs1). destruct (skipn_app_n _ _ _ Hs1) as (Hs2 & Hv2). specialize (Hv2 S1). rewrite repeat_length in *.
    destruct (same_at (repeat c n) (FUEL inp) lx3 (S v) c x rest HR3 Hs1) as (lx4 & E4 & HR4).
    { apply Forall_forall. intros y Hy. apply repeat_spec in Hy. auto. }
    { auto. }
    { rewrite repeat_length. unfold FUEL. lia. }
    rewrite E4. rewrite repeat_length in HR4.
    assert (HST : s_off (l_st lx2) = v) by (rewrite (R_st _ _ _ HR2); cbn [s_off mkst]; apply clamp_id; auto).
    destruct (skipn_cons _ _ _ Hs2) as (S2 & _ & S3). apply unget_at in HR4; auto.
    eexists. split; [|exists (S v + n); eauto]. f_equal. f_equal. eapply keyword_at; eauto.
    + cbn [length repeat]. rewrite repeat_length, clamp_id; lia.
    + rewrite repeat_length. auto.
  - destruct HL as (H1 & H2).
    destruct (read_integer_none lx v _ HR Hs) as (lx2 & E2 & HR2).
    { unfold no_num in *. cbn [app] in *. rewrite Ascii.eqb_refl in *. destruct (s ++ ["'"%char]) as [|c2 r2]; [contradiction|]. cbn [app]. destruct H2 as [H2 H3]. split; auto. intros Hc. specialize (H3 Hc). destruct r2; [contradiction|]. auto. }
    rewrite E2. cbn [app] in Hs. destruct (getc_at _ _ _ _ HR2 Hs) as (lx3 & E3 & HR3). rewrite E3.
    change ("'"%char =c "#"%char) with false. change (isalpha "'"%char || ("'"%char =c "_"%char)) with false.
    change (("'"%char =c "-"%char) || ("'"%char =c "."%char) || ("'"%char =c ":"%char)) with false. change ("'"%char =c "'"%char) with true. cbv iota.
    apply skipn_cons in Hs as (S1 & _ & Hs1). rewrite <- app_assoc in Hs1. cbn [app] in Hs1. destruct (skipn_app_n _ _ _ Hs1) as (Hs2 & Hv2). specialize (Hv2 S1).
    destruct (str_at s (FUEL inp) lx3 (S v) rest HR3 Hs1 H1) as (lx4 & E4 & HR4). { unfold FUEL. lia. }
    rewrite E4. destruct (skipn_cons _ _ _ Hs2) as (S2 & _ & S3). apply unget_at in HR4; auto.
    assert (HST : s_off (l_st lx3) = S v) by (rewrite (R_st _ _ _ HR3); cbn [s_off mkst]; apply clamp_id; auto).
    rewrite (keyword_at _ (S v) _ s _ HR4 HST) by (rewrite ?clamp_id; try lia; eapply slice_at; eauto).
    destruct (getc_at _ _ _ _ HR4 Hs2) as (lx5 & E5 & HR5). rewrite E5. rewrite kw_tok_str. eexists. split; [reflexivity|]. exists (S (S v + length s)). split; auto.
Qed.

(** ** Gaps: blanks and comments *)
Record gap := Gap { g_blank : bytes; g_comments : list (bytes * bytes) }.
Definition gtext (g : gap) : bytes := g_blank g ++ flat_map (fun '(t, b) => "#"%char :: t ++ NL :: b) (g_comments g).
Definition gap_ok (g : gap) : Prop := Forall blank (g_blank g) /\ Forall (fun '(t, b) => ~ In NL t /\ Forall blank b) (g_comments g).

Lemma read_comments : forall cs b lx v rest, R lx v -> v <= L -> skipn v inp = b ++ flat_map (fun '(t, b) => "#"%char :: t ++ NL :: b) cs ++ rest ->
  Forall blank b -> Forall (fun '(t, b) => ~ In NL t /\ Forall blank b) cs ->
  exists lx' v' b', (forall f, yaml_read ar inp (length cs + S f) lx = yaml_read ar inp (S f) lx') /\ R lx' v' /\ v' <= L /\ skipn v' inp = b' ++ rest /\ Forall blank b' /\ v + length cs <= v'.
Proof.
  induction cs as [|[t b1] cs IH]; intros b lx v rest HR Hv Hs Hb HF; cbn [flat_map app length] in *.
  - exists lx, v, b. repeat (split; auto). lia.
  - inv HF. destruct H1 as (N1 & N2). repeat (rewrite <- ?app_assoc in Hs; cbn [app] in Hs).
    destruct (els_at lx v b _ HR Hv Hs Hb) as (lx1 & E1 & HR1). { unfold bl; intuition discriminate. }
    destruct (skipn_app_n _ _ _ Hs) as (Hs1 & Hv1). specialize (Hv1 Hv).
    destruct (read_integer_none lx1 _ _ HR1 Hs1) as (lx2 & E2 & HR2). { cbn [no_num]. cbv [Ascii.eqb Bool.eqb]. split; [reflexivity|discriminate]. }
    destruct (getc_at _ _ _ _ HR2 Hs1) as (lx3 & E3 & HR3).
    apply skipn_cons in Hs1 as (S1 & _ & Hs2).
    destruct (skipn_app_n _ _ _ Hs2) as (Hs3 & Hv3). specialize (Hv3 S1). destruct (skipn_cons _ _ _ Hs3) as (S4 & _ & Hs4).
    destruct (comment_at t (FUEL inp) lx3 _ _ HR3 Hs2 N1) as (lx4 & E4 & HR4). { unfold FUEL. lia. }
    destruct (IH b1 lx4 _ rest HR4 S4 Hs4 N2 H2) as (lx' & v' & b' & I1 & I2 & I3 & I4 & I5 & I6).
    exists lx', v', b'. split; [|split; [auto|]; split; [auto|]; split; [auto|]; split; [auto|lia]].
    intros f. rewrite <- I1. change (S (length cs) + S f) with (S (length cs + S f)). cbn [yaml_read]. destruct (eat_lines_and_spaces inp lx (l_st lx)) as [lx1' st1]. cbn [fst] in E1. subst lx1'.
    rewrite E2, E3. change ("#"%char =c "#"%char) with true. cbv iota. rewrite E4. auto.
Qed.

Lemma read_eof : forall lx v b f, R lx v -> (v <= L /\ skipn v inp = b /\ Forall blank b \/ v = S L) ->
  exists lx', yaml_read ar inp (S f) lx = (Some eof_tok, lx') /\ l_bad lx' = false.
Proof.
  intros lx v b f HR H. cbn [yaml_read].
  assert (X : exists lx1 v1, fst (eat_lines_and_spaces inp lx (l_st lx)) = lx1 /\ R lx1 v1 /\ L <= v1 <= S L).
  { destruct H as [(Hv & Hs & Hb)| ->].
    - rewrite <- (app_nil_r b) in Hs. destruct (els_at lx v b [] HR Hv Hs Hb I) as (lx1 & E1 & HR1). exists lx1, (v + length b). split; auto. split; auto.
      apply (f_equal (@length byte)) in Hs. rewrite skipn_length, app_length in Hs. cbn [length] in Hs. lia.
    - destruct (els_R inp lx (S L) (S L) HR (le_n _)) as (lx' & E & HR' & _ & Hge). rewrite (R_st _ _ _ HR), E.
      exists lx', (fst (p_els inp (S L) (S L))). split; auto. split; auto. pose proof (R_le _ _ _ HR'). lia. }
  destruct X as (lx1 & v1 & E1 & HR1 & Hv1). destruct (eat_lines_and_spaces inp lx (l_st lx)) as [lx1' st1]. cbn [fst] in E1. subst lx1'.
  assert (RI : exists lx2, read_integer ar inp lx1 = (None, lx2) /\ R lx2 (S L)).
  { unfold read_integer. assert (v1 = L \/ v1 = S L) as [ -> | -> ] by lia.
    - destruct (getc_end lx1 HR1) as (lx2 & E2 & HR2). rewrite E2. change (NUL =c "'"%char) with false. cbv iota.
      change (isdigit NUL) with false. change (NUL =c "-"%char) with false. cbn [negb]. cbv iota.
      apply unget_past in HR2. eauto.
    - rewrite getc_past; eauto. }
  destruct RI as (lx2 & E2 & HR2). rewrite E2, (getc_past _ HR2). eexists. split; [reflexivity|]. apply (R_bad _ _ _ HR2).
Qed.

(** ** A text *)
Definition text (ls : list (gap * lexeme)) (final : gap) : bytes := flat_map (fun '(g, l) => gtext g ++ ltext l) ls ++ gtext final.
Fixpoint text_ok (ls : list (gap * lexeme)) (final : gap) : Prop :=
  match ls with
  | [] => gap_ok final
  | (g, l) :: ls' => gap_ok g /\ lex_ok l (text ls' final) /\ text_ok ls' final
  end.

Lemma ltext_len : forall l rest, lex_ok l rest -> 1 <= length (ltext l).
Proof.
  intros [w|neg q ds|c n|s] rest H; cbn [ltext lex_ok length repeat] in *; try lia.
  - destruct w; [tauto|]. cbn [length]. lia.
  - destruct H as (H & _). destruct ds; [congruence|]. unfold num_text. rewrite !app_length. cbn [length]. lia.
Qed.
Lemma ltok_not_eof : forall l, y_type (ltok l) <> YEof.
Proof.
  assert (K : forall s, y_type (kw_tok s) <> YEof).
  { intros [|c s]; cbn [kw_tok y_type]; [discriminate|]. destruct (find_sopt (c :: s)) as [o|] eqn:E; cbn [y_type]; [|discriminate].
    unfold find_sopt in E. apply find_some in E as [E _].
    assert (Forall (fun o => so_type o <> YEof) sopts) by (repeat constructor; discriminate). rewrite Forall_forall in H. auto. }
  intros [w|neg q ds|c n|s]; cbn [ltok]; auto; [discriminate|]. pose proof (K s). destruct (y_type (kw_tok s)) eqn:E; cbn [y_type]; congruence.
Qed.
Lemma tokens_at : arith_ok ar -> forall ls final fuel lx, Rat lx (text ls final) -> text_ok ls final -> length (text ls final) < fuel ->
  exists lx', yaml_tokens ar inp fuel lx = (Some (map (fun '(_, l) => ltok l) ls ++ [eof_tok]), lx') /\ l_bad lx' = false.
Proof.
  intros AOK. induction ls as [|[g l] ls IH]; intros final fuel lx HR HO Hf; (destruct fuel as [|f]; [lia|]); cbn [yaml_tokens text_ok map] in *.
  - destruct HO as (G1 & G2). assert (X : exists lx', yaml_read ar inp (FUEL inp) lx = (Some eof_tok, lx') /\ l_bad lx' = false).
    { destruct HR as (v & HR & [(Hv & Hs)|(Hv & Hs)]).
      - unfold text, gtext in Hs. cbn [flat_map app] in Hs. rewrite <- (app_nil_r (flat_map _ _)) in Hs.
        destruct (read_comments _ _ lx v [] HR Hv Hs G1 G2) as (lx' & v' & b' & I1 & I2 & I3 & I4 & I5 & I6).
        replace (FUEL inp) with (length (g_comments final) + S (FUEL inp - S (length (g_comments final)))) by (unfold FUEL in *; lia).
        rewrite I1. rewrite app_nil_r in I4. eapply read_eof; eauto.
      - eapply (read_eof lx v []); eauto. }
    destruct X as (lx' & E & HB). rewrite E. cbn [ytype_eqb y_type eof_tok app]. eauto.
  - destruct HO as ((G1 & G2) & HL & HO).
    destruct HR as (v & HR & [(Hv & Hs)|(Hv & Hs)]).
    2: { exfalso. pose proof (ltext_len _ _ HL). apply (f_equal (@length byte)) in Hs. unfold text in Hs. cbn [flat_map] in Hs. rewrite !app_length in Hs. cbn [length] in Hs. lia. }
    assert (Hs' : skipn v inp = g_blank g ++ flat_map (fun '(t, b) => "#"%char :: t ++ NL :: b) (g_comments g) ++ ltext l ++ text ls final).
    { rewrite Hs. unfold text, gtext. cbn [flat_map]. rewrite <- !app_assoc. auto. }
    destruct (read_comments _ _ lx v _ HR Hv Hs' G1 G2) as (lx1 & v' & b' & I1 & I2 & I3 & I4 & I5 & I6).
    destruct (read_at AOK (FUEL inp - S (length (g_comments g))) b' l _ lx1 v' I2 I3 I4 I5 HL) as (lx2 & E2 & HR2).
    replace (FUEL inp) with (length (g_comments g) + S (FUEL inp - S (length (g_comments g)))) by (unfold FUEL in *; lia).
    rewrite I1, E2. destruct (ytype_eqb (y_type (ltok l)) YEof) eqn:EY.
    { exfalso. apply (ltok_not_eof l). destruct (y_type (ltok l)); cbn in EY; congruence. }
    destruct (IH final f lx2 HR2 HO) as (lx3 & E3 & HB3).
    { pose proof (ltext_len _ _ HL). unfold text in Hf. cbn [flat_map] in Hf. unfold text. rewrite !app_length in *. lia. }
    rewrite E3. eexists. split; [reflexivity|]. auto.
Qed.
End Text.

Lemma tokenize_text : forall ar, arith_ok ar -> forall ls final, text_ok ls final ->
  exists lx, yaml_tokenize ar (text ls final) = (Some (map (fun '(_, l) => ltok l) ls ++ [eof_tok]), lx) /\ l_bad lx = false.
Proof.
  intros ar AOK ls final HO. unfold yaml_tokenize. apply (tokens_at ar (text ls final) AOK ls final); auto.
  - exists 0. split; [apply R_init|]. left. split; [lia|auto].
  - unfold FUEL. lia.
Qed.

(** ** Every text *)
Section Total.
Variable ar : arith.
Variable inp : bytes.
Notation L := (length inp).
Notation R := (R inp).
Notation vinp := (vinp inp).

Lemma getc_R : forall lx v, R lx v -> (exists c lx', getc inp lx = (Some c, lx') /\ R lx' (S v) /\ v <= L) \/ getc inp lx = (None, lx) /\ v = S L.
Proof.
  intros lx v HR. destruct (nth_error vinp v) as [c|] eqn:E.
  - left. destruct (getc_some _ _ _ _ HR E) as (lx' & E' & HR'). exists c, lx'. split; auto. split; auto. eapply vinp_some; eauto.
  - right. split; [eapply getc_none; eauto|]. eapply vinp_none; eauto. apply (R_le _ _ _ HR).
Qed.
Lemma unget_R : forall lx v, R lx v -> 1 <= v -> exists v', R (ungetc inp lx) v' /\ pred v <= v' <= v.
Proof.
  intros lx v HR Hv. destruct v as [|v]; [lia|]. exists (p_unget inp (S v)). split; [apply ungetc_R; auto|].
  pose proof (p_unget_ge inp v). pose proof (p_unget_le inp (S v)). cbn [pred]. lia.
Qed.
Lemma int_loop_R : forall fuel lx v ch n o, R lx v -> S L - v < fuel -> 1 <= v ->
  exists v', R (snd (int_loop ar inp fuel lx ch n o)) v' /\ v <= v' /\ (fst (int_loop ar inp fuel lx ch n o) <> None -> isdigit ch = true -> v < v').
Proof.
  induction fuel; intros lx v ch n o HR Hf Hv; [lia|]. cbn [int_loop]. destruct (isdigit ch) eqn:ED.
  - destruct (a_mul ar n 10) as [o1 n1]. destruct (if o1 then (true, n1) else a_add ar n1 (digit ch)) as [o2 n2].
    destruct (getc_R _ _ HR) as [(c & lx1 & E & HR1 & HL)|[E ->]]; rewrite E.
    + destruct (IHfuel lx1 (S v) c n2 (o || o2) HR1 ltac:(lia) ltac:(lia)) as (v' & I1 & I2 & _). exists v'. split; auto. split; [lia|intros; lia].
    + exists (S L). cbn [fst snd]. split; auto. split; [lia|congruence].
  - exists v. cbn [snd]. split; auto. split; auto. congruence.
Qed.
Lemma read_integer_R : forall lx v, R lx v -> exists v', R (snd (read_integer ar inp lx)) v' /\ (fst (read_integer ar inp lx) <> None -> v < v') /\ v <= v'.
Proof.
  intros lx v HR. unfold read_integer.
  destruct (getc_R _ _ HR) as [(c & lx1 & E & HR1 & HL)|[E ->]]; rewrite E; [|exists (S L); cbn [fst snd]; split; auto; split; [congruence|lia]].
  assert (X : exists lx2 v2 c2 q, (if c =c "'"%char then match getc inp lx1 with (None, lx) => (None, lx) | (Some c, lx) => (Some (c, true), lx) end else (Some (c, false), lx1)) =
     (match c2 with None => None | Some c2 => Some (c2, q) end, lx2) /\ R lx2 v2 /\ (if q : bool then S v < v2 else S v <= v2) /\ (c2 <> None -> v2 = if q then S (S v) else S v)).
  { destruct (c =c "'"%char).
    - destruct (getc_R _ _ HR1) as [(c2 & lx2 & E2 & HR2 & HL2)|[E2 EL]]; rewrite E2.
      + exists lx2, (S (S v)), (Some c2), true. auto.
      + exists lx1, (S v), None, false. split; [auto|]. split; [auto|]. split; [auto|congruence].
    - exists lx1, (S v), (Some c), false. auto. }
  destruct X as (lx2 & v2 & c2 & q & E2 & HR2 & Hv2 & Hq). rewrite E2. clear E2.
  destruct c2 as [ch|]; [|exists v2; cbn [fst snd]; split; auto; split; [congruence|destruct q; lia]]. specialize (Hq ltac:(discriminate)).
  (* the sign *)
  set (m := if isdigit ch then _ else _).
  assert (Y : exists peek sign ch' lx3 v3, m = (peek, sign, ch', lx3) /\ R lx3 v3 /\ v2 <= v3 /\ (peek = true -> isdigit ch' = true)).
  { subst m. destruct (isdigit ch) eqn:ED; [exists true, 1%Z, ch, lx2, v2; auto|].
    destruct (ch =c "-"%char); [|exists false, 1%Z, ch, lx2, v2; split; [auto|]; split; [auto|]; split; [auto|discriminate]].
    destruct (getc_R _ _ HR2) as [(c3 & lx3 & E3 & HR3 & HL3)|[E3 EL]]; rewrite E3.
    - destruct (isdigit c3) eqn:E3d; [exists true, (-1)%Z, c3, lx3, (S v2); auto|].
      destruct (unget_R _ _ HR3 ltac:(lia)) as (v4 & HR4 & Hv4). cbn [pred] in Hv4.
      exists false, (-1)%Z, c3, (ungetc inp lx3), v4. split; auto. split; auto. split; [lia|discriminate].
    - exists false, 1%Z, ch, lx2, v2. split; [auto|]. split; [auto|]. split; [auto|discriminate]. }
  destruct Y as (peek & sign & ch' & lx3 & v3 & E3 & HR3 & Hv3 & Hp). rewrite E3. clear E3 m. destruct peek; cbn [negb]; cbv iota.
  - specialize (Hp eq_refl). destruct (int_loop_R (FUEL inp) lx3 v3 ch' 0%Z false HR3) as (v4 & HR4 & Hv4 & Hlt); [unfold FUEL; destruct q; lia|destruct q; lia|].
    destruct (int_loop ar inp (FUEL inp) lx3 ch' 0 false) as [[[n ovf]|] lx4]; cbn [fst snd] in *.
    + specialize (Hlt ltac:(discriminate) Hp). destruct (a_mul ar n sign) as [o w]. cbn [fst snd].
      destruct q; [exists v4; split; auto; split; intros; lia|].
      destruct (unget_R _ _ HR4 ltac:(lia)) as (v5 & HR5 & Hv5). exists v5. split; auto. split; intros; lia.
    + exists v4. split; auto. split; [congruence|]. destruct q; lia.
  - cbn [fst snd]. destruct (unget_R _ _ HR3 ltac:(destruct q; lia)) as (v5 & HR5 & Hv5). destruct q.
    + destruct (unget_R _ _ HR5 ltac:(lia)) as (v6 & HR6 & Hv6). exists v6. split; auto. split; [congruence|lia].
    + exists v5. split; auto. split; [congruence|lia].
Qed.
Lemma word_loop_R : forall fuel lx v, R lx v -> S L - v < fuel -> 1 <= v -> exists v', R (ungetc inp (word_loop inp fuel lx)) v' /\ v <= v'.
Proof.
  induction fuel; intros lx v HR Hf Hv; [lia|]. cbn [word_loop].
  destruct (getc_R _ _ HR) as [(c & lx1 & E & HR1 & HL)|[E ->]]; rewrite E.
  - destruct (negb (isspace c) && negb (c =c ":"%char)).
    + destruct (IHfuel lx1 (S v) HR1 ltac:(lia) ltac:(lia)) as (v' & I1 & I2). exists v'. split; auto. lia.
    + destruct (unget_R _ _ HR1 ltac:(lia)) as (v' & HR' & Hv'). exists v'. split; auto. cbn [pred] in Hv'. lia.
  - apply unget_past in HR. eauto.
Qed.
Lemma same_loop_R : forall fuel lx v x, R lx v -> S L - v < fuel -> 1 <= v -> exists v', R (snd (same_loop inp fuel x lx)) v' /\ v <= v' /\ (fst (same_loop inp fuel x lx) = true -> v < v').
Proof.
  induction fuel; intros lx v x HR Hf Hv; [lia|]. cbn [same_loop].
  destruct (getc_R _ _ HR) as [(c & lx1 & E & HR1 & HL)|[E ->]]; rewrite E.
  - destruct (c =c x).
    + destruct (IHfuel lx1 (S v) x HR1 ltac:(lia) ltac:(lia)) as (v' & I1 & I2 & I3). exists v'. split; auto. split; [lia|intros; lia].
    + exists (S v). cbn [snd]. split; auto.
  - exists (S L). cbn [fst snd]. split; auto. split; [lia|discriminate].
Qed.
Lemma str_loop_R : forall fuel lx v, R lx v -> S L - v < fuel -> 1 <= v -> exists v', R (snd (str_loop inp fuel lx)) v' /\ v <= v' /\ (fst (str_loop inp fuel lx) = true -> v < v').
Proof.
  induction fuel; intros lx v HR Hf Hv; [lia|]. cbn [str_loop].
  destruct (getc_R _ _ HR) as [(c & lx1 & E & HR1 & HL)|[E ->]]; rewrite E.
  - destruct (c =c "'"%char).
    + exists (S v). cbn [snd]. split; auto.
    + destruct (IHfuel lx1 (S v) HR1 ltac:(lia) ltac:(lia)) as (v' & I1 & I2 & I3). exists v'. split; auto. split; [lia|intros; lia].
  - exists (S L). cbn [fst snd]. split; auto. split; [lia|discriminate].
Qed.
Lemma comment_loop_R : forall fuel lx v, R lx v -> S L - v < fuel -> exists v', R (snd (comment_loop inp fuel lx)) v' /\ v <= v'.
Proof.
  induction fuel; intros lx v HR Hf; [lia|]. cbn [comment_loop].
  destruct (getc_R _ _ HR) as [(c & lx1 & E & HR1 & HL)|[E ->]]; rewrite E.
  - destruct (c =c NL).
    + exists (S v). cbn [snd]. split; auto.
    + destruct (IHfuel lx1 (S v) HR1 ltac:(lia)) as (v' & I1 & I2). exists v'. split; auto. lia.
  - exists (S L). auto.
Qed.
Lemma yaml_read_R : forall fuel lx v, R lx v -> S L - v < fuel -> exists v', R (snd (yaml_read ar inp fuel lx)) v' /\ v <= v' /\
  (forall t, fst (yaml_read ar inp fuel lx) = Some t -> t = eof_tok \/ v < v').
Proof.
  induction fuel; intros lx v HR Hf; [lia|]. cbn [yaml_read].
  destruct (els_R inp lx v v HR (le_n _)) as (lx1 & E1 & HR1 & _ & Hge). rewrite <- (R_st _ _ _ HR) in E1. rewrite E1.
  set (v1 := fst (p_els inp v v)) in *. clearbody v1.
  destruct (read_integer_R lx1 v1 HR1) as (v2 & HR2 & Hp2 & Hv2).
  destruct (read_integer ar inp lx1) as [[[tk o]|] lx2]; cbn [fst snd] in *.
  { exists v2. split; auto. split; [lia|]. intros t _. right. specialize (Hp2 ltac:(discriminate)). lia. }
  clear Hp2. destruct (getc_R _ _ HR2) as [(c & lx3 & E3 & HR3 & HL3)|[E3 ->]]; rewrite E3.
  2: { exists (S L). cbn [fst snd]. split; auto. split; [lia|]. intros t Ht. injection Ht; auto. }
  destruct (c =c "#"%char).
  { destruct (comment_loop_R (FUEL inp) lx3 (S v2) HR3) as (v4 & HR4 & Hv4); [unfold FUEL; lia|].
    destruct (comment_loop inp (FUEL inp) lx3) as [[|] lx4]; cbn [fst snd] in *.
    - destruct (IHfuel lx4 v4 HR4 ltac:(lia)) as (v5 & I1 & I2 & I3). exists v5. split; auto. split; [lia|]. intros t Ht. destruct (I3 t Ht); auto. right. lia.
    - exists v4. split; auto. split; [lia|]. intros t Ht. injection Ht; auto. }
  destruct (isalpha c || (c =c "_"%char)).
  { destruct (word_loop_R (FUEL inp) lx3 (S v2) HR3) as (v4 & HR4 & Hv4); [unfold FUEL; lia|lia|].
    exists v4. cbn [fst snd]. split; auto. split; [lia|]. right. lia. }
  destruct ((c =c "-"%char) || (c =c "."%char) || (c =c ":"%char)).
  { destruct (same_loop_R (FUEL inp) lx3 (S v2) c HR3) as (v4 & HR4 & Hv4 & Hlt); [unfold FUEL; lia|lia|].
    destruct (same_loop inp (FUEL inp) c lx3) as [[|] lx4]; cbn [fst snd] in *.
    - destruct (unget_R _ _ HR4 ltac:(lia)) as (v5 & HR5 & Hv5). specialize (Hlt eq_refl). exists v5. split; auto. split; [lia|]. right. lia.
    - exists v4. split; auto. split; [lia|]. intros t Ht. injection Ht; auto. }
  destruct (c =c "'"%char).
  { destruct (str_loop_R (FUEL inp) lx3 (S v2) HR3) as (v4 & HR4 & Hv4 & Hlt); [unfold FUEL; lia|lia|].
    destruct (str_loop inp (FUEL inp) lx3) as [[|] lx4]; cbn [fst snd] in *.
    - destruct (unget_R _ _ HR4 ltac:(lia)) as (v5 & HR5 & Hv5). specialize (Hlt eq_refl).
      destruct (getc_R _ _ HR5) as [(c6 & lx6 & E6 & HR6 & HL6)|[E6 EL6]]; rewrite E6; cbn [fst snd].
      + exists (S v5). split; auto. split; [lia|]. right. lia.
      + exists v5. split; auto. split; [lia|]. right. lia.
    - exists v4. split; auto. split; [lia|]. intros t Ht. injection Ht; auto. }
  exists (S v2). cbn [fst snd]. split; auto. split; [lia|]. discriminate.
Qed.
Lemma yaml_tokens_R : forall fuel lx v, R lx v -> S L - v < fuel -> l_bad (snd (yaml_tokens ar inp fuel lx)) = false /\
  forall l, fst (yaml_tokens ar inp fuel lx) = Some l -> exists l' e, l = l' ++ [e] /\ y_type e = YEof /\ Forall (fun t => y_type t <> YEof) l'.
Proof.
  induction fuel; intros lx v HR Hf; [lia|]. cbn [yaml_tokens].
  destruct (yaml_read_R (FUEL inp) lx v HR) as (v' & HR' & Hv' & Hp); [unfold FUEL; lia|].
  destruct (yaml_read ar inp (FUEL inp) lx) as [[tk|] lx1]; cbn [fst snd] in *.
  - destruct (ytype_eqb (y_type tk) YEof) eqn:EY; cbn [fst snd].
    + split; [apply (R_bad _ _ _ HR')|]. intros l Hl. injection Hl; intros <-. exists [], tk. split; [auto|]. split; [|constructor]. destruct (y_type tk); cbn in EY; congruence.
    + assert (v < v'). { destruct (Hp tk eq_refl); auto. subst tk. discriminate. }
      pose proof (R_le _ _ _ HR'). destruct (IHfuel lx1 v' HR' ltac:(lia)) as (I1 & I2).
      destruct (yaml_tokens ar inp fuel lx1) as [[l|] lx2]; cbn [fst snd] in *; split; auto.
      * intros l0 Hl. injection Hl; intros <-. destruct (I2 l eq_refl) as (l' & e & -> & He & HF). exists (tk :: l'), e. split; [auto|]. split; [auto|]. constructor; [|auto]. intros HE. rewrite HE in EY. discriminate.
  - split; [apply (R_bad _ _ _ HR')|discriminate].
Qed.
End Total.

(** ** Parsing always ends *)
Definition tok_ok (t : ytok) : Prop :=
  match y_so t with None => True | Some so => In so sopts /\ y_type t = so_type so /\ so_parse so <> None end.
Lemma keyword_ok : forall inp lx st, tok_ok (yaml_keyword inp lx st).
Proof.
  intros. unfold yaml_keyword, tok_ok. destruct (buffer_slice inp lx st) as [s|]; [|exact I].
  destruct (find_sopt s) as [o|] eqn:E; [|exact I]. unfold find_sopt in E. apply find_some in E as [E _].
  cbn [y_so y_type]. destruct (so_parse o) eqn:EP; [|exact I]. split; auto. split; auto. congruence.
Qed.
Lemma yaml_read_ok : forall ar inp fuel lx t, fst (yaml_read ar inp fuel lx) = Some t -> tok_ok t.
Proof.
  intros ar inp. induction fuel; intros lx t; cbn [yaml_read]; [discriminate|].
  destruct (eat_lines_and_spaces inp lx (l_st lx)) as [lx1 st1].
  destruct (read_integer ar inp lx1) as [[[tk o]|] lx2] eqn:EI.
  - cbn [fst]. intros H. injection H; intros <-. clear H. unfold read_integer in EI.
    repeat match type of EI with
    | context [match ?x with _ => _ end] => destruct x; try discriminate
    end; injection EI; intros; subst; exact I.
  - destruct (getc inp lx2) as [[c|] lx3]; [|cbn [fst]; intros H; injection H; intros <-; exact I].
    destruct (c =c "#"%char). { destruct (comment_loop inp (FUEL inp) lx3) as [[|] lx4]; [apply IHfuel|]. cbn [fst]; intros H; injection H; intros <-; exact I. }
    destruct (isalpha c || (c =c "_"%char)). { cbn [fst]. intros H; injection H; intros <-. apply keyword_ok. }
    destruct (_ || _ || _). { destruct (same_loop inp (FUEL inp) c lx3) as [[|] lx4]; cbn [fst]; intros H; injection H; intros <-; [apply keyword_ok|exact I]. }
    destruct (c =c "'"%char); [|discriminate].
    destruct (str_loop inp (FUEL inp) lx3) as [[|] lx4]; [|cbn [fst]; intros H; injection H; intros <-; exact I].
    destruct (getc inp (ungetc inp lx4)) as [x lx5]. cbn [fst]. intros H; injection H; intros <-.
    pose proof (keyword_ok inp (ungetc inp lx4) (l_st lx3)) as K. destruct (y_type (yaml_keyword inp (ungetc inp lx4) (l_st lx3))); auto. exact I.
Qed.
Lemma yaml_tokens_ok : forall ar inp fuel lx l, fst (yaml_tokens ar inp fuel lx) = Some l -> Forall tok_ok l.
Proof.
  intros ar inp. induction fuel; intros lx l; cbn [yaml_tokens]; [discriminate|].
  pose proof (yaml_read_ok ar inp (FUEL inp) lx) as K. destruct (yaml_read ar inp (FUEL inp) lx) as [[t|] lx1]; [|discriminate].
  specialize (K t eq_refl). destruct (ytype_eqb (y_type t) YEof).
  - cbn [fst]. intros H; injection H; intros <-. auto.
  - specialize (IHfuel lx1). destruct (yaml_tokens ar inp fuel lx1) as [[l1|] lx2]; [|discriminate]. cbn [fst] in *. intros H; injection H; intros <-. auto.
Qed.

(** [p'] is [p] with some tokens taken; the scope is the same and categories are not lost. *)
Definition shr (p p' : pstate) : Prop :=
  (exists pre, p_rest p = pre ++ p_rest p') /\ st_scope (p_style p') = st_scope (p_style p) /\ (st_cats (p_style p) <> [] -> st_cats (p_style p') <> []).
Definition lt (p p' : pstate) : Prop := length (p_rest p') < length (p_rest p).
Lemma shr_refl : forall p, shr p p.
Proof. intros p. split; [exists []; auto|auto]. Qed.
Lemma shr_trans : forall a b c, shr a b -> shr b c -> shr a c.
Proof. intros a b c ((x & X) & X2 & X3) ((y & Y) & Y2 & Y3). split; [exists (x ++ y); rewrite <- app_assoc; congruence|]. split; [congruence|auto]. Qed.
Lemma shr_len : forall p p', shr p p' -> length (p_rest p') <= length (p_rest p).
Proof. intros p p' ((x & X) & _). rewrite X, app_length. lia. Qed.
Lemma shr_Forall : forall (P : ytok -> Prop) p p', shr p p' -> Forall P (p_rest p) -> Forall P (p_rest p').
Proof. intros P p p' ((x & X) & _) H. rewrite X in H. apply Forall_app in H. tauto. Qed.
Lemma shr_style : forall p st, st_scope st = st_scope (p_style p) -> (st_cats (p_style p) <> [] -> st_cats st <> []) -> shr p (with_style st p).
Proof. intros. split; [exists []; auto|]. auto. Qed.
Lemma pop_shr : forall p, shr p (snd (pop p)).
Proof. intros [[|t r] st]; unfold pop; cbn [p_rest snd]; [apply shr_refl|]. destruct (ytype_eqb (y_type t) YEof); [apply shr_refl|]. split; [exists [t]; auto|auto]. Qed.
Lemma lexer_if_shr : forall t p tk p', lexer_if t p = Some (tk, p') -> shr p p' /\ (t <> YEof -> lt p p') /\ y_type tk = t.
Proof.
  intros t p tk p' H. unfold lexer_if in H. pose proof (pop_shr p) as PS. destruct (pop p) as [tk0 p0] eqn:EP.
  destruct (ytype_eqb (y_type tk0) t) eqn:ET; [|discriminate]. injection H; intros -> ->. cbn [snd] in PS.
  assert (HT : y_type tk = t).
  { clear - ET. destruct (y_type tk), t; cbn in ET; try congruence; try discriminate. apply String.eqb_eq in ET. congruence. }
  split; auto. split; auto. intros HN. unfold pop in EP. destruct p as [[|x r] st]; cbn [p_rest] in EP; injection EP; intros; subst; [exfalso; apply HN; reflexivity|].
  unfold lt. cbn [p_rest length]. destruct (y_type tk); cbn [ytype_eqb]; try congruence; auto with arith.
Qed.
Lemma if_any_shr : forall l p tk p', if_any l p = Some (tk, p') -> shr p p' /\ lt p p'.
Proof.
  induction l as [|v l IH]; intros p tk p' H; cbn [if_any] in H; [discriminate|].
  destruct (lexer_if (Kw v) p) as [[a b]|] eqn:E; [|eapply IH; eauto]. injection H; intros; subst.
  destruct (lexer_if_shr _ _ _ _ E) as (X & Y & _). split; auto. apply Y. discriminate.
Qed.
Lemma lt_shr : forall a b c, lt a b -> shr b c -> lt a c.
Proof. unfold lt. intros a b c H S. apply shr_len in S. lia. Qed.
Lemma shr_lt : forall a b c, shr a b -> lt b c -> lt a c.
Proof. unfold lt. intros a b c S H. apply shr_len in S. lia. Qed.

(** The outcome of an option: it takes its key unless there is none. *)
Definition took (p : pstate) (r : perr) (p' : pstate) : Prop := match r with NONE => p' = p | _ => shr p p' /\ lt p p' end.
Lemma key_value : forall key p r p', 
  (match lexer_if (Kw key) p with None => (NONE, p) | Some (_, p) => match lexer_if Colon p with None => (FAIL, p) | Some (_, p) => r p end end) = p' ->
  (forall p, shr p (snd (r p)) /\ fst (r p) <> NONE) -> took p (fst p') (snd p').
Proof.
  intros key p r p' H HR. subst p'. destruct (lexer_if (Kw key) p) as [[a p1]|] eqn:E1; [|reflexivity].
  destruct (lexer_if_shr _ _ _ _ E1) as (X & Y & _). specialize (Y ltac:(discriminate)).
  destruct (lexer_if Colon p1) as [[b p2]|] eqn:E2; [|cbn [fst snd]; split; auto].
  destruct (lexer_if_shr _ _ _ _ E2) as (X2 & _). destruct (HR p2) as (Z1 & Z2).
  assert (W : shr p (snd (r p2)) /\ lt p (snd (r p2))).
  { split; [eapply shr_trans; [|exact Z1]; eapply shr_trans; eauto|eapply lt_shr; [exact Y|]; eapply shr_trans; eauto]. }
  destruct (fst (r p2)) eqn:EF; cbn [took]; auto. congruence.
Qed.
Lemma set_shr : forall k v p, shr p (with_style (style_set k v (p_style p)) p).
Proof. intros. apply shr_style; auto. Qed.
Lemma values_took : forall vals key p, took p (fst (parse_values vals key p)) (snd (parse_values vals key p)).
Proof.
  intros vals key p. eapply key_value; [reflexivity|]. intros q. cbv beta.
  destruct (if_any vals q) as [[v q']|] eqn:E; cbn [fst snd].
  - destruct (if_any_shr _ _ _ _ E). split; [|discriminate]. eapply shr_trans; [eauto|]. apply set_shr.
  - split; [apply pop_shr|discriminate].
Qed.
Lemma impl_took : forall key p, let '(r, _, p') := parse_integer_impl key p in took p r p'.
Proof.
  intros key p. unfold parse_integer_impl. destruct (lexer_if (Kw key) p) as [[a p1]|] eqn:E1; [|reflexivity].
  destruct (lexer_if_shr _ _ _ _ E1) as (X & Y & _). specialize (Y ltac:(discriminate)).
  destruct (lexer_if Colon p1) as [[b p2]|] eqn:E2; [|split; auto].
  destruct (lexer_if_shr _ _ _ _ E2) as (X2 & _).
  destruct (lexer_if Integer p2) as [[v p3]|] eqn:E3.
  - destruct (lexer_if_shr _ _ _ _ E3) as (X3 & _). split; [eauto using shr_trans|eapply lt_shr; [exact Y|]; eauto using shr_trans].
  - pose proof (pop_shr p2). split; [eauto using shr_trans|eapply lt_shr; [exact Y|]; eauto using shr_trans].
Qed.
Lemma string_took : forall key p, let '(r, v, p') := parse_string key p in took p r p' /\ (r = GOOD -> v <> None).
Proof.
  intros key p. unfold parse_string. destruct (lexer_if (Kw key) p) as [[a p1]|] eqn:E1; [|split; [reflexivity|discriminate]].
  destruct (lexer_if_shr _ _ _ _ E1) as (X & Y & _). specialize (Y ltac:(discriminate)).
  destruct (lexer_if Colon p1) as [[b p2]|] eqn:E2; [|split; [split; auto|discriminate]].
  destruct (lexer_if_shr _ _ _ _ E2) as (X2 & _).
  destruct (lexer_if YString p2) as [[v p3]|] eqn:E3.
  - destruct (lexer_if_shr _ _ _ _ E3) as (X3 & _). split; [split; [eauto using shr_trans|eapply lt_shr; [exact Y|]; eauto using shr_trans]|discriminate].
  - pose proof (pop_shr p2). split; [split; [eauto using shr_trans|eapply lt_shr; [exact Y|]; eauto using shr_trans]|discriminate].
Qed.
Lemma took_style : forall p r p' st, took p r p' -> r <> NONE -> st_scope st = st_scope (p_style p') -> (st_cats (p_style p') <> [] -> st_cats st <> []) -> shr p (with_style st p') /\ lt p (with_style st p').
Proof.
  intros p r p' st H HN H1 H2. pose proof (shr_style p' st H1 H2) as X. destruct r; [congruence| | |]; destruct H as (Y & Z); (split; [eauto using shr_trans|eapply lt_shr; eauto]).
Qed.
Lemma last_cat_some : forall f st st', last_cat f st = Some st' -> st_scope st' = st_scope st /\ st_cats st' <> [].
Proof.
  intros f st st' H. unfold last_cat in H. destruct (rev (st_cats st)); [discriminate|]. injection H; intros <-. cbn [set_cats st_scope st_cats]. split; auto. destruct (rev l); discriminate.
Qed.
Lemma last_cat_none : forall f st, last_cat f st = None -> st_cats st = [].
Proof. intros f st H. unfold last_cat in H. destruct (rev (st_cats st)) eqn:E; [|discriminate]. apply (f_equal (@rev category)) in E. rewrite rev_involutive in E. auto. Qed.

Definition based_ok (based : option (bytes -> style -> option (bool * style))) : Prop :=
  forall f, based = Some f -> forall bf st, st_scope st = None -> exists err st', f bf st = Some (err, st') /\ st_scope st' = None /\ (st_cats st <> [] -> st_cats st' <> []).
Definition Inv (st : style) : Prop := st_scope st = Some "IncludeCategories"%string -> st_cats st <> [].

Lemma cats_total : forall doc N fuel p, 
  (forall p, length (p_rest p) < N -> Forall tok_ok (p_rest p) -> Inv (p_style p) -> exists r p', doc p = Some (r, p') /\ shr p p') ->
  length (p_rest p) <= N -> length (p_rest p) < fuel -> Forall tok_ok (p_rest p) -> exists p', cats_loop fuel doc p = Some p' /\ shr p p'.
Proof.
  intros doc N. induction fuel; intros p HD HN Hf HF; [lia|]. cbn [cats_loop].
  destruct (lexer_if Sequence p) as [[t p1]|] eqn:E; [|exists p; split; [auto|apply shr_refl]].
  destruct (lexer_if_shr _ _ _ _ E) as (X & Y & _). specialize (Y ltac:(discriminate)). unfold lt in Y.
  set (p2 := with_style _ p1).
  assert (S2 : shr p1 p2). { apply shr_style; auto. cbn [set_cats st_cats]. intros _. destruct (st_cats (p_style p1)); discriminate. }
  assert (I2 : Inv (p_style p2)). { intros _. cbn [p2 with_style p_style set_cats st_cats]. destruct (st_cats (p_style p1)); discriminate. }
  assert (L2 : length (p_rest p2) = length (p_rest p1)) by reflexivity.
  assert (F2 : Forall tok_ok (p_rest p2)) by (eapply shr_Forall; [exact S2|]; eapply shr_Forall; eauto).
  destruct (HD p2 ltac:(lia) F2 I2) as (r & p3 & E3 & S3). rewrite E3.
  pose proof (shr_len _ _ S3).
  destruct (IHfuel p3 HD ltac:(lia) ltac:(lia)) as (p4 & E4 & S4). { eapply shr_Forall; eauto. }
  exists p4. split; auto. eauto using shr_trans.
Qed.

Lemma skip_sequences_shr : forall fuel p, shr p (skip_sequences fuel p).
Proof.
  induction fuel; intros p; cbn [skip_sequences]; [apply shr_refl|]. destruct (lexer_if Sequence p) as [[t p1]|] eqn:E; [|apply shr_refl].
  destruct (lexer_if_shr _ _ _ _ E) as (X & _). eapply shr_trans; [exact X|]. eapply shr_trans; [apply pop_shr|]. apply IHfuel.
Qed.
Lemma skip_unknown_shr : forall p, peek_if YEof p = false -> shr p (skip_unknown p) /\ lt p (skip_unknown p).
Proof.
  intros p HE. unfold skip_unknown.
  assert (P1 : shr p (snd (pop p)) /\ lt p (snd (pop p))).
  { split; [apply pop_shr|]. destruct p as [[|t r] st]; [discriminate|]. unfold peek_if, lexer_if, pop in HE. cbn [p_rest] in HE.
    unfold pop, lt. cbn [p_rest snd]. destruct (ytype_eqb (y_type t) YEof); [discriminate|]. cbn [p_rest length]. lia. }
  destruct P1 as (P1 & P2). set (p1 := snd (pop p)) in *. clearbody p1.
  assert (P3 : shr p1 (match lexer_if Colon p1 with Some (_, p) => p | None => p1 end)).
  { destruct (lexer_if Colon p1) as [[t p2]|] eqn:E; [|apply shr_refl]. apply lexer_if_shr in E; tauto. }
  set (p2 := match lexer_if Colon p1 with Some (_, p) => p | None => p1 end) in *. clearbody p2.
  assert (P4 : shr p2 (if peek_if Sequence p2 then skip_sequences (length (p_rest p2)) p2 else snd (pop p2))).
  { destruct (peek_if Sequence p2); [apply skip_sequences_shr|apply pop_shr]. }
  split; [eauto using shr_trans|]. eapply lt_shr; [exact P2|]. eauto using shr_trans.
Qed.
Lemma skip_document_suffix : forall l, (exists pre, l = pre ++ skip_document l) /\ (ytype_eqb (y_type (hd eof_tok l)) YEof = false -> length (skip_document l) < length l).
Proof.
  induction l as [|t r ((pre & IH) & _)]; cbn [skip_document hd]; [split; [exists []; auto|discriminate]|].
  destruct (ytype_eqb (y_type t) YEof); [split; [exists []; auto|discriminate]|].
  destruct (ytype_eqb (y_type t) DocumentBegin); [split; [exists [t]; auto|intros _; cbn [length]; lia]|].
  split; [exists (t :: pre); cbn [app]; congruence|]. intros _. cbn [length]. apply (f_equal (@length ytok)) in IH. rewrite app_length in IH. lia.
Qed.

Lemma regex_scope : Forall (fun so => so_parse so = Some PRegex -> so_scope so = Some "IncludeCategories"%string) sopts.
Proof. repeat constructor; cbn; intros; try discriminate; auto. Qed.
Lemma based_scope : Forall (fun so => so_parse so = Some PBasedOnStyle -> so_scope so = None) sopts.
Proof. repeat constructor; cbn; intros; try discriminate; auto. Qed.
Lemma nested_key : Forall (fun so => so_parse so = Some PNested -> so_key so <> "IncludeCategories"%string) sopts.
Proof. repeat constructor; cbn; intros; discriminate. Qed.

Section Documents.
Variable e : env.
Variable based : option (bytes -> style -> option (bool * style)).
Hypothesis BOK : based_ok based.

Lemma scoped_total : forall so body p, Forall tok_ok (p_rest p) ->
  (forall q, length (p_rest q) < length (p_rest p) -> Forall tok_ok (p_rest q) -> st_scope (p_style q) = Some (so_key so) -> exists q', body q = Some q' /\ shr q q') ->
  so_type so <> YEof -> exists r p', scoped so body p = Some (r, p') /\ took p r p'.
Proof.
  intros so body p HF HB HT. unfold scoped. destruct (lexer_if (so_type so) p) as [[a p1]|] eqn:E1; [|exists NONE, p; split; reflexivity].
  destruct (lexer_if_shr _ _ _ _ E1) as (X & Y & _). specialize (Y HT).
  destruct (lexer_if Colon p1) as [[b p2]|] eqn:E2; [|exists FAIL, p1; split; [reflexivity|split; auto]].
  destruct (lexer_if_shr _ _ _ _ E2) as (X2 & _). cbv zeta.
  set (p3 := with_style _ p2).
  assert (L3 : length (p_rest p3) < length (p_rest p)). { change (p_rest p3) with (p_rest p2). unfold lt in Y. apply shr_len in X2. lia. }
  assert (F3 : Forall tok_ok (p_rest p3)). { change (p_rest p3) with (p_rest p2). eapply shr_Forall; [exact X2|]. eapply shr_Forall; eauto. }
  destruct (HB p3 L3 F3 eq_refl) as (p4 & E4 & S4). rewrite E4. eexists _, _. split; [reflexivity|].
  assert (SF : shr p2 (with_style (set_scope (st_scope (p_style p2)) (p_style p4)) p4)).
  { destruct S4 as ((pre & S4) & _ & S6). split; [exists pre; exact S4|]. split; [reflexivity|]. exact S6. }
  split; [eauto using shr_trans|]. eapply lt_shr; [exact Y|]. eauto using shr_trans.
Qed.

Lemma documents_total : forall fuel nested p, length (p_rest p) < fuel -> Forall tok_ok (p_rest p) -> Inv (p_style p) ->
  exists r p', documents e based fuel nested p = Some (r, p') /\ shr p p'.
Proof.
  induction fuel; intros nested p Hf HF HI; [lia|]. cbn [documents].
  destruct (peek_if YEof p) eqn:EE; [exists NONE, p; split; [auto|apply shr_refl]|].
  assert (CONT : forall p1, shr p p1 -> lt p p1 -> exists r p', documents e based fuel nested p1 = Some (r, p') /\ shr p p').
  { intros p1 S1 L1. destruct (IHfuel nested p1) as (r & p' & E & S).
    - unfold lt in L1. lia.
    - eapply shr_Forall; eauto.
    - intros HS. destruct S1 as (_ & S2 & S3). apply S3, HI. congruence.
    - exists r, p'. split; auto. eauto using shr_trans. }
  destruct (negb nested && _).
  { destruct (skip_document_suffix (p_rest p)) as ((pre & S1) & S2). apply CONT.
    - split; [exists pre; exact S1|auto].
    - unfold lt. cbn [p_rest]. apply S2. unfold peek_if, lexer_if, pop in EE. destruct (p_rest p) as [|t r]; [discriminate|]. cbn [hd]. destruct (ytype_eqb (y_type t) YEof); [discriminate|auto]. }
  destruct (peek_if Sequence p); [exists NONE, p; split; [auto|apply shr_refl]|].
  destruct (lexer_if DocumentBegin p) as [[t p1]|] eqn:E1. { destruct (lexer_if_shr _ _ _ _ E1) as (X & Y & _). apply CONT; auto. apply Y; discriminate. }
  destruct (lexer_if DocumentEnd p) as [[t p1]|] eqn:E2. { destruct (lexer_if_shr _ _ _ _ E2) as (X & Y & _). apply CONT; auto. apply Y; discriminate. }
  destruct (skip_unknown_shr p EE) as (U1 & U2).
  destruct (y_so (fst (pop p))) as [so|] eqn:ES; [|apply CONT; auto].
  assert (TOK : In so sopts /\ y_type (fst (pop p)) = so_type so /\ so_parse so <> None).
  { unfold pop in ES. destruct p as [[|t r] st]; cbn [p_rest] in *; [discriminate|]. inv HF. unfold tok_ok in H1. cbn [fst] in *. rewrite ES in H1. unfold pop. cbn [p_rest fst]. auto. }
  destruct TOK as (T1 & T2 & T3).
  destruct (scope_eqb (so_scope so) (st_scope (p_style p))) eqn:EC; cbn [negb]; [|exists NONE, p; split; [auto|apply shr_refl]].
  assert (EC' : so_scope so = st_scope (p_style p)). { destruct (so_scope so), (st_scope (p_style p)); cbn in EC; try congruence. apply String.eqb_eq in EC. congruence. }
  destruct (so_parse so) as [fn|] eqn:EF; [|congruence].
  assert (RUN : exists r p1, run_parse e based fuel (documents e based fuel true) fn so p = Some (r, p1) /\ took p r p1).
  { assert (TE : so_type so <> YEof).
    { assert (X : Forall (fun o => so_type o <> YEof) sopts) by (repeat constructor; discriminate). rewrite Forall_forall in X. auto. }
    destruct fn; cbn [run_parse].
    - eexists _, _. split; [rewrite surjective_pairing at 1; reflexivity|]. apply values_took.
    - eexists _, _. split; [rewrite surjective_pairing at 1; reflexivity|]. apply values_took.
    - unfold parse_integer. pose proof (impl_took (so_key so) p) as K. destruct (parse_integer_impl (so_key so) p) as [[r n] p1].
      destruct r; eexists _, _; (split; [reflexivity|]); auto.
    - apply scoped_total; auto. intros q Q1 Q2 Q3. destruct (IHfuel true q ltac:(lia) Q2) as (r & q' & E & S).
      { intros HS. exfalso. pose proof nested_key as X. rewrite Forall_forall in X. apply (X so T1 EF). congruence. }
      rewrite E. exists q'. split; auto.
    - unfold parse_AlignOperands. pose proof (values_took (so_val so) (so_key so) p) as K. unfold parse_enum. destruct (parse_values (so_val so) (so_key so) p) as [r p1]. cbn [fst snd] in K.
      assert (SETS : forall a b, shr p (with_style (style_set a b (p_style p1)) p1) /\ lt p (with_style (style_set a b (p_style p1)) p1) \/ r <> GOOD).
      { intros. destruct r; try (right; discriminate). left. eapply took_style; [exact K|discriminate|auto|auto]. }
      destruct r; eexists _, _; (split; [reflexivity|]); auto. cbn [took].
      destruct (st_val (p_style p1) "AlignOperands") as [n|s0]; auto.
      repeat match goal with |- context [match ?x with _ => _ end] => destruct x; auto end;
      match goal with |- shr _ (with_style (style_set ?a ?b _) _) /\ _ => destruct (SETS a b) as [?|?]; [auto|congruence] end.
    - unfold parse_BasedOnStyle. pose proof (values_took (so_val so) (so_key so) p) as K. unfold parse_enum. destruct (parse_values (so_val so) (so_key so) p) as [r p1]. cbn [fst snd] in K.
      destruct r; try (eexists _, _; split; [reflexivity|auto]; fail).
      destruct based as [fb|] eqn:EB; [|eexists _, _; split; [reflexivity|exact K]].
      destruct (st_val (p_style p1) "BasedOnStyle") as [n|s0]; [eexists _, _; split; [reflexivity|exact K]|].
      destruct (_ || _); [eexists _, _; split; [reflexivity|exact K]|].
      destruct (e_dump e s0) as [bf|]; [|eexists _, _; split; [reflexivity|exact K]].
      assert (SN : st_scope (p_style p1) = None).
      { destruct K as ((_ & K & _) & _). rewrite K, <- EC'. pose proof based_scope as X. rewrite Forall_forall in X. apply (X so T1 EF). }
      destruct (BOK fb eq_refl bf (p_style p1) SN) as (err & st' & E & B1 & B2). rewrite E.
      eexists _, _. split; [reflexivity|]. destruct err; cbn [took]; eapply took_style; try exact K; try discriminate; auto; congruence.
    - unfold parse_ColumnLimit, parse_integer. pose proof (impl_took (so_key so) p) as K. destruct (parse_integer_impl (so_key so) p) as [[r n] p1].
      destruct r; eexists _, _; (split; [reflexivity|]); auto. cbn [took].
      assert (SETS : shr p (with_style (style_set (so_key so) (VInt (u32 n)) (p_style p1)) p1) /\ lt p (with_style (style_set (so_key so) (VInt (u32 n)) (p_style p1)) p1)).
      { eapply took_style; [exact K|discriminate|auto|auto]. }
      destruct (st_val _ "ColumnLimit") as [m|s0]; auto. destruct m; auto.
    - destruct (scoped_total so (cats_loop fuel (documents e based fuel true)) p HF) as (r & p1 & E & K); auto.
      { intros q Q1 Q2 Q3. apply (cats_total _ fuel); auto; try lia. }
      rewrite E. destruct r; eexists _, _; (split; [reflexivity|]); auto.
    - unfold parse_IncludeGuards. pose proof (impl_took (so_key so) p) as K. destruct (parse_integer_impl (so_key so) p) as [[r n] p1].
      destruct r; try (eexists _, _; split; [reflexivity|auto]; fail). destruct (n <=? 0)%Z; eexists _, _; (split; [reflexivity|]); cbn [took]; eapply took_style; try exact K; try discriminate; auto.
    - unfold parse_Priority. pose proof (impl_took (so_key so) p) as K. destruct (parse_integer_impl (so_key so) p) as [[r n] p1].
      destruct r; try (eexists _, _; split; [reflexivity|auto]; fail).
      match goal with |- context [last_cat ?f ?s] => destruct (last_cat f s) as [st'|] eqn:EL end; eexists _, _; (split; [reflexivity|]); cbn [took]; auto.
      destruct (last_cat_some _ _ _ EL). eapply took_style; [exact K|discriminate|auto|auto].
    - unfold parse_Regex. pose proof (string_took (so_key so) p) as K. destruct (parse_string (so_key so) p) as [[r v] p1]. destruct K as (K & KV).
      destruct r; try (eexists _, _; split; [reflexivity|auto]; fail). destruct v as [v|]; [|exfalso; apply KV; auto].
      match goal with |- context [last_cat ?f ?s] => destruct (last_cat f s) as [st'|] eqn:EL end.
      + destruct (last_cat_some _ _ _ EL). eexists _, _. split; [reflexivity|]. destruct (e_regcomp e (y_str v)); cbn [took]; eapply took_style; try exact K; try discriminate; auto.
      + exfalso. apply last_cat_none in EL. destruct K as ((_ & K2 & K3) & _). apply K3; auto. apply HI. rewrite <- EC'. pose proof regex_scope as X. rewrite Forall_forall in X. apply (X so T1 EF). }
  destruct RUN as (r & p1 & ER & TK). rewrite ER. destruct r; cbn [took] in TK.
  - subst p1. apply CONT; auto.
  - destruct TK. apply CONT; auto.
  - destruct TK. apply CONT; auto.
  - exists FAIL, p1. split; auto. tauto.
Qed.
End Documents.

Lemma parse_yaml_total : forall e based bf st, based_ok based -> Inv st ->
  exists err st', parse_yaml e based bf st = Some (err, st') /\ st_scope st' = st_scope st /\ (st_cats st <> [] -> st_cats st' <> []).
Proof.
  intros e based bf st HB HI. unfold parse_yaml. destruct (fst (yaml_tokenize (e_arith e) bf)) as [l|] eqn:E; [|eexists _, _; split; [reflexivity|auto]].
  destruct (documents_total e based HB (S (length l)) false (PState l st)) as (r & p' & E2 & _ & S2 & S3).
  - cbn [p_rest]. lia.
  - eapply yaml_tokens_ok; eauto.
  - auto.
  - rewrite E2. eexists _, _. split; [reflexivity|auto].
Qed.
Lemma parse_buffer_total : forall e bf, exists st, style_parse_buffer e bf = Some st /\ st_scope st = None.
Proof.
  intros e [bf|]; cbn [style_parse_buffer]; [|eexists; split; reflexivity].
  assert (B1 : based_ok None) by (intros f H; discriminate).
  assert (B2 : based_ok (Some (parse_yaml e None))).
  { intros f H bf' st Hs. injection H; intros <-. destruct (parse_yaml_total e None bf' st B1) as (err & st' & E & S1 & S2); [intros X; congruence|].
    exists err, st'. split; [auto|]. split; [congruence|auto]. }
  destruct (parse_yaml_total e _ bf style_defaults B2) as (err & st' & E & S1 & S2); [intros X; discriminate|].
  rewrite E. exists st'. split; auto.
Qed.
