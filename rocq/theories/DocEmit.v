(** Consequences of DocProofs.exec_good: what the output looks like. *)
From Verif Require Import Base StrModel UtilModel UtilProofs DocModel DocProofs.

(** ** Texts in order *)
(** [o] is the texts [ts] in order with blanks in between, blanks at the end of a text
    may be missing. *)
Inductive rendered : list bytes -> bytes -> Prop :=
| rd_nil : forall w, Forall bn w -> rendered [] w
| rd_snoc : forall ts o c z w, rendered ts o -> Forall tb z -> Forall bn w ->
    rendered (ts ++ [c ++ z]) (o ++ c ++ w).

Lemma snoc_cases : forall A (l : list A), l = [] \/ exists l' x, l = l' ++ [x].
Proof. intros A l. destruct l using rev_ind; [auto|right; eauto]. Qed.

Lemma rendered_blank : forall ts o w, rendered ts o -> Forall bn w -> rendered ts (o ++ w).
Proof.
  intros ts o w H Hw. inversion H; subst.
  - apply rd_nil. apply Forall_app; auto.
  - rewrite <- !app_assoc. rewrite (app_assoc c). rewrite <- (app_assoc c).
    apply rd_snoc; auto. apply Forall_app; auto.
Qed.

Lemma rendered_text : forall ts o t, rendered ts o -> rendered (ts ++ [t]) (o ++ t).
Proof.
  intros ts o t H. replace (o ++ t) with (o ++ t ++ []) by (rewrite app_nil_r; auto).
  replace t with (t ++ []) at 1 by apply app_nil_r. apply rd_snoc; auto.
Qed.

Lemma rendered_pop : forall ts o b, rendered ts (o ++ [b]) -> tb b -> rendered ts o.
Proof.
  intros ts o b H. remember (o ++ [b]) as x eqn:E. revert o E.
  induction H as [w Hw|ts o' c z w H IH Hz Hw]; intros o E Hb.
  - subst w. apply Forall_app in Hw. apply rd_nil. tauto.
  - destruct (snoc_cases _ w) as [-> | (w' & x & ->)].
    + destruct (snoc_cases _ c) as [-> | (c' & x & ->)].
      * cbn [app] in *. rewrite app_nil_r in E. replace o with (o ++ [] ++ []) by (rewrite app_nil_r; auto).
        replace z with ([] ++ z) by auto. apply rd_snoc; auto.
      * rewrite app_nil_r, app_assoc in E. apply app_inj_tail in E. destruct E as (<- & <-).
        replace (o' ++ c') with (o' ++ c' ++ []) by (rewrite app_nil_r; auto).
        rewrite <- app_assoc. apply rd_snoc; auto. constructor; auto.
    + rewrite !app_assoc in E. apply app_inj_tail in E. destruct E as (<- & <-).
      apply Forall_app in Hw. rewrite <- app_assoc. apply rd_snoc; tauto.
Qed.

Lemma trim_loop_split : forall r c, exists w, r = w ++ fst (trim_loop r c) /\ Forall tb w.
Proof.
  induction r as [|x r IH]; intros c; cbn [trim_loop]; [exists []; auto|].
  destruct ((x =c SP) || (x =c TAB)) eqn:Ex; [|exists []; auto].
  destruct (IH (c - (if (if x =c TAB then 8 - c mod 8 else 1) <? c then if x =c TAB then 8 - c mod 8 else 1 else c))) as (w & E & Hw).
  exists (x :: w). split; [cbn; f_equal; exact E|]. constructor; auto.
  apply orb_true_iff in Ex. destruct Ex as [Ex|Ex]; apply eqb_true in Ex; [left|right]; auto.
Qed.

Lemma rendered_trim : forall ts w r, Forall tb w -> rendered ts (rev (w ++ r)) -> rendered ts (rev r).
Proof.
  intros ts w r Hw. induction Hw as [|b w Hb Hw IH]; intros H; auto.
  apply IH. cbn [app rev] in H. eapply rendered_pop; eauto.
Qed.

Lemma tb_bn : forall w, Forall tb w -> Forall bn w.
Proof. intros w H. eapply Forall_impl; [|exact H]. left; auto. Qed.

Lemma emit_rendered : forall Q MU FS ML ts x y, emit Q MU FS ML ts x y ->
  forall ts0, let '(r, _, _, _) := x in rendered ts0 (rev r) ->
  let '(r', _, _, _) := y in rendered (ts0 ++ map snd ts) (rev r').
Proof.
  intros Q MU FS ML ts x y H. induction H; intros ts0.
  - destruct x as [[[r c] m] k]. cbn [map]. rewrite app_nil_r. auto.
  - destruct x as [[[r c] m] k], y as [[[r1 c1] m1] k1], z as [[[r2 c2] m2] k2]. intros H1.
    rewrite map_app, app_assoc. apply IHemit2. apply IHemit1. auto.
  - intros H1. cbn [map]. rewrite app_nil_r, rev_app_distr, rev_involutive. apply rendered_blank; auto. apply tb_bn; auto.
  - intros H1. cbn [map]. rewrite app_nil_r. destruct (trim_loop_split r c) as (w & E & Hw). rewrite E in H1.
    eapply rendered_trim; eauto.
  - intros H2. cbn [map rev]. rewrite app_nil_r. apply rendered_blank; auto. constructor; auto. right; auto.
  - cbn [map]. rewrite app_nil_r. auto.
  - intros H2. cbn [map snd]. rewrite rev_app_distr, rev_involutive. apply rendered_text; auto.
  - intros H1. cbn [map rev]. rewrite app_nil_r. apply rendered_blank; auto. repeat constructor.
  - cbn [map]. rewrite app_nil_r. auto.
  - cbn [map]. rewrite app_nil_r. auto.
Qed.

(** ** No blanks before newlines *)
Definition clean (s : bytes) : Prop := forall a b c, s = a ++ b :: NL :: c -> ~ tb b.

Lemma clean_prefix : forall a b, clean (a ++ b) -> clean a.
Proof. intros a b H x y z E. apply (H x y (z ++ b)). rewrite E, <- app_assoc. reflexivity. Qed.

Lemma app_eq_cons2 : forall A (a b x z : list A) y n, a ++ b = x ++ y :: n :: z ->
  (exists z', a = x ++ y :: n :: z') \/ (exists x', b = x' ++ y :: n :: z) \/ (a = x ++ [y] /\ b = n :: z).
Proof.
  intros A a b x z y n. revert a b. induction x as [|h x IH]; intros a b E; cbn in E.
  - destruct a as [|a1 [|a2 a]]; cbn in E.
    + right; left. exists []. auto.
    + inv E. right; right. auto.
    + inv E. left. exists a. auto.
  - destruct a as [|a1 a]; cbn in E.
    + right; left. exists (h :: x). auto.
    + inv E. destruct (IH _ _ H1) as [(z' & ->) | [(x' & ->) | (-> & ->)]].
      * left. exists z'. auto.
      * right; left. exists x'. auto.
      * right; right. auto.
Qed.

Lemma clean_app : forall a b, clean a -> clean b -> (forall x y c, a = x ++ [y] -> b = NL :: c -> ~ tb y) -> clean (a ++ b).
Proof.
  intros a b Ha Hb Hj x y z E. apply app_eq_cons2 in E. destruct E as [(z' & E) | [(x' & E) | (E1 & E2)]]; eauto.
Qed.

Lemma clean_no_nl : forall s, ~ In NL s -> clean s.
Proof. intros s H a b c E _. apply H. rewrite E. apply in_or_app. right; right; left; auto. Qed.
Lemma tb_no_nl : forall w, Forall tb w -> ~ In NL w.
Proof. intros w H Hin. rewrite Forall_forall in H. specialize (H _ Hin). destruct H; discriminate. Qed.

(** Literals do not start with a newline and are clean themselves. *)
Definition text_ok (t : text) : Prop :=
  clean (snd t) /\ (fst t = false -> forall c, snd t <> NL :: c).

Lemma top_snoc : forall r x y, nonblank_top r -> rev r = x ++ [y] -> ~ tb y.
Proof.
  intros r x y H E. apply (H y (rev x)). rewrite <- (rev_involutive r), E, rev_app_distr. reflexivity.
Qed.

Lemma emit_clean : forall Q MU FS ML ts x y, emit Q MU FS ML ts x y -> Forall text_ok ts ->
  let '(r, _, _, _) := x in clean (rev r) -> let '(r', _, _, _) := y in clean (rev r').
Proof.
  intros Q MU FS ML ts x y H. induction H; intros Hok; try (destruct x as [[[r c] m] k]); auto.
  - destruct y as [[[r1 c1] m1] k1], z as [[[r2 c2] m2] k2]. apply Forall_app in Hok. intros H1. tauto.
  - intros H1. rewrite rev_app_distr, rev_involutive. pose proof (tb_no_nl _ H) as HN. apply clean_app; auto.
    + apply clean_no_nl; auto.
    + intros x y d _ E. exfalso. apply HN. rewrite E. left; auto.
  - intros H1. destruct (trim_loop_split r c) as (w & E & _). rewrite E, rev_app_distr in H1. eapply clean_prefix; eauto.
  - intros H2. cbn [rev]. apply clean_app; auto.
    + intros a b d E. destruct a as [|? [|? ?]]; discriminate.
    + intros x y d E _. eapply top_snoc; eauto.
  - intros H2. inv Hok. destruct H5 as (K1 & K2). cbn [fst snd] in *. rewrite rev_app_distr, rev_involutive. apply clean_app; auto.
    intros x y d E1 E2. destruct v; [eapply top_snoc; eauto|]. exfalso. eapply K2; eauto.
  - intros H1. cbn [rev]. apply clean_app; auto.
    + apply clean_no_nl. intros [E|[]]. discriminate.
    + discriminate.
Qed.

(** ** The column *)
Definition tabs_aligned (w : bytes) (c : nat) : Prop := forall a b, w = a ++ TAB :: b -> display_col a c mod 8 = 0.
(** A text with no tab, or with something else than a blank at its end. *)
Definition no_tab_end (s : bytes) : Prop := ~ In TAB s \/ exists a c, s = a ++ [c] /\ ~ tb c.
(** Tabs among the trailing blanks start at a multiple of eight columns. *)
Definition tail_aligned (r : bytes) : Prop := forall run r', r = run ++ TAB :: r' -> Forall tb run ->
  display_col (rev r') 0 mod 8 = 0.

Lemma trim_exact : forall r c, tail_aligned r -> c = display_col (rev r) 0 ->
  snd (trim_loop r c) = display_col (rev (fst (trim_loop r c))) 0 /\ tail_aligned (fst (trim_loop r c)).
Proof.
  induction r as [|x r IH]; intros c Ht Hc; cbn [trim_loop]; auto.
  destruct ((x =c SP) || (x =c TAB)) eqn:Ex; auto.
  assert (Hx : tb x) by (apply orb_true_iff in Ex; destruct Ex as [Ex|Ex]; apply eqb_true in Ex; [left|right]; auto).
  assert (Ht' : tail_aligned r) by (intros run r' E Hr; apply (Ht (x :: run) r'); [cbn; congruence|constructor; auto]).
  apply IH; auto. cbn [rev] in Hc. rewrite display_col_app in Hc. unfold display_col at 1 in Hc. cbn [fold_left] in Hc.
  unfold col_step in Hc. set (p := display_col (rev r) 0) in *.
  destruct (x =c TAB) eqn:Et.
  - apply eqb_true in Et. subst x. assert (Hp : p mod 8 = 0) by (apply (Ht [] r); auto).
    pose proof (Nat.div_mod p 8 ltac:(lia)). assert (c mod 8 = 0).
    { rewrite Hc. rewrite Nat.mul_comm. apply Nat.mod_mul. lia. }
    rewrite H0. rewrite Nat.sub_0_r. destruct (Nat.ltb_spec 8 c); lia.
  - destruct Hx as [-> | ->]; [|discriminate]. change (SP =c NL) with false in Hc. cbv iota in Hc.
    destruct (Nat.ltb_spec 1 c); lia.
Qed.

Lemma app_eq_cons : forall A (a b x z : list A) y, a ++ b = x ++ y :: z ->
  (exists z', a = x ++ y :: z' /\ z = z' ++ b) \/ (exists x', x = a ++ x' /\ b = x' ++ y :: z).
Proof.
  intros A a b x z y. revert a b. induction x as [|h x IH]; intros a b E; cbn in E.
  - destruct a as [|a1 a]; cbn in E; [right; exists []; auto|]. inv E. left. exists a. auto.
  - destruct a as [|a1 a]; cbn in E; [right; exists (h :: x); auto|]. inv E.
    destruct (IH _ _ H1) as [(z' & -> & ->) | (x' & -> & ->)]; [left; exists z'|right; exists x']; auto.
Qed.

Lemma Forall_app_l : forall A (P : A -> Prop) a b, Forall P (a ++ b) -> Forall P a.
Proof. intros. apply Forall_app in H. tauto. Qed.
Lemma Forall_app_r : forall A (P : A -> Prop) a b, Forall P (a ++ b) -> Forall P b.
Proof. intros. apply Forall_app in H. tauto. Qed.

Lemma tail_app : forall w r, tail_aligned r -> tabs_aligned w (display_col (rev r) 0) -> tail_aligned (rev w ++ r).
Proof.
  intros w r Hr Hw run r' E Hrun. apply app_eq_cons in E. destruct E as [(z & E1 & E2) | (x & -> & E2)].
  - subst r'. rewrite rev_app_distr, display_col_app. apply (Hw (rev z) (rev run)).
    rewrite <- (rev_involutive w), E1, rev_app_distr. cbn [rev]. rewrite <- app_assoc. reflexivity.
  - eapply Hr; eauto. eapply Forall_app_r; eauto.
Qed.

Lemma tail_text : forall s r, tail_aligned r -> no_tab_end s -> tail_aligned (rev s ++ r).
Proof.
  intros s r Hr [Hs | (a & c & -> & Hc)].
  - apply tail_app; auto. intros a b E. exfalso. apply Hs. rewrite E. apply in_or_app. right; left; auto.
  - intros run r' E Hrun. exfalso. rewrite rev_app_distr in E. cbn [rev app] in E.
    destruct run as [|x run]; cbn in E; inv E.
    + apply Hc. right; auto.
    + inv Hrun. auto.
Qed.

Lemma emit_col : forall FS ML ts x y, emit tabs_aligned False FS ML ts x y -> Forall (fun t => no_tab_end (snd t)) ts ->
  let '(r, c, m, _) := x in m = 0%Z -> c = display_col (rev r) 0 -> tail_aligned r ->
  let '(r', c', m', _) := y in m' = 0%Z /\ c' = display_col (rev r') 0 /\ tail_aligned r'.
Proof.
  intros FS ML ts x y H. induction H; intros Hok; try (destruct x as [[[r c] m] k]); try contradiction; auto.
  - destruct y as [[[r1 c1] m1] k1], z as [[[r2 c2] m2] k2]. apply Forall_app in Hok. destruct Hok as (O1 & O2). intros H1 H2 H3.
    destruct (IHemit1 O1 H1 H2 H3) as (H4 & H5 & H6). auto.
  - intros H1 H2 H3. split; auto. rewrite rev_app_distr, rev_involutive, display_col_app. split; [congruence|].
    apply tail_app; auto. rewrite <- H2; auto.
  - intros H1 H2 H3. split; auto. apply trim_exact; auto.
  - intros H2 H3 H4. split; auto. cbn [rev]. rewrite display_col_app. split; auto.
    intros run r' E Hrun. destruct run as [|x run]; cbn in E; inv E. inversion Hrun as [|? ? [HH|HH]]; discriminate.
  - intros H2 H3 H4. inv Hok. cbn [snd] in *. split; auto. rewrite rev_app_distr, rev_involutive, display_col_app. split; auto.
    apply tail_text; auto.
  - intros H1 H2 H3. split; auto. cbn [rev]. rewrite display_col_app, <- H2. split.
    + unfold display_col. cbn. lia.
    + apply (tail_text [SP]); auto. left. intros [E|[]]; discriminate.
Qed.

(** ** Runs of newlines *)
(** [bounded M s]: nowhere more than [M] newlines in a row. *)
Definition bounded (M : nat) (s : bytes) : Prop := forall a b n, s = a ++ repeat NL n ++ b -> n <= M.
(** At most [k] newlines, one after the other, lie in the blanks at the end of the
    (reversed) text. *)
Definition run_le (k : nat) (r : bytes) : Prop := exists w n r', r = w ++ repeat NL n ++ r' /\
  Forall tb w /\ n <= k /\ (forall c r'', r' = c :: r'' -> ~ bn c).
(** A text that does not start with a newline and does not end in a blank or newline. *)
Definition solid (M : nat) (s : bytes) : Prop :=
  bounded M s /\ (forall c, s <> NL :: c) /\ exists a c, s = a ++ [c] /\ ~ bn c.

Lemma repeat_snoc : forall A (x : A) n, repeat x n ++ [x] = x :: repeat x n.
Proof. induction n; cbn; congruence. Qed.
Lemma repeat_app_inv : forall A (x : A) n a b, repeat x n = a ++ b -> a = repeat x (length a) /\ b = repeat x (length b).
Proof.
  induction n; intros a b E; cbn in E.
  - symmetry in E. apply app_eq_nil in E. destruct E; subst; auto.
  - destruct a as [|y a]; cbn in E; [subst b; cbn; rewrite repeat_length; auto|]. inv E.
    destruct (IHn _ _ H1) as (E1 & E2). split; auto. cbn. congruence.
Qed.
Lemma repeat_head : forall n r1 m r2, repeat NL n ++ r1 = repeat NL m ++ r2 ->
  (forall c r, r1 = c :: r -> c <> NL) -> m <= n.
Proof.
  induction n; intros r1 m r2 E H; destruct m; cbn in E; try lia.
  - exfalso. eapply H; eauto.
  - inv E. apply IHn in H1; auto. lia.
Qed.

Lemma bounded_rev : forall M s, bounded M s -> bounded M (rev s).
Proof.
  intros M s H a b n E. apply (H (rev b) (rev a)). rewrite <- (rev_involutive s), E, !rev_app_distr, <- app_assoc.
  f_equal. f_equal. clear. induction n; cbn; auto. rewrite IHn. apply repeat_snoc.
Qed.

Lemma bounded_mono : forall M s a b, bounded M (a ++ s ++ b) -> bounded M s.
Proof.
  intros M s a b H x y n E. apply (H (a ++ x) (y ++ b)). rewrite E, <- !app_assoc. reflexivity.
Qed.

(** Splitting a run across an append. *)
Lemma run_split : forall n (a b x z : bytes), a ++ b = x ++ repeat NL n ++ z ->
  (exists z', a = x ++ repeat NL n ++ z') \/ (exists x', b = x' ++ repeat NL n ++ z) \/
  (exists i j, n = i + j /\ a = x ++ repeat NL i /\ b = repeat NL j ++ z).
Proof.
  intros n a b. revert a b. induction n; intros a b x z E.
  - cbn [repeat app] in *. apply app_eq_app in E. destruct E as (l & [(-> & ->) | (-> & ->)]).
    + left. exists l. auto.
    + right; left. exists l. auto.
  - cbn [repeat] in E. replace (x ++ (NL :: repeat NL n) ++ z) with ((x ++ [NL]) ++ repeat NL n ++ z) in E by (rewrite <- app_assoc; auto).
    destruct (IHn _ _ _ _ E) as [(z' & ->) | [(x' & H) | (i & j & -> & H1 & H2)]].
    + left. exists z'. cbn [repeat]. rewrite <- app_assoc. auto.
    + destruct (snoc_cases _ x') as [-> | (x'' & y & ->)].
      * right; right. exists 1, n. cbn [repeat]. repeat split; auto. subst b. cbn [app] in E.
        apply (app_inv_tail (repeat NL n ++ z)) in E. auto.
      * right; left. subst b. rewrite (app_assoc a) in E. apply app_inv_tail in E. rewrite app_assoc in E. apply app_inj_tail in E.
        destruct E as (_ & ->). exists x''. rewrite <- !app_assoc. auto.
    + right; right. exists (S i), j. repeat split; auto. rewrite H1. cbn [repeat]. rewrite <- app_assoc. auto.
Qed.

Lemma bounded_app : forall M a b, bounded M a -> bounded M b ->
  (forall x, a <> x ++ [NL]) \/ (forall x, b <> NL :: x) -> bounded M (a ++ b).
Proof.
  intros M a b Ha Hb Hj x z n E. apply run_split in E. destruct E as [(z' & E) | [(x' & E) | (i & j & -> & E1 & E2)]].
  - eapply Ha; eauto.
  - eapply Hb; eauto.
  - destruct i as [|i]; [cbn; apply (Hb [] z j); auto|]. destruct j as [|j].
    + apply (Ha x [] (S i + 0)). rewrite app_nil_r, Nat.add_0_r. auto.
    + exfalso. destruct Hj as [Hj|Hj].
      * apply (Hj (x ++ repeat NL i)). rewrite E1. cbn [repeat]. rewrite <- repeat_snoc, app_assoc. auto.
      * apply (Hj (repeat NL j ++ z)). rewrite E2. auto.
Qed.

Lemma bounded_no_nl : forall M s, ~ In NL s -> bounded M s.
Proof.
  intros M s H a b n E. destruct n; [lia|]. exfalso. apply H. rewrite E. apply in_or_app. right. left. auto.
Qed.

Lemma run_le_mono : forall k k' r, run_le k r -> k <= k' -> run_le k' r.
Proof. intros k k' r (w & n & r' & E & Hw & Hn & Hr) H. exists w, n, r'. repeat split; auto. lia. Qed.

Lemma bounded_repeat : forall M n, n <= M -> bounded M (repeat NL n).
Proof.
  intros M n H a b k E. apply (f_equal (@length byte)) in E. rewrite !app_length, !repeat_length in E. lia.
Qed.

Lemma run_trim : forall w r k, Forall tb w -> run_le k (w ++ r) -> run_le k r.
Proof.
  induction w as [|x w IH]; intros r k Hw H; auto. inv Hw. apply IH; auto.
  destruct H as (w' & n & r' & E & H4 & H5 & H6). destruct w' as [|y w'].
  - destruct n as [|n]; cbn in E.
    + exfalso. eapply H6; eauto. left; auto.
    + inv E. destruct H2; discriminate.
  - cbn in E. inv E. inv H4. exists w', n, r'. auto.
Qed.

Lemma emit_runs : forall Q M ts x y, emit Q False False (fun n => n <= M) ts x y -> Forall (fun t => solid M (snd t)) ts ->
  let '(r, c, m, k) := x in m = 0%Z -> bounded M r -> run_le k r ->
  let '(r', c', m', k') := y in m' = 0%Z /\ bounded M r' /\ run_le k' r'.
Proof.
  intros Q M ts x y H. induction H; intros Hok; try (destruct x as [[[r c] m] k]); try contradiction; auto.
  - destruct y as [[[r1 c1] m1] k1], z as [[[r2 c2] m2] k2]. apply Forall_app in Hok. destruct Hok as (O1 & O2). intros H1 H2 H3.
    destruct (IHemit1 O1 H1 H2 H3) as (H4 & H5 & H6). auto.
  - intros H1 H2 H3. split; auto. assert (Hw : Forall tb (rev w)) by (apply Forall_rev; auto). split.
    + pose proof (tb_no_nl _ Hw) as HN. apply bounded_app; auto; [apply bounded_no_nl; auto|].
      left. intros x E. apply HN. rewrite E. apply in_or_app. right; left; auto.
    + destruct H3 as (w' & n & r' & -> & K1 & K2 & K3). exists (rev w ++ w'), n, r'. rewrite <- app_assoc.
      repeat split; auto. apply Forall_app; auto.
  - intros H1 H2 H3. split; auto. destruct (trim_loop_split r c) as (w & E & Hw). rewrite E in H2, H3. split.
    + apply (bounded_mono M _ w []). rewrite app_nil_r. auto.
    + eapply run_trim; eauto.
  - intros H2 H3 H4. split; auto. destruct H4 as (w & n & r' & -> & K1 & K2 & K3). destruct w as [|x w].
    2:{ exfalso. inv K1. eapply H; eauto. reflexivity. }
    cbn [app] in *. change (NL :: repeat NL n ++ r') with (repeat NL (S n) ++ r'). split.
    + apply bounded_app; [apply bounded_repeat; lia| |right; intros x ->; eapply K3; eauto; right; auto].
      apply (bounded_mono M _ (repeat NL n) []). rewrite app_nil_r. auto.
    + exists [], (S n), r'. repeat split; auto. lia.
  - intros H2 H3 H4. inv Hok. cbn [snd] in *. destruct H7 as (K1 & K2 & a & d & -> & K4). split; auto. split.
    + apply bounded_app; auto; [apply bounded_rev; auto|]. left. intros x E.
      apply (K2 (rev x)). rewrite <- (rev_involutive (a ++ [d])), E, rev_app_distr. reflexivity.
    + exists [], 0, (rev (a ++ [d]) ++ r). rewrite rev_app_distr. cbn. repeat split; auto.
      intros c' r'' E. inv E. auto.
Qed.
