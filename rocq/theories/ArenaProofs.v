(** Proofs about libks/arena.c. *)
From Coq Require Import NArith ZArith Lia.
From Verif Require Import Base ArenaModel.
Open Scope N_scope.

(** Pairwise, for symmetric relations. *)
Fixpoint pw {A : Type} (R : A -> A -> Prop) (l : list A) : Prop := match l with [] => True | x :: r => (forall y, In y r -> R x y) /\ pw R r end.
Lemma pw_mid : forall A (R : A -> A -> Prop), (forall x y, R x y -> R y x) -> forall a x b, pw R (a ++ x :: b) <-> pw R (a ++ b) /\ forall y, In y (a ++ b) -> R x y.
Proof.
  intros A R S. induction a as [|z a IH]; intros x b; cbn [app pw].
  - tauto.
  - rewrite IH. split.
    + intros (H1 & H2 & H3). split; [split; [|exact H2]|].
      * intros y Hy. apply H1. apply in_app_or in Hy. apply in_or_app. destruct Hy; [left|right; right]; assumption.
      * intros y [<-|Hy]; [apply S; apply H1; apply in_or_app; right; left; reflexivity|apply H3; exact Hy].
    + intros ((H1 & H2) & H3). split; [|split; [exact H2|intros y Hy; apply H3; right; exact Hy]].
      intros y Hy. apply in_app_or in Hy. destruct Hy as [Hy|[<-|Hy]]; [apply H1; apply in_or_app; left; exact Hy|apply S; apply H3; left; reflexivity|apply H1; apply in_or_app; right; exact Hy].
Qed.
Lemma pw_filter : forall A (R : A -> A -> Prop) f l, pw R l -> pw R (filter f l).
Proof.
  intros A R f. induction l as [|x l IH]; cbn [pw filter]; [auto|]. intros [H1 H2]. destruct (f x); [|auto]. cbn [pw]. split; [|auto].
  intros y Hy. apply filter_In in Hy. apply H1. tauto.
Qed.
Lemma pw_app_r : forall A (R : A -> A -> Prop) a b, pw R (a ++ b) -> pw R b.
Proof. intros A R. induction a as [|x a IH]; cbn [app pw]; intros b H; [exact H|]. apply IH. tauto. Qed.

(** ** Alignment. *)
Definition al (x : N) : Prop := exists k, x = 8 * k.
Lemma ldiff7 : forall x, N.ldiff x 7 = 8 * (x / 8).
Proof.
  intros x. change 7 with (N.ones 3). rewrite N.ldiff_ones_r, N.shiftl_mul_pow2, N.shiftr_div_pow2. change (2 ^ 3) with 8. lia.
Qed.
Lemma land7 : forall x, al x -> N.land x 7 = 0.
Proof. intros x (k & ->). change 7 with (N.ones 3). rewrite N.land_ones. change (2 ^ 3) with 8. rewrite N.mul_comm. apply N.mod_mul. discriminate. Qed.
Definition pok (P : N) : Prop := P = 0 \/ P = 8.
Lemma align_ok : forall P x, pok P -> x + 100 < SIZE_LIMIT -> exists k, align_address P x = 8 * k + P /\ x <= 8 * k /\ 8 * k < x + 8.
Proof.
  intros P x HP HX. unfold align_address. rewrite ldiff7. rewrite (N.mod_small (x + 7)) by lia.
  pose proof (N.div_mod (x + 7) 8) as D. pose proof (N.mod_lt (x + 7) 8) as M. set (q := (x + 7) / 8) in *. set (r := (x + 7) mod 8) in *.
  assert (D' : x + 7 = 8 * q + r) by (apply D; discriminate). assert (M' : r < 8) by (apply M; discriminate). clear D M. clearbody q r.
  exists q. split; [|lia].
  destruct HP as [->| ->].
  - cbn [N.ltb andb]. change (0 <? 0) with false. cbn [andb]. lia.
  - change (0 <? 8) with true. cbn [andb].
    replace ((8 * q + SIZE_LIMIT - x) mod SIZE_LIMIT) with (8 * q - x).
    2:{ replace (8 * q + SIZE_LIMIT - x) with ((8 * q - x) + 1 * SIZE_LIMIT) by lia. rewrite N.mod_add by discriminate. rewrite N.mod_small; lia. }
    destruct (N.ltb_spec (8 * q - x) 8) as [A|A]; [|lia]. destruct (N.ltb_spec (8 + 8 * q) SIZE_LIMIT) as [B|B]; lia.
Qed.

(** ** Frames. *)
Definition HALF : N := 2 ^ 63.
Lemma half_limit : HALF + 1000 < SIZE_LIMIT.
Proof. reflexivity. Qed.
Record fok (f : frame) : Prop := { fo_ptr : al (f_ptr f); fo_size : al (f_size f); fo_len : al (f_len f); fo_lo : FRAME <= f_len f; fo_hi : f_len f <= f_size f; fo_top : f_ptr f + f_size f <= HALF }.
Definition apart (f g : frame) : Prop := f_ptr f + f_size f <= f_ptr g \/ f_ptr g + f_size g <= f_ptr f.
Definition frames_ok (fs : list frame) : Prop := (forall f, In f fs -> fok f) /\ pw apart fs.
Lemma apart_sym : forall f g, apart f g -> apart g f.
Proof. unfold apart. tauto. Qed.

(** An allocation as the client sees it; [N] beside it is what has been set aside for it. *)
Record obj := mkobj { o_addr : N; o_size : N; o_data : bytes; o_depth : nat }.
Definition within (P : N) (f : frame) (x : obj * N) : Prop :=
  let '(o, cap) := x in
  f_ptr f + FRAME <= o_addr o /\ o_addr o + cap <= f_ptr f + f_len f /\ (align_address P (o_addr o + o_size o) <= o_addr o + cap \/ o_addr o + cap = f_ptr f + f_size f).
Definition inside (P : N) (fs : list frame) (x : obj * N) : Prop :=
  al (o_addr (fst x)) /\ o_size (fst x) <= snd x /\ exists f, In f fs /\ within P f x.
Definition sep (x y : obj * N) : Prop := snd x = 0 \/ snd y = 0 \/ o_addr (fst x) + snd x <= o_addr (fst y) \/ o_addr (fst y) + snd y <= o_addr (fst x).
Lemma sep_sym : forall x y, sep x y -> sep y x.
Proof. unfold sep. tauto. Qed.

Definition mark (s : scope) (fs F : list frame) : Prop := exists newer fr older,
  fs = newer ++ fr :: older /\ F = mkframe (f_ptr fr) (f_size fr) (s_len s) :: older /\ s_frame s = f_ptr fr /\ s_len s <= f_len fr /\ FRAME <= s_len s /\ al (s_len s).
Fixpoint marks (P : N) (fs : list frame) (scopes : list scope) (hist : list (list frame)) (L : list (obj * N)) : Prop :=
  (forall x, In x L -> (o_depth (fst x) <= length scopes)%nat -> inside P fs x) /\
  match scopes, hist with
  | [], [] => True
  | s :: ss, F :: hs => s_id s = S (S (length ss)) /\ mark s fs F /\ marks P F ss hs L
  | _, _ => False
  end.

(** [fs'] is [fs] after an allocation: the current frame is longer or there is a new one. *)
Inductive grown : list frame -> list frame -> Prop :=
| Glen : forall f n r, f_len f <= n -> grown (f :: r) (mkframe (f_ptr f) (f_size f) n :: r)
| Gnew : forall f r, grown r (f :: r).

Lemma mark_grown : forall s fs fs' F, grown fs fs' -> mark s fs F -> mark s fs' F.
Proof.
  intros s fs fs' F G (newer & fr & older & E1 & E2 & E3 & E4 & E5). inversion G; subst.
  - destruct newer as [|g newer]; cbn [app] in *.
    + inversion H0; subst. exists [], (mkframe (f_ptr fr) (f_size fr) n), older. cbn [f_ptr f_size f_len app]. split; [reflexivity|]. split; [reflexivity|]. split; [exact E3|]. split; [lia|exact E5].
    + inversion H0; subst. exists (mkframe (f_ptr g) (f_size g) n :: newer), fr, older. split; [reflexivity|]. auto.
  - exists (f :: newer), fr, older. split; [reflexivity|]. auto.
Qed.
Lemma inside_grown : forall P fs fs' x, grown fs fs' -> inside P fs x -> inside P fs' x.
Proof.
  intros P fs fs' [o cap] G (A & B & f & I & W). split; [exact A|]. split; [exact B|]. inversion G; subst.
  - destruct I as [<-|I].
    + exists (mkframe (f_ptr f0) (f_size f0) n). split; [left; reflexivity|]. unfold within in *. cbn [f_ptr f_size f_len]. destruct W as (W1 & W2 & W3). split; [exact W1|]. split; [lia|exact W3].
    + exists f. split; [right; exact I|exact W].
  - exists f. split; [right; exact I|exact W].
Qed.
Lemma marks_more : forall P scopes fs hist L x, marks P fs scopes hist L -> o_depth (fst x) = length scopes -> inside P fs x -> forall a b, L = a ++ b -> marks P fs scopes hist (a ++ x :: b).
Proof.
  assert (G : forall P scopes fs hist L L' d, marks P fs scopes hist L -> (forall x, In x L' -> In x L \/ (o_depth (fst x) = d)%nat) -> (length scopes < d)%nat -> marks P fs scopes hist L').
  { intros P. induction scopes as [|s ss IH]; intros fs hist L L' d M H Hd; cbn [marks] in *.
    - split; [|tauto]. intros x Hx D. destruct (H x Hx) as [I|E]; [apply M; assumption|]. cbn [length] in *. lia.
    - destruct hist as [|F hs]; [tauto|]. destruct M as (M1 & M2 & M3 & M4). split; [|split; [exact M2|split; [exact M3|]]].
      + intros x Hx D. destruct (H x Hx) as [I|E]; [apply M1; assumption|]. lia.
      + apply (IH F hs L L' d); [exact M4|exact H|]. cbn [length] in Hd. lia. }
  intros P scopes fs hist L x M D I a b ->.
  assert (H : forall y, In y (a ++ x :: b) -> In y (a ++ b) \/ y = x).
  { intros y Hy. apply in_app_or in Hy. destruct Hy as [Hy|[Hy|Hy]]; [left; apply in_or_app; left; exact Hy|right; auto|left; apply in_or_app; right; exact Hy]. }
  destruct scopes as [|s ss]; cbn [marks] in *.
  - split; [|tauto]. intros y Hy Dy. destruct (H y Hy) as [Hy'| ->]; [apply M; assumption|exact I].
  - destruct hist as [|F hs]; [tauto|]. destruct M as (M1 & M2 & M3 & M4). split; [|split; [exact M2|split; [exact M3|]]].
    + intros y Hy Dy. destruct (H y Hy) as [Hy'| ->]; [apply M1; assumption|exact I].
    + apply (G P ss F hs (a ++ b) (a ++ x :: b) (length (s :: ss))); [exact M4| |cbn [length]; lia]. intros y Hy. destruct (H y Hy) as [Hy'| ->]; [left; exact Hy'|right; exact D].
Qed.
Lemma marks_less : forall P scopes fs hist L L', marks P fs scopes hist L -> (forall x, In x L' -> In x L) -> marks P fs scopes hist L'.
Proof.
  intros P. induction scopes as [|s ss IH]; intros fs hist L L' M H; cbn [marks] in *.
  - split; [|tauto]. intros x Hx D. apply M; auto.
  - destruct hist as [|F hs]; [tauto|]. destruct M as (M1 & M2 & M3 & M4). split; [|split; [exact M2|split; [exact M3|]]].
    + intros x Hx D. apply M1; auto.
    + eapply IH; eauto.
Qed.
Lemma marks_grown : forall P scopes fs fs' hist L, grown fs fs' -> marks P fs scopes hist L -> marks P fs' scopes hist L.
Proof.
  intros P [|s ss] fs fs' hist L G M; cbn [marks] in *.
  - split; [|tauto]. intros x Hx D. eapply inside_grown; [exact G|]. apply M; assumption.
  - destruct hist as [|F hs]; [tauto|]. destruct M as (M1 & M2 & M3 & M4). split; [|split; [exact M2|split; [|exact M4]]].
    + intros x Hx D. eapply inside_grown; [exact G|]. apply M1; assumption.
    + eapply mark_grown; eauto.
Qed.

(** ** Pushing. *)
Lemma push_ok : forall P f size p f', pok P -> al (f_ptr f) -> al (f_size f) -> al (f_len f) -> f_len f <= f_size f -> f_ptr f + f_size f <= HALF -> push P f size = Some (p, f') ->
  p = f_ptr f + f_len f /\ f' = mkframe (f_ptr f) (f_size f) (f_len f') /\ f_len f + size <= f_len f' /\ f_len f' <= f_size f /\ al (f_len f') /\
  (align_address P (p + size) <= f_ptr f + f_len f' \/ f_len f' = f_size f).
Proof.
  intros P f size p f' HP [kp Kp] [ks Ks] [kl Kl] HL HT. unfold push. destruct (N.leb_spec SIZE_LIMIT (f_len f + size)) as [A|A]; [discriminate|].
  destruct (N.ltb_spec (f_size f) (f_len f + size)) as [B|B]; [discriminate|]. pose proof half_limit as HH.
  destruct (align_ok P (f_len f + size) HP) as (k & E & K1 & K2); [lia|].
  destruct (align_ok P (f_ptr f + f_len f + size) HP) as (k2 & E2 & K3 & K4); [lia|].
  intros H. inversion H. cbn [f_len]. split; [reflexivity|]. split; [reflexivity|]. rewrite E in *. rewrite E2.
  assert (k2 = kp + k) by lia. subst k2.
  destruct (N.ltb_spec (f_size f) (8 * k + P)) as [C|C].
  - split; [lia|]. split; [lia|]. split; [exists ks; exact Ks|]. right. reflexivity.
  - split; [lia|]. split; [lia|]. split; [destruct HP as [->| ->]; [exists k; lia|exists (k + 1); lia]|]. left. lia.
Qed.
Lemma push_some : forall P f size, pok P -> f_len f + size <= f_size f -> f_size f < SIZE_LIMIT -> exists r, push P f size = Some r.
Proof.
  intros P f size HP H HS. unfold push. destruct (N.leb_spec SIZE_LIMIT (f_len f + size)) as [A|A]; [lia|].
  destruct (N.ltb_spec (f_size f) (f_len f + size)) as [B|B]; [lia|]. eexists. reflexivity.
Qed.
Lemma frames_top : forall f n r, frames_ok (f :: r) -> FRAME <= n -> n <= f_size f -> al n -> frames_ok (mkframe (f_ptr f) (f_size f) n :: r).
Proof.
  intros f n r [FO PW] H1 H2 H3. split.
  - intros g [<-|I]; [|apply FO; right; exact I]. destruct (FO f (or_introl eq_refl)) as [A B C D E G]. constructor; cbn [f_ptr f_size f_len]; auto.
  - cbn [pw] in *. destruct PW as [P1 P2]. split; [|exact P2]. intros g Hg. specialize (P1 g Hg). unfold apart in *. cbn [f_ptr f_size]. exact P1.
Qed.
(** What lies inside the frames ends before anything pushed now. *)
Lemma fresh_sep : forall P f r x p cap o, frames_ok (f :: r) -> inside P (f :: r) x -> o_addr o = p -> p = f_ptr f + f_len f -> p + cap <= f_ptr f + f_size f -> sep (o, cap) x.
Proof.
  intros P f r [o' c'] p cap o [FO PW] (_ & _ & g & I & W) Ea Ep Hc. unfold sep. cbn [fst snd]. unfold within in W. destruct W as (W1 & W2 & _).
  destruct I as [<-|I]; [right; right; right; lia|]. cbn [pw] in PW. destruct PW as [PW _]. specialize (PW g I).
  pose proof (FO g (or_intror I)) as G. pose proof (FO f (or_introl eq_refl)) as F. destruct G, F. unfold apart in PW. unfold FRAME in *. right. right. destruct PW as [PW|PW]; [left; lia|right; lia].
Qed.

(** ** arena_malloc. *)
Lemma fit_ok : forall fuel size total r, fit fuel size total = Some r -> total <= r /\ (al size -> al r) /\ r < SIZE_LIMIT \/ r = size /\ total <= size.
Proof.
  induction fuel as [|f IH]; intros size total r; cbn [fit]; destruct (N.ltb_spec size total) as [A|A]; intros H; try discriminate; try (inversion H; subst; right; auto; fail).
  destruct (N.leb_spec SIZE_LIMIT (2 * size)) as [B|B]; [discriminate|]. left. apply IH in H. destruct H as [(H1 & H2 & H3)|(-> & H2)].
  - split; [exact H1|]. split; [|exact H3]. intros [k ->]. apply H2. exists (2 * k). lia.
  - split; [exact H2|]. split; [|exact B]. intros [k ->]. exists (2 * k). lia.
Qed.
(** malloc(3) delivers fresh memory. *)
Definition sys_ok (fs : list frame) (m : sys) (size : N) : Prop :=
  forall p junk, m = Some (p, junk) -> al p /\ p + size <= HALF /\ forall f, In f fs -> p + size <= f_ptr f \/ f_ptr f + f_size f <= p.
Definition msys_ok (a : arena) (n : N) (m : sys) : Prop := forall s, fit 64 (a_fsize a) (a_poison a + (n + FRAME)) = Some s -> sys_ok (a_frames a) m s.

Definition same_conf (a a' : arena) : Prop := a_fsize a' = a_fsize a /\ a_poison a' = a_poison a /\ a_refs a' = a_refs a.
(** Memory of the frames is the same. *)
Definition same_mem (fs : list frame) (m m' : N -> byte) : Prop := forall f x, In f fs -> f_ptr f <= x -> x < f_ptr f + f_size f -> m' x = m x.

Definition allocated (a a' : arena) (p n : N) : Prop :=
  same_conf a a' /\ frames_ok (a_frames a') /\ same_mem (a_frames a) (a_mem a) (a_mem a') /\
  (grown (a_frames a) (a_frames a') \/ exists mid, grown (a_frames a) mid /\ grown mid (a_frames a')) /\
  exists cap, forall o, o_addr o = p -> o_size o = n -> inside (a_poison a) (a_frames a') (o, cap) /\ forall x, inside (a_poison a) (a_frames a) x -> sep (o, cap) x.

Lemma push_top_ok : forall a size p a', pok (a_poison a) -> frames_ok (a_frames a) -> push_top a size = Some (p, a') -> allocated a a' p size /\ a_mem a' = a_mem a /\ grown (a_frames a) (a_frames a').
Proof.
  intros a size p a' HP FO. unfold push_top. destruct (a_frames a) as [|f r] eqn:Ef; [discriminate|]. destruct (push (a_poison a) f size) as [[q f']|] eqn:Ep; [|discriminate].
  intros H. inversion H; subst q a'. clear H. pose proof (proj1 FO f (or_introl eq_refl)) as F. destruct F as [F1 F2 F3 F4 F5 F6].
  destruct (push_ok _ _ _ _ _ HP F1 F2 F3 F5 F6 Ep) as (E1 & E2 & E3 & E4 & E5 & E6).
  assert (G : grown (f :: r) (f' :: r)) by (rewrite E2; apply Glen; lia).
  split; [|split; [reflexivity|exact G]]. unfold allocated. cbn [set_frames a_frames a_fsize a_poison a_refs a_mem].
  split; [repeat split|]. split; [rewrite E2; apply frames_top; auto; lia|]. split; [intros g x _ _ _; reflexivity|]. rewrite Ef. split; [left; exact G|].
  exists (f_len f' - f_len f). intros o Ea Es. split.
  - split; [cbn [fst]; rewrite Ea, E1; destruct F1 as [k1 K1], F3 as [k2 K2]; exists (k1 + k2); lia|]. split; [cbn [fst snd]; lia|].
    exists f'. split; [left; reflexivity|]. unfold within. rewrite Ea, Es.
    assert (Q1 : f_ptr f' = f_ptr f) by (rewrite E2; reflexivity). assert (Q2 : f_size f' = f_size f) by (rewrite E2; reflexivity). rewrite Q1, Q2.
    split; [lia|]. split; [lia|]. destruct E6 as [E6|E6]; [left; lia|right; lia].
  - intros x Hx. eapply fresh_sep; [exact FO|exact Hx|exact Ea|exact E1|]. lia.
Qed.

Lemma malloc_ok : forall s n m a, pok (a_poison a) -> al (a_fsize a) -> frames_ok (a_frames a) -> validate a s = true -> msys_ok a n m ->
  malloc s n m a = Exit \/ exists p a', malloc s n m a = Ret (p, a') /\ allocated a a' p n.
Proof.
  intros s n m a HP HF FO V MS. unfold malloc. rewrite V. cbn [negb]. destruct (push_top a n) as [[p a']|] eqn:E1.
  { right. exists p, a'. split; [reflexivity|]. apply push_top_ok; assumption. }
  clear E1. destruct ((SIZE_LIMIT <=? n + FRAME) || (SIZE_LIMIT <=? a_poison a + (n + FRAME))); [left; reflexivity|].
  destruct (fit 64 (a_fsize a) (a_poison a + (n + FRAME))) as [fs|] eqn:EF; [|left; reflexivity].
  destruct (frame_alloc m fs a) as [a1|] eqn:EA; [|left; reflexivity].
  destruct (push_top a1 n) as [[p a2]|] eqn:E2; [|left; reflexivity]. right. exists p, a2. split; [reflexivity|].
  unfold frame_alloc in EA. destruct m as [[q junk]|]; [|discriminate]. destruct (MS fs EF q junk eq_refl) as (S1 & S2 & S3).
  assert (AF : al fs) by (destruct (fit_ok _ _ _ _ EF) as [(_ & H & _)|(-> & _)]; auto).
  destruct (push (a_poison a) (mkframe q fs 0) FRAME) as [[q' f]|] eqn:EP; [|discriminate]. inversion EA; subst a1. clear EA.
  destruct (push_ok (a_poison a) (mkframe q fs 0) FRAME q' f HP S1 AF) as (P1 & P2 & P3 & P4 & P5 & _); [exists 0; reflexivity|cbn [f_len f_size]; lia|exact S2|exact EP|]. cbn [f_ptr f_size f_len] in *.
  set (a1 := mkarena _ _ _ _ _) in *.
  assert (FO1 : frames_ok (a_frames a1)).
  { unfold a1. cbn [a_frames]. split.
    - intros g [<-|I]; [|apply FO; exact I]. rewrite P2. constructor; cbn [f_ptr f_size f_len]; auto.
    - cbn [pw]. split; [|apply FO]. intros g Hg. rewrite P2. unfold apart. cbn [f_ptr f_size]. apply S3. exact Hg. }
  destruct (push_top_ok a1 n p a2 HP FO1 E2) as ((C1 & C2 & C3 & _ & cap & C5) & C6 & C7).
  split; [exact C1|]. split; [exact C2|]. split; [|split].
  - intros g x Hg H1 H2. rewrite C6. unfold a1. cbn [a_mem]. destruct (N.leb_spec q x) as [A|A]; cbn [andb]; [|reflexivity]. destruct (N.ltb_spec x (q + fs)) as [B|B]; [|reflexivity].
    destruct (S3 g Hg); lia.
  - right. exists (f :: a_frames a). split; [apply Gnew|exact C7].
  - exists cap. intros o Ea Es. destruct (C5 o Ea Es) as [D1 D2]. split; [exact D1|]. intros x Hx. apply D2. eapply inside_grown; [|exact Hx]. apply Gnew.
Qed.

(** ** Memory. *)
Lemma readn_ext : forall m m' p n, (forall i, i < N.of_nat n -> m' (p + i) = m (p + i)) -> readn m' p n = readn m p n.
Proof.
  intros m m' p n H. unfold readn. apply map_ext_in. intros i Hi. apply in_seq in Hi. apply H. lia.
Qed.
Lemma readn_length : forall m p n, length (readn m p n) = n.
Proof. intros m p n. unfold readn. rewrite map_length, seq_length. reflexivity. Qed.
Lemma nth_readn : forall m p n i d, (i < n)%nat -> nth i (readn m p n) d = m (p + N.of_nat i).
Proof.
  intros m p n i d H. unfold readn. rewrite (nth_indep _ d (m (p + N.of_nat 0))) by (rewrite map_length, seq_length; exact H).
  rewrite (map_nth (fun i => m (p + N.of_nat i))). rewrite seq_nth by exact H. reflexivity.
Qed.
Lemma blit_out : forall p d m x, x < p \/ p + N.of_nat (length d) <= x -> blit p d m x = m x.
Proof.
  intros p d m x H. unfold blit. destruct (N.leb_spec p x) as [A|A]; [|reflexivity]. apply nth_overflow. lia.
Qed.
Lemma blit_in : forall p d m i, (i < length d)%nat -> blit p d m (p + N.of_nat i) = nth i d NUL.
Proof.
  intros p d m i H. unfold blit. destruct (N.leb_spec p (p + N.of_nat i)) as [A|A]; [|lia]. replace (N.to_nat (p + N.of_nat i - p)) with i by lia. apply nth_indep. exact H.
Qed.
Lemma list_ext : forall (a b : bytes) d, length a = length b -> (forall i, (i < length a)%nat -> nth i a d = nth i b d) -> a = b.
Proof. intros a b d H1 H2. apply (nth_ext a b d d); assumption. Qed.

(** ** arena_realloc. *)
Lemma same_frame : forall f g r, frames_ok (f :: r) -> In g (f :: r) -> g = f \/ apart g f.
Proof. intros f g r [_ PW] [<-|I]; [left; reflexivity|]. right. apply apart_sym. apply (proj1 PW g I). Qed.

Lemma inside_bounds : forall P fs x, frames_ok fs -> inside P fs x -> exists f, In f fs /\ f_ptr f + FRAME <= o_addr (fst x) /\ o_addr (fst x) + snd x <= f_ptr f + f_size f /\ o_size (fst x) <= snd x.
Proof.
  intros P fs [o c] [FO _] (_ & S & f & I & W). exists f. split; [exact I|]. unfold within in W. cbn [fst snd] in *. destruct (FO f I). repeat split; lia.
Qed.

Lemma fast_ok : forall o c n a a', pok (a_poison a) -> frames_ok (a_frames a) -> inside (a_poison a) (a_frames a) (o, c) ->
  realloc_fast (o_addr o) (o_size o) n a = Some a' ->
  a_mem a' = a_mem a /\ same_conf a a' /\ frames_ok (a_frames a') /\ (grown (a_frames a) (a_frames a') \/ a' = a) /\
  exists cap, (forall o', o_addr o' = o_addr o -> o_size o' = n -> inside (a_poison a) (a_frames a') (o', cap) /\
    forall y, inside (a_poison a) (a_frames a) y -> sep (o, c) y -> sep (o', cap) y).
Proof.
  intros o c n a a' HP FO IN. pose proof half_limit as HH. unfold realloc_fast. destruct (N.leb_spec n (o_size o)) as [A|A].
  - intros H. inversion H; subst a'. split; [reflexivity|]. split; [repeat split|]. split; [exact FO|]. split; [right; reflexivity|]. exists c. intros o' E1 E2. split.
    + destruct IN as (I1 & I2 & f & I3 & W). cbn [fst snd] in *. split; [cbn [fst]; rewrite E1; exact I1|]. split; [cbn [fst snd]; lia|]. exists f. split; [exact I3|].
      unfold within in *. rewrite E1, E2. destruct W as (W1 & W2 & W3). split; [exact W1|]. split; [exact W2|]. destruct W3 as [W3|W3]; [left|right; exact W3].
      pose proof (proj1 FO f I3) as FK. destruct FK as [_ _ _ _ F5 F6].
      destruct (align_ok (a_poison a) (o_addr o + o_size o) HP) as (k1 & K1 & K2 & K3); [lia|]. destruct (align_ok (a_poison a) (o_addr o + n) HP) as (k2 & K4 & K5 & K6); [lia|]. lia.
    + intros y _ S. unfold sep in *. cbn [fst snd] in *. rewrite E1. exact S.
  - destruct (a_frames a) as [|f r] eqn:Ef; [discriminate|].
    pose proof IN as IN0. destruct IN as ([ka Ka] & I2 & g & I3 & W). cbn [fst snd] in *. unfold within in W. destruct W as (W1 & W2 & W3).
    pose proof (proj1 FO g I3) as FG. destruct FG as [G1 G2 G3 G4 G5 G6].
    pose proof (proj1 FO f (or_introl eq_refl)) as FF. destruct FF as [F1 F2 F3 F4 F5 F6].
    rewrite (N.mod_small (o_addr o + o_size o)) by lia.
    destruct (N.eqb_spec (align_address (a_poison a) (o_addr o + o_size o)) (f_ptr f + f_len f)) as [E|E]; cbn [negb]; [|discriminate].
    destruct (align_ok (a_poison a) (o_addr o + o_size o) HP) as (k1 & K1 & K2 & K3); [lia|].
    assert (SF : g = f).
    { destruct (same_frame f g r FO I3) as [S|S]; [exact S|]. exfalso. unfold apart in S. unfold FRAME in *. destruct G2 as [kg KG], G1 as [kh KH], HP as [HP|HP]; rewrite HP in *; destruct S, W3; lia. }
    subst g. destruct F1 as [kf KF]. destruct F3 as [kl KL].
    replace ((o_addr o + SIZE_LIMIT - f_ptr f) mod SIZE_LIMIT) with (o_addr o - f_ptr f).
    2:{ replace (o_addr o + SIZE_LIMIT - f_ptr f) with ((o_addr o - f_ptr f) + 1 * SIZE_LIMIT) by (unfold FRAME in *; lia). rewrite N.mod_add by discriminate. rewrite N.mod_small; lia. }
    destruct (push (a_poison a) (mkframe (f_ptr f) (f_size f) (o_addr o - f_ptr f)) n) as [[q f']|] eqn:EP; [|discriminate]. intros H. inversion H; subst a'. clear H.
    destruct (push_ok (a_poison a) (mkframe (f_ptr f) (f_size f) (o_addr o - f_ptr f)) n q f' HP) as (P1 & P2 & P3 & P4 & P5 & P6).
    { exists kf. exact KF. } { exact F2. } { cbn [f_len]. exists (ka - kf). unfold FRAME in *. lia. } { cbn [f_len f_size]. unfold FRAME in *. lia. } { exact F6. } { exact EP. }
    cbn [f_ptr f_size f_len set_frames a_mem a_frames a_poison] in *. unfold FRAME in *.
    assert (LE : f_len f <= f_len f').
    { destruct (align_ok (a_poison a) (q + n) HP) as (k3 & K4 & K5 & K6); [lia|]. destruct P6 as [P6|P6]; lia. }
    split; [reflexivity|]. split; [repeat split|]. split; [rewrite P2; apply frames_top; unfold FRAME; auto; lia|]. rewrite P2. split; [left; apply Glen; exact LE|].
    exists (f_len f' - (o_addr o - f_ptr f)). intros o' E1 E2. split.
    + split; [cbn [fst]; exists ka; lia|]. split; [cbn [fst snd]; lia|]. eexists. split; [left; reflexivity|]. unfold within. cbn [f_ptr f_size f_len]. rewrite E1, E2.
      unfold FRAME. split; [lia|]. split; [lia|]. replace (o_addr o + n) with (q + n) by lia. destruct P6; [left|right]; lia.
    + intros y IY S. unfold sep in *. cbn [fst snd] in *. rewrite E1.
      destruct (inside_bounds _ _ _ FO IY) as (h & H1 & H2 & H3 & H4). unfold FRAME in *.
      destruct (same_frame f h r FO H1) as [S1|S1].
      * subst h. destruct IY as (_ & _ & h' & Ih & Wh). destruct y as [oy cy]. cbn [fst snd] in *. unfold within in Wh. destruct Wh as (V1 & V2 & _).
        destruct (same_frame f h' r FO Ih) as [S2|S2].
        -- subst h'. assert (o_addr oy + cy <= o_addr o + c \/ f_ptr f + f_len f <= o_addr oy) by lia.
           (* what is set aside for o reaches the end of what is used in the frame *)
           assert (REACH : f_ptr f + f_len f <= o_addr o + c) by (destruct W3; lia).
           destruct S as [S|[S|[S|S]]]; [right; right; right|right; left|right; left|right; right; right]; lia.
        -- pose proof (proj1 FO h' Ih) as FH. destruct FH. unfold apart in S2. unfold FRAME in *. lia.
      * pose proof (proj1 FO h H1) as FH. destruct FH. unfold apart in S1. unfold FRAME in *. right. right. destruct S1 as [S1|S1]; [right; lia|left; lia].
Qed.

(** ** A client. *)
Record client := mkclient { c_a : arena; c_scopes : list scope; c_objs : list obj; c_hist : list (list frame) }.
Record cinv (c : client) (L : list (obj * N)) : Prop := {
  ci_objs : c_objs c = List.map fst L;
  ci_poison : pok (a_poison (c_a c));
  ci_fsize : al (a_fsize (c_a c));
  ci_frames : frames_ok (a_frames (c_a c));
  ci_some : a_frames (c_a c) <> [];
  ci_refs : a_refs (c_a c) = S (length (c_scopes c));
  ci_marks : marks (a_poison (c_a c)) (a_frames (c_a c)) (c_scopes c) (c_hist c) L;
  ci_depth : forall x, In x L -> (o_depth (fst x) <= length (c_scopes c))%nat;
  ci_sep : pw sep L;
  ci_data : forall x, In x L -> readn (a_mem (c_a c)) (o_addr (fst x)) (N.to_nat (o_size (fst x))) = o_data (fst x)
}.

Lemma ci_inside : forall c L x, cinv c L -> In x L -> inside (a_poison (c_a c)) (a_frames (c_a c)) x.
Proof.
  intros c L x I H. pose proof (ci_marks _ _ I) as M. pose proof (ci_depth _ _ I x H) as D. destruct (c_scopes c); cbn [marks] in M; apply (proj1 M); assumption.
Qed.
Lemma ci_valid : forall c L s ss, cinv c L -> c_scopes c = s :: ss -> validate (c_a c) s = true.
Proof.
  intros c L s ss I E. pose proof (ci_marks _ _ I) as M. rewrite E in M. cbn [marks] in M. destruct (c_hist c); [tauto|]. unfold validate.
  rewrite (ci_refs _ _ I), E. cbn [length]. destruct M as (_ & -> & _). apply Nat.eqb_refl.
Qed.
(** Two steps of growth. *)
Lemma marks_allocated : forall P scopes fs fs' hist L, (grown fs fs' \/ exists mid, grown fs mid /\ grown mid fs') -> marks P fs scopes hist L -> marks P fs' scopes hist L.
Proof. intros P scopes fs fs' hist L [G|(mid & G1 & G2)] M; [eapply marks_grown; eauto|]. eapply marks_grown; [exact G2|]. eapply marks_grown; eauto. Qed.
Lemma grown_some : forall fs fs', grown fs fs' -> fs' <> [].
Proof. intros fs fs' G. inversion G; discriminate. Qed.

(** Memory of an object inside the frames survives changes outside of it. *)
Lemma keep_data : forall P fs m m' x, frames_ok fs -> inside P fs x -> same_mem fs m m' -> readn m' (o_addr (fst x)) (N.to_nat (o_size (fst x))) = readn m (o_addr (fst x)) (N.to_nat (o_size (fst x))).
Proof.
  intros P fs m m' x FO I S. apply readn_ext. intros i Hi. destruct (inside_bounds _ _ _ FO I) as (f & F1 & F2 & F3 & F4). apply (S f); [exact F1|lia|lia].
Qed.
