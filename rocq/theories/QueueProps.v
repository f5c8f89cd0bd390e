(** Property C44: intrusive lists. *)
From Verif Require Import Base QueueModel.

(** ** Specification *)
(** From the pointer at [s] the elements [l] are reached, each knowing the pointer to it. *)
Fixpoint chain (m : mem) (s : slot) (l : list nat) : Prop :=
  match l with
  | [] => q_val m s = None
  | e :: r => q_val m s = Some e /\ q_bck m (SElem e) = Some s /\ chain m (SElem e) r
  end.
Definition lastslot (s : slot) (l : list nat) : slot := match rev l with e :: _ => SElem e | [] => s end.
Definition rep (m : mem) (h : nat) (l : list nat) : Prop :=
  NoDup l /\ chain m (SHead h) l /\ q_bck m (SHead h) = Some (lastslot (SHead h) l).
(** Several lists at once: [I] are the initialised heads, [L h] is the sequence of head [h].
    An element is in one list at most; one that is in none is not linked if [U] says so. *)
Record lists (I U : nat -> Prop) (m : mem) (L : nat -> list nat) : Prop := {
  ls_rep : forall h, I h -> rep m h (L h);
  ls_one : forall h1 h2 e, I h1 -> I h2 -> In e (L h1) -> In e (L h2) -> h1 = h2;
  ls_free : forall e, U e -> q_val m (SElem e) = None /\ q_bck m (SElem e) = None;
  ls_apart : forall h e, I h -> In e (L h) -> ~ U e }.
Definition upd {A : Type} (f : nat -> A) (h : nat) (x : A) : nat -> A := fun i => if Nat.eqb i h then x else f i.

(** ** Lemmas *)
Lemma slot_eqb_spec : forall a b, reflect (a = b) (slot_eqb a b).
Proof. intros [x|x] [y|y]; cbn; try (constructor; discriminate); destruct (Nat.eqb_spec x y); constructor; congruence. Qed.
Lemma slot_refl : forall a, slot_eqb a a = true.
Proof. intros a. destruct (slot_eqb_spec a a); auto. Qed.
Lemma slot_ne : forall a b, a <> b -> slot_eqb a b = false.
Proof. intros a b H. destruct (slot_eqb_spec a b); auto; contradiction. Qed.
Lemma lastslot_snoc : forall s l e, lastslot s (l ++ [e]) = SElem e.
Proof. intros. unfold lastslot. rewrite rev_app_distr. auto. Qed.
Lemma lastslot_cons : forall s e l, lastslot s (e :: l) = lastslot (SElem e) l.
Proof. intros. unfold lastslot. cbn. destruct (rev l); auto. Qed.
Lemma lastslot_app : forall s a b, lastslot s (a ++ b) = lastslot (lastslot s a) b.
Proof. intros. unfold lastslot. rewrite rev_app_distr. destruct (rev b); auto. Qed.
Lemma lastslot_in : forall s l, lastslot s l = s \/ exists e, In e l /\ lastslot s l = SElem e.
Proof. intros. unfold lastslot. destruct (rev l) eqn:E; auto. right. exists n. split; auto. apply in_rev. rewrite E. left; auto. Qed.
(** The part of a chain before a position. *)
Fixpoint path (m : mem) (s : slot) (l : list nat) : Prop :=
  match l with
  | [] => True
  | e :: r => q_val m s = Some e /\ q_bck m (SElem e) = Some s /\ path m (SElem e) r
  end.
Lemma chain_app : forall m a b s, chain m s (a ++ b) <-> path m s a /\ chain m (lastslot s a) b.
Proof.
  intros m a. induction a as [|e a IH]; intros b s; [cbn; tauto|]. cbn [app chain path]. rewrite IH, lastslot_cons. tauto.
Qed.
Lemma path_app : forall m a b s, path m s (a ++ b) <-> path m s a /\ path m (lastslot s a) b.
Proof. intros m a. induction a as [|e a IH]; intros b s; [cbn; tauto|]. cbn [app path]. rewrite IH, lastslot_cons. tauto. Qed.
Lemma chain_frame : forall m m' l s, q_val m' s = q_val m s -> (forall e, In e l -> q_val m' (SElem e) = q_val m (SElem e) /\ q_bck m' (SElem e) = q_bck m (SElem e)) ->
  chain m s l -> chain m' s l.
Proof.
  intros m m' l. induction l as [|e l IH]; intros s Hs H C; cbn in *; [congruence|]. destruct C as (A & B & C). destruct (H e (or_introl eq_refl)) as (K1 & K2).
  split; [congruence|]. split; [congruence|]. apply IH; auto.
Qed.
(** A path does not depend on what its last slot points to. *)
Lemma path_frame : forall m m' l s, NoDup l -> (forall e, s = SElem e -> ~ In e l) -> (forall t, t = s \/ (exists e, In e l /\ t = SElem e) -> t <> lastslot s l -> q_val m' t = q_val m t) ->
  (forall e, In e l -> q_bck m' (SElem e) = q_bck m (SElem e)) -> path m s l -> path m' s l.
Proof.
  intros m m' l. induction l as [|e l IH]; intros s Hn Hs Hv Hb C; cbn in *; [auto|]. destruct C as (A & B & C). inversion Hn; subst.
  rewrite lastslot_cons in Hv. split.
  - rewrite Hv; auto. intros E. destruct (lastslot_in (SElem e) l) as [K|(x & Hx & K)]; rewrite K in E; subst s; [apply (Hs e); auto|apply (Hs x); auto].
  - split; [rewrite Hb; auto|]. apply IH; auto.
    + intros x E. injection E as <-. auto.
    + intros t [->|(x & Hx & ->)] Hl; apply Hv; auto; right; eauto.
Qed.
Lemma rep_frame : forall m m' h l, q_val m' (SHead h) = q_val m (SHead h) -> q_bck m' (SHead h) = q_bck m (SHead h) ->
  (forall e, In e l -> q_val m' (SElem e) = q_val m (SElem e) /\ q_bck m' (SElem e) = q_bck m (SElem e)) -> rep m h l -> rep m' h l.
Proof. intros m m' h l A B C (D & E & F). split; auto. split; [eapply chain_frame; eauto|congruence]. Qed.

Ltac leaf :=
  cbn [q_val q_bck setv setb]; repeat match goal with
  | |- context [slot_eqb ?a ?b] => destruct (slot_eqb_spec a b); cbn [q_val q_bck setv setb]
  | H : SElem _ = SElem _ |- _ => injection H as H; subst
  | H : SHead _ = SHead _ |- _ => injection H as H; subst
  | H : SElem _ = SHead _ |- _ => discriminate H
  | H : SHead _ = SElem _ |- _ => discriminate H
  | H : _ \/ _ |- _ => destruct H
  | H : exists _, _ |- _ => destruct H
  | H : _ /\ _ |- _ => destruct H
  end; subst; try congruence; try tauto; auto; try (exfalso; eauto; fail).

Lemma nd_app : forall (a b : list nat), NoDup (a ++ b) <-> NoDup a /\ NoDup b /\ forall x, In x a -> ~ In x b.
Proof.
  intros a b. induction a as [|e a IH]; cbn [app].
  - split; [intros H; repeat split; auto; constructor|tauto].
  - split.
    + intros H. inversion H as [|? ? H1 H2]; subst. apply IH in H2. destruct H2 as (A & B & C). rewrite in_app_iff in H1. split; [constructor; tauto|]. split; auto. intros x [<-|Hx]; auto.
    + intros (A & B & C). inversion A as [|? ? A1 A2]; subst. constructor; [rewrite in_app_iff; intros [K|K]; auto; apply (C e); [left|]; auto|]. apply IH. repeat split; auto. intros x Hx. apply C. right; auto.
Qed.
(** Facts about a place in a list. *)
Lemma place : forall h (a b : list nat), NoDup (a ++ b) -> let s := lastslot (SHead h) a in
  (forall x, s = SElem x -> In x a) /\ (forall k, s = SHead k -> k = h) /\ (forall x, In x b -> s <> SElem x) /\ NoDup a /\ NoDup b /\ (forall x, In x a -> In x b -> False).
Proof.
  intros h a b Hn s. apply nd_app in Hn. destruct Hn as (Na & Nb & Nd).
  assert (A : forall x, s = SElem x -> In x a). { intros x E. destruct (lastslot_in (SHead h) a) as [K|(y & Hy & K)]; unfold s in E; rewrite K in E; congruence. }
  split; auto. split; [|split; [|split; auto; split; auto]].
  - intros k E. destruct (lastslot_in (SHead h) a) as [K|(y & Hy & K)]; unfold s in E; rewrite K in E; congruence.
  - intros x Hx E. apply (Nd x); auto.
Qed.

(** Removing an element. *)
Lemma remove_rep : forall m h a e b, rep m h (a ++ e :: b) ->
  exists m', remove h e m = Some m' /\ rep m' h (a ++ b) /\ q_val m' (SElem e) = None /\ q_bck m' (SElem e) = None /\
    (forall x, ~ In x (a ++ e :: b) -> q_val m' (SElem x) = q_val m (SElem x) /\ q_bck m' (SElem x) = q_bck m (SElem x)) /\
    (forall k, k <> h -> q_val m' (SHead k) = q_val m (SHead k) /\ q_bck m' (SHead k) = q_bck m (SHead k)).
Proof.
  intros m h a e b (Hn & Hc & Hl). apply chain_app in Hc. destruct Hc as (Pa & Ve & Be & Cb).
  destruct (place h a (e :: b) Hn) as (Sa & Sk & Sb & Na & Nb & Nd). set (s := lastslot (SHead h) a) in *. inversion Nb as [|? ? Eb Nb']; subst.
  assert (Se : s <> SElem e) by (apply Sb; left; auto). assert (Ea : ~ In e a) by (intros K; apply (Nd e K); left; auto).
  assert (Hn' : NoDup (a ++ b)) by (apply NoDup_remove_1 in Hn; auto).
  unfold remove. destruct b as [|n b].
  - cbn in Cb. rewrite Cb. cbn [bind q_bck setb]. replace (slot_eqb (SElem e) (SHead h)) with false by auto. rewrite Be. cbn [bind]. eexists. split; [reflexivity|].
    split; [|split; [|split; [|split]]].
    + split; auto. split.
      * apply chain_app. split; [|cbn [chain]; fold s; leaf]. apply path_frame with m; auto; try discriminate; fold s; intros; leaf.
      * rewrite app_nil_r. fold s. leaf.
    + leaf.
    + leaf.
    + intros x Hx. rewrite in_app_iff in Hx. cbn in Hx. leaf.
    + intros k Hk. leaf.
  - cbn in Cb. destruct Cb as (Vn & Bn & Cn). rewrite Vn. assert (Hne : n <> e) by (intros ->; apply Eb; left; auto). inversion Nb' as [|? ? Nnb Nb'']; subst.
    assert (Nna : ~ In n a) by (intros K; apply (Nd n K); right; left; auto). assert (Sn : s <> SElem n) by (apply Sb; right; left; auto).
    cbn [bind q_bck setb]. destruct (slot_eqb_spec (SElem e) (SElem n)); [congruence|]. rewrite Be. cbn [bind]. eexists. split; [reflexivity|].
    split; [|split; [|split; [|split]]].
    + split; auto. split.
      * apply chain_app. split; [apply path_frame with m; auto; try discriminate; fold s; intros; leaf|].
        cbn [chain]. fold s. split; [leaf|]. split; [leaf|]. apply chain_frame with m; auto; [leaf|].
        intros x Hx. assert (x <> n) by (intros ->; auto). assert (x <> e) by (intros ->; apply Eb; right; auto). assert (s <> SElem x) by (apply Sb; right; right; auto). split; leaf.
      * cbn [q_bck setv setb]. replace (slot_eqb (SHead h) (SElem e)) with false by auto. replace (slot_eqb (SHead h) (SElem n)) with false by auto.
        rewrite Hl. f_equal. rewrite !lastslot_app, !lastslot_cons. auto.
    + leaf.
    + leaf.
    + intros x Hx. rewrite in_app_iff in Hx. cbn in Hx. assert (x <> n) by (intros ->; tauto). assert (x <> e) by (intros ->; tauto). leaf.
    + intros k Hk. leaf.
Qed.

(** Putting an element between [a] and [b]: what has to be stored. *)
Definition put (m m' : mem) (h : nat) (a : list nat) (e : nat) (b : list nat) : Prop :=
  let s := lastslot (SHead h) a in let t := match b with n :: _ => SElem n | [] => SHead h end in
  q_val m' s = Some e /\ q_val m' (SElem e) = hd_error b /\ q_bck m' (SElem e) = Some s /\ q_bck m' t = Some (SElem e) /\
  (forall u, u <> s -> u <> SElem e -> q_val m' u = q_val m u) /\ (forall u, u <> t -> u <> SElem e -> q_bck m' u = q_bck m u).
Lemma put_rep : forall m m' h a e b, rep m h (a ++ b) -> ~ In e (a ++ b) -> put m m' h a e b -> rep m' h (a ++ e :: b).
Proof.
  intros m m' h a e b (Hn & Hc & Hl) He P. unfold put in P. rewrite in_app_iff in He. apply chain_app in Hc. destruct Hc as (Pa & Cb).
  destruct (place h a b Hn) as (Sa & Sk & Sb & Na & Nb & Nd). set (s := lastslot (SHead h) a) in *. destruct P as (P1 & P2 & P3 & P4 & P5 & P6).
  assert (Se : s <> SElem e) by (intros E; apply Sa in E; tauto).
  split. { apply nd_app. split; auto. split; [constructor; tauto|]. intros x Hx [<-|K]; [tauto|apply (Nd x); auto]. }
  split.
  - apply chain_app. split.
    + apply path_frame with m; auto; try discriminate; fold s.
      * intros t Ht Hs. apply P5; auto. intros ->. destruct Ht as [Ht|(x & Hx & Ht)]; [discriminate|]. injection Ht as ->. tauto.
      * intros x Hx. apply P6; [|intros E; injection E as ->; tauto]. destruct b as [|n b]; [discriminate|]. intros E. injection E as ->. apply (Nd n); [auto|left; auto].
    + fold s. cbn [chain]. split; auto. split; auto. destruct b as [|n b]; [cbn; auto|]. cbn [chain hd_error] in *. destruct Cb as (C1 & C2 & C3). split; auto. split; auto.
      inversion Nb; subst. apply chain_frame with m; auto.
      * apply P5; [intros E; apply (Sb n); [left|]; auto|intros E; injection E as ->; apply He; right; left; auto].
      * intros x Hx. assert (x <> e) by (intros ->; apply He; right; right; auto). split; [apply P5; [intros E; apply (Sb x); [right|]; auto|congruence]|apply P6; [|congruence]]. intros E. injection E as ->. contradiction.
  - rewrite lastslot_app, lastslot_cons. destruct b as [|n b].
    + rewrite P4. auto.
    + rewrite P6 by discriminate. rewrite Hl, lastslot_app, !lastslot_cons. auto.
Qed.
Lemma put_frame : forall m m' h a e b, NoDup (a ++ b) -> put m m' h a e b ->
  (forall x, x <> e -> ~ In x (a ++ b) -> q_val m' (SElem x) = q_val m (SElem x) /\ q_bck m' (SElem x) = q_bck m (SElem x)) /\
  (forall k, k <> h -> q_val m' (SHead k) = q_val m (SHead k) /\ q_bck m' (SHead k) = q_bck m (SHead k)).
Proof.
  intros m m' h a e b Hn P. unfold put in P. destruct (place h a b Hn) as (Sa & Sk & Sb & Na & Nb & Nd). set (s := lastslot (SHead h) a) in *. destruct P as (P1 & P2 & P3 & P4 & P5 & P6). split.
  - intros x Hx Hi. rewrite in_app_iff in Hi. split; [apply P5; [intros E; symmetry in E; apply Sa in E; tauto|congruence]|apply P6; [|congruence]]. destruct b as [|n b]; [discriminate|]. intros E. injection E as ->. apply Hi. right. left. auto.
  - intros k Hk. split; [apply P5; [|discriminate]; intros E; symmetry in E; apply Sk in E; congruence|apply P6; [|discriminate]]. destruct b; congruence.
Qed.
Lemma insert_head_put : forall m h e b, rep m h b -> ~ In e b -> exists m', insert_head h e m = Some m' /\ put m m' h [] e b.
Proof.
  intros m h e b (Hn & Hc & Hl) He. unfold insert_head. destruct b as [|n b]; cbn [chain] in Hc.
  - cbn [q_val setv]. rewrite Hc. replace (slot_eqb (SHead h) (SElem e)) with false by auto. destruct (slot_eqb_spec (SElem e) (SElem e)); [|congruence]. cbn [bind]. eexists. split; [reflexivity|].
    unfold put. cbn. rewrite !Nat.eqb_refl. repeat split; auto; intros u U1 U2; leaf.
  - destruct Hc as (C1 & C2 & C3). cbn [q_val setv]. replace (slot_eqb (SHead h) (SElem e)) with false by auto. destruct (slot_eqb_spec (SElem e) (SElem e)); [|congruence]. rewrite C1. cbn [bind]. eexists. split; [reflexivity|].
    assert (n <> e) by (intros ->; apply He; left; auto). unfold put. cbn [lastslot rev]. split; [leaf|]. split; [leaf|]. split; [leaf|]. split; [leaf|]. split; intros u U1 U2; leaf.
Qed.
Lemma insert_tail_put : forall m h e a, rep m h a -> ~ In e a -> exists m', insert_tail h e m = Some m' /\ put m m' h a e [].
Proof.
  intros m h e a (Hn & Hc & Hl) He. unfold insert_tail. cbn [q_bck setv setb]. replace (slot_eqb (SHead h) (SElem e)) with false by auto. rewrite Hl. cbn [bind]. eexists. split; [reflexivity|].
  rewrite <- (app_nil_r a) in Hn. destruct (place h a [] Hn) as (Sa & Sk & _). unfold put. set (s := lastslot (SHead h) a) in *.
  assert (s <> SElem e) by (intros E; apply Sa in E; tauto). split; [leaf|]. split; [leaf|]. split; [leaf|]. split; [leaf|]. split; intros u U1 U2; leaf.
Qed.
Lemma insert_after_put : forall m h le e a b, rep m h (a ++ le :: b) -> ~ In e (a ++ le :: b) -> exists m', insert_after h le e m = Some m' /\ put m m' h (a ++ [le]) e b.
Proof.
  intros m h le e a b (Hn & Hc & Hl) He. rewrite in_app_iff in He. cbn in He. assert (le <> e) by (intros ->; tauto). apply chain_app in Hc. destruct Hc as (Pa & V & B & Cb).
  unfold insert_after. destruct b as [|n b]; cbn [chain] in Cb.
  - rewrite Cb. cbn [q_val setv]. rewrite Nat.eqb_refl || (destruct (slot_eqb_spec (SElem e) (SElem e)); [|congruence]). eexists. split; [reflexivity|].
    unfold put. rewrite lastslot_snoc. cbn [hd_error]. split; [leaf|]. split; [leaf|]. split; [leaf|]. split; [leaf|]. split; intros u U1 U2; leaf.
  - destruct Cb as (C1 & C2 & C3). rewrite C1. cbn [q_val setv]. destruct (slot_eqb_spec (SElem e) (SElem e)); [|congruence]. eexists. split; [reflexivity|].
    assert (n <> e) by (intros ->; cbn in He; tauto). unfold put. rewrite lastslot_snoc. cbn [hd_error]. split; [leaf|]. split; [leaf|]. split; [leaf|]. split; [leaf|]. split; intros u U1 U2; leaf.
Qed.
Lemma insert_before_put : forall m h le e a b, rep m h (a ++ le :: b) -> ~ In e (a ++ le :: b) -> exists m', insert_before le e m = Some m' /\ put m m' h a e (le :: b).
Proof.
  intros m h le e a b (Hn & Hc & Hl) He. rewrite in_app_iff in He. cbn in He. assert (le <> e) by (intros ->; tauto). apply chain_app in Hc. destruct Hc as (Pa & V & B & Cb).
  destruct (place h a (le :: b) Hn) as (Sa & Sk & Sb & _). unfold put. set (s := lastslot (SHead h) a) in *. assert (s <> SElem e) by (intros E; apply Sa in E; tauto).
  unfold insert_before. cbn [q_bck setv setb]. destruct (slot_eqb_spec (SElem le) (SElem e)); [congruence|]. rewrite B. cbn [bind]. eexists. split; [reflexivity|].
  split; [leaf|]. split; [leaf|]. split; [leaf|]. split; [leaf|]. split; intros u U1 U2; leaf.
Qed.

(** Appending a list to another. *)
Lemma concat_rep : forall m h1 h2 a b, h1 <> h2 -> rep m h1 a -> rep m h2 b -> (forall x, In x a -> ~ In x b) ->
  exists m', concat h1 h2 m = Some m' /\ rep m' h1 (a ++ b) /\ rep m' h2 [] /\
    (forall x, ~ In x a -> ~ In x b -> q_val m' (SElem x) = q_val m (SElem x) /\ q_bck m' (SElem x) = q_bck m (SElem x)) /\
    (forall k, k <> h1 -> k <> h2 -> q_val m' (SHead k) = q_val m (SHead k) /\ q_bck m' (SHead k) = q_bck m (SHead k)).
Proof.
  intros m h1 h2 a b Hh (Na & Ca & La) (Nb & Cb & Lb) Hd. unfold concat, empty, first. destruct b as [|f b]; cbn [chain] in Cb.
  - rewrite Cb. exists m. rewrite app_nil_r. split; auto. split; [split; auto|]. split; [split; auto|]. split; auto.
  - destruct Cb as (C1 & C2 & C3). rewrite C1. rewrite La. cbn [bind].
    assert (Hn : NoDup (a ++ f :: b)) by (apply nd_app; auto). destruct (place h1 a (f :: b) Hn) as (Sa & Sk & Sb & _). set (s := lastslot (SHead h1) a) in *.
    assert (S2 : s <> SHead h2) by (intros E; apply Sk in E; congruence). assert (Sf : s <> SElem f) by (apply Sb; left; auto). inversion Nb; subst.
    cbn [q_val setv]. destruct (slot_eqb_spec (SHead h2) s); [congruence|]. rewrite C1. cbn [bind]. unfold init. eexists. split; [reflexivity|]. cbn [q_bck setb setv].
    rewrite <- (app_nil_r a) in Ca. apply chain_app in Ca. destruct Ca as (Pa & Va). cbn in Va. fold s in Va.
    split; [|split; [|split]].
    + split; auto. split.
      * apply chain_app. split.
        -- apply path_frame with m; auto; try discriminate; fold s.
           ++ intros t Ht Hs. leaf.
           ++ intros x Hx. assert (x <> f) by (intros ->; apply (Hd f Hx); left; auto). leaf.
        -- fold s. cbn [chain]. split; [leaf|]. split; [leaf|]. apply chain_frame with m; auto; [leaf|].
           intros x Hx. assert (x <> f) by (intros ->; contradiction). assert (s <> SElem x) by (apply Sb; right; auto). split; leaf.
      * cbn [q_bck setb setv]. destruct (slot_eqb_spec (SHead h1) (SHead h2)); [congruence|]. destruct (slot_eqb_spec (SHead h1) (SHead h1)); [|congruence]. replace (slot_eqb (SHead h2) (SElem f)) with false by auto. rewrite Lb. f_equal. rewrite lastslot_app, !lastslot_cons. auto.
    + split; [constructor|]. split; [cbn [chain]; leaf|leaf].
    + intros x X1 X2. assert (x <> f) by (intros ->; apply X2; left; auto). split; leaf.
    + intros k K1 K2. split; leaf.
Qed.

(** Reading. *)
Lemma last_spec : forall m h l, rep m h l -> last h m = Some (hd_error (rev l)).
Proof.
  intros m h l (Hn & Hc & Hl). unfold last. rewrite Hl. cbn [bind]. destruct (rev l) as [|e r] eqn:Er; apply (f_equal (@rev _)) in Er; rewrite rev_involutive in Er; cbn in Er; subst l.
  - cbn [lastslot rev]. cbn in Hc. rewrite Hl. cbn [bind lastslot rev]. rewrite Hc. auto.
  - rewrite lastslot_snoc. apply chain_app in Hc. destruct Hc as (Pa & V & B & _). rewrite B. cbn [bind hd_error]. rewrite V. auto.
Qed.
Lemma prev_spec : forall m h a e b, rep m h (a ++ e :: b) -> prev e m = Some (hd_error (rev a)).
Proof.
  intros m h a e b (Hn & Hc & Hl). apply chain_app in Hc. destruct Hc as (Pa & V & B & C). unfold prev. rewrite B. cbn [bind].
  destruct (rev a) as [|x r] eqn:Er; apply (f_equal (@rev _)) in Er; rewrite rev_involutive in Er; cbn in Er; subst a.
  - cbn [lastslot rev]. rewrite Hl. cbn [bind]. assert (K : chain m (SElem e) b) by auto. rewrite lastslot_app, lastslot_cons.
    assert (K2 : q_val m (lastslot (SElem e) b) = None). { rewrite <- (app_nil_r b) in K. apply chain_app in K. tauto. } cbn [lastslot rev] in *. rewrite K2. auto.
  - rewrite lastslot_snoc. apply path_app in Pa. cbn [path] in Pa. destruct Pa as (Pa & V' & B' & _). rewrite B'. cbn [bind hd_error]. rewrite V'. auto.
Qed.
Lemma next_spec : forall m h a e b, rep m h (a ++ e :: b) -> next e m = hd_error b.
Proof. intros m h a e b (Hn & Hc & Hl). apply chain_app in Hc. destruct Hc as (Pa & V & B & C). unfold next. destruct b; cbn in *; tauto. Qed.
Lemma foreach_spec : forall m h l, rep m h l -> foreach (length l) h m = Some l.
Proof.
  intros m h l R. unfold foreach. assert (F : first h m = hd_error l) by (destruct R as (_ & C & _); destruct l; cbn in C; unfold first; tauto). rewrite F.
  assert (G : forall b a, l = a ++ b -> walk (length b) (fun e => Some (next e m)) (hd_error b) = Some b).
  { induction b as [|e b IH]; intros a E; auto. cbn [walk hd_error length bind]. rewrite (next_spec m h a e b) by (rewrite <- E; auto). rewrite (IH (a ++ [e])); [auto|]. rewrite <- app_assoc. auto. }
  apply (G l []). auto.
Qed.
Lemma foreach_reverse_spec : forall m h l, rep m h l -> foreach_reverse (length l) h m = Some (rev l).
Proof.
  intros m h l R. unfold foreach_reverse. rewrite (last_spec m h l R). cbn [bind].
  assert (G : forall a b, l = rev a ++ b -> walk (length a) (fun e => prev e m) (hd_error a) = Some a).
  { induction a as [|e a IH]; intros b E; auto. cbn [walk hd_error length]. cbn in E. rewrite <- app_assoc in E. rewrite (prev_spec m h (rev a) e b) by (rewrite E in R; auto). rewrite rev_involutive. cbn [bind]. rewrite (IH ([e] ++ b)) by auto. auto. }
  rewrite <- (rev_length l). apply (G (rev l) []). rewrite rev_involutive, app_nil_r. auto.
Qed.

(** ** C44 *)
(** Operations on several lists. *)
Inductive qop : Set := QInit (h : nat) | QHead (h e : nat) | QTail (h e : nat) | QAfter (h le e : nat) | QBefore (le e : nat) | QRemove (h e : nat) | QConcat (h1 h2 : nat).
Definition qexec (o : qop) (m : mem) : option mem :=
  match o with
  | QInit h => init h m
  | QHead h e => insert_head h e m
  | QTail h e => insert_tail h e m
  | QAfter h le e => insert_after h le e m
  | QBefore le e => insert_before le e m
  | QRemove h e => remove h e m
  | QConcat h1 h2 => concat h1 h2 m
  end.
(** Their effect on sequences: [(I, U, L)] as in [lists]. *)
Definition unused (I : nat -> Prop) (L : nat -> list nat) (e : nat) : Prop := forall h, I h -> ~ In e (L h).
Inductive qstep (I U : nat -> Prop) (L : nat -> list nat) : qop -> (nat -> Prop) -> (nat -> Prop) -> (nat -> list nat) -> Prop :=
| qs_init : forall h, ~ I h -> qstep I U L (QInit h) (fun k => I k \/ k = h) U (upd L h [])
| qs_head : forall h e, I h -> unused I L e -> qstep I U L (QHead h e) I (fun x => U x /\ x <> e) (upd L h (e :: L h))
| qs_tail : forall h e, I h -> unused I L e -> qstep I U L (QTail h e) I (fun x => U x /\ x <> e) (upd L h (L h ++ [e]))
| qs_after : forall h a le b e, I h -> L h = a ++ le :: b -> unused I L e -> qstep I U L (QAfter h le e) I (fun x => U x /\ x <> e) (upd L h (a ++ le :: e :: b))
| qs_before : forall h a le b e, I h -> L h = a ++ le :: b -> unused I L e -> qstep I U L (QBefore le e) I (fun x => U x /\ x <> e) (upd L h (a ++ e :: le :: b))
| qs_remove : forall h a e b, I h -> L h = a ++ e :: b -> qstep I U L (QRemove h e) I (fun x => U x \/ x = e) (upd L h (a ++ b))
| qs_concat : forall h1 h2, I h1 -> I h2 -> h1 <> h2 -> qstep I U L (QConcat h1 h2) I U (upd (upd L h1 (L h1 ++ L h2)) h2 []).

Lemma upd_eq : forall A (f : nat -> A) h x, upd f h x h = x.
Proof. intros. unfold upd. rewrite Nat.eqb_refl. auto. Qed.
Lemma upd_ne : forall A (f : nat -> A) h x k, k <> h -> upd f h x k = f k.
Proof. intros. unfold upd. destruct (Nat.eqb_spec k h); [contradiction|auto]. Qed.

(** A new element in one list. *)
Lemma put_lists : forall I U m m' L h a e b, lists I U m L -> I h -> L h = a ++ b -> unused I L e -> put m m' h a e b ->
  lists I (fun x => U x /\ x <> e) m' (upd L h (a ++ e :: b)).
Proof.
  intros I U m m' L h a e b [R O F A] Hh El Hu P. pose proof (R h Hh) as Rh. rewrite El in Rh. assert (He : ~ In e (a ++ b)) by (rewrite <- El; apply Hu; auto).
  destruct (put_frame m m' h a e b (proj1 Rh) P) as (F1 & F2).
  assert (Hin : forall x, In x (a ++ e :: b) -> x = e \/ In x (L h)). { intros x Hx. rewrite El. rewrite in_app_iff in *. cbn in Hx. intuition. }
  constructor.
  - intros k Hk. destruct (Nat.eq_dec k h) as [->|N]; [rewrite upd_eq; apply put_rep with m; auto|rewrite upd_ne by auto].
    destruct (F2 k N). apply rep_frame with m; auto. intros x Hx. apply F1; [intros ->; apply (Hu k Hk); auto|]. rewrite <- El. intros K. apply N. apply (O k h x); auto.
  - intros k1 k2 x H1 H2 X1 X2. destruct (Nat.eq_dec k1 h) as [->|N1], (Nat.eq_dec k2 h) as [->|N2]; rewrite ?upd_eq, ?upd_ne in * by auto; auto.
    + apply Hin in X1. destruct X1 as [->|X1]; [exfalso; apply (Hu k2 H2); auto|apply (O h k2 x); auto].
    + apply Hin in X2. destruct X2 as [->|X2]; [exfalso; apply (Hu k1 H1); auto|apply (O k1 h x); auto].
    + apply (O k1 k2 x); auto.
  - intros x (Ux & Nx). destruct (F1 x Nx) as (-> & ->); auto. rewrite <- El. intros K. apply (A h x); auto.
  - intros k x Hk Hx (Ux & Nx). destruct (Nat.eq_dec k h) as [->|N]; rewrite ?upd_eq, ?upd_ne in Hx by auto; [|apply (A k x); auto]. apply Hin in Hx. destruct Hx; [contradiction|apply (A h x); auto].
Qed.

(** Every operation, whose elements are where it expects them, succeeds and acts on the
    sequences as it should; other lists do not change. *)
Theorem C44_step : forall I U L o I' U' L' m, lists I U m L -> qstep I U L o I' U' L' -> exists m', qexec o m = Some m' /\ lists I' U' m' L'.
Proof.
  intros I U L o I' U' L' m H S. assert (H0 := H). destruct H0 as [R O F A]. destruct S; cbn [qexec].
  - eexists. split; [reflexivity|]. constructor.
    + intros k [Hk| ->]; [|rewrite upd_eq; split; [constructor|]; split; cbn [chain]; leaf]. assert (k <> h) by (intros ->; contradiction). rewrite upd_ne by auto. apply rep_frame with m; auto; intros; leaf.
    + intros k1 k2 x H1 H2 X1 X2. destruct (Nat.eq_dec k1 h) as [->|N1]; [rewrite upd_eq in X1; contradiction|]. destruct (Nat.eq_dec k2 h) as [->|N2]; [rewrite upd_eq in X2; contradiction|]. rewrite upd_ne in X1, X2 by auto. apply (O k1 k2 x); auto; intuition.
    + intros x Ux. cbn. apply F; auto.
    + intros k x Hk Hx. destruct (Nat.eq_dec k h) as [->|N1]; [rewrite upd_eq in Hx; contradiction|]. rewrite upd_ne in Hx by auto. apply (A k x); auto. tauto.
  - destruct (insert_head_put m h e (L h) (R h H0) (H1 h H0)) as (m' & -> & P). exists m'. split; auto. apply (put_lists I U m m' L h [] e (L h)); auto.
  - destruct (insert_tail_put m h e (L h) (R h H0) (H1 h H0)) as (m' & -> & P). exists m'. split; auto. apply (put_lists I U m m' L h (L h) e []); auto. rewrite app_nil_r. auto.
  - pose proof (R h H0) as Rh. rewrite H1 in Rh. destruct (insert_after_put m h le e a b Rh) as (m' & -> & P); [rewrite <- H1; apply H2; auto|]. exists m'. split; auto.
    change (a ++ le :: e :: b) with (a ++ [le] ++ e :: b). rewrite app_assoc. apply (put_lists I U m m' L h (a ++ [le]) e b); auto. rewrite <- app_assoc. auto.
  - pose proof (R h H0) as Rh. rewrite H1 in Rh. destruct (insert_before_put m h le e a b Rh) as (m' & -> & P); [rewrite <- H1; apply H2; auto|]. exists m'. split; auto.
    apply (put_lists I U m m' L h a e (le :: b)); auto.
  - pose proof (R h H0) as Rh. rewrite H1 in Rh. destruct (remove_rep m h a e b Rh) as (m' & -> & R' & V & B & F1 & F2). exists m'. split; auto.
    assert (Hin : forall x, In x (a ++ b) -> In x (L h)). { intros x Hx. rewrite H1. rewrite in_app_iff in *. cbn. intuition. } constructor.
    + intros k Hk. destruct (Nat.eq_dec k h) as [->|N]; [rewrite upd_eq; auto|rewrite upd_ne by auto]. destruct (F2 k N). apply rep_frame with m; auto. intros x Hx. apply F1. rewrite <- H1. intros K. apply N. apply (O k h x); auto.
    + intros k1 k2 x K1 K2 X1 X2. assert (Y : forall k, In x (upd L h (a ++ b) k) -> In x (L k)). { intros k. destruct (Nat.eq_dec k h) as [->|N]; [rewrite upd_eq; auto|rewrite upd_ne by auto; auto]. } apply (O k1 k2 x); auto.
    + intros x [Ux| ->]; auto. destruct (F1 x) as (-> & ->); auto. rewrite <- H1. intros K. apply (A h x); auto.
    + intros k x Hk Hx [Ux| ->].
      * apply (A k x); auto. destruct (Nat.eq_dec k h) as [->|N]; [rewrite upd_eq in Hx; auto|rewrite upd_ne in Hx by auto; auto].
      * destruct (Nat.eq_dec k h) as [->|N]; [rewrite upd_eq in Hx; apply (NoDup_remove_2 _ _ _ (proj1 Rh)); auto|rewrite upd_ne in Hx by auto]. apply N. apply (O k h e); auto. rewrite H1. apply in_or_app. right. left. auto.
  - destruct (concat_rep m h1 h2 (L h1) (L h2) H2 (R h1 H0) (R h2 H1)) as (m' & -> & R1 & R2 & F1 & F2). { intros x X1 X2. apply H2. apply (O h1 h2 x); auto. }
    exists m'. split; auto. constructor.
    + intros k Hk. destruct (Nat.eq_dec k h2) as [->|N2]; [rewrite upd_eq; auto|rewrite upd_ne by auto]. destruct (Nat.eq_dec k h1) as [->|N1]; [rewrite upd_eq; auto|rewrite upd_ne by auto]. destruct (F2 k N1 N2). apply rep_frame with m; auto.
      intros x Hx. apply F1; intros K; [apply N1; apply (O k h1 x)|apply N2; apply (O k h2 x)]; auto.
    + intros k1 k2 x K1 K2 X1 X2.
      destruct (Nat.eq_dec k1 h2) as [->|M1]; [rewrite upd_eq in X1; contradiction|]. destruct (Nat.eq_dec k2 h2) as [->|M2]; [rewrite upd_eq in X2; contradiction|]. rewrite (upd_ne _ _ h2) in X1, X2 by auto.
      destruct (Nat.eq_dec k1 h1) as [->|N1], (Nat.eq_dec k2 h1) as [->|N2]; rewrite ?upd_eq, ?upd_ne in * by auto; auto.
      * apply in_app_or in X1. destruct X1 as [X1|X1]; [apply (O h1 k2 x); auto|exfalso; apply M2; symmetry; apply (O h2 k2 x); auto].
      * apply in_app_or in X2. destruct X2 as [X2|X2]; [apply (O k1 h1 x); auto|exfalso; apply M1; apply (O k1 h2 x); auto].
      * apply (O k1 k2 x); auto.
    + intros x Ux. destruct (F1 x) as (-> & ->); auto; intros K; [apply (A h1 x)|apply (A h2 x)]; auto.
    + intros k x Hk Hx. destruct (Nat.eq_dec k h2) as [->|M1]; [rewrite upd_eq in Hx; contradiction|]. rewrite (upd_ne _ _ h2) in Hx by auto.
      destruct (Nat.eq_dec k h1) as [->|N1]; [rewrite upd_eq in Hx|rewrite upd_ne in Hx by auto; apply (A k x); auto]. apply in_app_or in Hx. destruct Hx; [apply (A h1 x)|apply (A h2 x)]; auto.
Qed.
(** Looking: first, last, neighbours, both iterations and LIST_LINKED agree with the sequence. *)
Theorem C44_read : forall I U L m h, lists I U m L -> I h ->
  first h m = hd_error (L h) /\ last h m = Some (hd_error (rev (L h))) /\ (empty h m = true <-> L h = []) /\
  foreach (length (L h)) h m = Some (L h) /\ foreach_reverse (length (L h)) h m = Some (rev (L h)) /\
  (forall a e b, L h = a ++ e :: b -> next e m = hd_error b /\ prev e m = Some (hd_error (rev a)) /\ linked e m = true) /\
  (forall e, U e -> linked e m = false).
Proof.
  intros I U L m h H Hh. pose proof (ls_rep _ _ _ _ H h Hh) as R.
  assert (Ff : first h m = hd_error (L h)) by (destruct R as (_ & C & _); destruct (L h); cbn in C; unfold first; tauto).
  split; auto. split; [apply last_spec; auto|]. split; [unfold empty; rewrite Ff; destruct (L h); cbn; split; congruence|].
  split; [apply foreach_spec; auto|]. split; [apply foreach_reverse_spec; auto|]. split.
  - intros a e b E. rewrite E in R. split; [apply (next_spec m h a e b); auto|]. split; [apply (prev_spec m h a e b); auto|]. destruct R as (_ & C & _). apply chain_app in C. destruct C as (_ & _ & B & _). unfold linked. rewrite B. destruct (q_val m (SElem e)); auto.
  - intros e Ue. destruct (ls_free _ _ _ _ H e Ue) as (V & B). unfold linked. rewrite V, B. auto.
Qed.
(** Histories. *)
Inductive qruns : (nat -> Prop) -> (nat -> Prop) -> (nat -> list nat) -> list qop -> (nat -> Prop) -> (nat -> Prop) -> (nat -> list nat) -> Prop :=
| qr_nil : forall I U L, qruns I U L [] I U L
| qr_cons : forall I U L o I1 U1 L1 ops I2 U2 L2, qstep I U L o I1 U1 L1 -> qruns I1 U1 L1 ops I2 U2 L2 -> qruns I U L (o :: ops) I2 U2 L2.
Fixpoint qrun (ops : list qop) (m : mem) : option mem := match ops with [] => Some m | o :: r => bind (qexec o m) (qrun r) end.
Theorem C44_run : forall ops I U L I' U' L' m, lists I U m L -> qruns I U L ops I' U' L' -> exists m', qrun ops m = Some m' /\ lists I' U' m' L'.
Proof.
  intros ops I U L I' U' L' m H Q. revert m H. induction Q as [|I U L o I1 U1 L1 ops I2 U2 L2 S Q IH]; intros m H; [exists m; auto|].
  destruct (C44_step _ _ _ _ _ _ _ _ H S) as (m1 & E & H1). cbn [qrun]. rewrite E. apply IH; auto.
Qed.
(** From zeroed memory without any list. *)
Definition m0 : mem := mkmem (fun _ => None) (fun _ => None).
Theorem C44_start : lists (fun _ => False) (fun _ => True) m0 (fun _ => []).
Proof. constructor; cbn; auto; tauto. Qed.
Example C44_ex : match qrun [QInit 0; QInit 1; QTail 0 7; QHead 0 5; QAfter 0 5 6; QBefore 5 4; QTail 1 8; QAfter 1 8 9; QRemove 0 7; QConcat 0 1; QTail 1 7] m0 with
  | Some m => foreach 9 0 m = Some [4;5;6;8;9] /\ foreach_reverse 9 0 m = Some [9;8;6;5;4] /\ foreach 9 1 m = Some [7] /\ prev 4 m = Some None /\ prev 8 m = Some (Some 6) /\ linked 3 m = false
  | None => False end.
Proof. vm_compute. auto 10. Qed.
Example C44_ex_steps : exists I U L, qruns (fun _ => False) (fun _ => True) (fun _ => []) [QInit 0; QTail 0 7; QBefore 7 5; QRemove 0 7] I U L /\ L 0 = [5].
Proof.
  eexists. eexists. eexists. split.
  - eapply qr_cons; [apply qs_init; auto|]. eapply qr_cons; [apply qs_tail; [auto|intros h _; unfold upd; destruct (Nat.eqb h 0); auto]|].
    eapply qr_cons; [apply (qs_before _ _ _ 0 [] 7 [] 5); [auto|reflexivity|]|].
    + intros h _. unfold upd. destruct (Nat.eqb h 0); cbn; intuition discriminate.
    + eapply qr_cons; [apply (qs_remove _ _ _ 0 [5] 7 []); [auto|reflexivity]|]. apply qr_nil.
  - reflexivity.
Qed.
Print Assumptions C44_step.
Print Assumptions C44_read.
Print Assumptions C44_run.
Print Assumptions C44_start.
