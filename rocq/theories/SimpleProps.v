(** Simplification passes: C31. *)
From Verif Require Import Base SimpleModel.

(** ** Specification. *)
(** [parent] may have [nested] inside of it. *)
Definition compatible (parent nested : pass) : Prop :=
  match parent with
  | SIMPLE_DECL => nested = SIMPLE_BRACES \/ nested = SIMPLE_DECL_PROTO \/ nested = SIMPLE_IMPLICIT_INT \/ nested = SIMPLE_STATIC \/ nested = SIMPLE_DECL_FORWARD
  | SIMPLE_EXPR_PARENS => nested = SIMPLE_EXPR_SIZEOF
  | SIMPLE_STMT => nested = SIMPLE_STMT_EMPTY_LOOP
  | SIMPLE_STMT_EMPTY_LOOP => nested = SIMPLE_STMT
  | _ => False
  end.
Definition on (si : simple) (p : pass) : Prop := si_state si p = Enable \/ si_state si p = Ignore.
(** Groups of passes: passes of different groups exclude each other. *)
Inductive group := GDecl | GParens | GStmt | GOne (p : pass).
Definition group_of (p : pass) : group :=
  match p with
  | SIMPLE_DECL | SIMPLE_BRACES | SIMPLE_DECL_PROTO | SIMPLE_IMPLICIT_INT | SIMPLE_STATIC | SIMPLE_DECL_FORWARD => GDecl
  | SIMPLE_EXPR_PARENS | SIMPLE_EXPR_SIZEOF => GParens
  | SIMPLE_STMT | SIMPLE_STMT_EMPTY_LOOP => GStmt
  | p => GOne p
  end.
Definition no_nop (si : simple) : Prop := forall p, si_state si p <> Nop.
Definition states_eq (a b : simple) : Prop := (forall p, si_state a p = si_state b p) /\ si_enable a = si_enable b.

(** ** Proofs. *)
Lemma pass_eqb_eq : forall a b, pass_eqb a b = true <-> a = b.
Proof. intros a b. unfold pass_eqb. destruct (pass_eq_dec a b); split; congruence. Qed.
Lemma pass_eqb_refl : forall a, pass_eqb a a = true.
Proof. intros. apply pass_eqb_eq. reflexivity. Qed.
Lemma pass_eqb_neq : forall a b, a <> b -> pass_eqb a b = false.
Proof. intros a b H. unfold pass_eqb. destruct (pass_eq_dec a b); congruence. Qed.
Lemma in_passes : forall p, In p passes.
Proof. intros p. unfold passes. destruct p; cbn [In]; tauto. Qed.
Lemma sstate_eqb_eq : forall a b, sstate_eqb a b = true <-> a = b.
Proof. intros a b. destruct a, b; cbn; split; congruence. Qed.
Lemma exception_spec : forall i p, existsb (fun '(parent, nested) => pass_eqb parent i && pass_eqb nested p) exceptions = true <-> compatible i p.
Proof. intros i p. destruct i, p; vm_compute; split; intros H; try discriminate H; try reflexivity; try tauto; try (repeat destruct H as [H|H]; discriminate H); try discriminate; repeat ((left; reflexivity) || right || reflexivity). Qed.
Lemma exclusive_spec : forall si p, is_pass_mutually_exclusive si p = false <-> exists i, on si i /\ compatible i p.
Proof.
  intros si p. unfold is_pass_mutually_exclusive. rewrite negb_false_iff, existsb_exists. unfold on. split.
  - intros (i & _ & H). exists i. destruct (sstate_eqb (si_state si i) Enable) eqn:E1; cbn [negb andb] in H.
    + split; [left; apply sstate_eqb_eq; exact E1|apply exception_spec; exact H].
    + destruct (sstate_eqb (si_state si i) Ignore) eqn:E2; cbn [negb] in H; [|discriminate]. split; [right; apply sstate_eqb_eq; exact E2|apply exception_spec; exact H].
  - intros (i & H1 & H2). exists i. split; [apply in_passes|]. apply exception_spec in H2. destruct H1 as [-> | ->]; exact H2.
Qed.
Lemma others_spec : forall si p, existsb (fun i => negb (pass_eqb i p) && negb (sstate_eqb (si_state si i) Disable)) passes = false <-> forall i, i <> p -> si_state si i = Disable.
Proof.
  intros si p. split.
  - intros H i Hi. destruct (sstate_eqb (si_state si i) Disable) eqn:E; [apply sstate_eqb_eq; exact E|]. exfalso. assert (Q : existsb (fun i => negb (pass_eqb i p) && negb (sstate_eqb (si_state si i) Disable)) passes = true); [|congruence]. apply existsb_exists. exists i. split; [apply in_passes|]. rewrite E, pass_eqb_neq by exact Hi. reflexivity.
  - intros H. destruct (existsb _ passes) eqn:E; [|reflexivity]. apply existsb_exists in E. destruct E as (i & _ & Hi). destruct (pass_eq_dec i p) as [->|NE]; [rewrite pass_eqb_refl in Hi; discriminate|]. rewrite (H i NE), pass_eqb_neq in Hi by exact NE. discriminate.
Qed.

(** A pass becomes active exactly if simplification is enabled or forced, it is neither to be
    ignored nor already active, and either no other pass is, or one it may be nested in. *)
Theorem C31_enter : forall si p f, fst (fst (simple_enter si p f)) = true <->
  (si_enable si = true \/ f_force f = true) /\ f_ignore f = false /\ si_state si p = Disable /\
  ((forall i, i <> p -> si_state si i = Disable) \/ exists i, on si i /\ compatible i p).
Proof.
  intros si p f. unfold simple_enter. destruct (negb (si_enable si) && negb (f_force f)) eqn:E1.
  { cbn. apply andb_true_iff in E1. destruct E1 as [A B]. apply negb_true_iff in A. apply negb_true_iff in B. split; [discriminate|]. intros ([|] & _); congruence. }
  assert (EN : si_enable si = true \/ f_force f = true) by (destruct (si_enable si), (f_force f); auto; discriminate).
  destruct (is_pass_mutually_exclusive si p && _) eqn:E2.
  { cbn. apply andb_true_iff in E2. destruct E2 as [A B]. split; [discriminate|]. intros (_ & _ & _ & [H|H]); [apply others_spec in H|apply exclusive_spec in H]; congruence. }
  assert (OK : (forall i, i <> p -> si_state si i = Disable) \/ exists i, on si i /\ compatible i p). { apply andb_false_iff in E2. destruct E2 as [A|A]; [right; apply exclusive_spec; exact A|left; apply others_spec; exact A]. }
  destruct (f_ignore f || _) eqn:E3; cbn.
  { split; [discriminate|]. intros (_ & A & B & _). rewrite A, B in E3. discriminate. }
  apply orb_false_iff in E3. destruct E3 as [A B]. apply negb_false_iff in B. apply sstate_eqb_eq in B. tauto.
Qed.
(** Only the pass itself is affected; it is active exactly if entering succeeded. *)
Theorem C31_entered : forall si p f, let '(ok, si', _) := simple_enter si p f in
  (forall q, q <> p -> si_state si' q = si_state si q) /\ si_enable si' = si_enable si /\
  (ok = true <-> si_state si' p = Enable) /\ (ok = true -> is_simple_enabled si' p = true) /\ (ok = false -> is_simple_enabled si' p = false).
Proof.
  intros si p f. assert (E := C31_enter si p f). unfold simple_enter in *. assert (U : forall s q, q <> p -> si_state (set_state si p s) q = si_state si q) by (intros s q Hq; cbn; rewrite pass_eqb_neq by exact Hq; reflexivity).
  assert (S : forall s, si_state (set_state si p s) p = s) by (intros s; cbn; rewrite pass_eqb_refl; reflexivity).
  assert (NE : forall s, s <> Enable -> (forall q, q <> p -> si_state (set_state si p s) q = si_state si q) /\ si_enable (set_state si p s) = si_enable si /\ (false = true <-> si_state (set_state si p s) p = Enable) /\ (false = true -> is_simple_enabled (set_state si p s) p = true) /\ (false = false -> is_simple_enabled (set_state si p s) p = false)).
  { intros s Hs. split; [apply U|]. split; [reflexivity|]. rewrite S. split; [split; congruence|]. split; [discriminate|]. intros _. unfold is_simple_enabled. rewrite S. apply andb_false_iff. right. destruct s; (reflexivity || congruence). }
  destruct (negb _ && negb _); [apply NE; discriminate|]. destruct (_ && _); [apply NE; discriminate|]. destruct (_ || _); [apply NE; discriminate|]. cbn [fst] in E. destruct (proj1 E eq_refl) as (EN & _). cbn. rewrite !pass_eqb_refl.
  split; [intros q Hq; rewrite pass_eqb_neq by exact Hq; reflexivity|]. split; [reflexivity|]. split; [split; reflexivity|]. split; [|discriminate]. intros _. unfold is_simple_enabled. cbn. rewrite !pass_eqb_refl. destruct EN as [-> | ->]; [reflexivity|]. rewrite orb_true_r. reflexivity.
Qed.

Lemma exec_execs : forall p f body si seen, exec (Within p f body) si seen =
  let '(_, s1, ck) := simple_enter si p f in let '(s2, seen) := execs body s1 (s1 :: seen) in let s3 := fst (simple_leave s2 ck) in (s3, s3 :: seen).
Proof. intros. reflexivity. Qed.
Lemma exec_without : forall body si seen, exec (Without body) si seen =
  let '(restore, s1) := simple_disable si in let '(s2, seen) := execs body s1 (s1 :: seen) in let s3 := set_enable s2 restore in (s3, s3 :: seen).
Proof. intros. reflexivity. Qed.
Section Induct.
Variable P : op -> Prop.
Variable HW : forall p f body, Forall P body -> P (Within p f body).
Variable HO : forall body, Forall P body -> P (Without body).
Fixpoint op_rect' (o : op) : P o :=
  match o with
  | Within p f body => HW p f body ((fix go (l : list op) : Forall P l := match l with [] => Forall_nil _ | x :: r => Forall_cons x (op_rect' x) (go r) end) body)
  | Without body => HO body ((fix go (l : list op) : Forall P l := match l with [] => Forall_nil _ | x :: r => Forall_cons x (op_rect' x) (go r) end) body)
  end.
End Induct.

(** [inv] holds of all states seen, [fin] relates the first and the last. *)
Section Invariant.
Variable ok_op : op -> Prop.
Variable inv : simple -> Prop.
Variable inv_eq : forall a b, states_eq a b -> inv a -> inv b.
Variable ok_within : forall p f body, ok_op (Within p f body) -> Forall ok_op body.
Variable ok_without : forall body, ok_op (Without body) -> Forall ok_op body.
Variable inv_enter : forall p f body si, ok_op (Within p f body) -> no_nop si -> inv si -> inv (snd (fst (simple_enter si p f))).
Variable inv_disable : forall body si, ok_op (Without body) -> inv si -> inv (set_enable si false).

Lemma states_refl : forall a, states_eq a a.
Proof. intros a. split; reflexivity. Qed.
Lemma enter_nop : forall si p f, no_nop si -> no_nop (snd (fst (simple_enter si p f))).
Proof.
  intros si p f N q. unfold simple_enter. destruct (negb _ && negb _); [cbn; destruct (pass_eqb q p); [discriminate|apply N]|]. destruct (_ && _); [cbn; destruct (pass_eqb q p); [discriminate|apply N]|]. destruct (_ || _); cbn; destruct (pass_eqb q p); try discriminate; apply N.
Qed.
Lemma nop_eq : forall a b, states_eq a b -> no_nop a -> no_nop b.
Proof. intros a b [H _] N p. rewrite <- H. apply N. Qed.
Definition good (o : op) : Prop := ok_op o -> forall si seen, no_nop si -> inv si -> Forall inv seen ->
  let '(si', seen') := exec o si seen in states_eq si' si /\ Forall inv seen'.
Lemma execs_good : forall os, Forall good os -> Forall ok_op os -> forall si seen, no_nop si -> inv si -> Forall inv seen ->
  let '(si', seen') := execs os si seen in states_eq si' si /\ Forall inv seen'.
Proof.
  intros os G. induction G as [|o os G1 G IH]; intros OK si seen N I F; [split; [apply states_refl|exact F]|]. inversion OK; subst. cbn [execs]. pose proof (G1 ltac:(assumption) si seen N I F) as H. destruct (exec o si seen) as [s1 seen1]. destruct H as [E F1].
  assert (E' : states_eq si s1) by (destruct E; split; [intros; symmetry; auto|symmetry; auto]). specialize (IH ltac:(assumption) s1 seen1 (nop_eq _ _ E' N) (inv_eq _ _ E' I) F1). destruct (execs os s1 seen1) as [s2 seen2]. destruct IH as [E2 F2]. split; [|exact F2]. destruct E as [A B], E2 as [C D]. split; [intros p; rewrite C; apply A|congruence].
Qed.
Lemma exec_good : forall o, good o.
Proof.
  apply op_rect'; [intros p f body G|intros body G]; intros OK si seen N I F.
  - rewrite exec_execs. pose proof (C31_entered si p f) as ENT. pose proof (inv_enter p f body si OK N I) as I1. pose proof (enter_nop si p f N) as N1. assert (CK : snd (simple_enter si p f) = Some (Cookie p (si_state si p))) by (unfold simple_enter; destruct (negb _ && negb _); [reflexivity|]; destruct (_ && _); [reflexivity|]; destruct (_ || _); reflexivity).
    destruct (simple_enter si p f) as [[b s1] ck]. cbn [fst snd] in *. subst ck. destruct ENT as (O1 & O2 & _). pose proof (execs_good body G (ok_within _ _ _ OK) s1 (s1 :: seen) N1 I1 (Forall_cons _ I1 F)) as H. destruct (execs body s1 (s1 :: seen)) as [s2 seen2]. destruct H as [[E1 E2] F2].
    unfold simple_leave. cbn [ck_state ck_pass fst]. destruct (sstate_eqb (si_state si p) Nop) eqn:EN; [apply sstate_eqb_eq in EN; destruct (N p EN)|]. cbn [fst]. assert (ES : states_eq (set_state s2 p (si_state si p)) si).
    { split; [|cbn; congruence]. intros q. cbn. destruct (pass_eqb q p) eqn:EQ; [apply pass_eqb_eq in EQ; subst; reflexivity|]. rewrite E1. apply O1. intros ->. rewrite pass_eqb_refl in EQ. discriminate. }
    split; [exact ES|]. constructor; [|exact F2]. eapply inv_eq; [|exact I]. destruct ES; split; [intros; symmetry; auto|symmetry; auto].
  - rewrite exec_without. cbn [simple_disable]. pose proof (inv_disable body si OK I) as I1. pose proof (execs_good body G (ok_without _ OK) (set_enable si false) (set_enable si false :: seen) N I1 (Forall_cons _ I1 F)) as H. unfold simple_disable. destruct (execs body _ _) as [s2 seen2]. destruct H as [[E1 E2] F2]. assert (ES : states_eq (set_enable s2 (si_enable si)) si) by (split; [intros q; cbn; rewrite E1; reflexivity|reflexivity]). split; [exact ES|]. constructor; [|exact F2]. eapply inv_eq; [|exact I]. destruct ES; split; [intros; symmetry; auto|symmetry; auto].
Qed.
End Invariant.

(** However passes are nested, leaving restores the state of every pass. *)
Theorem C31_restored : forall os opt si, si = simple_alloc opt \/ no_nop si -> states_eq (fst (execs os si [])) si.
Proof.
  intros os opt si H. assert (N : no_nop si) by (destruct H as [->|H]; [intros p; discriminate|exact H]).
  pose proof (execs_good (fun _ => True) (fun _ => True) ltac:(auto) os) as G. assert (A : forall l : list op, Forall (fun _ => True) l) by (intros l; apply Forall_forall; auto). specialize (G ltac:(apply Forall_forall; intros o _; apply exec_good; auto) (A os) si [] N I (Forall_nil _)). destruct (execs os si []) as [s l]. apply G.
Qed.

(** Simplification enabled: at any time all passes that are on belong to one group. *)
Fixpoint enabled_only (o : op) : Prop :=
  match o with
  | Within _ _ body => (fix all (l : list op) : Prop := match l with [] => True | o :: r => enabled_only o /\ all r end) body
  | Without _ => False
  end.
Lemma enabled_within : forall p f body, enabled_only (Within p f body) -> Forall enabled_only body.
Proof. intros p f body H. cbn in H. induction body as [|o r IH]; constructor; [apply H|apply IH; apply H]. Qed.
Definition one_group (si : simple) : Prop := si_enable si = true /\ forall p q, si_state si p <> Disable -> si_state si q <> Disable -> group_of p = group_of q.
Lemma compatible_group : forall i p, compatible i p -> group_of i = group_of p.
Proof. intros i p. destruct i; cbn [compatible]; intros H; try (destruct H; fail); repeat match goal with H : _ \/ _ |- _ => destruct H as [H|H] end; try contradiction; subst; reflexivity. Qed.
Lemma group_enter : forall p f body si, enabled_only (Within p f body) -> no_nop si -> one_group si -> one_group (snd (fst (simple_enter si p f))).
Proof.
  intros p f body si _ N [EN IG].
  assert (OFF : one_group (set_state si p Disable)).
  { split; [exact EN|]. intros a b. cbn. destruct (pass_eqb a p); [congruence|]. destruct (pass_eqb b p); [congruence|]. apply IG. }
  assert (ON : forall s, ((forall i, i <> p -> si_state si i = Disable) \/ exists i, on si i /\ compatible i p) -> one_group (set_state si p s)).
  { intros s C. split; [exact EN|]. assert (G : forall a, si_state (set_state si p s) a <> Disable -> group_of a = group_of p).
    { intros a Ha. destruct (pass_eq_dec a p) as [->|NE]; [reflexivity|]. cbn in Ha. rewrite pass_eqb_neq in Ha by exact NE. destruct C as [C|(i & Hi & C)]; [destruct (Ha (C a NE))|]. rewrite <- (compatible_group _ _ C). apply IG; [exact Ha|]. destruct Hi as [-> | ->]; discriminate. }
    intros a b Ha Hb. rewrite (G a Ha), (G b Hb). reflexivity. }
  unfold simple_enter. rewrite EN. cbn [negb andb]. destruct (is_pass_mutually_exclusive si p && _) eqn:E2; [exact OFF|].
  assert (C : (forall i, i <> p -> si_state si i = Disable) \/ exists i, on si i /\ compatible i p). { apply andb_false_iff in E2. destruct E2 as [A|A]; [right; apply exclusive_spec; exact A|left; apply others_spec; exact A]. }
  destruct (f_ignore f || _); cbn [fst snd]; [apply ON; exact C|]. destruct (ON Enable C) as [A B]. split; [exact A|exact B].
Qed.
Lemma group_eq : forall a b, states_eq a b -> one_group a -> one_group b.
Proof. intros a b [A B] [C D]. split; [congruence|]. intros x y. rewrite <- !A. apply D. Qed.
Theorem C31_one_group : forall os, Forall enabled_only os -> forall si, In si (snd (execs os (simple_alloc true) [])) -> forall p q, is_simple_enabled si p = true -> is_simple_enabled si q = true -> group_of p = group_of q.
Proof.
  intros os OK si HI p q Hp Hq. assert (F : Forall one_group (snd (execs os (simple_alloc true) []))).
  { pose proof (execs_good enabled_only one_group group_eq os) as G. specialize (G ltac:(apply Forall_forall; intros o _; apply exec_good; [exact group_eq|exact enabled_within|intros body []|exact group_enter|intros body s []]) OK (simple_alloc true) [] ltac:(intros x; discriminate) ltac:(split; [reflexivity|intros a b H; destruct (H eq_refl)]) (Forall_nil _)). destruct (execs os (simple_alloc true) []) as [s l]. apply G. }
  rewrite Forall_forall in F. destruct (F si HI) as [_ G]. unfold is_simple_enabled in *. apply andb_true_iff in Hp. apply andb_true_iff in Hq. destruct Hp as [_ Hp], Hq as [_ Hq]. apply sstate_eqb_eq in Hp. apply sstate_eqb_eq in Hq. apply G; congruence.
Qed.

(** A cookie restores once; leaving again does nothing. *)
Theorem C31_leave_once : forall si ck, let '(s1, ck1) := simple_leave si ck in simple_leave s1 ck1 = (s1, None).
Proof. intros si [c|]; cbn; [destruct (sstate_eqb (ck_state c) Nop)|]; reflexivity. Qed.
(** While simplification is disabled only forced passes become active. *)
Theorem C31_disabled : forall si p f, f_force f = false -> fst (fst (simple_enter (snd (simple_disable si)) p f)) = false.
Proof. intros si p f H. unfold simple_enter. cbn. rewrite H. reflexivity. Qed.

(** Two passes may be active at once. *)
Theorem C31_exclusive_refuted : exists si p q, In si (snd (execs [Within SIMPLE_DECL (Flags false false) [Within SIMPLE_BRACES (Flags false false) []]] (simple_alloc true) [])) /\ p <> q /\ is_simple_enabled si p = true /\ is_simple_enabled si q = true.
Proof.
  remember (snd (execs [Within SIMPLE_DECL (Flags false false) [Within SIMPLE_BRACES (Flags false false) []]] (simple_alloc true) [])) as l eqn:El. destruct l as [|a [|b [|c l]]]; try discriminate. exists c, SIMPLE_DECL, SIMPLE_BRACES. split; [right; right; left; reflexivity|]. split; [discriminate|].
  assert (E : c = nth 2 (snd (execs [Within SIMPLE_DECL (Flags false false) [Within SIMPLE_BRACES (Flags false false) []]] (simple_alloc true) [])) (simple_alloc true)) by (rewrite <- El; reflexivity). rewrite E. split; vm_compute; reflexivity.
Qed.
(** Passes of different groups may be active at once where simplification is disabled and one
    is forced: entering a pass while disabled marks it ignored, which counts as being on. *)
Theorem C31_group_refuted : exists si p q, is_simple_enabled si p = true /\ is_simple_enabled si q = true /\ group_of p <> group_of q /\
  In si (snd (execs [Within SIMPLE_EXPR_SIZEOF (Flags true false) [Without [Within SIMPLE_DECL (Flags false false) [Within SIMPLE_STATIC (Flags true false) []]]]] (simple_alloc false) [])).
Proof.
  set (l := snd (execs [Within SIMPLE_EXPR_SIZEOF (Flags true false) [Without [Within SIMPLE_DECL (Flags false false) [Within SIMPLE_STATIC (Flags true false) []]]]] (simple_alloc false) [])).
  exists (nth 4 l (simple_alloc true)), SIMPLE_EXPR_SIZEOF, SIMPLE_STATIC. split; [vm_compute; reflexivity|]. split; [vm_compute; reflexivity|]. split; [discriminate|]. apply nth_In. vm_compute. auto with arith.
Qed.

(** ** Examples *)
Definition ex_ops : list op := [Within SIMPLE_DECL (Flags false false) [Within SIMPLE_STATIC (Flags false false) []; Within SIMPLE_STMT (Flags false false) []]; Within SIMPLE_STMT (Flags false false) []].
Definition sids (si : simple) : list pass := filter (is_simple_enabled si) passes.
Example ex_trace : Forall enabled_only ex_ops /\ map sids (rev (snd (execs ex_ops (simple_alloc true) []))) =
  [[SIMPLE_DECL]; [SIMPLE_DECL; SIMPLE_STATIC]; [SIMPLE_DECL]; [SIMPLE_DECL]; [SIMPLE_DECL]; []; [SIMPLE_STMT]; []].
Proof. split; [repeat constructor|vm_compute; reflexivity]. Qed.

Print Assumptions C31_enter.
Print Assumptions C31_entered.
Print Assumptions C31_restored.
Print Assumptions C31_one_group.
Print Assumptions C31_leave_once.
Print Assumptions C31_disabled.
Print Assumptions C31_exclusive_refuted.
Print Assumptions C31_group_refuted.
