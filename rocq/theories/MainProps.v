(** C72: the options of the command line. *)
From Coq Require Import NArith Lia.
From Verif Require Import Base FileModel FileProps MainModel.

(** ** Specification *)
(** Whether an option was given; the argument of the last -c; the letters of all -t. *)
Definition given (c : byte) (evs : list (byte * bytes)) : Prop := exists arg, In (c, arg) evs.
Definition last_style (evs : list (byte * bytes)) (cf : option bytes) : Prop :=
  (~ given "c"%char evs /\ cf = None) \/ exists u arg v, evs = u ++ ("c"%char, arg) :: v /\ ~ given "c"%char v /\ cf = Some arg.
Fixpoint flags (evs : list (byte * bytes)) : bytes := match evs with [] => [] | (c, arg) :: r => if c =c "t"%char then arg ++ flags r else flags r end.
Definition known (evs : list (byte * bytes)) : Prop :=
  forall c arg, In (c, arg) evs -> In c (s2b "cDdist") /\ (c = "t"%char -> forall x, In x arg -> In x (s2b "acCdDflpsSt")).
(** A diff names the files itself; there is nothing to write standard input back to. *)
Definition fits (evs : list (byte * bytes)) (args : list bytes) : Prop :=
  (given "D"%char evs -> args = []) /\ (given "i"%char evs -> ~ given "D"%char evs -> args <> []).

(** ** Proofs *)
Lemma given_cons : forall c c' arg evs, given c ((c', arg) :: evs) <-> c = c' \/ given c evs.
Proof. intros c c' arg evs. split; [intros (a & [E|H]); [left; congruence|right; exists a; exact H]|intros [->|(a & H)]; [exists arg; left; reflexivity|exists a; right; exact H]]. Qed.
Lemma given_nil : forall c, ~ given c []. Proof. intros c (a & H). destruct H. Qed.
Lemma known_cons : forall c arg evs, known ((c, arg) :: evs) <-> (In c (s2b "cDdist") /\ (c = "t"%char -> forall x, In x arg -> In x (s2b "acCdDflpsSt"))) /\ known evs.
Proof. intros c arg evs. split; [intros H; split; [apply H; left; reflexivity|intros c2 a2 H2; apply H; right; exact H2]|intros [H1 H2] c2 a2 [E|H]; [injection E as <- <-; exact H1|apply H2; exact H]]. Qed.
Lemma index_in : forall c l, In c l <-> exists i, index_of c l = Some i.
Proof.
  intros c. induction l as [|x r IH]; cbn [index_of]; [split; [intros []|intros (i & H); discriminate]|]. destruct (x =c c) eqn:E.
  - apply eqb_true in E. split; [eexists; reflexivity|intros _; left; exact E].
  - apply eqb_false in E. split.
    + intros [H|H]; [congruence|]. apply IH in H. destruct H as [i ->]. eexists. reflexivity.
    + intros (i & H). right. apply IH. destruct (index_of c r) as [n|]; [eexists; reflexivity|discriminate].
Qed.
Lemma trace_known : forall fl t, (forall x, In x fl -> In x (s2b "acCdDflpsSt")) <-> exists t', trace_parse fl t = Some t'.
Proof.
  induction fl as [|c r IH]; intros t; cbn [trace_parse]; [split; [eexists; reflexivity|intros _ x []]|].
  assert (A : (forall x, In x (c :: r) -> In x (s2b "acCdDflpsSt")) <-> In c (s2b "acCdDflpsSt") /\ forall x, In x r -> In x (s2b "acCdDflpsSt")).
  { split; [intros H; split; [apply H; left; reflexivity|intros x Hx; apply H; right; exact Hx]|intros [H1 H2] x [<-|H]; auto]. }
  rewrite A. unfold ctotrace. change TRACE_LETTERS with (s2b "acCdDflpsSt"). destruct (index_of c (s2b "acCdDflpsSt")) as [[|i]|] eqn:E.
  - rewrite <- IH. split; [tauto|]. intros H. split; [|exact H]. apply index_in. eauto.
  - rewrite <- IH. split; [tauto|]. intros H. split; [|exact H]. apply index_in. eauto.
  - split; [|intros (t' & H); discriminate]. intros [H _]. apply index_in in H. destruct H as [i H]. congruence.
Qed.
Definition b2p (b : bool) (P : Prop) : Prop := b = true <-> P.
Record reads (evs : list (byte * bytes)) (o o' : options) : Prop := {
  r_diff : b2p (o_diff o') (o_diff o = true \/ given "d"%char evs);
  r_parse : b2p (o_diffparse o') (o_diffparse o = true \/ given "D"%char evs);
  r_inplace : b2p (o_inplace o') (o_inplace o = true \/ given "i"%char evs);
  r_simple : b2p (o_simple o') (o_simple o = true \/ given "s"%char evs);
  r_trace : trace_parse (flags evs) (o_trace o) = Some (o_trace o')
}.
Lemma trace_app : forall u v t, trace_parse (u ++ v) t = match trace_parse u t with Some t' => trace_parse v t' | None => None end.
Proof. induction u as [|c r IH]; intros v t; cbn [app trace_parse]; [reflexivity|]. destruct (ctotrace c) as [[|i]|]; auto. Qed.
Definition style_from (evs : list (byte * bytes)) (cf cf' : option bytes) : Prop :=
  (~ given "c"%char evs /\ cf' = cf) \/ exists u arg v, evs = u ++ ("c"%char, arg) :: v /\ ~ given "c"%char v /\ cf' = Some arg.
Lemma style_cons_other : forall c arg evs cf cf', c <> "c"%char -> style_from evs cf cf' -> style_from ((c, arg) :: evs) cf cf'.
Proof.
  intros c arg evs cf cf' N [[H1 H2]|(u & a & v & H1 & H2 & H3)].
  - left. split; [|exact H2]. rewrite given_cons. intros [E|H]; [congruence|contradiction].
  - right. exists ((c, arg) :: u), a, v. split; [cbn [app]; congruence|]. auto.
Qed.
Lemma style_cons : forall arg evs cf cf', style_from evs (Some arg) cf' -> style_from (("c"%char, arg) :: evs) cf cf'.
Proof.
  intros arg evs cf cf' [[H1 H2]|(u & a & v & H1 & H2 & H3)].
  - right. exists [], arg, evs. auto.
  - right. exists (("c"%char, arg) :: u), a, v. split; [cbn [app]; congruence|]. auto.
Qed.
Definition fits_from (o : options) (evs : list (byte * bytes)) (args : list bytes) : Prop :=
  ((o_diffparse o = true \/ given "D"%char evs) -> args = []) /\ ((o_inplace o = true \/ given "i"%char evs) -> ~ (o_diffparse o = true \/ given "D"%char evs) -> args <> []).
Ltac gv := rewrite ?given_cons in *; intuition (try congruence; try discriminate).
Lemma parse_spec : forall evs o cf args,
  (known evs /\ fits_from o evs args -> exists o' cf', parse_options evs o cf args = Go o' cf' args) /\
  (forall o' cf' args', parse_options evs o cf args = Go o' cf' args' -> known evs /\ fits_from o evs args /\ args' = args /\ reads evs o o' /\ style_from evs cf cf').
Proof.
  induction evs as [|[c arg] evs IH]; intros o cf args.
  - cbn [parse_options]. split.
    + intros [_ [F1 F2]]. destruct (o_diffparse o) eqn:ED; cbn [andb orb negb].
      * rewrite (F1 (or_introl eq_refl)). cbn [negb andb orb]. eauto.
      * destruct (o_inplace o) eqn:EI; cbn [andb]; [|eauto]. destruct args; [|eauto]. exfalso. apply F2; [left; reflexivity| |reflexivity]. intros [H|H]; [discriminate|exact (given_nil _ H)].
    + intros o' cf' args' H. split; [intros c2 a2 []|]. assert (G : forall c, ~ given c []) by (intros c; apply given_nil).
      destruct ((o_diffparse o && _) || _) eqn:E; [discriminate|]. injection H as <- <- <-. apply orb_false_iff in E. destruct E as [E1 E2].
      split; [|split; [reflexivity|]]; [|split; [|left; split; [apply G|reflexivity]]].
      * split.
        -- intros [H|H]; [|destruct (G _ H)]. rewrite H in E1. destruct args; [reflexivity|discriminate].
        -- intros [H|H] ND; [|destruct (G _ H)]. intros ->. rewrite H in E2. destruct (o_diffparse o) eqn:ED; [apply ND; left; reflexivity|discriminate].
      * constructor; unfold b2p; try (split; [auto|intros [H|H]; [exact H|destruct (G _ H)]]). reflexivity.
  - cbn [parse_options]. destruct (c =c "c"%char) eqn:Q1; [apply eqb_true in Q1; subst c|].
    { destruct (IH o (Some arg) args) as [A B]. split.
      - intros [K F]. apply known_cons in K. apply A. split; [apply K|]. unfold fits_from in *. gv.
      - intros o' cf' args' H. apply B in H. destruct H as (K & F & E & R & S). split; [apply known_cons; split; [split; [left; reflexivity|discriminate]|exact K]|]. split; [unfold fits_from in *; gv|]. split; [exact E|]. split; [|apply style_cons; exact S].
        destruct R as [R1 R2 R3 R4 R5]. constructor; unfold b2p in *; [rewrite R1|rewrite R2|rewrite R3|rewrite R4|exact R5]; gv. }
    apply eqb_false in Q1. destruct (c =c "D"%char) eqn:Q2; [apply eqb_true in Q2; subst c|].
    { destruct (IH (set_diffparse o) cf args) as [A B]. split.
      - intros [K F]. apply known_cons in K. apply A. split; [apply K|]. unfold fits_from in *. cbn [set_diffparse o_diffparse o_inplace]. gv.
      - intros o' cf' args' H. apply B in H. destruct H as (K & F & E & R & S). split; [apply known_cons; split; [split; [right; left; reflexivity|discriminate]|exact K]|]. split; [unfold fits_from in *; cbn [set_diffparse o_diffparse o_inplace] in F; gv|]. split; [exact E|]. split; [|apply style_cons_other; [exact Q1|exact S]].
        destruct R as [R1 R2 R3 R4 R5]. cbn [set_diffparse o_diffparse o_inplace o_diff o_simple o_trace] in *. constructor; unfold b2p in *; [rewrite R1|rewrite R2|rewrite R3|rewrite R4|exact R5]; gv. }
    apply eqb_false in Q2. destruct (c =c "d"%char) eqn:Q3; [apply eqb_true in Q3; subst c|].
    { destruct (IH (set_diff o) cf args) as [A B]. split.
      - intros [K F]. apply known_cons in K. apply A. split; [apply K|]. unfold fits_from in *. cbn [set_diff o_diffparse o_inplace]. gv.
      - intros o' cf' args' H. apply B in H. destruct H as (K & F & E & R & S). split; [apply known_cons; split; [split; [right; right; left; reflexivity|discriminate]|exact K]|]. split; [unfold fits_from in *; cbn [set_diff o_diffparse o_inplace] in F; gv|]. split; [exact E|]. split; [|apply style_cons_other; [exact Q1|exact S]].
        destruct R as [R1 R2 R3 R4 R5]. cbn [set_diff o_diffparse o_inplace o_diff o_simple o_trace] in *. constructor; unfold b2p in *; [rewrite R1|rewrite R2|rewrite R3|rewrite R4|exact R5]; gv. }
    apply eqb_false in Q3. destruct (c =c "i"%char) eqn:Q4; [apply eqb_true in Q4; subst c|].
    { destruct (IH (set_inplace o) cf args) as [A B]. split.
      - intros [K F]. apply known_cons in K. apply A. split; [apply K|]. unfold fits_from in *. cbn [set_inplace o_diffparse o_inplace]. gv.
      - intros o' cf' args' H. apply B in H. destruct H as (K & F & E & R & S). split; [apply known_cons; split; [split; [do 3 right; left; reflexivity|discriminate]|exact K]|]. split; [unfold fits_from in *; cbn [set_inplace o_diffparse o_inplace] in F; gv|]. split; [exact E|]. split; [|apply style_cons_other; [exact Q1|exact S]].
        destruct R as [R1 R2 R3 R4 R5]. cbn [set_inplace o_diffparse o_inplace o_diff o_simple o_trace] in *. constructor; unfold b2p in *; [rewrite R1|rewrite R2|rewrite R3|rewrite R4|exact R5]; gv. }
    apply eqb_false in Q4. destruct (c =c "s"%char) eqn:Q5; [apply eqb_true in Q5; subst c|].
    { destruct (IH (set_simple o) cf args) as [A B]. split.
      - intros [K F]. apply known_cons in K. apply A. split; [apply K|]. unfold fits_from in *. cbn [set_simple o_diffparse o_inplace]. gv.
      - intros o' cf' args' H. apply B in H. destruct H as (K & F & E & R & S). split; [apply known_cons; split; [split; [do 4 right; left; reflexivity|discriminate]|exact K]|]. split; [unfold fits_from in *; cbn [set_simple o_diffparse o_inplace] in F; gv|]. split; [exact E|]. split; [|apply style_cons_other; [exact Q1|exact S]].
        destruct R as [R1 R2 R3 R4 R5]. cbn [set_simple o_diffparse o_inplace o_diff o_simple o_trace] in *. constructor; unfold b2p in *; [rewrite R1|rewrite R2|rewrite R3|rewrite R4|exact R5]; gv. }
    apply eqb_false in Q5. destruct (c =c "t"%char) eqn:Q6; [apply eqb_true in Q6; subst c|].
    { destruct (trace_parse arg (o_trace o)) as [t|] eqn:ET.
      - destruct (IH (set_trace t o) cf args) as [A B]. split.
        + intros [K F]. apply known_cons in K. apply A. split; [apply K|]. unfold fits_from in *. cbn [set_trace o_diffparse o_inplace]. gv.
        + intros o' cf' args' H. apply B in H. destruct H as (K & F & E & R & S). split; [apply known_cons; split; [split; [do 5 right; left; reflexivity|intros _; apply (trace_known arg (o_trace o)); eauto]|exact K]|]. split; [unfold fits_from in *; cbn [set_trace o_diffparse o_inplace] in F; gv|]. split; [exact E|]. split; [|apply style_cons_other; [exact Q1|exact S]].
          destruct R as [R1 R2 R3 R4 R5]. cbn [set_trace o_diffparse o_inplace o_diff o_simple o_trace] in *. constructor; unfold b2p in *; [rewrite R1|rewrite R2|rewrite R3|rewrite R4|]; [gv|gv|gv|gv|]. cbn [flags]. change ("t"%char =c "t"%char) with true. cbv beta iota. rewrite trace_app, ET. exact R5.
      - split; [|discriminate]. intros [K _]. apply known_cons in K. destruct K as [[_ K] _]. apply (trace_known arg (o_trace o)) in K; [|reflexivity]. destruct K as [t' K]. congruence. }
    apply eqb_false in Q6. split; [|discriminate]. intros [K _]. apply known_cons in K. destruct K as [[K _] _]. cbn in K. exfalso. intuition congruence.
Qed.

(** Exactly the known options, with the files they call for, are accepted; anything else ends
    the program with status 1 before a file is looked at. *)
Theorem C72_accepted : forall evs args, (known evs /\ fits evs args) <-> exists o cf, command evs args = Go o cf args.
Proof.
  intros evs args. destruct (parse_spec evs options_init None args) as [A B]. assert (Q : fits_from options_init evs args <-> fits evs args).
  { unfold fits_from, fits. cbn [options_init o_diffparse o_inplace]. intuition discriminate. }
  unfold command. split.
  - intros [K F]. apply A. split; [exact K|]. apply Q. exact F.
  - intros (o & cf & H). apply B in H. split; [apply H|]. apply Q. apply H.
Qed.
(** What is in force then: each option that was given, in any order and number; the last style. *)
Theorem C72_options : forall evs args o cf args', command evs args = Go o cf args' -> args' = args /\
  (o_diff o = true <-> given "d"%char evs) /\ (o_diffparse o = true <-> given "D"%char evs) /\ (o_inplace o = true <-> given "i"%char evs) /\ (o_simple o = true <-> given "s"%char evs) /\ last_style evs cf.
Proof.
  intros evs args o cf args' H. destruct (parse_spec evs options_init None args) as [_ B]. apply B in H. destruct H as (_ & _ & E & [R1 R2 R3 R4 _] & S). unfold b2p in *. cbn [options_init o_diff o_diffparse o_inplace o_simple] in *.
  split; [exact E|]. split; [rewrite R1; intuition discriminate|]. split; [rewrite R2; intuition discriminate|]. split; [rewrite R3; intuition discriminate|]. split; [rewrite R4; intuition discriminate|exact S].
Qed.
(** -d takes precedence over -i.  Without -i, or with -d, no file is ever changed, whatever
    happens; files are those of the diff, the arguments, or standard input. *)
Theorem C72_readonly : forall evs args o cf args' fmt f0 diffed s, command evs args = Go o cf args' -> wf_fs f0 -> given "d"%char evs \/ ~ given "i"%char evs ->
  reach (Cfg (mode_of o) fmt) (init f0 (filelist o diffed args')) s -> s_fs s = f0.
Proof.
  intros evs args o cf args' fmt f0 diffed s H W G R. destruct (C72_options _ _ _ _ _ H) as (_ & D & _ & I & _). eapply C36_readonly; [exact W|exact R|]. cbn [c_mode]. unfold mode_of. destruct (o_diff o) eqn:ED; [discriminate|].
  destruct (o_inplace o) eqn:EI; [|discriminate]. exfalso. destruct G as [G|G]; [apply D in G; discriminate|]. apply G. apply I. reflexivity.
Qed.
Theorem C72_files : forall evs args o cf args' diffed, command evs args = Go o cf args' ->
  (given "D"%char evs -> filelist o diffed args' = diffed) /\ (~ given "D"%char evs -> args <> [] -> filelist o diffed args' = args) /\
  (~ given "D"%char evs -> args = [] -> filelist o diffed args' = [s2b "/dev/stdin"] /\ ~ given "i"%char evs).
Proof.
  intros evs args o cf args' diffed H. destruct (C72_options _ _ _ _ _ H) as (-> & _ & D & _). unfold filelist. split; [|split].
  - intros G. apply D in G. rewrite G. reflexivity.
  - intros G N. destruct (o_diffparse o); [destruct (G (proj1 D eq_refl))|]. destruct args; [congruence|reflexivity].
  - intros G ->. destruct (o_diffparse o); [destruct (G (proj1 D eq_refl))|]. split; [reflexivity|]. intros GI.
    assert (F : fits evs []) by (apply C72_accepted; eauto). destruct F as [_ F]. apply (F GI G). reflexivity.
Qed.

(** *** Tracing *)
Lemma bump_nth : forall i l j d, nth j (bump i l) d = if (j =? i) && (j <? length l) then ((nth j l d + 1) mod UINT)%N else nth j l d.
Proof.
  induction i as [|i IH]; intros [|x l] [|j] d; cbn [bump nth length]; try reflexivity.
  - destruct (Nat.ltb_spec (S j) 0); [lia|]. rewrite andb_false_r. reflexivity.
  - rewrite IH. reflexivity.
Qed.
Lemma bump_length : forall i l, length (bump i l) = length l.
Proof. induction i as [|i IH]; intros [|x l]; cbn [bump length]; auto. Qed.
Lemma index_nth : forall c l i, index_of c l = Some i -> nth_error l i = Some c.
Proof.
  intros c. induction l as [|x r IH]; intros i H; cbn [index_of] in H; [discriminate|]. destruct (x =c c) eqn:E; [injection H as <-; apply eqb_true in E; subst; reflexivity|]. destruct (index_of c r) as [n|]; [|discriminate]. injection H as <-. apply IH. reflexivity.
Qed.
Lemma letters_nodup : NoDup TRACE_LETTERS.
Proof. repeat constructor; cbn; intuition discriminate. Qed.
Lemma nth_index : forall c i, nth_error TRACE_LETTERS i = Some c -> ctotrace c = Some i.
Proof.
  intros c i H. destruct (proj1 (index_in c TRACE_LETTERS) (nth_error_In _ _ H)) as [j Hj]. unfold ctotrace. rewrite Hj. f_equal. apply index_nth in Hj. pose proof letters_nodup as ND. rewrite NoDup_nth_error in ND. apply ND; [apply nth_error_Some; congruence|congruence].
Qed.
Open Scope N_scope.
Lemma all_first : ctotrace "a"%char = Some O. Proof. reflexivity. Qed.
Lemma trace_count : forall fl t t' i x, nth_error TRACE_LETTERS i = Some x -> i <> O -> length t = length TRACE_LETTERS -> (forall n, In n t -> n < UINT) -> ~ In "a"%char fl -> trace_parse fl t = Some t' ->
  nth i t' 0 = (nth i t 0 + N.of_nat (count_occ ascii_dec fl x)) mod UINT.
Proof.
  induction fl as [|c r IH]; intros t t' i x Hi N0 L B NA H; cbn [trace_parse] in H.
  - injection H as <-. cbn [count_occ]. rewrite N.add_0_r. symmetry. apply N.mod_small. apply B. apply nth_In. rewrite L. apply nth_error_Some. congruence.
  - destruct (ctotrace c) as [j|] eqn:E; [|discriminate]. pose proof (index_nth _ _ _ E) as Hc. destruct j as [|j].
    { cbn in Hc. injection Hc as <-. exfalso. apply NA. left. reflexivity. }
    assert (IL : (i < length t)%nat) by (rewrite L; apply nth_error_Some; congruence).
    rewrite (IH (bump (S j) t) t' i x Hi N0); [|rewrite bump_length; exact L| |intros Q; apply NA; right; exact Q|exact H].
    + rewrite bump_nth. cbn [count_occ]. destruct (ascii_dec c x) as [->|NE].
      * apply nth_index in Hi. assert (i = S j) as -> by congruence. rewrite Nat.eqb_refl. destruct (Nat.ltb_spec (S j) (length t)); [|lia]. cbn [andb]. rewrite N.add_mod_idemp_l by discriminate. f_equal. lia.
      * destruct (Nat.eqb_spec i (S j)) as [->|NJ]; [congruence|]. reflexivity.
    + intros n Hn. destruct (In_nth _ _ 0 Hn) as (k & Hk & <-). rewrite bump_length in Hk. rewrite bump_nth. destruct (_ && _); [apply N.mod_lt; discriminate|]. apply B, nth_In. exact Hk.
Qed.
Lemma trace_length : forall fl t t', trace_parse fl t = Some t' -> length t' = length t.
Proof. induction fl as [|c r IH]; intros t t' H; cbn [trace_parse] in H; [congruence|]. destruct (ctotrace c) as [[|j]|]; [| |discriminate]; apply IH in H; rewrite H; [apply map_length|apply bump_length]. Qed.
(** The level of a kind of trace is how often its letter was given; -ta sets all of them to the
    greatest number, and letters behind it are added to that, modulo 2^32. *)
Theorem C72_trace : forall evs args o cf args' i x, command evs args = Go o cf args' -> nth_error (s2b "acCdDflpsSt") i = Some x -> x <> "a"%char ->
  (~ In "a"%char (flags evs) -> trace_level o i = N.of_nat (count_occ ascii_dec (flags evs) x) mod 2 ^ 32) /\
  (forall u v, flags evs = u ++ "a"%char :: v -> ~ In "a"%char v -> trace_level o i = (2 ^ 32 - 1 + N.of_nat (count_occ ascii_dec v x)) mod 2 ^ 32).
Proof.
  intros evs args o cf args' i x H Hi NX. destruct (parse_spec evs options_init None args) as [_ B]. apply B in H. destruct H as (_ & _ & _ & [_ _ _ _ T] & _). cbn [options_init o_trace] in T. unfold trace_level.
  assert (N0 : i <> O) by (intros ->; cbn in Hi; congruence). assert (IL : (i < length TRACE_LETTERS)%nat) by (apply nth_error_Some; change TRACE_LETTERS with (s2b "acCdDflpsSt"); congruence). split.
  - intros NA. rewrite (trace_count (flags evs) (repeat 0 (length TRACE_LETTERS)) (o_trace o) i x Hi N0); [rewrite nth_repeat; reflexivity|apply repeat_length| |exact NA|exact T].
    intros n Hn. apply repeat_spec in Hn. subst n. reflexivity.
  - intros u v E NA. rewrite E, trace_app in T. destruct (trace_parse u _) as [t1|] eqn:T1; [|discriminate]. cbn [trace_parse] in T. rewrite all_first in T. apply trace_length in T1.
    rewrite (trace_count v (List.map (fun _ => UINT - 1) t1) (o_trace o) i x Hi N0); [|rewrite map_length; exact T1| |exact NA|exact T].
    + f_equal. f_equal. rewrite (nth_indep _ 0 ((fun _ => UINT - 1) 0)) by (rewrite map_length, T1; exact IL). rewrite (map_nth (fun _ : N => UINT - 1) t1 0 i). reflexivity.
    + intros n Hn. apply in_map_iff in Hn. destruct Hn as (y & <- & _). reflexivity.
Qed.
(** Hence a kind that was asked for is traced, unless -ta comes first; missing: letters behind
    an "a", for which it is false. *)
Theorem C72_traced_partial : forall evs args o cf args' i x, command evs args = Go o cf args' -> nth_error (s2b "acCdDflpsSt") i = Some x -> x <> "a"%char ->
  N.of_nat (length (flags evs)) < 2 ^ 32 -> (~ In "a"%char (flags evs) /\ In x (flags evs)) \/ (exists u v, flags evs = u ++ "a"%char :: v /\ ~ In "a"%char v /\ ~ In x v) ->
  0 < trace_level o i.
Proof.
  intros evs args o cf args' i x H Hi NX LT C. destruct (C72_trace _ _ _ _ _ _ _ H Hi NX) as [A B]. destruct C as [[C1 C2]|(u & v & C1 & C2 & C3)].
  - rewrite (A C1). apply (count_occ_In ascii_dec) in C2. rewrite N.mod_small; [lia|]. assert (Q : (count_occ ascii_dec (flags evs) x <= length (flags evs))%nat) by apply count_occ_bound. lia.
  - rewrite (B u v C1 C2). apply (count_occ_not_In ascii_dec) in C3. rewrite C3. reflexivity.
Qed.
(** knfmt -tal: the lexer was asked for twice over and is not traced, as the level wraps to 0. *)
Theorem C72_traced_refuted : exists evs args o cf i x, command evs args = Go o cf args /\ nth_error (s2b "acCdDflpsSt") i = Some x /\ In "a"%char (flags evs) /\ In x (flags evs) /\ trace_level o i = 0.
Proof. exists [("t"%char, s2b "al")], [s2b "a.c"], (set_trace (UINT - 1 :: repeat (UINT - 1) 5 ++ 0 :: repeat (UINT - 1) 4) options_init), None, 6%nat, "l"%char. vm_compute. intuition. Qed.

(** *** What was pledged *)
(** Promises needed by the system calls of a position, by pledge(2): open(2) for reading;
    mkstemp(3); fchmod(2); fchown(2); rename(2); unlink(2); and, once a file differs in check
    mode, temporary files, fork(2) and execve(2). *)
Definition needs (m : mode) (k : pc) : list promise :=
  match k with
  | Open => [Rpath]
  | Format _ _ => match m with MDiff => [Rpath; Wpath; Cpath; Proc; Exec; Stdio] | _ => [] end
  | Mkstemp _ _ => [Rpath; Wpath; Cpath]
  | Chmod _ _ _ _ => [Fattr]
  | Chown _ _ _ _ => [Fattr; Chownp]
  | Rename _ => [Rpath; Cpath]
  | Unlink _ => [Cpath]
  | Read _ _ | Write _ _ _ _ | Stat1 _ _ _ | Stat2 _ _ _ _ | Print _ => [Stdio]
  | Ret _ => []
  end.
Definition fits_mode (m : mode) (k : pc) : Prop :=
  match k with Open | Read _ _ | Format _ _ | Ret _ => True | Print _ => m = MPrint | _ => m = MInplace end.
Lemma pstep_mode : forall c s p k ev s' k' ev', pstep c s p k ev s' k' ev' -> fits_mode (c_mode c) k -> fits_mode (c_mode c) k'.
Proof. intros c s p k ev s' k' ev' H F. inversion H; subst; cbn [fits_mode] in *; auto. unfold dispatch. destruct (c_mode c); [destruct (path_eqb _ _)|destruct (path_eqb _ _)|]; cbn [fst fits_mode]; auto. Qed.
Lemma reach_mode : forall c f0 files s, reach c (init f0 files) s -> forall p k ev, s_cur s = Some (p, k, ev) -> fits_mode (c_mode c) k.
Proof.
  intros c f0 files s R. induction R as [|s s' R IH ST]; intros p k ev E; [discriminate|]. inversion ST; subst; cbn [s_cur] in E.
  - injection E as <- <- <-. exact I.
  - unfold at_pc in E. cbn [s_cur] in E. injection E as <- <- <-. eapply pstep_mode; [eassumption|]. eapply IH; eassumption.
  - discriminate.
Qed.
(** The program never makes a system call it gave up the right to. *)
Theorem C72_pledge : forall o fmt f0 files s p k ev,
  reach (Cfg (mode_of o) fmt) (init f0 files) s -> s_cur s = Some (p, k, ev) -> forall q, In q (needs (mode_of o) k) -> In q (promises o).
Proof.
  intros o fmt f0 files s p k ev R E q Q. pose proof (reach_mode _ _ _ _ R _ _ _ E) as F. cbn [c_mode] in F. unfold mode_of, promises in *. destruct (o_diff o); [|destruct (o_inplace o)]; destruct k; cbn [needs fits_mode In] in *; try discriminate; intuition.
Qed.

(** ** Examples *)
Definition evs0 : list (byte * bytes) := [("s"%char, []); ("c"%char, s2b "A"); ("t"%char, s2b "lld"); ("i"%char, []); ("c"%char, s2b "B"); ("s"%char, [])].
Example C72_ex : command evs0 [s2b "a.c"; s2b "b.c"] = Go (mkopts [0; 0; 0; 1; 0; 0; 2; 0; 0; 0; 0] false false true true) (Some (s2b "B")) [s2b "a.c"; s2b "b.c"].
Proof. vm_compute. reflexivity. Qed.
Example C72_ex_usage : command evs0 [] = Usage /\ command (("D"%char, []) :: evs0) [s2b "a.c"] = Usage /\ command [("t"%char, s2b "lx"); ("?"%char, [])] [] = TraceError /\ command [("?"%char, [])] [] = Usage /\
  mode_of (mkopts [] true false true false) = MDiff.
Proof. vm_compute. auto. Qed.
Example C72_ex_stdin : filelist options_init [] [] = [s2b "/dev/stdin"] /\ known evs0 /\ fits evs0 [s2b "a.c"].
Proof. split; [reflexivity|]. apply C72_accepted. eexists. eexists. vm_compute. reflexivity. Qed.

(** Writing a file back gets as far as rename(2) and needs what was kept for it. *)
Example C72_ex_pledge : needs (mode_of (mkopts [] false false true false)) (Chown [] 0 (Inode [] 0 false 0 0) (Inode [] 0 false 0 0)) = [Fattr; Chownp] /\ ~ In Fattr (promises options_init).
Proof. split; [reflexivity|]. cbn. intuition discriminate. Qed.

Print Assumptions C72_accepted.
Print Assumptions C72_options.
Print Assumptions C72_readonly.
Print Assumptions C72_files.
Print Assumptions C72_trace.
Print Assumptions C72_traced_partial.
Print Assumptions C72_traced_refuted.
Print Assumptions C72_pledge.
