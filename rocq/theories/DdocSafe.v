(** Lemmas for C68: when the functions for diffs run into neither undefined behaviour nor a
    failed assertion. *)
From Verif Require Import Base StrModel StrProofs UtilModel UtilProofs LexModel LinesModel DocModel DocProofs DdocModel DdocProofs DdocSpec DdocSteps DdocFinal.
From Verif Require DiffModel DiffProps.
Open Scope nat_scope.

(** ** Undefined behaviour of the printer is not forgotten *)
Lemma ob_trim : forall st, o_bad (trim_spaces st) = o_bad st.
Proof. intros. unfold trim_spaces. destruct (trim_loop _ _). reflexivity. Qed.
Lemma ob_indent1 : forall n t st, o_bad (print_indent1 n t st) = o_bad st.
Proof. intros. unfold print_indent1. destruct (strindent _ _ _). reflexivity. Qed.
Lemma ob_indent : forall u n st, o_bad (print_indent u n st) = o_bad st.
Proof. intros. unfold print_indent. destruct (_ <? _); rewrite ob_indent1; reflexivity. Qed.
Lemma ob_align : forall i s t st, o_bad (exec_align i s t st) = o_bad st.
Proof.
  intros i s t st. unfold exec_align. destruct t; rewrite ob_indent1; [|reflexivity]. generalize i at 2. revert st. induction i as [|f IH]; intros st n; cbn [align_tabs]; [reflexivity|].
  destruct n; [reflexivity|]. rewrite IH. apply ob_indent1.
Qed.
Section Ob.
Variable limit : nat.
Variable usetabs : bool.
Lemma ob_now : forall s ind pend mute st, o_bad (print_now limit usetabs s ind pend mute st) = o_bad st.
Proof.
  intros. unfold print_now. destruct (is_newline s).
  - destruct (o_maxlines st <=? o_nlines st); [reflexivity|].
    set (s2 := if negb pend && _ then _ else _). assert (H2 : o_bad s2 = o_bad st) by (unfold s2; destruct (negb pend && _); reflexivity).
    set (s4 := match o_mforce _ with Some _ => _ | None => _ end). assert (H4 : o_bad s4 = o_bad st).
    { unfold s4. destruct (o_mforce _); [change (o_bad (set_idx None (trim_spaces s2))) with (o_bad (trim_spaces s2))|]; rewrite ob_trim; exact H2. }
    set (s5 := doc_column limit s _). assert (H5 : o_bad s5 = o_bad st) by (unfold s5; destruct mute; exact H4).
    destruct ind; [rewrite ob_indent|]; exact H5.
  - destruct mute; reflexivity.
Qed.
Lemma ob_at : forall s ind pend f mute st, o_bad (print_at limit usetabs s ind pend f mute st) = o_bad st.
Proof. intros. unfold print_at. destruct f; [change (o_bad (set_slines (o_slines st) ?x)) with (o_bad x)|]; apply ob_now. Qed.
Lemma ob_print : forall s ind f mute st, o_bad (fst (print_with limit usetabs s ind f mute st)) = o_bad st.
Proof.
  intros. unfold print_with. set (m := mute && negb f). clearbody m. set (s1 := if is_newline s && m then _ else _). assert (H1 : o_bad s1 = o_bad st) by (unfold s1; destruct (is_newline s && m); reflexivity).
  destruct (o_newline s1); [|cbn [fst]; rewrite ob_at; exact H1]. destruct (beq s [SP]); [exact H1|].
  match goal with |- context [print_at _ _ [NL] ind true f m ?y] => set (y1 := y) end. assert (HY : o_bad y1 = o_bad st) by (unfold y1; destruct m; exact H1).
  destruct (is_newline s); cbn [fst]; rewrite ?ob_at; exact HY.
Qed.
End Ob.

Section Out.
Variable limit : nat.
Variable usetabs : bool.
Variable inp : bytes.
Variable lx : lexer.
Variable chunks : list DiffModel.chunk.
Notation leave := (diff_leave limit usetabs true inp lx chunks).
Lemma leave_out' : forall e xs, e <> 0 -> x_group xs = None -> x_bad (leave e xs) = true \/ x_end (leave e xs) = 0 /\ x_group (leave e xs) = None /\ x_beg (leave e xs) = x_end xs + e.
Proof.
  intros e xs He HG. unfold diff_leave. destruct (Nat.eqb_spec e 0) as [K|_]; [lia|]. cbv zeta. set (x0 := if _ || _ then _ else xs). assert (G0 : x_group x0 = None /\ x_end x0 = x_end xs) by (unfold x0; destruct (_ || _); split; try reflexivity; exact HG). clearbody x0. destruct G0 as [G0 E0].
  set (x3 := if o_newline _ then _ else _). assert (H3 : x_end x3 = 0 /\ x_group x3 = None /\ x_beg x3 = x_end xs + e) by (unfold x3; destruct (o_newline _); cbn; rewrite E0; repeat split; exact G0). clearbody x3. destruct H3 as (E3 & G3 & B3).
  destruct (x_many x3); [|right; auto]. rewrite G3. left. reflexivity.
Qed.
End Out.

Section Safe.
Variable limit : nat.
Variable usetabs : bool.
Variable inp : bytes.
Variable lx : lexer.
Variable chunks : list DiffModel.chunk.
Variable ls : list bytes.
Variable root : ddoc.
Notation len := (length ls).
Hypothesis GIN : forall b e, 1 <= b <= e -> e <= len -> get_lines inp lx b e <> LOut.
Hypothesis GALL : forall b, 1 <= b -> get_lines inp lx b 0 <> LOut.
Hypothesis MF : made_from ls chunks root.
Hypothesis PS : forall g, In g (groups root) -> plain g \/ single chunks g.
Hypothesis ID : distinct root.
Notation exec := (x_exec1 limit usetabs true inp lx chunks).
Notation leave := (diff_leave limit usetabs true inp lx chunks).
Notation emit := (diff_emit limit usetabs true inp lx).
Notation enter := (group_enter limit usetabs true inp lx chunks).
Notation exit := (diff_exit limit usetabs true inp lx chunks).

Definition ob (xs : xstate) : bool := o_bad (x_st xs).
Definition stays (k : xstate -> xstate) : Prop := forall xs, ob xs = true -> ob (k xs) = true.
Lemma stay_print : forall s i f xs, ob (x_print limit usetabs true s i f xs) = ob xs.
Proof. intros. apply ob_print. Qed.
Lemma stay_emit : forall b e xs, ob (emit b e xs) = ob xs.
Proof. intros b e xs. unfold diff_emit. destruct (get_lines inp lx b e); [reflexivity|reflexivity|]. unfold ob. cbn [on x_st]. rewrite ob_indent. unfold x_print. cbn [on x_st]. rewrite ob_print, ob_trim. reflexivity. Qed.
Lemma stay_enter : forall k n g xs, (forall ys, ob (k ys) = ob ys) -> ob (fst (enter k n g xs)) = ob xs.
Proof.
  intros k n g xs K. unfold group_enter. cbn [negb]. destruct (_ && negb n); [reflexivity|]. set (dd := covers _ _ g). clearbody dd. destruct (dd_cov dd); [| |reflexivity].
  - cbn [fst]. change (ob (set_group (Some g) ?y)) with (ob y). destruct (0 <? x_end xs); [apply K|reflexivity].
  - set (x1 := if _ && _ then k xs else xs). assert (F1 : ob x1 = ob xs) by (unfold x1; destruct (_ && _); [apply K|reflexivity]). clearbody x1.
    destruct (0 <? x_end _); [exact F1|]. destruct (chunk_end _ _) as [e|]; [|exact F1]. set (x3 := if has_many _ _ then _ else _). assert (F3 : ob x3 = ob xs) by (unfold x3; destruct (has_many _ _); exact F1). clearbody x3.
    destruct (dd_verb dd) as [V|]; cbn [fst]; rewrite stay_emit; exact F3.
Qed.
Lemma stay_leave : forall e xs, ob (leave e xs) = ob xs.
Proof.
  intros e xs. unfold diff_leave. destruct (e =? 0); [reflexivity|]. set (x0 := if _ || _ then _ else xs). assert (H0 : ob x0 = ob xs) by (unfold x0; destruct (_ || _); reflexivity). clearbody x0.
  set (x3 := if o_newline _ then _ else _). assert (H3 : ob x3 = ob xs) by (unfold x3; destruct (o_newline _); [rewrite stay_print|]; exact H0). clearbody x3. destruct (x_many x3); [|exact H3]. destruct (x_group x3) as [g|]; [|exact H3].
  rewrite stay_enter; [exact H3|reflexivity].
Qed.
Lemma stay_indent : forall v k, stays k -> stays (x_indent usetabs v k).
Proof.
  intros v k K xs H. unfold x_indent. destruct (is_indent INDENT_PARENS v).
  - unfold ob. cbn [on x_st]. apply K. unfold ob. cbn [on x_st]. destruct (parens_align _); exact H.
  - destruct (is_indent INDENT_FORCE v); [apply K; unfold ob; cbn [on x_st]; rewrite ob_indent; exact H|]. unfold ob. cbn [on x_st]. apply K. unfold ob, indent_start. cbn [on x_st]. repeat match goal with |- context [if ?c then _ else _] => destruct c end; exact H.
Qed.
Lemma stay_minimize1 : forall id ms k i, stays k -> stays (x_minimize1 usetabs id ms k i).
Proof. intros id ms k i K xs H. unfold x_minimize1. destruct (nth_error ms i) as [[v b]|]; [|reflexivity]. apply stay_indent; [exact K|]. unfold ob. cbn [on x_st]. destruct (forced _ _ _ _); exact H. Qed.
Lemma stay_try : forall id ms k sn is, stays k -> stays (fun xs => snd (x_try_all usetabs id ms k sn is xs)).
Proof.
  intros id ms k sn is K. induction is as [|i r IH]; intros xs H; [exact H|]. cbn [x_try_all]. set (x1 := x_minimize1 _ _ _ _ _ _). assert (H1 : ob x1 = true) by (apply stay_minimize1; [exact K|exact H]). clearbody x1.
  match goal with |- context [x_try_all usetabs id ms k sn r ?y] => pose proof (IH y H1 : ob (snd (x_try_all usetabs id ms k sn r y)) = true) as I; destruct (x_try_all usetabs id ms k sn r y) end. exact I.
Qed.
Lemma stay_minimize : forall id ms k, stays k -> stays (x_minimize usetabs id ms k).
Proof.
  intros id ms k K xs H. unfold x_minimize. destruct (o_idx _); [apply stay_minimize1; assumption|]. pose proof (stay_try id ms k xs (seq 0 (length ms)) K xs H) as B. cbn beta in B.
  destruct (x_try_all _ _ _ _ _ _ _) as [ps x1]. cbn [snd] in B. destruct (best_of _ _); [|reflexivity]. apply stay_minimize1; [exact K|exact B].
Qed.
Lemma stay_literal : forall tk xs, ob (diff_literal limit usetabs true inp lx chunks tk xs) = ob xs.
Proof. intros [tk|] xs; unfold diff_literal; [|reflexivity]. destruct (_ || _); [reflexivity|]. destruct (_ <? _); [|reflexivity]. destruct (is_some _); [reflexivity|apply stay_leave]. Qed.
Lemma stay_verbatim : forall tk xs, ob (x_verbatim limit usetabs true inp lx chunks tk xs) = ob xs.
Proof.
  intros tk xs. unfold x_verbatim. destruct (_ && _); [reflexivity|]. assert (D : ob (snd (diff_verbatim limit usetabs true inp lx chunks tk xs)) = ob xs).
  { unfold diff_verbatim. destruct (negb true || _ || _); [reflexivity|]. destruct (_ <? _); [apply stay_leave|]. destruct (_ && _); reflexivity. }
  destruct (diff_verbatim limit usetabs true inp lx chunks tk xs) as [n x0]. cbn [snd] in D. cbv zeta. set (bl := (1 <? _) && _). clearbody bl. rewrite stay_leave.
  set (x2 := if bl && _ then _ else _). assert (I2 : ob x2 = ob xs) by (unfold x2; destruct (bl && _); [change (ob (on (set_newline true) ?y)) with (ob y)|]; unfold ob in *; cbn [on x_st]; rewrite ob_trim; exact D). clearbody x2.
  pose proof (stay_print (k_str tk) false false x2) as P. set (x3 := x_print limit usetabs true (k_str tk) false false x2) in *. clearbody x3.
  set (x4 := if own_verb true tk x3 then _ else _). assert (I4 : ob x4 = ob xs) by (unfold x4; destruct (own_verb true tk x3); [change (ob (set_verb None x3)) with (ob x3)|]; congruence). clearbody x4.
  destruct (bl || _); [|exact I4]. unfold ob in *. cbn [on x_st]. rewrite ob_indent. exact I4.
Qed.
Lemma stay_domute : forall v im xs, ob (x_domute limit usetabs true v im xs) = ob xs.
Proof.
  intros v im xs. unfold x_domute. set (x0 := if _ && _ then mute_enter true xs else xs). assert (H0 : ob x0 = ob xs) by (unfold x0; destruct (_ && _); [unfold mute_enter; destruct (diff_is_mute _ _)|]; reflexivity). clearbody x0.
  set (x1 := if _ || _ then _ else x0). assert (H1 : ob x1 = ob xs) by (unfold x1; destruct (_ || _); exact H0). clearbody x1. destruct (_ =? 0)%Z; [|exact H1].
  assert (M : ob (mute_leave limit usetabs true x1) = ob xs).
  { unfold mute_leave. cbn [negb]. change (ob (set_mline false ?y)) with (ob y). destruct (_ && _); [|exact H1]. rewrite stay_print. exact H1. }
  unfold ob in *. cbn [on x_st]. destruct im; exact M.
Qed.
Lemma stay_exec : forall d, stays (exec d).
Proof.
  unfold stays. induction d as [l IH|d IH|v d IH|d IH|i s t|tk s|tk| | | | |v|v|d IH|id ms d IH|d IH|n d IH] using ddoc_ind'; intros xs H; cbn [x_exec1].
  - revert xs H. induction IH as [|d l P _ IHl]; intros xs H; [exact H|]. cbn [fold_left]. apply IHl, P, H.
  - pose proof (stay_enter (leave 1) false (DGroup d) xs (stay_leave 1)) as E. destruct (enter (leave 1) false (DGroup d) xs) as [x0 en]. cbn [fst] in E. rewrite H in E.
    match goal with |- ob (group_leave true en ?z) = _ => set (y := z) end. assert (HY : ob y = true).
    { unfold y. match goal with |- context [if ?c then _ else _] => destruct c end; [apply IH; exact E|]. unfold ob. cbn [on x_st]. apply IH. unfold ob in *. cbn [on x_st set_mode set_dbad o_bad]. rewrite E. reflexivity. }
    clearbody y. unfold group_leave. destruct (_ || _); [exact HY|]. unfold ob in *. cbn. destruct (is_some _); exact HY.
  - apply stay_indent; [exact IH|exact H].
  - unfold ob. cbn [on x_st]. apply IH. unfold ob in *. cbn [on x_st]. change (o_bad (set_pre 0 (set_cur 0 ?y))) with (o_bad y). rewrite ob_trim. exact H.
  - unfold ob in *. cbn [on x_st]. rewrite ob_align. exact H.
  - rewrite stay_print, stay_literal. exact H.
  - rewrite stay_verbatim. exact H.
  - destruct (o_mode (x_st xs)); [rewrite stay_print; exact H|]. unfold ob in *. cbn [on x_st]. pose proof (ob_print limit usetabs [SP] true false (x_is_mute true xs) (x_st xs)) as P. destruct (print_with limit usetabs [SP] true false (x_is_mute true xs) (x_st xs)) as [st1 [|]]; cbn [fst] in P; [change (o_bad (set_refit true st1)) with (o_bad st1)|]; congruence.
  - destruct (o_mode (x_st xs)); [rewrite stay_print; exact H|exact H].
  - rewrite stay_print. exact H.
  - unfold ob in *. cbn [on x_st]. destruct (_ <? _); exact H.
  - rewrite stay_domute. exact H.
  - rewrite stay_domute. exact H.
  - unfold ob. cbn [on x_st]. match goal with |- context [exec d ?z] => pose proof (IH z H) as I end. unfold ob in I. cbn [on x_st] in I. destruct (_ <=? _); exact I.
  - apply stay_minimize; [exact IH|exact H].
  - apply IH. exact H.
  - unfold ob. cbn [on x_st]. apply IH. exact H.
Qed.

(** ** The invariant: [R] are the tokens still to come of the current group. *)
Definition safe (R : list (bool * dtok)) (xs : xstate) : Prop :=
  x_bad xs = false /\ 1 <= x_beg xs /\ (x_group xs = None -> x_many xs = false /\ x_verb xs = None) /\
  (forall g, x_group xs = Some g -> In g (groups root) /\ (x_many xs = true -> plain g)) /\
  (forall i, x_verb xs = Some i -> 0 < x_end xs /\ exists V, In (true, V) R /\ In (true, V) (toks root) /\ k_id V = i /\ after (true, V) <= x_end xs).
Definition fine (R : list (bool * dtok)) (xs : xstate) : Prop := ob xs = true \/ safe R xs.
Lemma emit_fine : forall b e xs, get_lines inp lx b e <> LOut -> x_bad (emit b e xs) = x_bad xs.
Proof. intros b e xs H. unfold diff_emit. destruct (get_lines inp lx b e); [congruence|reflexivity|reflexivity]. Qed.
Lemma emit_same : forall b e xs, x_beg (emit b e xs) = x_beg xs /\ x_group (emit b e xs) = x_group xs /\ x_many (emit b e xs) = x_many xs /\ x_verb (emit b e xs) = x_verb xs /\ x_end (emit b e xs) = x_end xs.
Proof. intros b e xs. unfold diff_emit. destruct (get_lines inp lx b e); auto. Qed.
Lemma single_many : forall g f e, In g (groups root) -> single chunks g -> In f (toks g) -> k_diff (snd f) = true -> chunk_end chunks (lno f) = Some e -> has_many g (S e) = false.
Proof.
  intros g f e IG SG IF KF CE. unfold has_many. destruct (group_lines chunks ls root MF g IG) as [GA GL]. pose proof (covers_found (S e) false g GA (fun x Hx => proj1 (GL x Hx))) as F. destruct (dd_cov _); [reflexivity| |reflexivity]. exfalso.
  destruct (F eq_refl) as (f2 & _ & F1 & F2 & F3 & F4 & _). unfold chunk_end in CE. pose proof (DiffProps.C29_lookup chunks (N.of_nat (lno f))) as G. destruct (DiffModel.get_chunk chunks (N.of_nat (lno f))) as [k|]; [|discriminate CE].
  destruct G as (du & N & C & _). rewrite N in CE. injection CE as <-. pose proof (SG f f2 du IF F1 KF F2 (nth_error_In _ _ N) C) as S. lia.
Qed.
(** A new chunk entered with group [g]. *)
Lemma enter_at_safe : forall R g below dd e xs, In g (groups root) -> In g (groups root) -> (forall x, In x (toks g) -> In x (toks root)) -> x_bad xs = false -> 1 <= x_beg xs -> x_group xs = Some g -> x_verb xs = None -> (x_many xs = true -> plain g) ->
  found (x_beg xs) below (toks g) dd -> chunk_end chunks (dd_chunk dd) = Some e -> (below = true -> R = toks g) -> (below = false -> plain g) -> safe R (enter_at limit usetabs inp lx g dd e xs).
Proof.
  intros R g below dd e xs IG _ IT HX HB HG HV HM (f & a & F1 & F2 & F3 & F4 & F5 & F6 & F7 & FV) CE HR HP. destruct (group_lines chunks ls root MF g IG) as [GA GL].
  assert (IC : in_chunk chunks (dd_chunk dd)) by (rewrite <- F3; apply (mf_flag _ _ _ MF g f IG F1); exact F2). destruct (chunk_found chunks (dd_chunk dd) IC) as (e' & E1 & E2 & _). rewrite CE in E1. injection E1 as <-.
  assert (CL : dd_chunk dd <= len) by (rewrite <- F3; apply GL, F1). assert (CP : 1 <= dd_chunk dd) by lia.
  assert (HMP : has_many g (S e) = true -> plain g).
  { intros H. destruct (PS g IG) as [P|P]; [exact P|]. rewrite <- F3 in CE. rewrite (single_many g f e IG P F1 F2 CE) in H. discriminate H. }
  unfold enter_at. set (x3 := if has_many g (S e) then _ else _). assert (X3 : x_bad x3 = false /\ x_beg x3 = x_beg xs /\ x_group x3 = Some g /\ x_verb x3 = None /\ (x_many x3 = true -> plain g)) by (unfold x3; destruct (has_many g (S e)); repeat split; auto). clearbody x3. destruct X3 as (X1 & X2 & X4 & X5 & X6).
  set (x4 := on (set_mute 0) (set_xmute _ (set_end e x3))). assert (Y : x_bad x4 = false /\ x_beg x4 = x_beg xs /\ x_group x4 = Some g /\ x_many x4 = x_many x3 /\ x_verb x4 = None /\ x_end x4 = e) by (repeat split; assumption). clearbody x4. destruct Y as (Y1 & Y2 & Y3 & Y4 & Y5 & Y6).
  destruct (dd_verb dd) as [V|] eqn:EV.
  - destruct (FV V eq_refl) as (V1 & V2 & V3 & V4 & p & q & V5 & V6). destruct below; [|exfalso; pose proof (HP eq_refl p V q f V5 V4 V6); congruence].
    specialize (HR eq_refl). subst R. destruct (V3 eq_refl) as [V7 V8].
    assert (V9 : after (true, V) = k_lno V + dlines (k_str V)) by (unfold after; cbn [fst snd]; rewrite height_dlines; reflexivity).
    assert (BB : 1 <= x_beg xs <= k_lno V + dlines (k_str V) /\ k_lno V + dlines (k_str V) <= len) by (rewrite <- V9; clear - HB V7 V2 CL V9; lia). rewrite Y2.
    match goal with |- safe _ (emit ?b ?z ?y) => destruct (emit_same b z y) as (S1 & S2 & S3 & S4 & S5); assert (S6 : x_bad (emit b z y) = x_bad y) by (apply emit_fine, GIN; apply BB) end.
    split; [rewrite S6; exact Y1|]. split; [rewrite S1; cbn [set_verb x_beg]; rewrite Y2; exact HB|]. split; [rewrite S2; cbn [set_verb x_group]; rewrite Y3; discriminate|]. split.
    + intros g' Eg. rewrite S2 in Eg. cbn [set_verb x_group] in Eg. rewrite Y3 in Eg. injection Eg as <-. split; [exact IG|]. rewrite S3. cbn [set_verb x_many]. rewrite Y4. exact X6.
    + intros i Ei. rewrite S4 in Ei. cbn [set_verb x_verb] in Ei. injection Ei as <-. rewrite S5. cbn [set_verb x_end]. rewrite Y6. split; [clear - CP E2; lia|]. exists V. split; [exact V1|]. split; [exact (IT _ V1)|]. split; [reflexivity|]. clear - V2 E2. lia.
  - assert (BB : 1 <= x_beg xs <= dd_first dd /\ dd_first dd <= len) by (clear - HB F7 CL; lia). rewrite Y2.
    match goal with |- safe _ (emit ?b ?z ?y) => destruct (emit_same b z y) as (S1 & S2 & S3 & S4 & S5); assert (S6 : x_bad (emit b z y) = x_bad y) by (apply emit_fine, GIN; apply BB) end.
    split; [rewrite S6; exact Y1|]. split; [rewrite S1, Y2; exact HB|]. split; [rewrite S2, Y3; discriminate|]. split.
    + intros g' Eg. rewrite S2, Y3 in Eg. injection Eg as <-. split; [exact IG|]. rewrite S3, Y4. exact X6.
    + intros i Ei. rewrite S4, Y5 in Ei. discriminate Ei.
Qed.
Lemma safe_none : forall R R' xs, x_verb xs = None -> safe R xs -> safe R' xs.
Proof. intros R R' xs E (S1 & S2 & S3 & S4 & S5). repeat split; auto; try (apply S3; assumption); try (apply (S4 g H)). all: intros; congruence. Qed.
Lemma leave_safe : forall R e xs, x_end xs <> 0 -> x_verb xs = None -> safe R xs -> (forall x g, x_group xs = Some g -> In x (toks g) -> In x (toks root)) -> safe R (leave e xs).
Proof.
  intros R e xs HE HV S IT. unfold diff_leave. destruct (e =? 0); [exact S|]. rewrite HV. cbn [is_some]. rewrite orb_false_r. destruct (Nat.eqb_spec (x_end xs) 0) as [K|_]; [lia|]. cbv zeta.
  destruct S as (S1 & S2 & S3 & S4 & S5). set (x3 := if o_newline _ then _ else _). assert (X : x_bad x3 = false /\ 1 <= x_beg x3 /\ x_group x3 = x_group xs /\ x_many x3 = x_many xs /\ x_verb x3 = None /\ x_end x3 = 0) by (unfold x3; destruct (o_newline _); cbn; repeat split; auto; lia).
  clearbody x3. destruct X as (X1 & X2 & X3 & X4 & X5 & X6).
  assert (B : safe R x3). { split; [exact X1|]. split; [exact X2|]. rewrite X3, X4, X5. split; [intros E; split; [apply S3, E|reflexivity]|]. split; [exact S4|]. discriminate. }
  destruct (x_many x3) eqn:EM; [|exact B]. destruct (x_group x3) as [g|] eqn:EG; [|exfalso; destruct (S3 (eq_sym X3)); congruence].
  destruct (S4 g (eq_sym X3)) as [IG PG]. unfold group_enter. cbn [negb andb]. rewrite andb_false_r. destruct (group_lines chunks ls root MF g IG) as [GA GL].
  pose proof (covers_found (x_beg x3) false g GA (fun x Hx => proj1 (GL x Hx))) as F. set (dd := covers _ _ g) in *. clearbody dd. rewrite X6. change (0 <? 0) with false. cbn [andb].
  assert (B' : safe R (set_group (Some g) x3)). { destruct B as (B1 & B2 & B3 & B4 & B5). split; [exact B1|]. split; [exact B2|]. split; [discriminate|]. split; [|exact B5]. intros g' E. injection E as <-. split; [exact IG|]. intros _. exact (PG (eq_sym X4)). }
  destruct (dd_cov dd) eqn:DC; [exact B'| |exact B]. change (x_end (set_group (Some g) x3)) with (x_end x3). rewrite X6. change (0 <? 0) with false. cbn iota. destruct (chunk_end chunks (dd_chunk dd)) as [e'|] eqn:CE; [|exact B'].
  assert (I : safe R (enter_at limit usetabs inp lx g dd e' (set_group (Some g) x3))).
  { apply (enter_at_safe R g false); [exact IG|exact IG|intros x Hx; exact (IT x g (eq_sym X3) Hx)|exact X1|exact X2|reflexivity|exact X5|intros _; exact (PG (eq_sym X4))|exact (F eq_refl)|exact CE|discriminate|intros _; exact (PG (eq_sym X4))]. }
  unfold enter_at in I. destruct (dd_verb dd); exact I.
Qed.

Lemma group_toks : forall d g, In g (groups d) -> incl (toks g) (toks d).
Proof.
  induction d as [l IH|d IH|v d IH|d IH|i s t|tk s|tk| | | | |v|v|d IH|id ms d IH|d IH|n d IH] using ddoc_ind'; intros g H; cbn [groups toks] in *; try (destruct H; fail); try (apply IH; exact H).
  - apply in_flat_map in H. destruct H as (x & X1 & X2). rewrite Forall_forall in IH. intros t Ht. apply in_flat_map. exists x. split; [exact X1|]. exact (IH x X1 g X2 t Ht).
  - destruct H as [<-|H]; [apply incl_refl|apply IH, H].
Qed.
Lemma fine_on : forall R f xs, (o_bad (x_st xs) = true -> o_bad (f (x_st xs)) = true) -> fine R xs -> fine R (on f xs).
Proof. intros R f xs H [B|S]; [left; exact (H B)|right; exact S]. Qed.
Lemma fine_eq : forall R f xs, o_bad (f (x_st xs)) = o_bad (x_st xs) -> fine R xs -> fine R (on f xs).
Proof. intros R f xs H. apply fine_on. rewrite H. auto. Qed.
Lemma fine_print : forall R s i f xs, fine R xs -> fine R (x_print limit usetabs true s i f xs).
Proof. intros R s i f xs H. apply fine_eq; [apply ob_print|exact H]. Qed.

Lemma enter_safe : forall R g xs, In g (groups root) -> safe R xs ->
  match enter (leave 1) false g xs with (x0, en) => if en then safe (toks g) x0 /\ x_group xs = None else x0 = xs end.
Proof.
  intros R g xs IG S. destruct (x_group xs) as [g'|] eqn:EG; [unfold group_enter; rewrite EG; reflexivity|].
  assert (IT : forall x, In x (toks g) -> In x (toks root)) by (apply group_toks, IG).
  destruct (group_lines chunks ls root MF g IG) as [GA GL]. pose proof S as (S1 & S2 & S3 & S4 & S5). destruct (S3 EG) as [HM HV].
  assert (SG : forall ys, safe R ys -> x_group ys = None -> safe (toks g) (set_group (Some g) ys)).
  { intros ys (T1 & T2 & T3 & T4 & T5) G. destruct (T3 G) as [M V]. split; [exact T1|]. split; [exact T2|]. split; [discriminate|]. split; [|cbn [set_group x_verb]; rewrite V; discriminate]. intros g' E. injection E as <-. split; [exact IG|]. cbn [set_group x_many]. rewrite M. discriminate. }
  assert (LV : x_end xs <> 0 -> safe R (leave 1 xs) /\ x_end (leave 1 xs) = 0 /\ x_group (leave 1 xs) = None /\ x_beg (leave 1 xs) = x_end xs + 1).
  { intros E. assert (LS : safe R (leave 1 xs)) by (apply leave_safe; [exact E|exact HV|exact S|rewrite EG; discriminate]). split; [exact LS|]. destruct (leave_out' limit usetabs inp lx chunks 1 xs (Nat.neq_succ_0 0) EG) as [B|B]; [|exact B]. destruct LS as (L1 & _). congruence. }
  unfold group_enter. rewrite EG. cbn [negb andb is_some]. pose proof (covers_found (x_beg xs) true g GA (fun x Hx => proj1 (GL x Hx))) as F. set (dd := covers (x_beg xs) true g) in *. clearbody dd.
  destruct (dd_cov dd) eqn:DC; [| |reflexivity].
  - destruct (Nat.ltb_spec 0 (x_end xs)) as [L|L]; [|split; [apply SG; assumption|reflexivity]]. destruct LV as (L1 & L2 & L3 & L4); [lia|]. split; [apply SG; assumption|reflexivity].
  - specialize (F eq_refl). set (x1 := if (0 <? x_end xs) && (x_end xs <? dd_first dd) then leave 1 xs else xs).
    assert (X1 : safe R x1 /\ x_group x1 = None /\ (x_end x1 = 0 -> found (x_beg x1) true (toks g) dd)).
    { unfold x1. destruct (Nat.ltb_spec 0 (x_end xs)) as [L|L]; cbn [andb]; [|split; [exact S|split; [exact EG|exact (fun _ => F)]]]. destruct (Nat.ltb_spec (x_end xs) (dd_first dd)) as [L'|L']; [|split; [exact S|split; [exact EG|lia]]].
      destruct LV as (L1 & L2 & L3 & L4); [lia|]. split; [exact L1|]. split; [exact L3|]. intros _. destruct F as (f & a & F1 & F2 & F3 & F4 & F5 & F6 & F7 & FV). exists f, a. rewrite L4. split; [exact F1|]. split; [exact F2|]. split; [exact F3|]. split; [lia|]. split; [exact F5|]. split; [exact F6|]. split; [lia|].
      intros V EV. destruct (FV V EV) as (V1 & V2 & V3 & V4). split; [exact V1|]. split; [exact V2|]. split; [|exact V4]. intros BT. destruct (V3 BT). lia. }
    clearbody x1. destruct X1 as (X1 & X2 & X3). pose proof (SG x1 X1 X2) as SX. change (x_end (set_group (Some g) x1)) with (x_end x1).
    destruct (Nat.ltb_spec 0 (x_end x1)) as [L|L]; [split; [exact SX|reflexivity]|]. destruct (chunk_end chunks (dd_chunk dd)) as [e|] eqn:CE; [|split; [exact SX|reflexivity]].
    assert (I : safe (toks g) (enter_at limit usetabs inp lx g dd e (set_group (Some g) x1))).
    { destruct X1 as (T1 & T2 & T3 & T4 & T5). destruct (T3 X2) as [M V]. apply (enter_at_safe (toks g) g true); [exact IG|exact IG|exact IT|exact T1|exact T2|reflexivity|exact V|cbn [set_group x_many]; rewrite M; discriminate|apply X3; lia|exact CE|reflexivity|discriminate]. }
    unfold enter_at in I. destruct (dd_verb dd); (split; [exact I|reflexivity]).
Qed.

Section SafeChild.
Variables R R' : list (bool * dtok).
Variable k : xstate -> xstate.
Hypothesis K : forall xs, fine R xs -> fine R' (k xs).
Hypothesis KB : forall xs, ob xs = true -> ob (k xs) = true.
Lemma safe_indent : forall v xs, fine R xs -> fine R' (x_indent usetabs v k xs).
Proof.
  intros v xs H. unfold x_indent. destruct (is_indent INDENT_PARENS v).
  - apply fine_eq; [reflexivity|]. apply K. apply fine_eq; [destruct (parens_align _); reflexivity|exact H].
  - destruct (is_indent INDENT_FORCE v); [apply K; apply fine_eq; [apply ob_indent|exact H]|]. apply fine_eq; [reflexivity|]. apply K.
    apply fine_eq; [|exact H]. unfold indent_start. repeat match goal with |- context [if ?c then _ else _] => destruct c end; reflexivity.
Qed.
Lemma safe_minimize1 : forall id ms i xs, fine R xs -> fine R' (x_minimize1 usetabs id ms k i xs).
Proof.
  intros id ms i xs H. unfold x_minimize1. destruct (nth_error ms i) as [[v b]|]; [|left; reflexivity]. apply safe_indent. apply fine_eq; [destruct (forced _ _ _ _); reflexivity|exact H].
Qed.
Lemma safe_try : forall id ms sn is xs, safe R sn -> fine R xs -> fine R (snd (x_try_all usetabs id ms k sn is xs)).
Proof.
  intros id ms sn is. induction is as [|i r IH]; intros xs D H; [exact H|]. cbn [x_try_all]. set (x1 := x_minimize1 usetabs id ms k i _).
  assert (I1 : fine R' x1) by (unfold x1; apply safe_minimize1; apply fine_eq; [reflexivity|exact H]). clearbody x1.
  match goal with |- context [x_try_all usetabs id ms k sn r ?y] => assert (I : fine R (snd (x_try_all usetabs id ms k sn r y))); [|destruct (x_try_all usetabs id ms k sn r y); exact I] end.
  apply IH; [exact D|]. destruct I1 as [B|(B & _)]; [left; exact B|right]. rewrite B. destruct D as (D1 & D2 & D3 & D4 & D5). split; [reflexivity|]. split; [exact D2|]. split; [exact D3|]. split; [exact D4|exact D5].
Qed.
Lemma safe_minimize : forall id ms xs, fine R xs -> fine R' (x_minimize usetabs id ms k xs).
Proof.
  intros id ms xs H. destruct H as [H|H]; [left; apply stay_minimize; [exact KB|exact H]|]. unfold x_minimize. destruct (o_idx (x_st xs)); [apply safe_minimize1; right; exact H|].
  assert (I : fine R (snd (x_try_all usetabs id ms k xs (seq 0 (length ms)) xs))) by (apply safe_try; [exact H|right; exact H]).
  destruct (x_try_all usetabs id ms k xs (seq 0 (length ms)) xs) as [ps x1]. cbn [snd] in I. destruct (best_of _ ps); [|left; reflexivity].
  apply fine_eq; [reflexivity|]. apply safe_minimize1. apply fine_eq; [reflexivity|exact I].
Qed.
End SafeChild.
Lemma safe_literal : forall R tk xs, safe ((false, tk) :: R) xs -> safe R (diff_literal limit usetabs true inp lx chunks (Some tk) xs).
Proof.
  intros R tk xs S. pose proof S as (S1 & S2 & S3 & S4 & S5).
  assert (S5' : forall i, x_verb xs = Some i -> 0 < x_end xs /\ exists V, In (true, V) R /\ In (true, V) (toks root) /\ k_id V = i /\ after (true, V) <= x_end xs).
  { intros i Ei. destruct (S5 i Ei) as (E & V & [V1|V1] & V2); [discriminate V1|]. split; [exact E|]. exists V. auto. }
  assert (S' : safe R xs) by (split; [exact S1|split; [exact S2|split; [exact S3|split; [exact S4|exact S5']]]]).
  unfold diff_literal. cbn [negb orb]. destruct (Nat.eqb_spec (x_end xs) 0) as [E|E]; [exact S'|]. destruct (Nat.ltb_spec (x_end xs) (k_lno tk)) as [L|L]; [|exact S'].
  destruct (x_group xs) as [g|] eqn:EG; cbn [is_some].
  - split; [exact S1|]. split; [exact S2|]. split; [cbn [set_end x_group]; rewrite EG; discriminate|]. split; [cbn [set_end x_group]; rewrite EG; exact S4|]. cbn [set_end x_verb x_end]. intros i Ei. destruct (S5' i Ei) as (_ & V & V1 & V2 & V3 & V4). split; [lia|]. exists V. split; [exact V1|]. split; [exact V2|]. split; [exact V3|lia].
  - apply leave_safe; [exact E|apply S3; reflexivity|exact S'|rewrite EG; discriminate].
Qed.
Lemma safe_verbatim : forall R tk xs, In (true, tk) (toks root) -> safe ((true, tk) :: R) xs -> safe R (x_verbatim limit usetabs true inp lx chunks tk xs).
Proof.
  intros R tk xs IT S. pose proof S as (S1 & S2 & S3 & S4 & S5). unfold x_verbatim. destruct (x_verb xs) as [i|] eqn:EV.
  - destruct (S5 i eq_refl) as (E & V & V1 & V2 & V3 & V4). assert (MU : x_is_mute true xs = true) by (unfold x_is_mute, diff_is_mute; rewrite EV; cbn; rewrite !orb_true_r; reflexivity). rewrite MU. cbn [andb].
    destruct (own_verb true tk xs) eqn:OV; cbn [negb].
    + unfold own_verb in OV. rewrite EV in OV. cbn [andb] in OV. apply Nat.eqb_eq in OV. assert (V = tk) as -> by (apply ID; [exact V2|exact IT|congruence]).
      assert (DV : diff_verbatim limit usetabs true inp lx chunks tk xs = (0, xs)).
      { unfold diff_verbatim. destruct (_ || _); [reflexivity|]. unfold after in V4. cbn [fst snd] in V4. change (lno (true, tk)) with (k_lno tk) in V4. rewrite height_dlines in V4. destruct (Nat.ltb_spec (x_end xs) (k_lno tk)); [lia|]. destruct (Nat.ltb_spec (x_end xs) (k_lno tk + dlines (k_str tk))); [lia|]. rewrite andb_false_r. reflexivity. }
      rewrite DV. cbv zeta. set (bl := (1 <? _) && _). clearbody bl. set (x2 := if bl && _ then _ else _). assert (I2 : x_bad x2 = false /\ x_beg x2 = x_beg xs /\ x_group x2 = x_group xs /\ x_many x2 = x_many xs /\ x_verb x2 = x_verb xs) by (unfold x2; destruct (bl && _); repeat split; exact S1). clearbody x2. destruct I2 as (A1 & A2 & A3 & A4 & A5).
      set (x3 := x_print limit usetabs true (k_str tk) false false x2). assert (I3 : x_bad x3 = false /\ x_beg x3 = x_beg xs /\ x_group x3 = x_group xs /\ x_many x3 = x_many xs /\ x_verb x3 = Some (k_id tk)) by (repeat split; try assumption; cbn; congruence). clearbody x3. destruct I3 as (B1 & B2 & B3 & B4 & B5).
      assert (OW : own_verb true tk x3 = true) by (unfold own_verb; rewrite B5; apply Nat.eqb_refl). rewrite OW.
      assert (S' : safe R (set_verb None x3)).
      { split; [exact B1|]. cbn [set_verb x_beg x_group x_many x_verb]. rewrite B2, B3, B4. split; [exact S2|]. split; [intros G; split; [apply S3, G|reflexivity]|]. split; [exact S4|discriminate]. }
      destruct (bl || _); exact S'.
    + unfold own_verb in OV. rewrite EV in OV. cbn [andb] in OV. apply Nat.eqb_neq in OV. split; [exact S1|]. split; [exact S2|]. split; [rewrite EV; exact S3|]. split; [exact S4|]. rewrite EV. intros j Ej. injection Ej as <-. split; [exact E|]. exists V. split; [|auto]. destruct V1 as [V1|V1]; [injection V1 as ->; congruence|exact V1].
  - assert (SN : safe R xs) by (apply (safe_none ((true, tk) :: R)); [exact EV|exact S]). destruct (_ && _); [exact SN|].
    assert (TR : forall x g, x_group xs = Some g -> In x (toks g) -> In x (toks root)) by (intros x g G Hx; exact (group_toks root g (proj1 (S4 g G)) x Hx)).
    assert (D : match diff_verbatim limit usetabs true inp lx chunks tk xs with (n, x0) => n = 0 /\ safe R x0 \/ x0 = xs /\ x_end xs <> 0 end).
    { unfold diff_verbatim. destruct (negb true || _ || _) eqn:EC; [left; auto|]. apply orb_false_iff in EC. destruct EC as [_ E0]. apply Nat.eqb_neq in E0. destruct (_ <? k_lno tk); [left; split; [reflexivity|apply leave_safe; assumption]|]. destruct (_ && _); [right; auto|left; auto]. }
    destruct (diff_verbatim limit usetabs true inp lx chunks tk xs) as [n x0]. cbv zeta. set (bl := (1 <? _) && _). clearbody bl.
    assert (GO : forall y, safe R y -> (n = 0 \/ x_end y <> 0 /\ x_verb y = None /\ (forall x g, x_group y = Some g -> In x (toks g) -> In x (toks root))) -> safe R (leave n y)).
    { intros y Y [->|(Y1 & Y2 & Y3)]; [exact Y|apply leave_safe; assumption]. }
    assert (OV : forall z, safe R z -> x_verb z = None \/ n = 0 -> safe R (if own_verb true tk z then set_verb None z else z)).
    { intros z Z _. destruct (own_verb true tk z); [|exact Z]. destruct Z as (Z1 & Z2 & Z3 & Z4 & Z5). split; [exact Z1|]. split; [exact Z2|]. split; [intros G; split; [apply Z3, G|reflexivity]|]. split; [exact Z4|discriminate]. }
    set (x2 := if bl && _ then _ else _).
    assert (I2 : safe R x2 /\ (n = 0 \/ x_end x2 <> 0 /\ x_verb x2 = None /\ x_group x2 = x_group xs)).
    { unfold x2. destruct D as [[-> D]|[-> D]]; destruct (bl && _); split; auto. }
    clearbody x2. destruct I2 as [I2 C2]. set (x3 := x_print limit usetabs true (k_str tk) false false x2). assert (I3 : safe R x3 /\ (n = 0 \/ x_end x3 <> 0 /\ x_verb x3 = None /\ x_group x3 = x_group xs)) by (split; [exact I2|exact C2]). clearbody x3. destruct I3 as [I3 C3].
    set (x4 := if own_verb true tk x3 then _ else x3). assert (I4 : safe R x4 /\ (n = 0 \/ x_end x4 <> 0 /\ x_verb x4 = None /\ x_group x4 = x_group xs)).
    { split; [apply OV; [exact I3|]; destruct C3 as [C3|(_ & C3 & _)]; auto|]. destruct C3 as [C3|(C3 & C4 & C5)]; [left; exact C3|right]. unfold x4. destruct (own_verb true tk x3); auto. }
    clearbody x4. destruct I4 as [I4 C4]. apply GO; [destruct (bl || _); exact I4|]. destruct C4 as [C4|(C4 & C5 & C6)]; [left; exact C4|right]. destruct (bl || _); (split; [exact C4|split; [exact C5|]]); intros x g G Hx; apply (TR x g); [|exact Hx| |exact Hx]; rewrite <- C6; exact G.
Qed.
Lemma safe_domute : forall R v im xs, fine R xs -> fine R (x_domute limit usetabs true v im xs).
Proof.
  intros R v im xs [B|S]; [left; rewrite stay_domute; exact B|right]. unfold x_domute. set (x0 := if _ && _ then mute_enter true xs else xs). assert (H0 : safe R x0) by (unfold x0; destruct (_ && _); [unfold mute_enter; destruct (diff_is_mute _ _)|]; exact S). clearbody x0.
  set (x1 := if _ || _ then _ else x0). assert (H1 : safe R x1) by (unfold x1; destruct (_ || _); exact H0). clearbody x1. destruct (_ =? 0)%Z; [|exact H1]. unfold mute_leave. cbn [negb]. destruct (_ && _); exact H1.
Qed.
Lemma exec_safe : forall d R xs, incl (groups d) (groups root) -> incl (toks d) (toks root) -> fine (toks d ++ R) xs -> fine R (exec d xs).
Proof.
  induction d as [l IH|d IH|v d IH|d IH|i s t|tk s|tk| | | | |v|v|d IH|id ms d IH|d IH|n d IH] using ddoc_ind'; intros R xs HG HT H; cbn [x_exec1].
  - cbn [groups toks] in *. revert xs H HG HT. induction IH as [|d l P _ IHl]; intros xs H HG HT; [exact H|]. cbn [fold_left flat_map] in *. apply incl_app_inv in HG. apply incl_app_inv in HT. destruct HG, HT. apply IHl; try assumption. apply P; try assumption. rewrite app_assoc. exact H.
  - cbn [groups toks] in *. assert (IG : In (DGroup d) (groups root)) by (apply HG; left; reflexivity). assert (HG' : incl (groups d) (groups root)) by (intros x Hx; apply HG; right; exact Hx).
    destruct H as [H|H]. { left. exact (stay_exec (DGroup d) xs H). }
    pose proof (enter_safe (toks d ++ R) (DGroup d) xs IG H) as E. pose proof (keep_enter limit usetabs inp lx chunks (leave 1) false (DGroup d) xs (keep_leave limit usetabs inp lx chunks 1)) as KE. destruct (enter (leave 1) false (DGroup d) xs) as [x0 en]. match goal with |- fine R (group_leave true en ?z) => set (y := z) end.
    assert (Y : forall R', safe (toks d ++ R') x0 -> fine R' y).
    { intros R' H'. unfold y. match goal with |- context [if ?c then _ else _] => destruct c end; [apply IH; try assumption; right; exact H'|]. apply fine_eq; [reflexivity|]. apply IH; try assumption. right. exact H'. }
    assert (YG : x_group y = x_group x0).
    { unfold y. match goal with |- context [if ?c then _ else _] => destruct c end; [apply keep_exec|]. match goal with |- context [exec d ?z] => destruct (keep_exec limit usetabs inp lx chunks d z) as [_ KG] end. exact KG. }
    clearbody y. destruct en; [|subst x0; apply Y; exact H]. destruct E as [E EG]. destruct (KE (or_introl EG)) as [_ KG]. rewrite KG in YG.
    destruct (Y []) as [B|S]; [rewrite app_nil_r; exact E| |].
    + left. unfold group_leave. cbn [negb orb]. rewrite YG. exact B.
    + right. unfold group_leave. cbn [negb orb]. rewrite YG. cbn [is_some]. destruct S as (S1 & S2 & S3 & S4 & S5). assert (VN : x_verb y = None) by (destruct (x_verb y) as [i|]; [destruct (S5 i eq_refl) as (_ & V & [] & _)|reflexivity]).
      split; [exact S1|]. split; [exact S2|]. split; [intros _; split; [reflexivity|exact VN]|]. split; [discriminate|]. cbn [set_many set_group x_verb]. rewrite VN. discriminate.
  - apply (safe_indent (toks d ++ R) R (exec d)); [|exact H]. intros y Hy. apply IH; assumption.
  - apply fine_eq; [reflexivity|]. apply IH; try assumption. apply (fine_eq _ (fun st => set_pre 0 (set_cur 0 st))); [reflexivity|]. apply fine_eq; [apply ob_trim|exact H].
  - apply fine_eq; [apply ob_align|exact H].
  - apply fine_print. destruct tk as [tk|]; [|exact H]. destruct H as [H|H]; [left; rewrite stay_literal; exact H|right]. apply safe_literal. exact H.
  - destruct H as [H|H]; [left; rewrite stay_verbatim; exact H|right]. apply safe_verbatim; [|exact H]. apply HT. left. reflexivity.
  - destruct (o_mode (x_st xs)); [apply fine_print, H|]. apply fine_eq; [|exact H]. pose proof (ob_print limit usetabs [SP] true false (x_is_mute true xs) (x_st xs)) as P. destruct (print_with limit usetabs [SP] true false (x_is_mute true xs) (x_st xs)) as [st1 [|]]; exact P.
  - destruct (o_mode (x_st xs)); [apply fine_print, H|exact H].
  - apply fine_print, H.
  - apply fine_eq; [destruct (_ <? _); reflexivity|exact H].
  - apply safe_domute, H.
  - apply safe_domute, H.
  - apply fine_eq; [destruct (_ <=? _); reflexivity|]. apply IH; assumption.
  - apply (safe_minimize (toks d ++ R) R (exec d)); [|apply stay_exec|exact H]. intros y Hy. apply IH; assumption.
  - apply IH; assumption.
  - apply fine_eq; [reflexivity|]. apply IH; assumption.
Qed.
Lemma run_safe : forall xs, xs = exit (exec root (x_init [])) -> ob xs = false -> x_bad xs = false.
Proof.
  intros xs -> HO. assert (I0 : fine (toks root ++ []) (x_init [])).
  { right. split; [reflexivity|]. split; [cbn; lia|]. split; [auto|]. split; discriminate. }
  pose proof (exec_safe root [] (x_init []) (incl_refl _) (incl_refl _) I0) as I. destruct (keep_exec limit usetabs inp lx chunks root (x_init [])) as [_ K2]. set (ys := exec root (x_init [])) in *. clearbody ys. cbn in K2.
  unfold diff_exit in *. cbn [negb] in *. rewrite stay_emit in HO. set (zs := if 0 <? x_end ys then leave 1 ys else ys) in *.
  assert (Z : safe [] zs).
  { destruct I as [B|S]; [exfalso; unfold zs in HO; destruct (0 <? x_end ys); [rewrite stay_leave in HO|]; congruence|]. unfold zs. destruct (Nat.ltb_spec 0 (x_end ys)); [|exact S]. apply leave_safe; [lia|apply S, K2|exact S|rewrite K2; discriminate]. }
  clearbody zs. rewrite emit_fine; [apply Z|]. apply GALL. apply Z.
Qed.
End Safe.
