(** Lemmas for C68: what a run as a whole leaves behind. *)
From Verif Require Import Base StrModel StrProofs UtilModel UtilProofs LexModel LinesModel DocModel DocProofs DdocModel DdocProofs DdocSpec DdocSteps.
From Verif Require DiffModel DiffProps.
Open Scope nat_scope.

(** Executing a document restores the indentation and the group. *)
Section Keep.
Variable limit : nat.
Variable usetabs : bool.
Variable inp : bytes.
Variable lx : lexer.
Variable chunks : list DiffModel.chunk.
Notation exec := (x_exec1 limit usetabs true inp lx chunks).
Notation leave := (diff_leave limit usetabs true inp lx chunks).
Notation emit := (diff_emit limit usetabs true inp lx).
Notation enter := (group_enter limit usetabs true inp lx chunks).
Definition keeps (k : xstate -> xstate) : Prop := forall xs, frame (x_st (k xs)) = frame (x_st xs) /\ x_group (k xs) = x_group xs.
Lemma keep_print : forall s i f, keeps (x_print limit usetabs true s i f).
Proof. intros s i f xs. split; [apply frame_print|reflexivity]. Qed.
Lemma keep_emit : forall b e, keeps (emit b e).
Proof. intros b e xs. unfold diff_emit. destruct (get_lines inp lx b e); [auto|auto|]. split; [|reflexivity]. cbn [on x_st]. rewrite frame_indent. unfold x_print. cbn [on x_st]. rewrite frame_print, frame_trim. reflexivity. Qed.
Lemma keep_enter : forall k n g xs, keeps k -> (x_group xs = None \/ n = true /\ x_group xs = Some g) -> match enter k n g xs with (x0, en) => frame (x_st x0) = frame (x_st xs) /\ x_group x0 = if en then Some g else x_group xs end.
Proof.
  intros k n g xs K G. unfold group_enter. cbn [negb]. destruct (_ && negb n); [auto|]. set (dd := covers _ _ g). clearbody dd. destruct (dd_cov dd); [| |auto].
  - split; [|reflexivity]. destruct (0 <? x_end xs); [apply K|reflexivity].
  - set (x1 := if _ && _ then k xs else xs). assert (F1 : frame (x_st x1) = frame (x_st xs)) by (unfold x1; destruct (_ && _); [apply K|reflexivity]). clearbody x1.
    destruct (0 <? x_end _); [split; [exact F1|reflexivity]|]. destruct (chunk_end _ _) as [e|]; [|split; [exact F1|reflexivity]]. set (x3 := if has_many _ _ then _ else _). assert (F3 : frame (x_st x3) = frame (x_st xs) /\ x_group x3 = Some g) by (unfold x3; destruct (has_many _ _); split; try reflexivity; exact F1). clearbody x3. destruct F3 as [F3 G3].
    destruct (dd_verb dd) as [V|];
      match goal with |- frame (x_st (emit ?b ?e ?y)) = _ /\ _ => destruct (keep_emit b e y) as [E1 E2]; rewrite E1, E2; split; [exact F3|exact G3] end.
Qed.
Lemma keep_leave : forall e, keeps (leave e).
Proof.
  intros e xs. unfold diff_leave. destruct (e =? 0); [auto|]. set (x0 := if _ || _ then _ else xs). assert (H0 : frame (x_st x0) = frame (x_st xs) /\ x_group x0 = x_group xs) by (unfold x0; destruct (_ || _); auto). clearbody x0. destruct H0 as [F0 G0].
  set (x3 := if o_newline _ then _ else _). assert (H3 : frame (x_st x3) = frame (x_st xs) /\ x_group x3 = x_group xs).
  { unfold x3. destruct (o_newline _); [|split; [exact F0|exact G0]]. match goal with |- context [x_print limit usetabs true ?s ?i ?f ?y] => destruct (keep_print s i f y) as [E1 E2]; rewrite E1, E2 end. split; [exact F0|exact G0]. }
  clearbody x3. destruct H3 as [F3 G3]. destruct (x_many x3); [|auto]. destruct (x_group x3) as [g|] eqn:EG; [|split; [exact F3|rewrite <- G3; exact EG]].
  pose proof (keep_enter (set_xbad true) true g x3 (fun y => conj eq_refl eq_refl) (or_intror (conj eq_refl EG))) as E. destruct (enter (set_xbad true) true g x3) as [y [|]]; destruct E as [E1 E2]; cbn [fst]; (split; [congruence|]); rewrite E2; congruence.
Qed.
Lemma keep_on : forall f, (forall st, frame (f st) = frame st) -> keeps (on f).
Proof. intros f H xs. split; [apply H|reflexivity]. Qed.
Lemma frame_eq : forall a b, o_cur a = o_cur b -> o_parens a = o_parens b -> o_maxlines a = o_maxlines b -> frame a = frame b.
Proof. intros a b H1 H2 H3. unfold frame. rewrite H1, H2, H3. reflexivity. Qed.
Section Child.
Variable k : xstate -> xstate.
Hypothesis K : keeps k.
Lemma keep_indent : forall v, keeps (x_indent usetabs v k).
Proof.
  intros v xs. unfold x_indent. destruct (is_indent INDENT_PARENS v).
  - match goal with |- context [k ?y] => destruct (K y) as [E1 E2] end. apply frame_inv in E1. destruct E1 as (E1 & _ & E3). split; [|exact E2]. cbn [on x_st] in *. apply frame_eq; [|reflexivity|]; [change (o_cur (set_parens ?n ?z)) with (o_cur z)|change (o_maxlines (set_parens ?n ?z)) with (o_maxlines z)]; [rewrite E1|rewrite E3]; destruct (parens_align _); reflexivity.
  - destruct (is_indent INDENT_FORCE v).
    + match goal with |- context [k ?y] => destruct (K y) as [E1 E2]; rewrite E1, E2 end. split; [apply frame_indent|reflexivity].
    + match goal with |- context [k ?y] => destruct (K y) as [E1 E2] end. apply frame_inv in E1. destruct E1 as (_ & E3 & E4). split; [|exact E2]. cbn [on x_st] in *.
      assert (IS : o_parens (indent_start v (x_st xs)) = o_parens (x_st xs) /\ o_maxlines (indent_start v (x_st xs)) = o_maxlines (x_st xs)) by (unfold indent_start; repeat match goal with |- context [if ?c then _ else _] => destruct c end; auto). destruct IS as [I1 I2].
      apply frame_eq; [reflexivity| |]; [change (o_parens (set_cur ?n ?z)) with (o_parens z)|change (o_maxlines (set_cur ?n ?z)) with (o_maxlines z)]; congruence.
Qed.
Lemma keep_minimize1 : forall id ms i, keeps (x_minimize1 usetabs id ms k i).
Proof.
  intros id ms i xs. unfold x_minimize1. destruct (nth_error ms i) as [[v b]|]; [|split; reflexivity]. match goal with |- context [x_indent usetabs v k ?y] => destruct (keep_indent v y) as [E1 E2]; rewrite E1, E2 end. split; [cbn; destruct (forced _ _ _ _); reflexivity|reflexivity].
Qed.
Lemma keep_try : forall id ms sn is xs, frame (x_st sn) = frame (x_st xs) -> x_group sn = x_group xs -> frame (x_st (snd (x_try_all usetabs id ms k sn is xs))) = frame (x_st sn) /\ x_group (snd (x_try_all usetabs id ms k sn is xs)) = x_group sn.
Proof.
  intros id ms sn is. induction is as [|i r IH]; intros xs E1 E2; [cbn; auto|]. cbn [x_try_all]. set (x1 := x_minimize1 usetabs id ms k i _). clearbody x1.
  match goal with |- context [x_try_all usetabs id ms k sn r ?y] => destruct (IH y eq_refl eq_refl) as [I1 I2]; destruct (x_try_all usetabs id ms k sn r y) end. split; [exact I1|exact I2].
Qed.
Lemma keep_minimize : forall id ms, keeps (x_minimize usetabs id ms k).
Proof.
  intros id ms xs. unfold x_minimize. destruct (o_idx _); [apply keep_minimize1|]. destruct (keep_try id ms xs (seq 0 (length ms)) xs eq_refl eq_refl) as [T1 T2]. destruct (x_try_all usetabs id ms k xs (seq 0 (length ms)) xs) as [ps x1]. cbn [snd] in *.
  destruct (best_of _ ps) as [best|]; [|split; [exact T1|exact T2]]. destruct (keep_minimize1 id ms best (on (set_idx (Some best)) x1)) as [E1 E2]. split; [cbn [on x_st]; change (frame (set_idx None ?z)) with (frame z); rewrite E1; exact T1|cbn [on x_group]; rewrite E2; exact T2].
Qed.
End Child.
Lemma keep_literal : forall tk, keeps (diff_literal limit usetabs true inp lx chunks tk).
Proof. intros [tk|] xs; unfold diff_literal; [|auto]. destruct (_ || _); [auto|]. destruct (_ <? _); [|auto]. destruct (is_some _); [split; reflexivity|apply keep_leave]. Qed.
Lemma keep_verbatim : forall tk, keeps (x_verbatim limit usetabs true inp lx chunks tk).
Proof.
  intros tk xs. unfold x_verbatim. destruct (_ && _); [auto|]. assert (D : frame (x_st (snd (diff_verbatim limit usetabs true inp lx chunks tk xs))) = frame (x_st xs) /\ x_group (snd (diff_verbatim limit usetabs true inp lx chunks tk xs)) = x_group xs).
  { unfold diff_verbatim. destruct (negb true || _ || _); [auto|]. destruct (_ <? _); [apply keep_leave|]. destruct (_ && _); auto. }
  destruct (diff_verbatim limit usetabs true inp lx chunks tk xs) as [n x0]. cbn [snd] in D. destruct D as [D1 D2]. cbv zeta. set (bl := (1 <? _) && _). clearbody bl.
  match goal with |- context [leave n ?y] => destruct (keep_leave n y) as [E1 E2]; rewrite E1, E2; clear E1 E2 end.
  set (x2 := if bl && _ then _ else _). assert (I2 : frame (x_st x2) = frame (x_st xs) /\ x_group x2 = x_group xs) by (unfold x2; destruct (bl && _); cbn [on x_st x_group]; (split; [|exact D2]); [change (frame (set_newline true ?z)) with (frame z)|]; rewrite frame_trim; exact D1). clearbody x2. destruct I2 as [I1 I2].
  destruct (keep_print (k_str tk) false false x2) as [P1 P2]. set (x3 := x_print limit usetabs true (k_str tk) false false x2) in *. clearbody x3.
  set (x4 := if own_verb true tk x3 then _ else _). assert (I4 : frame (x_st x4) = frame (x_st xs) /\ x_group x4 = x_group xs) by (unfold x4; destruct (own_verb true tk x3); split; cbn; congruence). clearbody x4. destruct I4 as [I3 I4].
  destruct (bl || _); [|auto]. cbn [on x_st x_group]. rewrite frame_indent. auto.
Qed.
Lemma keep_domute : forall v im, keeps (x_domute limit usetabs true v im).
Proof.
  intros v im xs. unfold x_domute. set (x0 := if _ && _ then mute_enter true xs else xs). assert (H0 : frame (x_st x0) = frame (x_st xs) /\ x_group x0 = x_group xs) by (unfold x0; destruct (_ && _); [unfold mute_enter; destruct (diff_is_mute _ _)|]; auto). clearbody x0.
  set (x1 := if _ || _ then _ else x0). assert (H1 : frame (x_st x1) = frame (x_st xs) /\ x_group x1 = x_group xs) by (unfold x1; destruct (_ || _); exact H0). clearbody x1. destruct (_ =? 0)%Z; [|exact H1]. destruct H1 as [H1 H2].
  assert (M : frame (x_st (mute_leave limit usetabs true x1)) = frame (x_st xs) /\ x_group (mute_leave limit usetabs true x1) = x_group xs).
  { unfold mute_leave. cbn [negb]. destruct (_ && _); [|auto]. match goal with |- context [x_print limit usetabs true ?s ?i ?f ?y] => destruct (keep_print s i f y) as [E1 E2] end. split; [cbn [set_mline x_st]; rewrite E1; exact H1|cbn [set_mline x_group]; rewrite E2; exact H2]. }
  destruct M as [M1 M2]. split; [|exact M2]. cbn [on x_st]. destruct im; exact M1.
Qed.
Lemma keep_exec : forall d, keeps (exec d).
Proof.
  unfold keeps. induction d as [l IH|d IH|v d IH|d IH|i s t|tk s|tk| | | | |v|v|d IH|id ms d IH|d IH|n d IH] using ddoc_ind'; intros xs; cbn [x_exec1].
  - revert xs. induction IH as [|d l P _ IHl]; intros xs; [auto|]. cbn [fold_left]. destruct (IHl (exec d xs)) as [E1 E2]. destruct (P xs) as [E3 E4]. split; congruence.
  - assert (E : match enter (leave 1) false (DGroup d) xs with (x0, en) => frame (x_st x0) = frame (x_st xs) /\ x_group x0 = (if en then Some (DGroup d) else x_group xs) /\ (en = true -> x_group xs = None) end).
    { destruct (x_group xs) as [g|] eqn:EG; [unfold group_enter; rewrite EG; cbn; rewrite EG; repeat split; discriminate|]. pose proof (keep_enter (leave 1) false (DGroup d) xs (keep_leave 1) (or_introl EG)) as E. rewrite EG in E. destruct (enter (leave 1) false (DGroup d) xs) as [x0 en]. destruct E as [E1 E2]. auto. }
    destruct (enter (leave 1) false (DGroup d) xs) as [x0 en]. destruct E as (E1 & E2 & E3). match goal with |- context [group_leave true en ?z] => set (y := z) end.
    assert (Y : frame (x_st y) = frame (x_st x0) /\ x_group y = x_group x0).
    { unfold y. match goal with |- context [if ?c then _ else _] => destruct c end; [apply IH|]. match goal with |- context [exec d ?z] => destruct (IH z) as [I1 I2] end. split; [cbn [on x_st]; change (frame (set_mode ?n ?z)) with (frame z); rewrite I1; reflexivity|exact I2]. }
    clearbody y. destruct Y as [Y1 Y2]. unfold group_leave. destruct en; cbn [negb orb]; [|split; congruence]. split; [|cbn; rewrite E3; reflexivity]. cbn. destruct (is_some _); cbn; congruence.
  - apply keep_indent. exact IH.
  - match goal with |- context [exec d ?z] => destruct (IH z) as [I1 I2] end. apply frame_inv in I1. destruct I1 as (_ & I3 & I4). split; [|exact I2]. pose proof (frame_trim (x_st xs)) as FT. apply frame_inv in FT. destruct FT as (F1 & F2 & F3). cbn [on x_st] in *. apply frame_eq; [exact F1| |]; [change (o_parens (set_pre ?a (set_cur ?b ?z))) with (o_parens z)|change (o_maxlines (set_pre ?a (set_cur ?b ?z))) with (o_maxlines z)]; [rewrite I3|rewrite I4]; [exact F2|exact F3].
  - split; [apply frame_align|reflexivity].
  - destruct (keep_print s true false (diff_literal limit usetabs true inp lx chunks tk xs)) as [E1 E2]. destruct (keep_literal tk xs) as [E3 E4]. split; congruence.
  - apply keep_verbatim.
  - destruct (o_mode (x_st xs)); [apply keep_print|]. split; [|reflexivity]. cbn [on x_st]. pose proof (frame_print limit usetabs [SP] true false (x_is_mute true xs) (x_st xs)) as P. destruct (print_with limit usetabs [SP] true false (x_is_mute true xs) (x_st xs)) as [st1 [|]]; exact P.
  - destruct (o_mode (x_st xs)); [apply keep_print|auto].
  - apply keep_print.
  - split; [|reflexivity]. cbn [on x_st]. destruct (_ <? _); reflexivity.
  - apply keep_domute.
  - apply keep_domute.
  - match goal with |- context [exec d ?z] => destruct (IH z) as [I1 I2] end. split; [|exact I2]. cbn [on x_st] in *. destruct (_ <=? _); exact I1.
  - apply keep_minimize. exact IH.
  - match goal with |- context [exec d ?z] => destruct (IH z) as [I1 I2] end. split; [exact I1|exact I2].
  - match goal with |- context [exec d ?z] => destruct (IH z) as [I1 I2] end. apply frame_inv in I1. destruct I1 as (I1 & I3 & _). split; [|exact I2]. cbn [on x_st] in *. apply frame_eq; [exact I1|exact I3|reflexivity].
Qed.
End Keep.

Section Final.
Variable limit : nat.
Variable usetabs : bool.
Variable inp : bytes.
Variable lx : lexer.
Variable chunks : list DiffModel.chunk.
Variable ls : list bytes.
Variable root : ddoc.
Notation len := (length ls).
Notation T := (touched chunks root).
Notation lines b e := (concat (firstn (e - b) (skipn (b - 1) ls))).
Hypothesis LNE : 1 <= len.
Hypothesis LNL : forall i l, i + 1 < len -> nth_error ls i = Some l -> exists p, l = p ++ [NL].
Hypothesis GIN : forall b e, 1 <= b <= e -> e <= len -> exists o n, get_lines inp lx b e = LSlice o n /\ slice inp o (o + n) = lines b e.
Hypothesis GALL : forall b, 1 <= b <= len -> exists o n, get_lines inp lx b 0 = LSlice o n /\ slice inp o (o + n) = lines b (S len).
Hypothesis GREV : forall b e, 1 <= e < b -> b <= len -> get_lines inp lx b e = LOut.
Hypothesis GPAST : forall b, len < b -> get_lines inp lx b 0 = LNone.
Hypothesis MF : made_from ls chunks root.
Notation exec := (x_exec1 limit usetabs true inp lx chunks).
Notation leave := (diff_leave limit usetabs true inp lx chunks).
Notation emit := (diff_emit limit usetabs true inp lx).
Notation enter := (group_enter limit usetabs true inp lx chunks).
Notation exit := (diff_exit limit usetabs true inp lx chunks).

Lemma exit_merged : forall b0 o xs, merged ls T b0 o -> nonblank_top (rev o) -> ready chunks root b0 o (x_beg xs) (x_st xs) -> (b0 = x_beg xs -> b0 = 1) -> 1 <= x_beg xs ->
  o_cur (x_st xs) = 0 -> o_parens (x_st xs) = 0 -> 1 <= o_maxlines (x_st xs) ->
  exists e, len < e /\ merged ls T e (rev (o_rev (x_st (emit (x_beg xs) 0 xs)))) /\ x_bad (emit (x_beg xs) 0 xs) = x_bad xs.
Proof.
  intros b0 o xs M N R H1 HB HC HP HM. destruct (Nat.le_gt_cases (x_beg xs) len) as [L|L].
  - destruct (GALL (x_beg xs)) as (p & n & G & SL); [lia|]. destruct (ready_trim chunks ls root b0 o (x_beg xs) (x_st xs) M N R) as (o1 & M1 & E1).
    exists (S len). split; [lia|]. unfold diff_emit. rewrite G, SL. split; [|reflexivity]. cbn [on x_st x_print].
    match goal with |- context [fst (print_with limit usetabs ?s false true ?m _)] => destruct (emit_rev limit usetabs inp lx ls LNE LNL GIN GALL GREV GPAST s m (x_st xs) HM) as (w & _ & W2 & W3) end. cbn [on x_st] in W2. unfold x_print. cbn [on x_st]. rewrite W2, W3 by assumption. cbn [rev app]. rewrite <- E1, rev_app_distr, !rev_involutive.
    replace (S len) with (x_beg xs + (S len - x_beg xs)) at 1 by lia. apply (merged_lines inp lx chunks ls root LNE LNL GIN GALL GREV GPAST); [exact M1|lia|lia].
  - exists (x_beg xs). split; [exact L|]. unfold diff_emit. rewrite GPAST by exact L. split; [|reflexivity]. destruct R as [[E _]|(R1 & R2 & (r & R3 & _))]; [specialize (H1 E); lia|].
    rewrite R3, rev_app_distr, rev_involutive. exact (mg_block ls T b0 (x_beg xs) o (rev r) M R1 R2).
Qed.

(** What is written keeps the lines that are not touched. *)
Lemma run_lines : forall xs, xs = exit (exec root (x_init [])) -> x_bad xs = false -> exists e, len < e /\ merged ls T e (rev (o_rev (x_st xs))).
Proof.
  intros xs -> HB. assert (I0 : inv chunks ls root (toks root) (x_init [])).
  { right. split; [cbn; lia|]. split; [cbn; lia|]. split; [discriminate|]. exists 1, []. split; [constructor|]. split; [intros c r E; discriminate E|]. left. repeat split. exists []. split; [reflexivity|constructor]. }
  pose proof (exec_inv limit usetabs inp lx chunks ls root LNE LNL GIN GALL GREV GPAST MF root (toks root) (x_init []) (incl_refl _) (incl_refl _) (mf_limits _ _ _ MF) (incl_refl _) I0) as I.
  destruct (keep_exec limit usetabs inp lx chunks root (x_init [])) as [K1 K2]. set (ys := exec root (x_init [])) in *. clearbody ys. apply frame_inv in K1. destruct K1 as (K3 & K4 & K5). cbn in K2, K3, K4, K5.
  unfold diff_exit in *. cbn [negb] in *.
  set (zs := if 0 <? x_end ys then leave 1 ys else ys) in *. assert (Z : (x_bad zs = true \/ good chunks ls root (toks root) zs /\ x_end zs = 0) /\ frame (x_st zs) = frame (x_st ys)).
  { unfold zs. destruct (Nat.ltb_spec 0 (x_end ys)) as [L|L].
    - split; [|apply keep_leave]. destruct (leave_out limit usetabs inp lx chunks ls LNE LNL GIN GALL GREV GPAST 1 ys (Nat.neq_succ_0 0) K2) as [B|(B1 & _)]; [left; exact B|]. destruct (leave_inv limit usetabs inp lx chunks ls root LNE LNL GIN GALL GREV GPAST MF (toks root) 1 ys I) as [B|B]; [lia|left; exact B|right; auto].
    - split; [|reflexivity]. destruct I as [B|B]; [left; exact B|right; split; [exact B|lia]]. }
  clearbody zs. destruct Z as [[B|((G1 & G2 & _ & (b0 & o & M & N & P)) & E0)] F].
  { exfalso. rewrite (bad_emit limit usetabs true inp lx (x_beg zs) 0 zs B) in HB. discriminate HB. }
  apply frame_inv in F. destruct F as (F1 & F2 & F3).
  destruct (exit_merged b0 o zs M N) as (e & E1 & E2 & _); [| |exact G1|congruence|congruence|exact G2|exists e; auto].
  - destruct P as [(P1 & P2 & (P3 & P3') & P4 & P5)|[(P1 & P2 & P3 & P4)|(P1 & _)]]; [left; auto|right; auto|lia].
  - intros E. destruct P as [(P1 & P2 & (P3 & P3') & P4 & P5)|[(P1 & P2 & P3 & P4)|(P1 & _)]]; [exact P3'|lia|lia].
Qed.

(** ** Nothing flagged *)
Section Idle.
Hypothesis NF : forall g t, In g (groups root) -> In t (toks g) -> k_diff (snd t) = false.
Definition idle (xs : xstate) : Prop := x_end xs = 0 /\ x_verb xs = None /\ x_mline xs = false /\ x_beg xs = 1 /\ x_bad xs = false /\ 1 <= o_maxlines (x_st xs) /\ has true [] (x_st xs).
Lemma idle_mute : forall xs, idle xs -> x_is_mute true xs = true.
Proof. intros xs (E & _). unfold x_is_mute, diff_is_mute. rewrite E. apply orb_true_r. Qed.
Lemma nb_nil : nonblank_top [].
Proof. intros c r E. discriminate E. Qed.
Lemma idle_on : forall f xs, (has true [] (x_st xs) -> has true [] (f (x_st xs))) -> (1 <= o_maxlines (x_st xs) -> 1 <= o_maxlines (f (x_st xs))) -> idle xs -> idle (on f xs).
Proof. intros f xs H HM (I1 & I2 & I3 & I4 & I5 & I6 & I7). repeat split; auto. Qed.
Lemma idle_set : forall f xs, o_rev (f (x_st xs)) = o_rev (x_st xs) -> (1 <= o_maxlines (x_st xs) -> 1 <= o_maxlines (f (x_st xs))) -> idle xs -> idle (on f xs).
Proof. intros f xs H HM I. apply idle_on; [apply has_same, H|exact HM|exact I]. Qed.
Lemma idle_print : forall s ind xs, idle xs -> idle (x_print limit usetabs true s ind false xs).
Proof. intros s ind xs H. apply idle_on; [|apply max_frame, frame_print|exact H]. apply has_print; [apply nb_nil|]. intros _. split; [apply idle_mute, H|reflexivity]. Qed.
Lemma idle_trim : forall xs, idle xs -> idle (on trim_spaces xs).
Proof. intros xs H. apply idle_on; [apply has_trim, nb_nil|apply max_frame, frame_trim|exact H]. Qed.
Lemma idle_pindent : forall g xs, idle xs -> idle (on (fun st => print_indent usetabs (g st) st) xs).
Proof. intros g xs H. apply idle_on; [apply has_indent|apply max_frame, frame_indent|exact H]. Qed.
Section IdleChild.
Variable k : xstate -> xstate.
Hypothesis K : forall xs, idle xs -> idle (k xs).
Lemma idle_indent : forall v xs, idle xs -> idle (x_indent usetabs v k xs).
Proof.
  intros v xs H. unfold x_indent. destruct (is_indent INDENT_PARENS v).
  - apply idle_set; [reflexivity|auto|]. apply K. apply idle_set; [destruct (parens_align _); reflexivity|destruct (parens_align _); auto|exact H].
  - destruct (is_indent INDENT_FORCE v); [apply K, idle_pindent, H|]. apply idle_set; [reflexivity|auto|]. apply K.
    apply idle_set; [|unfold indent_start; repeat match goal with |- context [if ?c then _ else _] => destruct c end; auto|exact H]. unfold indent_start. repeat match goal with |- context [if ?c then _ else _] => destruct c end; reflexivity.
Qed.
Lemma idle_minimize1 : forall id ms i xs, idle xs -> idle (x_minimize1 usetabs id ms k i xs).
Proof.
  intros id ms i xs H. unfold x_minimize1. destruct (nth_error ms i) as [[v b]|]; [|apply idle_set; [reflexivity|auto|exact H]]. apply idle_indent. apply idle_set; [destruct (forced _ _ _ _); reflexivity|destruct (forced _ _ _ _); auto|exact H].
Qed.
Lemma idle_try : forall id ms sn is xs, idle sn -> idle xs -> idle (snd (x_try_all usetabs id ms k sn is xs)).
Proof.
  intros id ms sn is. induction is as [|i r IH]; intros xs D H; [exact H|]. cbn [x_try_all]. set (x1 := x_minimize1 usetabs id ms k i _).
  assert (I1 : idle x1) by (unfold x1; apply idle_minimize1; apply idle_set; [reflexivity|auto|exact H]). clearbody x1.
  match goal with |- context [x_try_all usetabs id ms k sn r ?y] => assert (I : idle (snd (x_try_all usetabs id ms k sn r y))); [|destruct (x_try_all usetabs id ms k sn r y); exact I] end.
  apply IH; [exact D|]. destruct I1 as (_ & _ & _ & _ & B & _). rewrite B. destruct D as (D1 & D2 & D3 & D4 & D5 & D6 & D7). repeat split; assumption.
Qed.
Lemma idle_minimize : forall id ms xs, idle xs -> idle (x_minimize usetabs id ms k xs).
Proof.
  intros id ms xs H. unfold x_minimize. destruct (o_idx (x_st xs)); [apply idle_minimize1, H|].
  assert (I : idle (snd (x_try_all usetabs id ms k xs (seq 0 (length ms)) xs))) by (apply idle_try; exact H).
  destruct (x_try_all usetabs id ms k xs (seq 0 (length ms)) xs) as [ps x1]. cbn [snd] in I. destruct (best_of _ ps); [|apply idle_set; [reflexivity|auto|exact I]].
  apply idle_set; [reflexivity|auto|]. apply idle_minimize1. apply idle_set; [reflexivity|auto|exact I].
Qed.
End IdleChild.
Lemma idle_domute : forall v im xs, idle xs -> idle (x_domute limit usetabs true v im xs).
Proof.
  intros v im xs H. unfold x_domute. set (x0 := if _ && _ then mute_enter true xs else xs). assert (H0 : idle x0).
  { unfold x0. destruct (_ && _); [|exact H]. unfold mute_enter, diff_is_mute. destruct H as (E & H). rewrite E. cbn. exact (conj E H). }
  clearbody x0. set (x1 := if _ || _ then _ else x0). assert (H1 : idle x1) by (unfold x1; destruct (_ || _); [apply idle_set; [reflexivity|auto|]|]; exact H0). clearbody x1. destruct (_ =? 0)%Z; [|exact H1].
  apply idle_set; [destruct im; reflexivity|destruct im; auto|]. unfold mute_leave. cbn [negb]. destruct H1 as (I1 & I2 & I3 & I4 & I5 & I6 & I7). rewrite I3. cbn [andb]. repeat split; assumption.
Qed.
Lemma idle_exec : forall d, incl (groups d) (groups root) -> Forall (fun n => 1 <= n) (limits d) -> forall xs, idle xs -> idle (exec d xs).
Proof.
  induction d as [l IH|d IH|v d IH|d IH|i s t|tk s|tk| | | | |v|v|d IH|id ms d IH|d IH|n d IH] using ddoc_ind'; intros HG HL xs H; cbn [x_exec1].
  - cbn [groups limits] in *. revert xs H HG HL. induction IH as [|d l P _ IHl]; intros xs H HG HL; [exact H|]. cbn [fold_left flat_map] in *. apply Forall_app in HL. destruct HL as [HL1 HL2]. apply incl_app_inv in HG. destruct HG. apply IHl; try assumption. apply P; assumption.
  - cbn [groups limits] in *. assert (IG : In (DGroup d) (groups root)) by (apply HG; left; reflexivity). assert (HG' : incl (groups d) (groups root)) by (intros x Hx; apply HG; right; exact Hx).
    assert (E : match enter (leave 1) false (DGroup d) xs with (x0, en) => idle x0 /\ (en = true -> is_some (x_group x0) = true) end).
    { unfold group_enter. cbn [negb]. rewrite andb_true_r. destruct (is_some (x_group xs)); [split; [exact H|discriminate]|]. destruct (group_lines chunks ls root MF _ IG) as [GA GL].
      pose proof (covers_found (x_beg xs) true (DGroup d) GA (fun x Hx => proj1 (GL x Hx))) as F. set (dd := covers _ _ _) in *. clearbody dd. destruct (dd_cov dd); [|exfalso; destruct (F eq_refl) as (f & _ & F1 & F2 & _); rewrite (NF _ f IG F1) in F2; discriminate F2|split; [exact H|discriminate]].
      destruct H as (H0 & H). rewrite H0. split; [exact (conj H0 H)|reflexivity]. }
    destruct (enter (leave 1) false (DGroup d) xs) as [x0 en]. destruct E as [E1 E2]. match goal with |- idle (group_leave true en ?z) => set (y := z) end.
    assert (Y : idle y /\ x_group y = x_group x0).
    { unfold y. match goal with |- context [if ?c then _ else _] => destruct c end; [split; [apply IH; assumption|apply keep_exec]|]. match goal with |- context [exec d ?z] => assert (Z : idle (exec d z)); [apply IH; try assumption; (apply idle_set; [reflexivity|auto|exact E1])|destruct (keep_exec limit usetabs inp lx chunks d z) as [_ KG]] end.
      split; [apply idle_set; [reflexivity|auto|exact Z]|exact KG]. }
    clearbody y. destruct Y as [Y1 Y2]. unfold group_leave. destruct en; cbn [negb orb]; [|exact Y1]. rewrite Y2, (E2 eq_refl). exact Y1.
  - apply idle_indent; [|exact H]. apply IH; assumption.
  - apply idle_set; [reflexivity|auto|]. apply IH; try assumption; (apply idle_set; [reflexivity|auto|]). apply idle_trim, H.
  - apply idle_on; [apply has_align|apply max_frame, frame_align|exact H].
  - apply idle_print. destruct tk as [tk|]; [|exact H]. unfold diff_literal. destruct H as (H0 & H). rewrite H0. cbn. exact (conj H0 H).
  - unfold x_verbatim. rewrite idle_mute by exact H. unfold own_verb. destruct H as (H0 & H1 & H). rewrite H1. cbn. exact (conj H0 (conj H1 H)).
  - destruct (o_mode (x_st xs)); [apply idle_print, H|]. apply idle_on; [| |exact H].
    + intros HH. assert (P := has_print limit usetabs true [] [SP] true false (x_is_mute true xs) (x_st xs) nb_nil (fun _ => conj (idle_mute xs H) eq_refl) HH). destruct (print_with limit usetabs [SP] true false (x_is_mute true xs) (x_st xs)) as [st1 [|]]; exact P.
    + pose proof (max_frame _ _ (frame_print limit usetabs [SP] true false (x_is_mute true xs) (x_st xs))) as P. destruct (print_with limit usetabs [SP] true false (x_is_mute true xs) (x_st xs)) as [st1 [|]]; exact P.
  - destruct (o_mode (x_st xs)); [apply idle_print, H|exact H].
  - apply idle_print, H.
  - apply idle_set; [destruct (_ <? _); reflexivity|destruct (_ <? _); auto|exact H].
  - apply idle_domute, H.
  - apply idle_domute, H.
  - apply idle_set; [destruct (_ <=? _); reflexivity|destruct (_ <=? _); auto|]. apply IH; try assumption; (apply idle_set; [reflexivity|auto|exact H]).
  - apply idle_minimize; [|exact H]. apply IH; assumption.
  - apply IH; try assumption; (apply idle_set; [reflexivity|auto|exact H]).
  - cbn [limits] in HL. inversion HL as [|? ? L1 L2]; subst. apply idle_set; [reflexivity|intros _; apply H|]. apply IH; try assumption; (apply idle_set; [reflexivity|auto|exact H]).
Qed.
Lemma run_identity : forall xs, xs = exit (exec root (x_init [])) -> x_bad xs = false /\ rev (o_rev (x_st xs)) = concat ls.
Proof.
  intros xs ->. assert (I0 : idle (x_init [])). { repeat split; [cbn; lia|]. exists []. split; [reflexivity|constructor]. }
  pose proof (idle_exec root (incl_refl _) (mf_limits _ _ _ MF) (x_init []) I0) as I. destruct (keep_exec limit usetabs inp lx chunks root (x_init [])) as [K1 _]. set (ys := exec root (x_init [])) in *. clearbody ys. apply frame_inv in K1. destruct K1 as (K3 & K4 & K5). cbn in K3, K4, K5.
  destruct I as (I1 & I2 & I3 & I4 & I5 & I6 & (r & I7 & I8)). rewrite app_nil_r in I7. unfold diff_exit. cbn [negb]. rewrite I1. change (0 <? 0) with false. cbn iota. rewrite I4.
  destruct (GALL 1) as (p & n & G & SL); [lia|]. unfold diff_emit. rewrite G, SL. split; [exact I5|]. unfold x_print. cbn [on x_st].
  match goal with |- context [fst (print_with limit usetabs ?s false true ?m _)] => destruct (emit_rev limit usetabs inp lx ls LNE LNL GIN GALL GREV GPAST s m (x_st ys) I6) as (w & _ & W2 & W3) end. rewrite W2, W3 by assumption. cbn [rev app].
  assert (TR : fst (trim_loop (o_rev (x_st ys)) (o_col (x_st ys))) = []).
  { rewrite I7. generalize (o_col (x_st ys)). specialize (I8 eq_refl). clear - I8. induction I8 as [|c r H _ IH]; intros k; [reflexivity|]. cbn [trim_loop]. destruct ((c =c SP) || (c =c TAB)) eqn:E; [|exfalso; apply orb_false_iff in E; destruct E as [E1 E2]; destruct H as [->| ->]; discriminate].
    apply IH. }
  rewrite TR, app_nil_r, rev_involutive. replace (S len - 1) with len by lia. cbn [skipn Nat.sub]. rewrite firstn_all. reflexivity.
Qed.
End Idle.
End Final.
