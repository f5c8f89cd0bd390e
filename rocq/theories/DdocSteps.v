(** Lemmas for C68: the lines outside of the diff pass through the printer. *)
From Verif Require Import Base StrModel StrProofs UtilModel UtilProofs LexModel LinesModel DocModel DocProofs DdocModel DdocProofs DdocSpec.
From Verif Require DiffModel DiffProps.
Open Scope nat_scope.

(** Undefined behaviour once met is not forgotten. *)
Section Bad.
Variable limit : nat.
Variable usetabs diff : bool.
Variable inp : bytes.
Variable lx : lexer.
Variable chunks : list DiffModel.chunk.
Definition mono (k : xstate -> xstate) : Prop := forall xs, x_bad xs = true -> x_bad (k xs) = true.
Lemma bad_emit : forall b e, mono (diff_emit limit usetabs diff inp lx b e).
Proof. intros b e xs H. unfold diff_emit. destruct (get_lines inp lx b e); [reflexivity|exact H|exact H]. Qed.
Lemma bad_enter : forall k n d, mono k -> mono (fun xs => fst (group_enter limit usetabs diff inp lx chunks k n d xs)).
Proof.
  intros k n d K xs H. unfold group_enter. destruct (negb diff); [exact H|]. destruct (_ && negb n); [exact H|]. set (dd := covers _ _ _). destruct (dd_cov dd).
  - cbn [fst]. destruct (0 <? x_end xs); [exact (K xs H)|exact H].
  - set (x1 := if _ && _ then k xs else xs). assert (H1 : x_bad x1 = true) by (unfold x1; destruct (_ && _); [apply K|]; exact H). clearbody x1.
    destruct (0 <? _); [exact H1|]. destruct (chunk_end _ _); [|exact H1]. destruct (dd_verb dd); cbn [fst]; apply bad_emit; cbn; destruct (has_many _ _); exact H1.
  - exact H.
Qed.
Lemma bad_leave : forall e, mono (diff_leave limit usetabs diff inp lx chunks e).
Proof.
  intros e xs H. unfold diff_leave. destruct (e =? 0); [exact H|]. set (x0 := if _ || _ then _ else _). assert (H0 : x_bad x0 = true) by (unfold x0; destruct (_ || _); [reflexivity|exact H]). clearbody x0.
  set (x3 := if o_newline _ then _ else _). assert (H3 : x_bad x3 = true) by (unfold x3; destruct (o_newline _); exact H0). clearbody x3.
  destruct (x_many x3); [|exact H3]. destruct (x_group x3); [|reflexivity]. apply bad_enter; [intros y _; reflexivity|exact H3].
Qed.
Lemma bad_indent : forall v k, mono k -> mono (x_indent usetabs v k).
Proof. intros v k K xs H. unfold x_indent. destruct (is_indent _ v); [apply K; exact H|]. destruct (is_indent _ v); apply K; exact H. Qed.
Lemma bad_minimize1 : forall id ms k i, mono k -> mono (x_minimize1 usetabs id ms k i).
Proof. intros id ms k i K xs H. unfold x_minimize1. destruct (nth_error ms i) as [[v b]|]; [|exact H]. apply bad_indent; [exact K|exact H]. Qed.
Lemma bad_try : forall id ms k sn is, mono k -> mono (fun xs => snd (x_try_all usetabs id ms k sn is xs)).
Proof.
  intros id ms k sn is K. induction is as [|i r IH]; intros xs H; [exact H|]. cbn [x_try_all]. set (x1 := x_minimize1 _ _ _ _ _ _). assert (H1 : x_bad x1 = true) by (apply bad_minimize1; [exact K|exact H]). clearbody x1.
  match goal with |- context [x_try_all usetabs id ms k sn r ?y] => pose proof (IH y H1 : x_bad (snd (x_try_all usetabs id ms k sn r y)) = true) as I; destruct (x_try_all usetabs id ms k sn r y) end. exact I.
Qed.
Lemma bad_minimize : forall id ms k, mono k -> mono (x_minimize usetabs id ms k).
Proof.
  intros id ms k K xs H. unfold x_minimize. destruct (o_idx _); [apply bad_minimize1; assumption|]. pose proof (bad_try id ms k xs (seq 0 (length ms)) K xs H) as B. cbn beta in B.
  destruct (x_try_all _ _ _ _ _ _ _) as [ps x1]. cbn [snd] in B. destruct (best_of _ _); [apply bad_minimize1; assumption|exact B].
Qed.
Lemma bad_exec : forall d, mono (x_exec1 limit usetabs diff inp lx chunks d).
Proof.
  unfold mono. induction d as [l IH|d IH|v d IH|d IH|i s t|tk s|tk| | | | |v|v|d IH|id ms d IH|d IH|n d IH] using ddoc_ind'; intros xs H; cbn [x_exec1].
  - revert xs H. induction IH as [|d l P _ IHl]; intros xs H; [exact H|]. cbn [fold_left]. apply IHl, P, H.
  - pose proof (bad_enter (diff_leave limit usetabs diff inp lx chunks 1) false (DGroup d) (bad_leave 1) xs H) as E. cbn beta in E. destruct (group_enter _ _ _ _ _ _ _ _ _ xs) as [x0 en]. cbn [fst] in E.
    match goal with |- x_bad (group_leave _ _ ?z) = _ => set (y := z) end. assert (HY : x_bad y = true) by (unfold y; match goal with |- context [if ?c then _ else _] => destruct c end; apply IH; exact E). clearbody y.
    unfold group_leave. destruct (_ || _); [exact HY|]. cbn. destruct (is_some _); [exact HY|reflexivity].
  - apply bad_indent; [exact IH|exact H].
  - apply IH. exact H.
  - exact H.
  - unfold diff_literal. destruct tk; [|exact H]. match goal with |- x_bad (x_print _ _ _ _ _ _ ?z) = _ => change (x_bad z = true) end. destruct (_ || _); [exact H|]. destruct (x_end xs <? _); [|exact H]. destruct (is_some _); [exact H|apply bad_leave, H].
  - unfold x_verbatim. destruct (_ && _); [exact H|]. assert (E : x_bad (snd (diff_verbatim limit usetabs diff inp lx chunks tk xs)) = true).
    { unfold diff_verbatim. destruct (_ || _); [exact H|]. destruct (x_end xs <? _); [apply bad_leave, H|]. destruct (_ && _); exact H. }
    destruct (diff_verbatim _ _ _ _ _ _ _ _) as [n x0]. cbn [snd] in E. apply bad_leave. set (b := (1 <? _) && _).
    destruct (b || _); [cbn|]; destruct (own_verb _ _ _); cbn; destruct (b && _); exact E.
  - destruct (o_mode _); exact H.
  - destruct (o_mode _); exact H.
  - exact H.
  - exact H.
  - unfold x_domute, mute_leave, mute_enter. repeat match goal with |- context [if ?c then _ else _] => destruct c end; exact H.
  - unfold x_domute, mute_leave, mute_enter. repeat match goal with |- context [if ?c then _ else _] => destruct c end; exact H.
  - apply IH. exact H.
  - apply bad_minimize; [exact IH|exact H].
  - apply IH. exact H.
  - apply IH. exact H.
Qed.
End Bad.

(** ** What walking a group finds *)
Lemma height_dlines : forall s, height s = dlines s.
Proof.
  intros s. unfold height, dlines. destruct (rev s) as [|c r]; [reflexivity|]. destruct (c =c NL); [|reflexivity].
  induction s as [|x s IH]; [reflexivity|]. cbn [count_occ_b filter]. destruct (x =c NL); cbn [length]; rewrite IH; reflexivity.
Qed.
Lemma toks_children : forall d, toks d = match d with DVerbatim tk => [(true, tk)] | DLiteral (Some tk) _ => [(false, tk)] | _ => flat_map toks (dchildren d) end.
Proof. intros [l|d|v d|d| |[tk|] s|tk| | | | |v|v|d|id ms d|d|n d]; cbn [toks dchildren flat_map]; rewrite ?app_nil_r; reflexivity. Qed.
Definition asc := ForallOrdPairs (fun x y : bool * dtok => after x <= lno y).
Lemma asc_mid : forall p x q, asc (p ++ x :: q) -> forall y, In y p -> after y <= lno x.
Proof.
  induction p as [|z p IH]; intros x q H y Hy; [destruct Hy|]. cbn [app] in H. inversion H as [|? ? F H']; subst. destruct Hy as [->|Hy]; [|eapply IH; eauto].
  rewrite Forall_forall in F. apply F. apply in_or_app. right. left. reflexivity.
Qed.
Definition found (th : nat) (below : bool) (all : list (bool * dtok)) (dd : ddiff) : Prop :=
  exists f a, In f all /\ k_diff (snd f) = true /\ lno f = dd_chunk dd /\ th <= dd_chunk dd /\ In a all /\ lno a = dd_first dd /\ th <= dd_first dd <= dd_chunk dd /\
  forall V, dd_verb dd = Some V -> In (true, V) all /\ after (true, V) <= dd_chunk dd /\ (below = true -> th <= k_lno V /\ dd_first dd <= k_lno V) /\ k_diff V = false /\ exists p q, all = p ++ (true, V) :: q /\ In f q.
Lemma walk_found : forall th below all, asc all -> (forall x, In x all -> 1 <= lno x) -> forall fuel pre stack dd, all = pre ++ flat_map toks stack ->
  dd_cov dd = NOT_COVERED -> (dd_first dd <> 0 -> exists a, In a pre /\ lno a = dd_first dd /\ th <= dd_first dd) ->
  (forall V, dd_verb dd = Some V -> In (true, V) pre /\ (below = true -> th <= k_lno V /\ dd_first dd <= k_lno V /\ dd_first dd <> 0) /\ k_diff V = false) ->
  dd_cov (ddoc_walk fuel (diff_covers th below) stack dd) = COVERED -> found th below all (ddoc_walk fuel (diff_covers th below) stack dd).
Proof.
  intros th below all HA HL. induction fuel as [|f IH]; intros pre stack dd E C F V R; [cbn in R; congruence|]. destruct stack as [|d rest]; [cbn in R; congruence|].
  cbn [ddoc_walk] in *. cbn [flat_map] in E.
  assert (TOK : forall b tk q, all = pre ++ (b, tk) :: q -> forall dd', dd_first dd' = dd_first dd -> dd_cov dd' = NOT_COVERED ->
    (forall V, dd_verb dd' = Some V -> dd_verb dd = Some V \/ (b = true /\ V = tk /\ k_diff tk = false)) ->
    match diff_token th below tk dd' with
    | (true, r) => dd_cov r = COVERED -> found th below all r
    | (false, r) => dd_cov r = NOT_COVERED /\ (dd_first r <> 0 -> exists a, In a (pre ++ [(b, tk)]) /\ lno a = dd_first r /\ th <= dd_first r) /\
        (forall V, dd_verb r = Some V -> In (true, V) (pre ++ [(b, tk)]) /\ (below = true -> th <= k_lno V /\ dd_first r <= k_lno V /\ dd_first r <> 0) /\ k_diff V = false)
    end).
  { intros b tk q EA dd' E1 E2 E3. unfold diff_token.
    assert (VV : forall F0, (below = true -> th <= k_lno tk /\ F0 <= k_lno tk /\ F0 <> 0) -> (below = true -> dd_first dd <> 0 -> F0 = dd_first dd) ->
      forall V, dd_verb dd' = Some V -> In (true, V) (pre ++ [(b, tk)]) /\ (below = true -> th <= k_lno V /\ F0 <= k_lno V /\ F0 <> 0) /\ k_diff V = false).
    { intros F0 HB HF W HW. destruct (E3 W HW) as [K|(-> & -> & K)]; [|split; [apply in_or_app; right; left; reflexivity|split; [exact HB|exact K]]]. destruct (V W K) as (K1 & K2 & K3). split; [apply in_or_app; left; exact K1|]. split; [|exact K3].
      intros BT. destruct (K2 BT) as (K4 & K5 & K6). rewrite (HF BT K6). auto. }
    destruct (k_lno tk <? th) eqn:TH.
    - destruct below; [congruence|]. split; [exact E2|]. split; [|apply VV; discriminate]. rewrite E1. intros N. destruct (F N) as (a & A1 & A2). exists a. split; [apply in_or_app; left; exact A1|exact A2].
    - apply Nat.ltb_ge in TH. rewrite E1. set (first := if dd_first dd =? 0 then _ else _).
      assert (FI : exists a, In a (pre ++ [(b, tk)]) /\ lno a = first /\ th <= first).
      { unfold first. destruct (Nat.eqb_spec (dd_first dd) 0) as [Z|N]; [exists (b, tk); split; [apply in_or_app; right; left; reflexivity|split; [reflexivity|exact TH]]|]. destruct (F N) as (a & A1 & A2). exists a. split; [apply in_or_app; left; exact A1|exact A2]. }
      assert (FC : first <= k_lno tk).
      { destruct FI as (a & A1 & A2 & _). rewrite <- A2. apply in_app_or in A1. destruct A1 as [A1|[<-|[]]]; [|apply Nat.le_refl]. rewrite EA in HA. pose proof (asc_mid _ _ _ HA a A1) as M. unfold after, lno in *. cbn [snd] in M. lia. }
      assert (FN : first <> 0).
      { unfold first. destruct (Nat.eqb_spec (dd_first dd) 0) as [Z|N]; [|exact N]. assert (1 <= lno (b, tk)) by (apply HL; rewrite EA; apply in_or_app; right; left; reflexivity). unfold lno in *. cbn [snd] in *. lia. }
      assert (FS : dd_first dd <> 0 -> first = dd_first dd) by (intros N; unfold first; destruct (Nat.eqb_spec (dd_first dd) 0); [lia|reflexivity]).
      destruct (k_diff tk) eqn:KD.
      + intros _. destruct FI as (a & A1 & A2 & A3). exists (b, tk), a. cbn [dd_chunk dd_first dd_verb snd].
        assert (IT : In (b, tk) all) by (rewrite EA; apply in_or_app; right; left; reflexivity).
        assert (IA : In a all) by (rewrite EA; apply in_app_or in A1; apply in_or_app; destruct A1 as [A1|[A1|[]]]; [left; exact A1|right; left; exact A1]).
        split; [exact IT|]. split; [exact KD|]. split; [reflexivity|]. split; [exact TH|]. split; [exact IA|]. split; [exact A2|]. split; [split; assumption|].
        intros W HW. destruct (E3 W HW) as [K|(_ & _ & K)]; [|congruence]. destruct (V W K) as (K1 & K2 & K3). split; [rewrite EA; apply in_or_app; left; exact K1|]. split; [rewrite EA in HA; exact (asc_mid _ _ _ HA _ K1)|]. split; [intros BT; destruct (K2 BT) as (K4 & K5 & K6); rewrite (FS K6); auto|]. split; [exact K3|].
        apply in_split in K1. destruct K1 as (p1 & p2 & ->). exists p1, (p2 ++ (b, tk) :: q). rewrite EA, <- app_assoc. split; [reflexivity|]. apply in_or_app. right. left. reflexivity.
      + split; [exact E2|]. split; [intros _; exact FI|apply VV; [intros _; auto|intros _; exact FS]]. }
  destruct d as [l|d|v d|d|i s t|[tk|] s|tk| | | | |v|v|d|id ms d|d|n d]; cbn [diff_covers] in *;
    try (apply (IH pre (dchildren _ ++ rest) dd); [rewrite flat_map_app, E; f_equal; cbn [dchildren flat_map toks]; rewrite ?app_nil_r; reflexivity|exact C|exact F|exact V|exact R]).
  - cbn [toks app] in E. specialize (TOK false tk _ E dd eq_refl C (fun W H => or_introl H)). destruct (diff_token th below tk dd) as [[|] r]; [exact (TOK R)|]. destruct TOK as (T1 & T2 & T3).
    apply (IH (pre ++ [(false, tk)]) (dchildren (DLiteral (Some tk) s) ++ rest) r); [rewrite <- app_assoc; exact E|exact T1|exact T2|exact T3|exact R].
  - cbn [toks app] in E. set (dd' := if k_diff tk then dd else _) in *.
    specialize (TOK true tk _ E dd'). destruct (diff_token th below tk dd') as [[|] r].
    + apply TOK; [unfold dd'; destruct (k_diff tk); reflexivity|unfold dd'; destruct (k_diff tk); exact C| |exact R]. unfold dd'. destruct (k_diff tk); [auto|]. cbn [dd_verb]. intros W H. injection H as <-. auto.
    + destruct TOK as (T1 & T2 & T3); [unfold dd'; destruct (k_diff tk); reflexivity|unfold dd'; destruct (k_diff tk); exact C| |].
      { unfold dd'. destruct (k_diff tk); [auto|]. cbn [dd_verb]. intros W H. injection H as <-. auto. }
      apply (IH (pre ++ [(true, tk)]) (dchildren (DVerbatim tk) ++ rest) r); [rewrite <- app_assoc; exact E|exact T1|exact T2|exact T3|exact R].
  - discriminate R.
Qed.
Lemma covers_found : forall th below d, asc (toks d) -> (forall x, In x (toks d) -> 1 <= lno x) -> dd_cov (covers th below d) = COVERED -> found th below (toks d) (covers th below d).
Proof.
  intros th below d HA HL R. apply (walk_found th below (toks d) HA HL (ddoc_size d) [] [d]); [cbn [flat_map app]; rewrite app_nil_r; reflexivity|reflexivity| | |exact R].
  - intros H. exfalso. apply H. reflexivity.
  - intros W H. discriminate H.
Qed.

Lemma chunk_found : forall chunks l, in_chunk chunks l -> exists e, chunk_end chunks l = Some e /\ l <= e /\ forall i, l <= i <= e -> in_chunk chunks i.
Proof.
  intros chunks l (c & IC & HC). unfold chunk_end. pose proof (DiffProps.C29_lookup chunks (N.of_nat l)) as G. destruct (DiffModel.get_chunk chunks (N.of_nat l)) as [k|].
  - destruct G as (du & N & (C1 & C2) & _). rewrite N. exists (N.to_nat (DiffModel.du_end du)). split; [reflexivity|]. split; [lia|]. intros i Hi. exists du. split; [eapply nth_error_In; exact N|lia].
  - exfalso. exact (G c IC HC).
Qed.

Section Main.
Variable limit : nat.
Variable usetabs : bool.
Variable inp : bytes.
Variable lx : lexer.
Variable chunks : list DiffModel.chunk.
Variable ls : list bytes.
Variable root : ddoc.
Notation len := (length ls).
Notation T := (touched chunks root).
Notation lines b e := (concat (firstn (e - b) (skipn (b - 1) ls))).
Hypothesis LNE : 1 <= len.
Hypothesis LNL : forall i l, i + 1 < len -> nth_error ls i = Some l -> exists p, l = p ++ [NL].
Hypothesis GIN : forall b e, 1 <= b <= e -> e <= len -> exists o n, get_lines inp lx b e = LSlice o n /\ slice inp o (o + n) = lines b e.
Hypothesis GALL : forall b, 1 <= b <= len -> exists o n, get_lines inp lx b 0 = LSlice o n /\ slice inp o (o + n) = lines b (S len).
Hypothesis GREV : forall b e, 1 <= e < b -> b <= len -> get_lines inp lx b e = LOut.
Hypothesis GPAST : forall b, len < b -> get_lines inp lx b 0 = LNone.
Hypothesis MF : made_from ls chunks root.
Notation exec := (x_exec1 limit usetabs true inp lx chunks).
Notation leave := (diff_leave limit usetabs true inp lx chunks).
Notation emit := (diff_emit limit usetabs true inp lx).
Notation enter := (group_enter limit usetabs true inp lx chunks).

Definition phase (b0 : nat) (o : bytes) (xs : xstate) : Prop :=
  x_end xs = 0 /\ b0 = x_beg xs /\ (x_mline xs = false /\ b0 = 1) /\ x_verb xs = None /\ has true (rev o) (x_st xs)
  \/ x_end xs = 0 /\ b0 < x_beg xs /\ (forall l, b0 <= l < x_beg xs -> T l) /\ has false (rev o) (x_st xs)
  \/ 0 < x_end xs /\ b0 <= x_end xs /\ (forall l, b0 <= l <= x_end xs -> T l) /\ has false (rev o) (x_st xs).
Definition progress (xs : xstate) : Prop := exists b0 o, merged ls T b0 o /\ nonblank_top (rev o) /\ phase b0 o xs.
Definition flagged (g : ddoc) : Prop := exists f, In f (toks g) /\ k_diff (snd f) = true.
Definition at_group (S : list (bool * dtok)) (xs : xstate) (g : ddoc) : Prop :=
  In g (groups root) /\ incl S (toks g) /\ (0 < x_end xs -> flagged g /\ exists a, In a (toks g) /\ lno a <= x_end xs).
Definition good (S : list (bool * dtok)) (xs : xstate) : Prop :=
  1 <= x_beg xs /\ 1 <= o_maxlines (x_st xs) /\ (forall g, x_group xs = Some g -> at_group S xs g) /\ progress xs.
Definition inv (S : list (bool * dtok)) (xs : xstate) : Prop := x_bad xs = true \/ good S xs.

Lemma progress_on : forall f xs, (forall B Q, nonblank_top Q -> (B = true -> x_is_mute true xs = true) -> has B Q (x_st xs) -> has B Q (f (x_st xs))) -> progress xs -> progress (on f xs).
Proof.
  intros f xs HF (b0 & o & M & N & P). exists b0, o. split; [exact M|]. split; [exact N|]. destruct P as [(P1 & P2 & (P3 & P3') & P4 & P5)|[(P1 & P2 & P3 & P4)|(P1 & P2 & P3 & P4)]].
  - left. repeat split; try assumption. apply HF; auto. intros _. unfold x_is_mute, diff_is_mute. rewrite P1. apply orb_true_r.
  - right. left. repeat split; try assumption. apply HF; auto. discriminate.
  - right. right. repeat split; try assumption. apply HF; auto. discriminate.
Qed.
Lemma good_on : forall S f xs, (forall B Q, nonblank_top Q -> (B = true -> x_is_mute true xs = true) -> has B Q (x_st xs) -> has B Q (f (x_st xs))) ->
  (1 <= o_maxlines (x_st xs) -> 1 <= o_maxlines (f (x_st xs))) -> good S xs -> good S (on f xs).
Proof. intros S f xs HF HM (G1 & G2 & G3 & G4). split; [exact G1|]. split; [apply HM, G2|]. split; [exact G3|]. apply progress_on; assumption. Qed.
Lemma inv_on : forall S f xs, (forall B Q, nonblank_top Q -> (B = true -> x_is_mute true xs = true) -> has B Q (x_st xs) -> has B Q (f (x_st xs))) ->
  (1 <= o_maxlines (x_st xs) -> 1 <= o_maxlines (f (x_st xs))) -> inv S xs -> inv S (on f xs).
Proof. intros S f xs HF HM [H|H]; [left; exact H|right; apply good_on; assumption]. Qed.
(** Changes that do not concern the buffer. *)
Lemma inv_set : forall S f xs, o_rev (f (x_st xs)) = o_rev (x_st xs) -> (1 <= o_maxlines (x_st xs) -> 1 <= o_maxlines (f (x_st xs))) -> inv S xs -> inv S (on f xs).
Proof. intros S f xs E M H. apply inv_on; [|exact M|exact H]. intros B Q _ _. apply has_same, E. Qed.
Lemma max_frame : forall a b, frame a = frame b -> 1 <= o_maxlines b -> 1 <= o_maxlines a.
Proof. intros a b H. apply frame_inv in H. destruct H as (_ & _ & ->). auto. Qed.
Lemma inv_print : forall S s ind xs, inv S xs -> inv S (x_print limit usetabs true s ind false xs).
Proof.
  intros S s ind xs H. apply inv_on; [|apply max_frame, frame_print|exact H]. intros B Q HQ HB HH. apply has_print; auto.
Qed.
(** Forced printing happens only once a chunk has been entered. *)
Definition late (b0 : nat) (o : bytes) (xs : xstate) : Prop :=
  x_end xs = 0 /\ b0 < x_beg xs /\ (forall l, b0 <= l < x_beg xs -> T l) /\ has false (rev o) (x_st xs)
  \/ 0 < x_end xs /\ b0 <= x_end xs /\ (forall l, b0 <= l <= x_end xs -> T l) /\ has false (rev o) (x_st xs).
Lemma late_phase : forall b0 o xs, late b0 o xs -> phase b0 o xs.
Proof. intros b0 o xs [H|H]; right; [left|right]; exact H. Qed.
Lemma late_force : forall b0 o s ind xs, nonblank_top (rev o) -> late b0 o xs -> late b0 o (x_print limit usetabs true s ind true xs).
Proof.
  intros b0 o s ind xs N L.
  assert (HP : has false (rev o) (x_st xs) -> has false (rev o) (x_st (x_print limit usetabs true s ind true xs))) by (apply has_print; [exact N|discriminate]).
  destruct L as [(P1 & P2 & P3 & P4)|(P1 & P2 & P3 & P4)]; [left|right]; (split; [exact P1|split; [exact P2|split; [exact P3|apply HP, P4]]]).
Qed.

(** Copying the lines [b, e). *)
Lemma line_last : forall i l, nth_error ls i = Some l -> i + 1 < len -> exists p, l = p ++ [NL].
Proof. intros i l H K. exact (LNL i l K H). Qed.
Lemma merged_lines : forall n b o, merged ls T b o -> 1 <= b -> b + n <= S len -> merged ls T (b + n) (o ++ concat (firstn n (skipn (b - 1) ls))).
Proof.
  induction n as [|n IH]; intros b o M H1 H2.
  - cbn [firstn concat]. rewrite app_nil_r, Nat.add_0_r. exact M.
  - destruct (nth_error ls (b - 1)) as [l|] eqn:E; [|apply nth_error_None in E; lia].
    assert (SK : skipn (b - 1) ls = l :: skipn (S b - 1) ls).
    { clear - E H1. replace (S b - 1) with (S (b - 1)) by lia. revert E. generalize (b - 1). clear. intros k. revert ls. induction k as [|k IH]; intros [|x r] E; try discriminate E; cbn in E |- *; [injection E as ->; reflexivity|]. apply IH in E. exact E. }
    rewrite SK. cbn [firstn concat]. rewrite app_assoc. replace (b + S n) with (S b + n) by lia. apply IH; [|lia|lia]. exact (mg_line ls T b o l M E).
Qed.
Lemma lines_last : forall b e, 1 <= b -> b < e -> e <= len -> exists p, lines b e = p ++ [NL].
Proof.
  intros b e H1 H2 H3. destruct (nth_error ls (e - 2)) as [l|] eqn:E; [|apply nth_error_None in E; lia]. destruct (LNL (e - 2) l) as (p & ->); [lia|exact E|].
  assert (F : firstn (e - b) (skipn (b - 1) ls) = firstn (e - 1 - b) (skipn (b - 1) ls) ++ [p ++ [NL]]).
  { replace (e - b) with (S (e - 1 - b)) by lia. set (q := skipn (b - 1) ls). assert (EQ : nth_error q (e - 1 - b) = Some (p ++ [NL])).
    { unfold q. rewrite <- E. clear - H1 H2. replace (e - 2) with ((b - 1) + (e - 1 - b)) by lia. generalize (b - 1), (e - 1 - b). intros k m. revert ls. induction k as [|k IH]; intros r; [reflexivity|]. destruct r; [cbn; destruct m; reflexivity|]. exact (IH r). }
    clearbody q. clear - EQ. revert q EQ. induction (e - 1 - b) as [|k IH]; intros [|x r] EQ; try discriminate EQ; [injection EQ as ->; reflexivity|]. cbn [firstn app]. f_equal. apply IH. exact EQ. }
  rewrite F, concat_app. cbn [concat]. rewrite app_nil_r. exists (concat (firstn (e - 1 - b) (skipn (b - 1) ls)) ++ p). rewrite app_assoc. reflexivity.
Qed.
(** What forcing a text into the buffer does. *)
Lemma trim_nonblank : forall r c, nonblank_top r -> trim_loop r c = (r, c).
Proof. intros [|x r] c H; [reflexivity|]. cbn [trim_loop]. destruct ((x =c SP) || (x =c TAB)) eqn:E; [|reflexivity]. exfalso. apply (H x r eq_refl). apply orb_true_iff in E. destruct E as [E|E]; apply Ascii.eqb_eq in E; [left|right]; exact E. Qed.
Lemma emit_rev : forall s m st, 1 <= o_maxlines st -> exists w, Forall tb w /\
  o_rev (print_indent usetabs (o_cur (fst (print_with limit usetabs s false true m (trim_spaces (reset_lines st))))) (fst (print_with limit usetabs s false true m (trim_spaces (reset_lines st)))))
  = rev w ++ rev s ++ fst (trim_loop (o_rev st) (o_col st)) /\ (o_cur st = 0 -> o_parens st = 0 -> w = []).
Proof.
  intros s m st HM. set (t := trim_spaces (reset_lines st)). set (y := fst (print_with limit usetabs s false true m t)).
  assert (FR : frame y = frame st) by (unfold y; rewrite frame_print; unfold t; rewrite frame_trim; reflexivity). apply frame_inv in FR. destruct FR as (F1 & F2 & F3).
  assert (TR : o_rev t = fst (trim_loop (o_rev st) (o_col st))) by (unfold t; rewrite trim_eq; reflexivity).
  assert (TN : nonblank_top (o_rev t)) by (rewrite TR; apply trim_loop_top).
  assert (TF : o_newline t = false /\ o_nlines t = 0 /\ o_maxlines t = o_maxlines st) by (unfold t, trim_spaces; destruct (trim_loop _ _); auto). destruct TF as (T1 & T2 & T3).
  assert (Y : o_rev y = rev s ++ o_rev t).
  { unfold y, print_with. rewrite andb_false_r, andb_false_r. rewrite T1. cbn [fst]. unfold print_at, print_now. destruct (is_newline s) eqn:NLs; [|cbn; apply rev_append_rev].
    rewrite T2, T3. destruct (Nat.leb_spec (o_maxlines st) 0); [lia|]. set (s2 := if negb false && _ then _ else _). assert (E2 : o_rev s2 = o_rev t) by (unfold s2; destruct (_ && _); reflexivity).
    assert (E3 : o_rev (trim_spaces s2) = o_rev t) by (rewrite trim_eq, E2, trim_nonblank by exact TN; reflexivity).
    cbn [set_slines o_rev]. rewrite rev_column. unfold put. cbn [set_rev o_rev]. rewrite rev_append_rev. f_equal. destruct (o_mforce _); exact E3. }
  unfold print_indent. rewrite F1, F2. destruct (Nat.ltb_spec 0 (o_parens st)) as [PP|PP].
  - destruct (rev_indent1 (o_pre y + o_parens st) usetabs y) as (w & W1 & W2). exists w. split; [exact W1|]. split; [rewrite W2, Y, TR; reflexivity|lia].
  - destruct (o_cur st) as [|c] eqn:EC.
    + exists []. split; [constructor|]. split; [|auto]. unfold print_indent1. assert (S0 : fst (strindent 0 usetabs (o_col (set_pre 0 y))) = []) by (destruct usetabs; reflexivity).
      destruct (strindent 0 usetabs (o_col (set_pre 0 y))) as [z q]. cbn [fst] in S0. subst z. cbn [rev app]. rewrite <- TR, <- Y. reflexivity.
    + destruct (rev_indent1 (S c) usetabs (set_pre (S c) y)) as (w & W1 & W2). exists w. split; [exact W1|]. split; [|discriminate]. rewrite W2. change (o_rev (set_pre (S c) y)) with (o_rev y). rewrite Y, TR. reflexivity.
Qed.

Definition ready (b0 : nat) (o : bytes) (b : nat) (st : dstate) : Prop :=
  b0 = b /\ has true (rev o) st \/ b0 < b /\ (forall l, b0 <= l < b -> T l) /\ has false (rev o) st.
Lemma ready_trim : forall b0 o b st, merged ls T b0 o -> nonblank_top (rev o) -> ready b0 o b st ->
  exists o', merged ls T b o' /\ rev o' = fst (trim_loop (o_rev st) (o_col st)).
Proof.
  intros b0 o b st M N R. assert (HT : exists B, has B (rev o) (trim_spaces st) /\ (B = true /\ b0 = b \/ b0 < b /\ (forall l, b0 <= l < b -> T l))).
  { destruct R as [[-> H]|(L & U & H)]; [exists true|exists false]; (split; [apply has_trim; assumption|]); auto. }
  destruct HT as (B & (r & E & K) & C). rewrite trim_eq in E.
  destruct C as [[-> ->]|(L & U)].
  - assert (r = []) as ->.
    { destruct r as [|c r]; [reflexivity|]. exfalso. pose proof (trim_loop_top (o_rev st) (o_col st)) as TT. rewrite E in TT. specialize (K eq_refl). inversion K as [|? ? K1]; subst. exact (TT c (r ++ rev o) eq_refl K1). }
    exists o. split; [exact M|]. rewrite E. reflexivity.
  - exists (o ++ rev r). split; [exact (mg_block ls T b0 b o (rev r) M L U)|]. rewrite E, rev_app_distr, rev_involutive. reflexivity.
Qed.
Lemma emit_step : forall b e xs b0 o, merged ls T b0 o -> nonblank_top (rev o) -> 1 <= b <= e -> e <= len -> 1 <= o_maxlines (x_st xs) -> ready b0 o b (x_st xs) ->
  exists f o', emit b e xs = on f xs /\ 1 <= o_maxlines (f (x_st xs)) /\ merged ls T e o' /\ nonblank_top (rev o') /\ has false (rev o') (f (x_st xs)).
Proof.
  intros b e xs b0 o M N HB HE HM R. destruct (GIN b e HB HE) as (p & n & G & SL). destruct (ready_trim b0 o b (x_st xs) M N R) as (o1 & M1 & E1).
  set (m := x_is_mute true (on (fun st => trim_spaces (reset_lines st)) xs)).
  exists (fun st => print_indent usetabs (o_cur (fst (print_with limit usetabs (lines b e) false true m (trim_spaces (reset_lines st))))) (fst (print_with limit usetabs (lines b e) false true m (trim_spaces (reset_lines st))))), (o1 ++ lines b e).
  split; [unfold diff_emit; rewrite G, SL; reflexivity|]. destruct (emit_rev (lines b e) m (x_st xs) HM) as (w & W1 & W2 & _). rewrite <- E1, app_assoc in W2.
  split; [eapply max_frame; [rewrite frame_indent, frame_print, frame_trim; reflexivity|exact HM]|].
  split; [replace e with (b + (e - b)) at 1 by lia; apply merged_lines; [exact M1|lia|lia]|].
  assert (RV : rev (o1 ++ lines b e) = rev (lines b e) ++ rev o1) by apply rev_app_distr.
  split.
  - destruct (Nat.eq_dec b e) as [<-|NE].
    + rewrite RV, Nat.sub_diag. cbn [firstn concat rev app]. rewrite E1. apply trim_loop_top.
    + destruct (lines_last b e) as (q & Q); [lia|lia|lia|]. rewrite RV, Q, rev_app_distr. cbn [rev app]. intros c r' Ec. injection Ec as <- _. intros [X|X]; discriminate X.
  - exists (rev w). rewrite W2, RV. split; [rewrite app_assoc; reflexivity|discriminate].
Qed.

Lemma group_lines : forall g, In g (groups root) -> asc (toks g) /\ forall x, In x (toks g) -> 1 <= lno x <= len.
Proof. intros g H. split; [exact (mf_order _ _ _ MF g H)|intros x Hx; exact (mf_line _ _ _ MF g x H Hx)]. Qed.

(** Entering a chunk with a group. *)
Definition enter_at (d : ddoc) (dd : ddiff) (e : nat) (xs2 : xstate) : xstate :=
  let xs3 := if has_many d (S e) then set_many true xs2 else xs2 in
  let xs4 := on (set_mute 0%Z) (set_xmute (o_mute (x_st xs3)) (set_end e xs3)) in
  match dd_verb dd with
  | Some tk => emit (x_beg xs4) (k_lno tk + dlines (k_str tk)) (set_verb (Some (k_id tk)) xs4)
  | None => emit (x_beg xs4) (dd_first dd) xs4
  end.
Lemma enter_new : forall S d below dd e xs, In d (groups root) -> incl S (toks d) -> 1 <= x_beg xs -> 1 <= o_maxlines (x_st xs) -> x_group xs = Some d -> progress xs -> x_end xs = 0 ->
  found (x_beg xs) below (toks d) dd -> chunk_end chunks (dd_chunk dd) = Some e -> inv S (enter_at d dd e xs).
Proof.
  intros S d below dd e xs ID IS HB HM HG (b0 & o & M & N & P) HE (f & a & F1 & F2 & F3 & F4 & F5 & F6 & F7 & FV) CE. destruct (group_lines d ID) as [GA GL].
  assert (IC : in_chunk chunks (dd_chunk dd)) by (rewrite <- F3; apply (mf_flag _ _ _ MF d f ID F1); exact F2).
  destruct (chunk_found chunks (dd_chunk dd) IC) as (e' & E1 & E2 & E3). rewrite CE in E1. injection E1 as <-.
  assert (CL : dd_chunk dd <= len) by (rewrite <- F3; apply GL, F1).
  assert (RD : ready b0 o (x_beg xs) (x_st xs)) by (destruct P as [(P1 & P2 & (P3 & P3') & P4 & P5)|[(P1 & P2 & P3 & P4)|(P1 & _)]]; [left; auto|right; auto|lia]).
  assert (FIN : forall z x4, x_beg x4 = x_beg xs -> x_end x4 = e -> x_group x4 = Some d -> o_maxlines (x_st x4) = o_maxlines (x_st xs) -> o_rev (x_st x4) = o_rev (x_st xs) ->
    x_beg xs <= z <= dd_chunk dd -> (forall l, z <= l <= dd_chunk dd -> T l) -> good S (emit (x_beg xs) z x4)).
  { intros z x4 A1 A2 A3 A4 A5 HZ HT. assert (RD4 : ready b0 o (x_beg xs) (x_st x4)).
    { destruct RD as [[R1 R2]|(R1 & R2 & R3)]; [left; split; [exact R1|]|right; split; [exact R1|split; [exact R2|]]]; eapply has_same; eauto. }
    destruct (emit_step (x_beg xs) z x4 b0 o M N) as (g & o' & G1 & G2 & G3 & G4 & G5); [lia|lia|lia|exact RD4|]. rewrite G1. split; [cbn; lia|]. split; [exact G2|]. split.
    - intros g' Eg. cbn [on x_group] in Eg. rewrite A3 in Eg. injection Eg as <-. split; [exact ID|]. split; [exact IS|]. intros _. split; [exists f; auto|]. exists f. split; [exact F1|]. cbn [on x_end]. lia.
    - exists z, o'. split; [exact G3|]. split; [exact G4|]. right. right. cbn [on x_end x_st]. rewrite A2. split; [lia|]. split; [lia|]. split; [|exact G5].
      intros l Hl. destruct (Nat.le_gt_cases l (dd_chunk dd)) as [L|L]; [apply HT; lia|]. apply to_chunk, E3. lia. }
  assert (HULL : forall c l, In c (toks d) -> lno c <= l <= dd_chunk dd -> T l).
  { intros c l Hc Hl. rewrite <- F3 in Hl. exact (to_group chunks root d f c f l ID F1 F2 Hc F1 Hl). }
  unfold enter_at. set (x3 := if has_many _ _ then _ else _). assert (X3 : x_beg x3 = x_beg xs /\ x_group x3 = x_group xs /\ x_st x3 = x_st xs) by (unfold x3; destruct (has_many _ _); auto). destruct X3 as (X1 & X2 & X4). clearbody x3.
  cbn [on x_beg set_xmute set_end]. rewrite X1. destruct (dd_verb dd) as [V|] eqn:EV.
  - destruct (FV V eq_refl) as (V1 & V2 & _). unfold after in V2. cbn [fst snd lno] in V2. rewrite height_dlines in V2. change (lno (true, V)) with (k_lno V) in V2. pose proof (GL _ V1) as V3. change (lno (true, V)) with (k_lno V) in V3.
    destruct (Nat.le_gt_cases (x_beg xs) (k_lno V + dlines (k_str V))) as [L|L].
    + right. apply FIN; [exact X1|reflexivity|cbn; congruence|cbn; rewrite X4; reflexivity|cbn; rewrite X4; reflexivity|lia|]. intros l Hl. apply (HULL (true, V)); [exact V1|]. change (lno (true, V)) with (k_lno V). lia.
    + left. unfold diff_emit. rewrite GREV; [reflexivity|lia|lia].
  - right. apply FIN; [exact X1|reflexivity|cbn; congruence|cbn; rewrite X4; reflexivity|cbn; rewrite X4; reflexivity|lia|]. intros l Hl. apply (HULL a); [exact F5|]. lia.
Qed.

Lemma bad_enter_at : forall d dd e xs, x_bad xs = true -> x_bad (enter_at d dd e xs) = true.
Proof. intros d dd e xs H. unfold enter_at. set (x3 := if has_many _ _ then _ else _). assert (H3 : x_bad x3 = true) by (unfold x3; destruct (has_many _ _); exact H). clearbody x3. destruct (dd_verb dd); apply bad_emit; exact H3. Qed.
Lemma group_enter_new : forall k S n g below xs, below = negb n -> (is_some (x_group xs) && negb n = false) -> In g (groups root) -> incl S (toks g) -> 1 <= x_beg xs -> 1 <= o_maxlines (x_st xs) -> progress xs -> x_end xs = 0 ->
  snd (enter k n g xs) = true -> inv S (fst (enter k n g xs)).
Proof.
  intros k S n g below xs HBe HN IG IS HB HM HP HE. unfold group_enter. cbn [negb]. rewrite HN. rewrite <- HBe. destruct (group_lines g IG) as [GA GL].
  pose proof (covers_found (x_beg xs) below g GA (fun x Hx => proj1 (GL x Hx))) as F. set (dd := covers (x_beg xs) below g) in *. clearbody dd. rewrite HE. change (0 <? 0) with false. cbn [andb].
  assert (G0 : good S (set_group (Some g) xs)).
  { split; [exact HB|]. split; [exact HM|]. split; [|exact HP]. intros g' E. injection E as <-. split; [exact IG|]. split; [exact IS|]. cbn [set_group x_end]. lia. }
  destruct (dd_cov dd) eqn:DC; cbn [snd fst]; [intros _; right; exact G0| |discriminate].
  change (x_end (set_group (Some g) xs)) with (x_end xs). rewrite HE. change (0 <? 0) with false. cbn iota. destruct (chunk_end chunks (dd_chunk dd)) as [e|] eqn:CE; [|intros _; right; exact G0].
  intros _. destruct G0 as (_ & _ & _ & G4). pose proof (enter_new S g below dd e (set_group (Some g) xs) IG IS HB HM eq_refl G4 HE (F eq_refl) CE) as I. unfold enter_at in I. destruct (dd_verb dd); exact I.
Qed.

(** Leaving a chunk. *)
Lemma leave_inv : forall S e xs, inv S xs -> (forall l, x_end xs < l < x_end xs + e -> T l) -> inv S (leave e xs).
Proof.
  intros S e xs [HB|(G1 & G2 & G3 & G4)] HT; [left; apply bad_leave; exact HB|].
  destruct (Nat.eq_dec e 0) as [->|NE]; [right; exact (conj G1 (conj G2 (conj G3 G4)))|].
  destruct ((x_end xs =? 0) || is_some (x_verb xs)) eqn:EC.
  - left. assert (E : leave e xs = leave e (set_xbad true xs)).
    { unfold diff_leave. destruct (Nat.eqb_spec e 0) as [K|_]; [lia|]. replace ((x_end (set_xbad true xs) =? 0) || is_some (x_verb (set_xbad true xs))) with true by (symmetry; exact EC). rewrite EC. reflexivity. }
    rewrite E. apply bad_leave. reflexivity.
  - apply orb_false_iff in EC. destruct EC as [E0 EV]. apply Nat.eqb_neq in E0. destruct G4 as (b0 & o & M & N & P). destruct P as [(P1 & _)|[(P1 & _)|(P1 & P2 & P3 & P4)]]; [lia|lia|].
    unfold diff_leave. destruct (Nat.eqb_spec e 0) as [K|_]; [lia|]. assert (EC : (x_end xs =? 0) || is_some (x_verb xs) = false) by (rewrite EV, orb_false_r; apply Nat.eqb_neq; lia). rewrite EC. cbv zeta.
    set (x2 := set_xmute 0%Z _). assert (L2 : late b0 o x2).
    { left. change (x_end x2) with 0. change (x_beg x2) with (x_end xs + e). split; [reflexivity|]. split; [lia|]. split; [|exact P4]. intros l Hl. destruct (Nat.le_gt_cases l (x_end xs)); [apply P3; lia|apply HT; lia]. }
    set (x3 := if o_newline (x_st x2) then _ else _). assert (L3 : late b0 o x3 /\ x_beg x3 = x_end xs + e /\ x_end x3 = 0 /\ x_group x3 = x_group xs /\ 1 <= o_maxlines (x_st x3)).
    { unfold x3. destruct (o_newline (x_st x2)); [|repeat split; try exact L2; exact G2]. split; [apply late_force; assumption|]. repeat split. eapply max_frame; [apply frame_print|exact G2]. }
    clearbody x3. clear L2 x2. destruct L3 as (L3 & B3 & E3 & GR3 & M3).
    assert (PR : progress x3) by (exists b0, o; split; [exact M|split; [exact N|apply late_phase, L3]]).
    assert (G : good S x3). { split; [lia|]. split; [exact M3|]. split; [|exact PR]. rewrite GR3. intros g Eg. destruct (G3 g Eg) as (A1 & A2 & _). split; [exact A1|]. split; [exact A2|]. lia. }
    destruct (x_many x3); [|right; exact G]. destruct (x_group x3) as [g|] eqn:Eg; [|left; reflexivity].
    destruct (G3 g (eq_sym GR3)) as (A1 & A2 & _). destruct (snd (enter (set_xbad true) true g x3)) eqn:SN.
    + apply (group_enter_new (set_xbad true) S true g false x3); [reflexivity|rewrite Eg; reflexivity|exact A1|exact A2|lia|exact M3|exact PR|exact E3|exact SN].
    + right. replace (fst (enter (set_xbad true) true g x3)) with x3; [exact G|]. revert SN. clear. unfold group_enter. cbn [negb andb]. rewrite andb_false_r. destruct (dd_cov _); [discriminate| |reflexivity]. destruct (0 <? _); [discriminate|]. destruct (chunk_end _ _); [|discriminate]. destruct (dd_verb _); discriminate.
Qed.
Lemma leave_out : forall e xs, e <> 0 -> x_group xs = None -> x_bad (leave e xs) = true \/ x_end (leave e xs) = 0 /\ x_group (leave e xs) = None /\ x_beg (leave e xs) = x_end xs + e.
Proof.
  intros e xs He HG. unfold diff_leave. destruct (Nat.eqb_spec e 0) as [K|_]; [lia|]. cbv zeta. set (x0 := if _ || _ then _ else xs). assert (G0 : x_group x0 = None /\ x_end x0 = x_end xs) by (unfold x0; destruct (_ || _); split; try reflexivity; exact HG). clearbody x0. destruct G0 as [G0 E0].
  set (x3 := if o_newline _ then _ else _). assert (H3 : x_end x3 = 0 /\ x_group x3 = None /\ x_beg x3 = x_end xs + e) by (unfold x3; destruct (o_newline _); cbn; rewrite E0; repeat split; exact G0). clearbody x3. destruct H3 as (E3 & G3 & B3).
  destruct (x_many x3); [|right; auto]. rewrite G3. left. reflexivity.
Qed.

(** Entering a group that is not nested in one already entered. *)
Lemma enter_inv : forall S g xs, In g (groups root) -> inv S xs ->
  match enter (leave 1) false g xs with (x0, en) => if en then inv (toks g) x0 else x0 = xs end.
Proof.
  intros S g xs IG I. destruct (x_group xs) as [g'|] eqn:EG; [unfold group_enter; rewrite EG; reflexivity|].
  destruct (group_lines g IG) as [GA GL].
  assert (NEW : forall ys, x_end ys = 0 -> x_group ys = None -> inv S ys -> snd (enter (leave 1) false g ys) = true -> inv (toks g) (fst (enter (leave 1) false g ys))).
  { intros ys E0 G0 [B|(G1 & G2 & G3 & G4)]; [intros _; left; apply (bad_enter limit usetabs true inp lx chunks (leave 1) false g (bad_leave limit usetabs true inp lx chunks 1)); exact B|].
    intros SN. apply (group_enter_new (leave 1) (toks g) false g true ys); [reflexivity|rewrite G0; reflexivity|exact IG|intros x Hx; exact Hx|exact G1|exact G2|exact G4|exact E0|exact SN]. }
  assert (NOT : forall ys, snd (enter (leave 1) false g ys) = false -> fst (enter (leave 1) false g ys) = ys).
  { clear. intros ys. unfold group_enter. cbn [negb andb]. destruct (_ && true); [reflexivity|]. destruct (dd_cov _); [discriminate| |reflexivity]. destruct (0 <? _); [discriminate|]. destruct (chunk_end _ _); [|discriminate]. destruct (dd_verb _); discriminate. }
  destruct I as [B|G].
  { pose proof (bad_enter limit usetabs true inp lx chunks (leave 1) false g (bad_leave limit usetabs true inp lx chunks 1) xs B) as E. pose proof (NOT xs) as NX. cbn beta in E. destruct (enter (leave 1) false g xs) as [x0 [|]]; [left; exact E|exact (NX eq_refl)]. }
  destruct (Nat.eq_dec (x_end xs) 0) as [E0|E0].
  { pose proof (NEW xs E0 EG (or_intror G)) as NW. pose proof (NOT xs) as NX. destruct (enter (leave 1) false g xs) as [x0 [|]]; [exact (NW eq_refl)|exact (NX eq_refl)]. }
  (* within a chunk *)
  assert (LV : inv S (leave 1 xs)) by (apply leave_inv; [right; exact G|lia]).
  pose proof (leave_out 1 xs (Nat.neq_succ_0 0) EG) as LO.
  unfold group_enter. rewrite EG. cbn [negb andb is_some]. pose proof (covers_found (x_beg xs) true g GA (fun x Hx => proj1 (GL x Hx))) as F. set (dd := covers (x_beg xs) true g) in *. clearbody dd.
  assert (LT : (0 <? x_end xs) = true) by (apply Nat.ltb_lt; lia). rewrite LT. cbn [andb].
  assert (SG : forall ys, inv S ys -> x_end ys = 0 -> inv (toks g) (set_group (Some g) ys)).
  { intros ys [B|(A1 & A2 & A3 & A4)] E; [left; exact B|]. right. split; [exact A1|]. split; [exact A2|]. split; [|exact A4]. intros g' Eg. injection Eg as <-. split; [exact IG|]. split; [intros x Hx; exact Hx|]. cbn [set_group x_end]. lia. }
  destruct (dd_cov dd) eqn:DC; [|  |reflexivity].
  - destruct LO as [LO|[LO _]]; [left; exact LO|apply SG; assumption].
  - specialize (F eq_refl). destruct F as (f & a & F1 & F2 & F3 & F4 & F5 & F6 & F7 & FV). destruct (x_end xs <? dd_first dd) eqn:EF.
    + (* the chunk is left before *)
      destruct LO as [LO|(LO1 & LO2 & LO3)].
      { destruct (0 <? x_end (set_group (Some g) (leave 1 xs))); [left; exact LO|]. destruct (chunk_end chunks (dd_chunk dd)) as [e|]; [|left; exact LO]. pose proof (bad_enter_at g dd e (set_group (Some g) (leave 1 xs)) LO) as I. unfold enter_at in I. destruct (dd_verb dd); left; exact I. }
      change (x_end (set_group (Some g) (leave 1 xs))) with (x_end (leave 1 xs)). rewrite LO1. change (0 <? 0) with false. cbn iota.
      destruct LV as [LV|(A1 & A2 & A3 & A4)].
      { destruct (chunk_end chunks (dd_chunk dd)) as [e|]; [|left; exact LV]. pose proof (bad_enter_at g dd e (set_group (Some g) (leave 1 xs)) LV) as I. unfold enter_at in I. destruct (dd_verb dd); left; exact I. }
      assert (P' : progress (set_group (Some g) (leave 1 xs))) by exact A4. apply Nat.ltb_lt in EF.
      destruct (chunk_end chunks (dd_chunk dd)) as [e|] eqn:CE; [|apply (SG (leave 1 xs)); [right; exact (conj A1 (conj A2 (conj A3 A4)))|exact LO1]].
      assert (I : inv (toks g) (enter_at g dd e (set_group (Some g) (leave 1 xs)))).
      { apply (enter_new (toks g) g false); [exact IG|intros x Hx; exact Hx|exact A1|exact A2|reflexivity|exact P'|exact LO1| |exact CE].
        exists f, a. cbn [set_group x_beg]. rewrite LO3. split; [exact F1|]. split; [exact F2|]. split; [exact F3|]. split; [lia|]. split; [exact F5|]. split; [exact F6|]. split; [lia|]. intros V EV. destruct (FV V EV) as (V1 & V2 & _ & V3). split; [exact V1|]. split; [exact V2|]. split; [discriminate|exact V3]. }
      unfold enter_at in I. destruct (dd_verb dd); exact I.
    + change (x_end (set_group (Some g) xs)) with (x_end xs). rewrite LT. right. destruct G as (A1 & A2 & A3 & A4). split; [exact A1|]. split; [exact A2|]. split; [|exact A4].
      intros g' Eg. injection Eg as <-. split; [exact IG|]. split; [intros x Hx; exact Hx|]. intros _. split; [exists f; auto|]. exists a. split; [exact F5|]. apply Nat.ltb_ge in EF. cbn [set_group x_end]. lia.
Qed.

(** ** The documents *)
Lemma leave_group_inv : forall S S' xs, inv S xs -> inv S' (group_leave true true xs).
Proof.
  intros S S' xs H. unfold group_leave. cbn [negb orb]. destruct H as [H|(G1 & G2 & G3 & G4)].
  - left. cbn. destruct (is_some (x_group xs)); [exact H|reflexivity].
  - right. destruct (is_some (x_group xs)); (split; [exact G1|split; [exact G2|split; [discriminate|exact G4]]]).
Qed.
Lemma inv_xbad : forall S b xs, good S xs -> inv S (set_xbad b xs).
Proof. intros S b xs G. right. exact G. Qed.
Lemma inv_trim : forall S xs, inv S xs -> inv S (on trim_spaces xs).
Proof. intros S xs H. apply inv_on; [|apply max_frame, frame_trim|exact H]. intros B Q HQ _ HH. apply has_trim; assumption. Qed.
Lemma inv_indent : forall S g xs, inv S xs -> inv S (on (fun st => print_indent usetabs (g st) st) xs).
Proof. intros S g xs H. apply inv_on; [|apply max_frame, frame_indent|exact H]. intros B Q HQ _ HH. apply has_indent; assumption. Qed.
Section Children.
Variable S : list (bool * dtok).
Variable k : xstate -> xstate.
Hypothesis K : forall xs, inv S xs -> inv S (k xs).
Hypothesis KB : forall xs, x_bad xs = true -> x_bad (k xs) = true.
Lemma indent_inv : forall v xs, inv S xs -> inv S (x_indent usetabs v k xs).
Proof.
  intros v xs H. unfold x_indent. destruct (is_indent INDENT_PARENS v).
  - apply inv_set; [reflexivity|auto|]. apply K. apply inv_set; [destruct (parens_align _); reflexivity|destruct (parens_align _); auto|exact H].
  - destruct (is_indent INDENT_FORCE v); [apply K, inv_indent, H|]. apply inv_set; [reflexivity|auto|]. apply K.
    apply inv_set; [|unfold indent_start; repeat match goal with |- context [if ?c then _ else _] => destruct c end; auto|exact H]. unfold indent_start. repeat match goal with |- context [if ?c then _ else _] => destruct c end; reflexivity.
Qed.
Lemma minimize1_inv : forall id ms i xs, inv S xs -> inv S (x_minimize1 usetabs id ms k i xs).
Proof.
  intros id ms i xs H. unfold x_minimize1. destruct (nth_error ms i) as [[v b]|]; [|apply inv_set; [reflexivity|auto|exact H]]. apply indent_inv. apply inv_set; [destruct (forced _ _ _ _); reflexivity|destruct (forced _ _ _ _); auto|exact H].
Qed.
Lemma try_inv : forall id ms sn is xs, good S sn \/ x_bad xs = true -> inv S xs -> inv S (snd (x_try_all usetabs id ms k sn is xs)).
Proof.
  intros id ms sn is. induction is as [|i r IH]; intros xs D H; [exact H|]. cbn [x_try_all]. set (x1 := x_minimize1 usetabs id ms k i _).
  assert (B1 : x_bad xs = true -> x_bad x1 = true) by (intros B; unfold x1; apply bad_minimize1; [exact KB|exact B]). clearbody x1.
  match goal with |- context [x_try_all usetabs id ms k sn r ?y] => assert (I : inv S (snd (x_try_all usetabs id ms k sn r y))); [|destruct (x_try_all usetabs id ms k sn r y); exact I] end.
  apply IH.
  - destruct D as [D|D]; [left; exact D|right; exact (B1 D)].
  - destruct D as [D|D]; [|left; exact (B1 D)]. apply inv_xbad. destruct (inv_set S (fun st => set_dbad (o_bad (x_st x1)) (set_force (match o_mforce (x_st x1) with Some _ => set_flag id i (o_force (x_st x1)) | None => o_force (x_st x1) end) st)) (set_xbad false sn)) as [X|X]; [reflexivity|auto|apply inv_xbad; exact D|discriminate X|exact X].
Qed.
Lemma minimize_inv : forall id ms xs, inv S xs -> inv S (x_minimize usetabs id ms k xs).
Proof.
  intros id ms xs H. unfold x_minimize. destruct (o_idx (x_st xs)); [apply minimize1_inv, H|].
  assert (I : inv S (snd (x_try_all usetabs id ms k xs (seq 0 (length ms)) xs))) by (apply try_inv; [destruct H as [H|H]; [right|left]; exact H|exact H]).
  destruct (x_try_all usetabs id ms k xs (seq 0 (length ms)) xs) as [ps x1]. cbn [snd] in I. destruct (best_of _ ps); [|apply inv_set; [reflexivity|auto|exact I]].
  apply inv_set; [reflexivity|auto|]. apply minimize1_inv. apply inv_set; [reflexivity|auto|exact I].
Qed.
End Children.
Lemma literal_inv : forall S tk xs, In (false, tk) S -> inv S xs -> inv S (diff_literal limit usetabs true inp lx chunks (Some tk) xs).
Proof.
  intros S tk xs IT H. unfold diff_literal. cbn [negb orb]. destruct (Nat.eqb_spec (x_end xs) 0) as [E|E]; [exact H|]. destruct (Nat.ltb_spec (x_end xs) (k_lno tk)) as [L|L]; [|exact H].
  destruct (x_group xs) as [g|] eqn:EG; cbn [is_some]; [|apply leave_inv; [exact H|lia]].
  destruct H as [H|(G1 & G2 & G3 & (b0 & o & M & N & P))]; [left; exact H|right]. destruct (G3 g EG) as (A1 & A2 & A3). destruct (A3 ltac:(lia)) as ((f & F1 & F2) & a & A4 & A5).
  split; [exact G1|]. split; [exact G2|]. split.
  - intros g' Eg. cbn [set_end x_group] in Eg. rewrite EG in Eg. injection Eg as <-. split; [exact A1|]. split; [exact A2|]. intros _. split; [exists f; auto|]. exists a. cbn [set_end x_end]. split; [exact A4|lia].
  - exists b0, o. split; [exact M|]. split; [exact N|]. destruct P as [(P1 & _)|[(P1 & _)|(P1 & P2 & P3 & P4)]]; [lia|lia|]. right. right. cbn [set_end x_end x_st]. split; [lia|]. split; [lia|]. split; [|exact P4].
    intros l Hl. destruct (Nat.le_gt_cases l (x_end xs)); [apply P3; lia|]. apply (to_group chunks root g f a (false, tk) l A1 F1 F2 A4 (A2 _ IT)). change (lno (false, tk)) with (k_lno tk). lia.
Qed.
Lemma verbatim_inv : forall S tk xs, In (true, tk) (toks root) -> inv S xs -> inv S (x_verbatim limit usetabs true inp lx chunks tk xs).
Proof.
  intros S tk xs IT H. pose proof (bad_exec limit usetabs true inp lx chunks (DVerbatim tk) xs) as BE. cbn [x_exec1] in BE.
  destruct H as [H|H]; [left; exact (BE H)|]. clear BE. unfold x_verbatim. destruct (_ && _); [right; exact H|].
  assert (D : match diff_verbatim limit usetabs true inp lx chunks tk xs with (n, x0) => inv S x0 /\ forall l, x_end x0 < l < x_end x0 + n -> T l end).
  { unfold diff_verbatim. destruct (negb true || _ || _) eqn:EC; [split; [right; exact H|lia]|]. apply orb_false_iff in EC. destruct EC as [_ E0]. apply Nat.eqb_neq in E0.
    destruct (Nat.ltb_spec (x_end xs) (k_lno tk)) as [L|L]; [split; [apply leave_inv; [right; exact H|lia]|lia]|]. destruct (_ && _) eqn:EN; [|split; [right; exact H|lia]].
    apply andb_true_iff in EN. destruct EN as [_ EN]. apply Nat.ltb_lt in EN. split; [right; exact H|]. intros l Hl. destruct H as (_ & _ & _ & (b0 & o & _ & _ & P)). destruct P as [(P1 & _)|[(P1 & _)|(P1 & P2 & P3 & P4)]]; [lia|lia|].
    apply (to_verbatim chunks root tk l (x_end xs) IT); [apply P3; lia| |]; rewrite height_dlines; lia. }
  destruct (diff_verbatim limit usetabs true inp lx chunks tk xs) as [n x0]. destruct D as [I0 D]. cbv zeta. set (bl := (1 <? _) && _). clearbody bl.
  set (x2 := if bl && _ then _ else _). assert (I2 : inv S x2 /\ x_end x2 = x_end x0) by (unfold x2; destruct (bl && _); (split; [|reflexivity]); [apply inv_set; [reflexivity|auto|]|]; apply inv_trim, I0). clearbody x2. destruct I2 as [I2 E2].
  set (x3 := x_print limit usetabs true (k_str tk) false false x2). assert (I3 : inv S x3 /\ x_end x3 = x_end x0) by (split; [apply inv_print, I2|exact E2]). clearbody x3. destruct I3 as [I3 E3].
  set (x4 := if own_verb true tk x3 then _ else _). assert (I4 : inv S x4 /\ x_end x4 = x_end x0).
  { unfold x4. destruct (own_verb true tk x3); [|split; assumption]. split; [|exact E3]. destruct I3 as [I3|(G1 & G2 & G3 & (b0 & o & M & N & P))]; [left; exact I3|right]. split; [exact G1|]. split; [exact G2|]. split; [exact G3|]. exists b0, o. split; [exact M|]. split; [exact N|].
    destruct P as [(P1 & P2 & (P3 & P3') & P4 & P5)|P]; [left; repeat split; assumption|right; exact P]. }
  clearbody x4. destruct I4 as [I4 E4].
  destruct (bl || _).
  - apply leave_inv; [apply inv_indent, I4|]. intros l Hl. apply D. cbn [on x_end] in Hl. lia.
  - apply leave_inv; [exact I4|]. intros l Hl. apply D. lia.
Qed.
Lemma domute_inv : forall S v im xs, inv S xs -> inv S (x_domute limit usetabs true v im xs).
Proof.
  intros S v im xs H. unfold x_domute. set (x0 := if _ && _ then mute_enter true xs else xs). assert (H0 : inv S x0).
  { unfold x0. destruct (_ && _); [|exact H]. unfold mute_enter. destruct (diff_is_mute true xs) eqn:EM; [exact H|]. unfold diff_is_mute in EM. cbn [andb] in EM. apply orb_false_iff in EM. destruct EM as [EM _]. apply Nat.eqb_neq in EM.
    destruct H as [H|(G1 & G2 & G3 & (b0 & o & M & N & P))]; [left; exact H|right]. split; [exact G1|]. split; [exact G2|]. split; [exact G3|]. exists b0, o. split; [exact M|]. split; [exact N|]. destruct P as [(P1 & _)|P]; [lia|right; exact P]. }
  clearbody x0. set (x1 := if _ || _ then _ else x0). assert (H1 : inv S x1) by (unfold x1; destruct (_ || _); [apply inv_set; [reflexivity|auto|]|]; exact H0). clearbody x1. destruct (_ =? 0)%Z; [|exact H1].
  assert (H2 : inv S (mute_leave limit usetabs true x1)).
  { unfold mute_leave. cbn [negb]. destruct (x_mline x1) eqn:EM; cbn [andb].
    - assert (Z : forall y, inv S y -> x_mline y = true -> inv S (set_mline false y) /\ inv S (set_mline false (x_print limit usetabs true [NL] false true y))).
      { intros y [Y|(G1 & G2 & G3 & (b0 & o & M & N & P))] EY; [split; left; exact Y|]. assert (L : late b0 o y) by (destruct P as [(_ & _ & (P3 & _) & _)|P]; [congruence|exact P]). split; right.
        - split; [exact G1|]. split; [exact G2|]. split; [exact G3|]. exists b0, o. split; [exact M|]. split; [exact N|]. right. exact L.
        - split; [exact G1|]. split; [exact (max_frame _ _ (frame_print limit usetabs [NL] false true (x_is_mute true y) (x_st y)) G2)|]. split; [exact G3|]. exists b0, o. split; [exact M|]. split; [exact N|]. right. exact (late_force b0 o [NL] false y N L). }
      destruct (o_muteline (x_st x1)); [|apply Z; assumption]. apply Z; [|exact EM]. apply inv_set; [reflexivity|auto|exact H1].
    - destruct H1 as [H1|(G1 & G2 & G3 & (b0 & o & M & N & P))]; [left; exact H1|right]. split; [exact G1|]. split; [exact G2|]. split; [exact G3|]. exists b0, o. split; [exact M|]. split; [exact N|]. destruct P as [(P1 & P2 & (P3 & P3') & P4 & P5)|P]; [left; repeat split; assumption|right; exact P]. }
  apply inv_set; [destruct im; reflexivity|destruct im; auto|exact H2].
Qed.

Lemma exec_inv : forall d S xs, incl (groups d) (groups root) -> incl (toks d) (toks root) -> Forall (fun n => 1 <= n) (limits d) -> incl (toks d) S -> inv S xs -> inv S (exec d xs).
Proof.
  induction d as [l IH|d IH|v d IH|d IH|i s t|tk s|tk| | | | |v|v|d IH|id ms d IH|d IH|n d IH] using ddoc_ind'; intros S xs HG HT HL HS H; cbn [x_exec1].
  - cbn [groups toks limits] in *. revert xs H HG HT HL HS. induction IH as [|d l P _ IHl]; intros xs H HG HT HL HS; [exact H|]. cbn [fold_left flat_map] in *. apply Forall_app in HL. destruct HL as [HL1 HL2]. apply incl_app_inv in HG. apply incl_app_inv in HT. apply incl_app_inv in HS. destruct HG, HT, HS. apply IHl; try assumption. apply P; assumption.
  - cbn [groups toks limits] in *. assert (IG : In (DGroup d) (groups root)) by (apply HG; left; reflexivity). assert (HG' : incl (groups d) (groups root)) by (intros x Hx; apply HG; right; exact Hx).
    pose proof (enter_inv S (DGroup d) xs IG H) as E. destruct (enter (leave 1) false (DGroup d) xs) as [x0 en]. match goal with |- inv S (group_leave true en ?z) => set (y := z) end.
    assert (Y : forall S', incl (toks d) S' -> inv S' x0 -> inv S' y).
    { intros S' HS' H'. unfold y. match goal with |- context [if ?c then _ else _] => destruct c end; [apply IH; assumption|]. apply inv_set; [reflexivity|auto|]. apply IH; try assumption; (apply inv_set; [reflexivity|auto|exact H']). }
    clearbody y. destruct en; [|subst x0; cbn; apply Y; assumption]. apply (leave_group_inv (toks d)). apply Y; [apply incl_refl|exact E].
  - apply indent_inv; [|exact H]. intros y Hy. apply IH; assumption.
  - apply inv_set; [reflexivity|auto|]. apply IH; try assumption; (apply inv_set; [reflexivity|auto|]). apply inv_trim, H.
  - apply inv_on; [|apply max_frame, frame_align|exact H]. intros B Q HQ _ HH. apply has_align, HH.
  - apply inv_print. destruct tk as [tk|]; [|exact H]. apply literal_inv; [|exact H]. apply HS. left. reflexivity.
  - apply verbatim_inv; [|exact H]. apply HT. left. reflexivity.
  - destruct (o_mode (x_st xs)); [apply inv_print, H|]. apply inv_on; [| |exact H].
    + intros B Q HQ HB HH. assert (P := has_print limit usetabs B Q [SP] true false (x_is_mute true xs) (x_st xs) HQ (fun E => conj (HB E) eq_refl) HH). destruct (print_with limit usetabs [SP] true false (x_is_mute true xs) (x_st xs)) as [st1 [|]]; exact P.
    + pose proof (max_frame _ _ (frame_print limit usetabs [SP] true false (x_is_mute true xs) (x_st xs))) as P. destruct (print_with limit usetabs [SP] true false (x_is_mute true xs) (x_st xs)) as [st1 [|]]; exact P.
  - destruct (o_mode (x_st xs)); [apply inv_print, H|exact H].
  - apply inv_print, H.
  - apply inv_set; [destruct (_ <? _); reflexivity|destruct (_ <? _); auto|exact H].
  - apply domute_inv, H.
  - apply domute_inv, H.
  - apply inv_set; [destruct (_ <=? _); reflexivity|destruct (_ <=? _); auto|]. apply IH; try assumption; (apply inv_set; [reflexivity|auto|exact H]).
  - apply minimize_inv; [|apply bad_exec|exact H]. intros y Hy. apply IH; assumption.
  - apply IH; try assumption; (apply inv_set; [reflexivity|auto|exact H]).
  - cbn [limits] in HL. inversion HL as [|? ? L1 L2]; subst. destruct H as [H|H]; [left; apply (bad_exec limit usetabs true inp lx chunks d); exact H|].
    apply inv_set; [reflexivity|intros _; apply H|]. apply IH; try assumption; (apply inv_set; [reflexivity|auto|right; exact H]).
Qed.
End Main.
