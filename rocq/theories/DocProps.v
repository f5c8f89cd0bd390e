(** Properties C17-C22 of the document printer. *)
From Verif Require Import Base StrModel UtilModel UtilProofs DocModel DocProofs DocEmit DocFit DocMin.

Definition b (s : string) : bytes := list_ascii_of_string s.

(** ** C17 *)
(** Blanks removed. *)
Definition blank (c : byte) : bool := (c =c SP) || (c =c TAB) || (c =c NL).
Definition strip (s : bytes) : bytes := filter (fun c => negb (blank c)) s.

Lemma strip_app : forall x y, strip (x ++ y) = strip x ++ strip y.
Proof. intros. apply filter_app. Qed.
Lemma strip_bn : forall w, Forall bn w -> strip w = [].
Proof.
  induction 1 as [|c w Hc Hw IH]; auto. unfold strip. cbn [filter].
  destruct Hc as [[-> | ->] | ->]; exact IH.
Qed.
Lemma rendered_strip : forall ts o, rendered ts o -> strip o = concat (map strip ts).
Proof.
  induction 1 as [w Hw|ts o c z w H IH Hz Hw]; [apply strip_bn; auto|].
  rewrite !strip_app, map_app, concat_app, IH, (strip_bn w Hw). cbn [map concat].
  rewrite !app_nil_r, strip_app, (strip_bn z), app_nil_r; auto. apply tb_bn; auto.
Qed.

Lemma trim_lines_spec : forall r, exists k, r = repeat NL k ++ trim_lines r /\
  (forall r', trim_lines r <> NL :: NL :: r').
Proof.
  induction r as [|x r IH]; [exists 0; split; auto; discriminate|].
  destruct r as [|y r]; [exists 0; split; auto; discriminate|].
  change (trim_lines (x :: y :: r)) with (if (x =c NL) && (y =c NL) then trim_lines (y :: r) else x :: y :: r).
  destruct ((x =c NL) && (y =c NL)) eqn:E.
  - apply andb_true_iff in E. destruct E as (E1 & E2). apply eqb_true in E1. subst x.
    destruct IH as (k & H1 & H2). exists (S k). split; auto. cbn [repeat app]. f_equal. exact H1.
  - exists 0. split; auto. intros r' H. inv H. discriminate.
Qed.
Lemma rev_repeat : forall A (x : A) n, rev (repeat x n) = repeat x n.
Proof. induction n; cbn; auto. rewrite IHn. apply repeat_snoc. Qed.

(** Every text is printed, in order, with nothing but blanks in between: the output is the
    texts of the document, each possibly without blanks at its end, with blanks around them.
    Only newlines are missing at the end if trimming is asked for. *)
Theorem C17_texts : forall limit usetabs n d trim buf, wf n d ->
  let '(out, bad) := doc_exec limit usetabs d trim buf in
  bad = false /\
  exists k, rendered (buf :: map snd (fst (texts d 0))) (out ++ repeat NL k) /\
    (trim = false -> k = 0) /\ (trim = true -> forall x, out <> x ++ [NL; NL]).
Proof.
  intros limit usetabs n d trim buf Hwf. unfold doc_exec.
  set (st0 := doc_state_init buf BREAK).
  destruct (good_any limit usetabs n d Hwf st0) as (G1 & _ & _ & G4).
  { split; [discriminate|auto]. }
  split; [rewrite G4; reflexivity|].
  set (st := doc_exec1 limit usetabs d st0) in *.
  assert (HR : rendered (buf :: map snd (fst (texts d 0))) (rev (o_rev st))).
  { apply (emit_rendered _ _ _ _ _ _ _ G1 [buf]). cbn [core]. change (o_rev st0) with (rev buf). rewrite rev_involutive.
    apply (rendered_text [] [] buf). apply rd_nil. constructor. }
  destruct trim.
  - destruct (trim_lines_spec (o_rev st)) as (k & E1 & E2). exists k. split; [|split; [discriminate|]].
    + rewrite <- rev_repeat, <- rev_app_distr, <- E1. auto.
    + intros _ x H. apply (E2 (rev x)). rewrite <- (rev_involutive (trim_lines _)), H, rev_app_distr. reflexivity.
  - exists 0. rewrite app_nil_r. split; [auto|split; [auto|discriminate]].
Qed.

(** With blanks removed the output is exactly the buffer and the texts. *)
Theorem C17_strip : forall limit usetabs n d trim buf, wf n d ->
  strip (fst (doc_exec limit usetabs d trim buf)) = strip buf ++ concat (map strip (map snd (fst (texts d 0)))).
Proof.
  intros limit usetabs n d trim buf Hwf. pose proof (C17_texts limit usetabs n d trim buf Hwf) as H.
  destruct (doc_exec limit usetabs d trim buf) as [out bad]. destruct H as (_ & k & H & _).
  apply rendered_strip in H. cbn [map concat] in H. rewrite <- H. rewrite strip_app. cbn [fst].
  rewrite (strip_bn (repeat NL k)), app_nil_r; auto.
  apply Forall_forall. intros x Hx. apply repeat_spec in Hx. right; auto.
Qed.

Definition ex17 : doc := Group (Concat [Literal (b "int"); Line; Literal (b "main ");
  Indent 8 (Concat [Hardline; Verbatim (b "#if 0" ++ [NL]); Minimize 0 [(4%Z, false); (8%Z, false)] (Concat [Softline; Literal (b "x")])]);
  Mute 1; Literal (b "muted"); Unmute (-1); Hardline; Hardline; Literal (b "}"); Hardline; Hardline]).
Example C17_ex : wf 2 ex17 /\ doc_exec 20 true ex17 true [] =
  (b "int main" ++ [NL] ++ b "#if 0" ++ [NL; TAB] ++ b "x" ++ [NL; NL] ++ b "}" ++ [NL], false).
Proof. split; [cbn; intuition (discriminate || lia)|vm_compute; reflexivity]. Qed.

(** ** C18 *)
(** No space or tab is left before a newline, provided the texts have none themselves and
    literals do not start with a newline. *)
Theorem C18_clean : forall limit usetabs n d trim buf, wf n d -> Forall text_ok (fst (texts d 0)) -> clean buf ->
  clean (fst (doc_exec limit usetabs d trim buf)).
Proof.
  intros limit usetabs n d trim buf Hwf Hok Hbuf. unfold doc_exec. cbn [fst].
  set (st0 := doc_state_init buf BREAK).
  destruct (good_any limit usetabs n d Hwf st0) as (G1 & _ & _ & _).
  { split; [discriminate|auto]. }
  set (st := doc_exec1 limit usetabs d st0) in *.
  assert (HC : clean (rev (o_rev st))).
  { apply (emit_clean _ _ _ _ _ _ _ G1); auto. cbn [core]. change (o_rev st0) with (rev buf). rewrite rev_involutive. auto. }
  destruct trim; auto. destruct (trim_lines_spec (o_rev st)) as (k & E1 & _). rewrite E1, rev_app_distr in HC.
  eapply clean_prefix; eauto.
Qed.

Example C18_ex : Forall text_ok (fst (texts ex17 0)) /\ clean [].
Proof.
  split; [|apply clean_no_nl; auto].
  change (fst (texts ex17 0)) with [(false, b "int"); (false, b "main "); (true, b "#if 0" ++ [NL]); (false, b "x"); (false, b "}")].
  repeat apply Forall_cons; try apply Forall_nil; (split; [|intros _ c H; discriminate H]);
    intros x y z H; cbn in H; repeat (destruct x as [|? x]; [discriminate H || (inversion H; subst; intros [K|K]; discriminate)|injection H as _ H]);
    destruct x; discriminate H.
Qed.

(** ** C19 *)
(** At most [M] newlines in a row where [M] is at least the default of two and what is
    configured.  Missing: documents with lines that can be spaces, with single spaces or
    with muted parts, for which the claim is false (below). *)
Fixpoint no_spaces (M : nat) (d : doc) : Prop :=
  match d with
  | Concat l => fold_right (fun d P => no_spaces M d /\ P) True l
  | Group d | Indent _ d | NoIndent d | Optional d | Minimize _ _ d | Scope d => no_spaces M d
  | Maxlines n d => n <= M /\ no_spaces M d
  | Literal s | Verbatim s => s <> [SP]
  | Line | Mute _ | Unmute _ => False
  | _ => True
  end.

Lemma no_spaces_lay : forall usetabs M d, no_spaces M d -> lay usetabs (fun _ _ => True) False False (fun n => n <= M) d.
Proof.
  intros usetabs M. induction d using doc_ind'; cbn [no_spaces lay]; intros Hn; auto; try contradiction; try tauto.
  - induction H; cbn in *; auto. destruct Hn. split; auto.
  - split; unfold QF; auto.
  - unfold QT. auto.
  - split; [unfold QF; auto|tauto].
  - split; auto. apply Forall_forall. unfold QF. auto.
Qed.

Theorem C19_runs_partial : forall limit usetabs n M d trim buf, wf n d -> no_spaces M d -> 2 <= M ->
  Forall (fun t => solid M (snd t)) (fst (texts d 0)) -> bounded M buf -> run_le 0 (rev buf) ->
  bounded M (fst (doc_exec limit usetabs d trim buf)).
Proof.
  intros limit usetabs n M d trim buf Hwf Hns HM Hok Hb Hr. unfold doc_exec. cbn [fst].
  set (st0 := doc_state_init buf BREAK).
  assert (G : good (fun _ _ => True) False False (fun n => n <= M) n d (doc_exec1 limit usetabs d)).
  { apply exec_good; auto. apply no_spaces_lay; auto. }
  destruct (G st0) as (G1 & _ & _ & _).
  { split; [discriminate|exact HM]. }
  set (st := doc_exec1 limit usetabs d st0) in *.
  assert (HC : bounded M (o_rev st)).
  { apply (emit_runs _ _ _ _ _ G1 Hok); auto. apply bounded_rev. auto. }
  destruct trim; [|apply bounded_rev; auto]. destruct (trim_lines_spec (o_rev st)) as (k & E1 & _). rewrite E1 in HC.
  apply bounded_rev. apply (bounded_mono M _ (repeat NL k) []). rewrite app_nil_r. auto.
Qed.

Definition ex19' : doc := Concat [Literal (b "a"); Hardline; Maxlines 3 (Indent 8 (Concat
  [Hardline; Hardline; Hardline; Hardline; Literal (b "b")])); Hardline; Hardline; Hardline; Literal (b "c")].
Example C19_ex : wf 1 ex19' /\ no_spaces 3 ex19' /\ Forall (fun t => solid 3 (snd t)) (fst (texts ex19' 0)) /\
  fst (doc_exec 80 true ex19' false []) = b "a" ++ [NL; NL; NL; TAB] ++ b "b" ++ [NL; NL] ++ b "c".
Proof.
  split; [cbn; intuition (discriminate || lia)|]. split; [cbn; intuition (discriminate || lia)|].
  split; [|vm_compute; reflexivity].
  change (fst (texts ex19' 0)) with [(false, b "a"); (false, b "b"); (false, b "c")].
  repeat apply Forall_cons; try apply Forall_nil; (split; [apply bounded_no_nl; intros [H|[]]; discriminate|]);
    (split; [intros c H; discriminate H|]); cbn; eexists [], _; (split; [reflexivity|intros [[K|K]|K]; discriminate]).
Qed.

(** A line kept as a space is forgotten when the line ends, and the count starts over. *)
Definition ex19 : doc := Concat [Literal (b "a"); Group (Concat [Hardline; Hardline; Line; Hardline; Hardline]); Literal (b "b")].
Theorem C19_runs_refuted : exists d, wf 1 d /\
  fst (doc_exec 80 true d false []) = b "a" ++ [NL; NL; NL; NL] ++ b "b".
Proof. exists ex19. split; [cbn; intuition discriminate|vm_compute; reflexivity]. Qed.

(** ** C20 *)
(** The decision: a group is kept on one line if and only if its text laid out on one line
    ends at or before the limit. *)
Theorem C20_fits : forall limit d st, flat d -> o_newline st = false ->
  f_fits (doc_fits limit (Group d) st) = true <-> display_col (flat_text d (o_col st)) (o_col st) <= limit.
Proof.
  intros limit d st Hf Hn. rewrite doc_fits_flat; auto. apply Nat.leb_le.
Qed.

(** The effect: if it fits the group is printed on the line exactly as laid out, so that
    the line ends within the limit; otherwise it is executed with its lines broken. *)
Theorem C20_group : forall limit usetabs n d st, wf n d -> flat d ->
  o_newline st = false -> o_mute st = 0%Z -> o_mode st = BREAK -> idx_ok (fun _ => True) n st ->
  let t := flat_text d (o_col st) in
  let st' := doc_exec1 limit usetabs (Group d) st in
  (display_col t (o_col st) <= limit ->
    rev (o_rev st') = rev (o_rev st) ++ t /\ o_col st' = display_col t (o_col st) /\ ~ In NL t) /\
  (limit < display_col t (o_col st) ->
    st' = set_mode BREAK (doc_exec1 limit usetabs d (set_mode BREAK (set_refit false st)))).
Proof.
  intros limit usetabs n d st Hwf Hf Hn Hm Hmode Hi t st'. unfold st'. cbn [doc_exec1]. rewrite Hmode.
  pose proof (C20_fits limit d (set_refit false st) Hf Hn) as HF. change (o_col (set_refit false st)) with (o_col st) in HF. fold t in HF.
  assert (Hb : f_bad (doc_fits limit (Group d) (set_refit false st)) = false).
  { unfold doc_fits. cbv zeta. apply (fits_not_bad limit (fun _ => True) n); auto; constructor; auto. }
  rewrite Hb, orb_false_r. split; intros Hc.
  - apply HF in Hc. rewrite Hc. apply HF in Hc.
    match goal with |- context [doc_exec1 limit usetabs d ?s] =>
      destruct (exec_flat limit usetabs n d Hwf Hf s) as (G1 & G2 & G3); [repeat split; auto|exact Hi|exact Hc|] end.
    split; [|split; [exact G3|apply flat_no_nl; auto]].
    change (o_rev (set_mode BREAK ?x)) with (o_rev x). rewrite G2, rev_app_distr, rev_involutive. reflexivity.
  - destruct (f_fits (doc_fits limit (Group d) (set_refit false st))); [destruct HF as (HF & _); specialize (HF eq_refl); lia|]. destruct st; reflexivity.
Qed.

Definition ex20 : doc := Concat [Literal (b "f("); Softline; Indent 4 (Group (Concat [Literal (b "x,"); Line; Literal (b "y")])); Literal (b ")")].
Example C20_ex : wf 1 ex20 /\ flat ex20 /\ flat_text ex20 0 = b "f(x, y)" /\
  fst (doc_exec 7 true (Group ex20) false []) = b "f(x, y)" /\
  fst (doc_exec 6 true (Group ex20) false []) = b "f(" ++ [NL] ++ b "x, y)".
Proof.
  split; [cbn; intuition (discriminate || lia)|]. split; [|split; [|split]; vm_compute; reflexivity].
  cbn. intuition discriminate.
Qed.

(** What comes after an unconditional line in the group counts as well: a group whose text
    up to its first line break fits is broken nevertheless. *)
Theorem C20_next_break_refuted : exists d,
  fst (doc_exec 4 true (Group d) false []) = b "a" ++ [NL] ++ b "b" ++ [NL] ++ b "cccc" /\
  d = Concat [Literal (b "a"); Softline; Literal (b "b"); Hardline; Literal (b "cccc")].
Proof. eexists. split; [|reflexivity]. vm_compute. reflexivity. Qed.

(** ** C21 *)
(** Missing: muted parts, and blanks with tabs that do not start at a tab stop, for both
    of which the claim is false (below). *)
Fixpoint even (usetabs : bool) (d : doc) : Prop :=
  match d with
  | Concat l => fold_right (fun d P => even usetabs d /\ P) True l
  | Group d | NoIndent d | Optional d | Scope d | Maxlines _ d => even usetabs d
  | Indent v d => (usetabs = true -> is_indent INDENT_FORCE v = false) /\ even usetabs d
  | Minimize _ ms d => Forall (fun m => usetabs = true -> is_indent INDENT_FORCE (fst m) = false) ms /\ even usetabs d
  | Align _ _ tabalign => tabalign = false
  | Verbatim s => usetabs = true -> s <> [NL]
  | Mute _ | Unmute _ => False
  | _ => True
  end.

Lemma aligned_spaces : forall n c, tabs_aligned (repeat SP n) c.
Proof.
  intros n c x y E. assert (H : In TAB (repeat SP n)) by (rewrite E; apply in_or_app; right; left; auto).
  apply repeat_spec in H. discriminate.
Qed.
Lemma aligned_tabs : forall t s, tabs_aligned (repeat TAB t ++ repeat SP s) 0.
Proof.
  intros t s x y E. apply app_eq_cons in E. destruct E as [(z & E & _) | (x' & -> & E)].
  - apply repeat_app_inv in E. destruct E as (-> & _). generalize (length x). intros k. clear.
    assert (H : forall k c, c mod 8 = 0 -> display_col (repeat TAB k) c mod 8 = 0).
    { induction k0 as [|k0 IH]; intros c Hc; auto. cbn [repeat]. unfold display_col. cbn [fold_left]. apply IH.
      unfold col_step. change (TAB =c TAB) with true. cbv iota. rewrite Nat.mul_comm. apply Nat.mod_mul. lia. }
    apply H. reflexivity.
  - assert (H : In TAB (repeat SP s)) by (rewrite E; apply in_or_app; right; left; auto).
    apply repeat_spec in H. discriminate.
Qed.
Lemma strindent_false : forall n c, fst (strindent n false c) = repeat SP n.
Proof.
  intros n c. destruct (strindent n false c) as [o p] eqn:E. apply strindent_spec in E. destruct E as (_ & _ & E & _). apply E; auto.
Qed.
Lemma aligned0 : forall usetabs n, tabs_aligned (fst (strindent n usetabs 0)) 0.
Proof.
  intros [|] n; [|rewrite strindent_false; apply aligned_spaces].
  destruct (strindent n true 0) as [o p] eqn:E. apply strindent_spec in E. destruct E as (_ & _ & _ & E & _).
  destruct (E eq_refl) as (t & s & -> & _). apply aligned_tabs.
Qed.
Lemma aligned_QF : QF false tabs_aligned.
Proof. intros n c. rewrite strindent_false. apply aligned_spaces. Qed.

Lemma even_lay : forall usetabs d, even usetabs d -> lay usetabs tabs_aligned False True (fun _ => True) d.
Proof.
  intros usetabs. induction d using doc_ind'; cbn [even lay]; intros Hn; auto; try contradiction; try tauto.
  - induction H; cbn in *; auto. destruct Hn. split; auto.
  - destruct Hn as (H1 & H2). split; auto. intros H. destruct usetabs; [rewrite H1 in H; auto; discriminate|apply aligned_QF].
  - intros H. congruence.
  - split; auto. intros H. destruct usetabs; [exfalso; apply Hn; auto|apply aligned_QF].
  - destruct Hn as (H1 & H2). split; auto. apply Forall_forall. intros m Hm H. rewrite Forall_forall in H1.
    destruct usetabs; [rewrite H1 in H; auto; discriminate|apply aligned_QF].
Qed.

Theorem C21_column_partial : forall limit usetabs n d st, wf n d -> even usetabs d ->
  Forall (fun t => no_tab_end (snd t)) (fst (texts d 0)) ->
  idx_ok (fun _ => True) n st -> o_mute st = 0%Z ->
  o_col st = display_col (rev (o_rev st)) 0 -> tail_aligned (o_rev st) ->
  let st' := doc_exec1 limit usetabs d st in
  o_col st' = display_col (rev (o_rev st')) 0 /\ tail_aligned (o_rev st') /\ o_mute st' = 0%Z.
Proof.
  intros limit usetabs n d st Hwf He Hok Hi Hm Hc Ht st'.
  assert (G : good tabs_aligned False True (fun _ => True) n d (doc_exec1 limit usetabs d)).
  { apply exec_good; auto; [apply aligned0| |apply even_lay; auto]. intros k c. rewrite strindent_false. apply aligned_spaces. }
  destruct (G st Hi) as (G1 & _ & _ & _). rewrite Hm in G1.
  destruct (emit_col _ _ _ _ _ G1 Hok Hm Hc Ht) as (E1 & E2 & E3). auto.
Qed.

(** A document's width is the width of what it prints. *)
Corollary C21_width_partial : forall limit usetabs n d, wf n d -> even usetabs d ->
  Forall (fun t => no_tab_end (snd t)) (fst (texts d 0)) ->
  doc_width limit usetabs d [] = display_col (rev (o_rev (doc_exec1 limit usetabs d (doc_state_init [] MUNGE)))) 0.
Proof.
  intros limit usetabs n d Hwf He Hok. unfold doc_width.
  apply (C21_column_partial limit usetabs n d (doc_state_init [] MUNGE)); auto.
  - split; [discriminate|auto].
  - intros run r' E. destruct run; discriminate.
Qed.

Definition ex21 : doc := Concat [Literal (b "a"); Align 4 1 false; Literal (b "b"); Indent 12 (Concat [Hardline; Literal (b "c"); NoIndent (Concat [])])].
Example C21_ex : wf 1 ex21 /\ even true ex21 /\ Forall (fun t => no_tab_end (snd t)) (fst (texts ex21 0)) /\
  (let st := doc_exec1 80 true ex21 (doc_state_init [] BREAK) in
   o_col st = 13 /\ rev (o_rev st) = b "a     b" ++ [NL; TAB; SP; SP; SP; SP] ++ b "c").
Proof.
  split; [cbn; intuition (discriminate || lia)|]. split; [cbn; intuition reflexivity|].
  split; [|vm_compute; split; reflexivity].
  change (fst (texts ex21 0)) with [(false, b "a"); (false, b "b"); (false, b "c")].
  repeat apply Forall_cons; try apply Forall_nil; left; intros [H|[]]; discriminate.
Qed.

Theorem C21_column_refuted : exists d1 d2,
  (let st := doc_exec1 80 true d1 (doc_state_init [] BREAK) in o_col st = 4 /\ rev (o_rev st) = b "ab" /\ o_mute st = 0%Z) /\
  (let st := doc_exec1 80 true d2 (doc_state_init [] BREAK) in o_col st = 0 /\ rev (o_rev st) = b "abc") /\
  (exists d3, let st := doc_exec1 80 true d3 (doc_state_init [] BREAK) in o_col st = 6 /\ rev (o_rev st) = []).
Proof.
  exists (Concat [Literal (b "ab"); Mute 1; Literal (b "cd"); Unmute (-1)]).
  exists (Concat [Literal (b "abc"); Align 8 0 true; NoIndent (Concat [])]).
  split; [vm_compute; auto|]. split; [vm_compute; auto|].
  exists (Concat [Align 8 1 true; Align 8 0 true; NoIndent (Concat [])]). vm_compute; auto.
Qed.

(** ** C22 *)
(** Executing a minimizer is executing the candidate with the lowest cost, earlier ones
    winning ties, as if no other had been tried.  Missing: forced candidates (below). *)
Theorem C22_best_partial : forall limit usetabs n id ms d st,
  wf n (Minimize id ms d) -> noforce (Minimize id ms d) -> quiet st -> o_idx st = None ->
  exists best v, nth_error ms best = Some (v, false) /\
    doc_exec1 limit usetabs (Minimize id ms d) st =
      set_idx None (doc_exec1 limit usetabs (Indent v d) (set_idx (Some best) st)) /\
    let ps := measures limit usetabs ms d st in
    exists p, nth_error ps best = Some p /\
    forall j q, nth_error ps j = Some q -> (cost ps p <= cost ps q)%Z /\ (j < best -> (cost ps p < cost ps q)%Z).
Proof. intros. eapply minimize_best; eauto. Qed.

(** In general trying candidates only ever leaves flags behind in the document: one
    of the candidates is executed from a state that is the original one otherwise. *)
Theorem C22_trials : forall limit usetabs n id ms d st, wf n (Minimize id ms d) -> o_idx st = None ->
  exists best v fl F bad mf, nth_error ms best = Some (v, fl) /\
    doc_exec1 limit usetabs (Minimize id ms d) st =
      set_idx None (doc_exec1 limit usetabs (Indent v d) (set_mforce mf (set_idx (Some best) (set_dbad bad (set_force F st))))) /\
    (mf = o_mforce st \/ mf = Some best).
Proof.
  intros limit usetabs n id ms d st (W1 & W2 & W3) Hi. cbn [doc_exec1]. unfold exec_minimize. rewrite Hi.
  pose proof (try_all_state usetabs id ms (doc_exec1 limit usetabs d) st (seq 0 (length ms)) st) as HS.
  pose proof (try_all_length usetabs id ms (doc_exec1 limit usetabs d) st (seq 0 (length ms)) st) as L.
  destruct (try_all usetabs id ms (doc_exec1 limit usetabs d) st (seq 0 (length ms)) st) as [ps st1]. cbn [fst snd] in *.
  destruct HS as (F & b0 & ->).
  { exists (o_force st), (o_bad st). destruct st; reflexivity. }
  rewrite seq_length in L. unfold best_of.
  set (qs := map _ ps). assert (Lq : length qs = n) by (unfold qs; rewrite map_length; lia). clearbody qs.
  destruct (pick_some (fun i => forced id ms i (set_dbad b0 (set_force F st))) qs 0 None) as (x & H1 & H2).
  { right. destruct qs; [simpl in Lq; lia|discriminate]. }
  { discriminate. }
  rewrite H1. cbn [Nat.add] in H2. unfold minimize1.
  destruct (nth_error ms x) as [[v fl]|] eqn:Ex; [|apply nth_error_None in Ex; lia].
  set (fd := forced _ _ _ _). exists x, v, fl, F, b0, (if fd then Some x else o_mforce st). split; auto.
  destruct fd; split; auto.
Qed.

(** The first forced candidate wins whatever the costs. *)
Theorem C22_forced : forall force ps i, length ps > i -> force i = true -> (forall j, j < i -> force j = false) ->
  best_of force ps = Some i.
Proof.
  intros force ps i Hi Hf Hn. unfold best_of. set (qs := map _ ps).
  assert (Lq : length qs = length ps) by (unfold qs; apply map_length). clearbody qs.
  destruct (pick_some force qs 0 None) as (x & H1 & H2).
  { right. destruct qs; [simpl in Lq; lia|discriminate]. }
  { discriminate. }
  rewrite H1. apply pick_spec in H1; [|discriminate]. f_equal. destruct H1 as [(_ & _ & K1 & K2) | (K & _)].
  - destruct (Nat.lt_trichotomy x i) as [H|[H|H]]; auto.
    + rewrite Hn in K1; auto. discriminate.
    + rewrite (K2 i) in Hf by lia. discriminate.
  - rewrite (K i) in Hf by lia. discriminate.
Qed.

Theorem C22_best_refuted : exists limit ms d best j p q,
  let ps := measures limit true ms d (doc_state_init [] BREAK) in
  nth_error ps best = Some p /\ nth_error ps j = Some q /\ (cost ps q < cost ps p)%Z /\
  fst (doc_exec limit true (Minimize 0 ms d) false []) = fst (doc_exec limit true (Indent (fst (nth best ms (0%Z, false))) d) false []) /\
  fst (doc_exec limit true (Minimize 0 ms d) false []) <> fst (doc_exec limit true (Indent (fst (nth j ms (0%Z, false))) d) false []).
Proof.
  exists 10, [(0%Z, false); (12%Z, true)], (Concat [Hardline; Literal (b "abcd")]), 1, 0, (1, 4%Z), (1, 0%Z).
  cbv zeta. split; [vm_compute; reflexivity|]. split; [vm_compute; reflexivity|]. split; [vm_compute; reflexivity|].
  split; [vm_compute; reflexivity|vm_compute; discriminate].
Qed.

Definition ex22 : doc := Concat [Hardline; Literal (b "abcd"); Softline; Literal (b "efgh")].
Definition ms22 : list (Z * bool) := [(4%Z, false); (2%Z, false); (0%Z, false); (0%Z, false)].
Example C22_ex : wf 4 (Minimize 0 ms22 ex22) /\ noforce (Minimize 0 ms22 ex22) /\ quiet (doc_state_init [] BREAK) /\
  measures 5 true ms22 ex22 (doc_state_init [] BREAK) = [(2, 6%Z); (2, 2%Z); (2, 0%Z); (2, 0%Z)] /\
  fst (doc_exec 5 true (Minimize 0 ms22 ex22) false []) = [NL] ++ b "abcd" ++ [NL] ++ b "efgh".
Proof.
  split; [cbn; intuition (discriminate || lia)|]. split; [cbn; repeat split; repeat constructor|].
  split; [split; reflexivity|]. split; vm_compute; reflexivity.
Qed.

Print Assumptions C17_texts.
Print Assumptions C17_strip.
Print Assumptions C18_clean.
Print Assumptions C19_runs_partial.
Print Assumptions C20_fits.
Print Assumptions C20_group.
Print Assumptions C21_column_partial.
Print Assumptions C22_best_partial.
Print Assumptions C22_trials.
Print Assumptions C22_forced.
