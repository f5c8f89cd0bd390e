(** Lemmas on the printer in diff mode. *)
From Verif Require Import Base StrModel StrProofs UtilModel UtilProofs LexModel LinesModel DocModel DocProofs DdocModel.
From Verif Require DiffModel.
Open Scope nat_scope.

(** Induction over documents. *)
Section DdocInd.
Variable P : ddoc -> Prop.
Hypothesis Hconcat : forall l, Forall P l -> P (DConcat l).
Hypothesis Hgroup : forall d, P d -> P (DGroup d).
Hypothesis Hindent : forall v d, P d -> P (DIndent v d).
Hypothesis Hnoindent : forall d, P d -> P (DNoIndent d).
Hypothesis Halign : forall i s t, P (DAlign i s t).
Hypothesis Hliteral : forall tk s, P (DLiteral tk s).
Hypothesis Hverbatim : forall tk, P (DVerbatim tk).
Hypothesis Hline : P DLine.
Hypothesis Hsoftline : P DSoftline.
Hypothesis Hhardline : P DHardline.
Hypothesis Hoptline : P DOptline.
Hypothesis Hmute : forall v, P (DMute v).
Hypothesis Hunmute : forall v, P (DUnmute v).
Hypothesis Hoptional : forall d, P d -> P (DOptional d).
Hypothesis Hminimize : forall id ms d, P d -> P (DMinimize id ms d).
Hypothesis Hscope : forall d, P d -> P (DScope d).
Hypothesis Hmaxlines : forall n d, P d -> P (DMaxlines n d).
Fixpoint ddoc_ind' (d : ddoc) : P d :=
  match d with
  | DConcat l => Hconcat l ((fix go l : Forall P l := match l with [] => Forall_nil P | d :: r => Forall_cons d (ddoc_ind' d) (go r) end) l)
  | DGroup d => Hgroup d (ddoc_ind' d)
  | DIndent v d => Hindent v d (ddoc_ind' d)
  | DNoIndent d => Hnoindent d (ddoc_ind' d)
  | DAlign i s t => Halign i s t
  | DLiteral tk s => Hliteral tk s
  | DVerbatim tk => Hverbatim tk
  | DLine => Hline
  | DSoftline => Hsoftline
  | DHardline => Hhardline
  | DOptline => Hoptline
  | DMute v => Hmute v
  | DUnmute v => Hunmute v
  | DOptional d => Hoptional d (ddoc_ind' d)
  | DMinimize id ms d => Hminimize id ms d (ddoc_ind' d)
  | DScope d => Hscope d (ddoc_ind' d)
  | DMaxlines n d => Hmaxlines n d (ddoc_ind' d)
  end.
End DdocInd.

(** ** Without diff mode it is the printer of DocModel *)
Section Off.
Variable limit : nat.
Variable usetabs : bool.
Variable inp : bytes.
Variable lx : lexer.
Variable chunks : list DiffModel.chunk.
Notation exec := (x_exec1 limit usetabs false inp lx chunks).
Notation old := (doc_exec1 limit usetabs).

Lemma print_off : forall s ind st, print_with limit usetabs s ind false (is_mute st) st = doc_print limit usetabs s ind st.
Proof. intros. unfold print_with, doc_print, print_at. rewrite andb_true_r. reflexivity. Qed.
Lemma mute_off : forall xs, x_is_mute false xs = is_mute (x_st xs).
Proof. intros. unfold x_is_mute, diff_is_mute. apply orb_false_r. Qed.
Lemma xprint_off : forall s ind xs, x_st (x_print limit usetabs false s ind false xs) = fst (doc_print limit usetabs s ind (x_st xs)).
Proof. intros. unfold x_print. cbn [on x_st]. rewrite mute_off, print_off. reflexivity. Qed.

Definition same (k : xstate -> xstate) (k' : dstate -> dstate) : Prop := forall xs, x_st (k xs) = k' (x_st xs).
Lemma indent_off : forall v k k', same k k' -> same (x_indent usetabs v k) (exec_indent usetabs v k').
Proof.
  intros v k k' H xs. unfold x_indent, exec_indent. destruct (is_indent INDENT_PARENS v); [cbn [on x_st]; rewrite H; reflexivity|].
  destruct (is_indent INDENT_FORCE v); [rewrite H; reflexivity|]. cbn [on x_st]. rewrite H. reflexivity.
Qed.
Lemma minimize1_off : forall id ms k k' i, same k k' -> same (x_minimize1 usetabs id ms k i) (minimize1 usetabs id ms k' i).
Proof. intros id ms k k' i H xs. unfold x_minimize1, minimize1. destruct (nth_error ms i) as [[v b]|]; [|reflexivity]. rewrite (indent_off v k k' H). reflexivity. Qed.
Lemma try_off : forall id ms k k' sn is xs, same k k' ->
  fst (x_try_all usetabs id ms k sn is xs) = fst (try_all usetabs id ms k' (x_st sn) is (x_st xs)) /\
  x_st (snd (x_try_all usetabs id ms k sn is xs)) = snd (try_all usetabs id ms k' (x_st sn) is (x_st xs)).
Proof.
  intros id ms k k' sn is. induction is as [|i r IH]; intros xs H; [split; reflexivity|]. cbn [x_try_all try_all].
  set (x0 := on _ xs). pose proof (minimize1_off id ms k k' i H x0) as M. change (set_idx (Some i) (set_mforce None (set_sexceeds 0%Z (set_slines 0 (x_st xs))))) with (x_st x0). rewrite <- M.
  set (x1 := x_minimize1 usetabs id ms k i x0) in *. set (y := set_xbad _ _).
  destruct (IH y H) as [A B]. change (x_st y) with (set_dbad (o_bad (x_st x1)) (set_force (match o_mforce (x_st x1) with Some _ => set_flag id i (o_force (x_st x1)) | None => o_force (x_st x1) end) (x_st sn))) in A, B.
  destruct (x_try_all usetabs id ms k sn r y), (try_all _ _ _ _ _ _ _). cbn [fst snd] in *. rewrite A. split; [reflexivity|exact B].
Qed.
Lemma minimize_off : forall id ms k k', same k k' -> same (x_minimize usetabs id ms k) (exec_minimize usetabs id ms k').
Proof.
  intros id ms k k' H xs. unfold x_minimize, exec_minimize. destruct (o_idx (x_st xs)); [apply minimize1_off, H|].
  destruct (try_off id ms k k' xs (seq 0 (length ms)) xs H) as [A B]. destruct (x_try_all _ _ _ _ _ _ _) as [ps x1], (try_all _ _ _ _ _ _ _) as [ps' s1]. cbn [fst snd] in *. subst ps' s1.
  destruct (best_of _ _); [|reflexivity]. cbn [on x_st]. rewrite (minimize1_off id ms k k' n H). reflexivity.
Qed.
Lemma exec_off : forall d, same (exec d) (old (erase d)).
Proof.
  unfold same. induction d as [l IH|d IH|v d IH|d IH|i s t|tk s|tk| | | | |v|v|d IH|id ms d IH|d IH|n d IH] using ddoc_ind'; intros xs.
  - cbn [x_exec1 erase doc_exec1]. revert xs. induction IH as [|d l H _ IHl]; intros xs; [reflexivity|]. cbn [List.map fold_left]. rewrite IHl, H. reflexivity.
  - cbn [x_exec1]. unfold group_enter. cbn [negb]. unfold group_leave. cbn [negb orb]. cbn [erase doc_exec1].
    destruct (match o_mode (x_st xs) with MUNGE => negb (o_refit (x_st xs)) | BREAK => false end); [apply IH|]. cbn [on x_st]. rewrite IH. reflexivity.
  - exact (indent_off v (exec d) (old (erase d)) IH xs).
  - cbn [x_exec1 erase doc_exec1 on x_st]. rewrite IH. reflexivity.
  - reflexivity.
  - cbn [x_exec1 erase doc_exec1]. rewrite xprint_off. destruct tk; reflexivity.
  - cbn [x_exec1 erase doc_exec1]. unfold x_verbatim, exec_verbatim, own_verb, diff_verbatim. rewrite mute_off. cbn [andb negb orb]. rewrite andb_true_r.
    destruct (is_mute (x_st xs)) eqn:M; [reflexivity|]. set (b := (1 <? _) && _). cbn [on x_st]. unfold diff_leave. cbn [Nat.eqb].
    set (x2 := if b && _ then _ else _). assert (E2 : x_st x2 = if b && (0 <? o_col (trim_spaces (x_st xs))) then set_newline true (trim_spaces (x_st xs)) else trim_spaces (x_st xs)) by (unfold x2; destruct (b && _); reflexivity).
    rewrite <- E2. rewrite <- xprint_off. destruct (b || is_newline (k_str tk)); reflexivity.
  - cbn [x_exec1 erase doc_exec1]. destruct (o_mode (x_st xs)); [apply xprint_off|]. cbn [on x_st]. rewrite mute_off, print_off. reflexivity.
  - cbn [x_exec1 erase doc_exec1]. destruct (o_mode (x_st xs)); [apply xprint_off|reflexivity].
  - apply xprint_off.
  - reflexivity.
  - cbn [x_exec1 erase doc_exec1]. unfold x_domute, exec_mute, mute_leave, mute_enter. cbn [negb diff_is_mute andb].
    set (x0 := if (_ =? _)%Z && _ then _ else _). assert (E0 : x_st x0 = x_st xs) by (unfold x0; destruct (_ && _); reflexivity). rewrite E0.
    destruct ((0 <? v)%Z || _); cbn [on x_st]; rewrite ?E0; match goal with |- context [(?a =? 0)%Z] => destruct (a =? 0)%Z end; cbn [on x_st]; rewrite ?E0; reflexivity.
  - cbn [x_exec1 erase doc_exec1]. unfold x_domute, exec_mute, mute_leave, mute_enter. cbn [negb diff_is_mute andb].
    set (x0 := if (_ =? _)%Z && _ then _ else _). assert (E0 : x_st x0 = x_st xs) by (unfold x0; destruct (_ && _); reflexivity). rewrite E0.
    destruct ((0 <? v)%Z || _); cbn [on x_st]; rewrite ?E0; match goal with |- context [(?a =? 0)%Z] => destruct (a =? 0)%Z end; cbn [on x_st]; rewrite ?E0; reflexivity.
  - cbn [x_exec1 erase doc_exec1 on x_st]. rewrite IH. reflexivity.
  - exact (minimize_off id ms (exec d) (old (erase d)) IH xs).
  - cbn [x_exec1 erase doc_exec1]. rewrite IH. reflexivity.
  - cbn [x_exec1 erase doc_exec1 on x_st]. rewrite IH. reflexivity.
Qed.
End Off.

(** ** What the printer does to the buffer: it adds at the end and trims blanks there *)
Definition has (B : bool) (Q : bytes) (st : dstate) : Prop := exists r, o_rev st = r ++ Q /\ (B = true -> Forall tb r).
Lemma has_same : forall B Q st st', o_rev st' = o_rev st -> has B Q st -> has B Q st'.
Proof. intros B Q st st' E (r & H & K). exists r. rewrite E. auto. Qed.
Lemma has_weak : forall B Q st, has B Q st -> has false Q st.
Proof. intros B Q st (r & H & _). exists r. split; [exact H|discriminate]. Qed.
Lemma has_put_blank : forall B Q w st st', o_rev st' = rev w ++ o_rev st -> Forall tb w -> has B Q st -> has B Q st'.
Proof. intros B Q w st st' E F (r & H & K). exists (rev w ++ r). rewrite E, H, app_assoc. split; [reflexivity|]. intros HB. apply Forall_app. split; [apply Forall_rev, F|auto]. Qed.
Lemma has_put : forall Q s st, has false Q st -> has false Q (put s st).
Proof. intros Q s st (r & H & _). exists (rev s ++ r). unfold put. cbn [set_rev o_rev]. rewrite rev_append_rev, H, app_assoc. split; [reflexivity|discriminate]. Qed.
Lemma trim_split : forall r c, exists w, Forall tb w /\ r = w ++ fst (trim_loop r c).
Proof.
  induction r as [|x r IH]; intros c; cbn [trim_loop]; [exists []; split; constructor|].
  destruct ((x =c SP) || (x =c TAB)) eqn:E; [|exists []; split; [constructor|reflexivity]].
  destruct (IH (c - (if (if x =c TAB then 8 - c mod 8 else 1) <? c then (if x =c TAB then 8 - c mod 8 else 1) else c))) as (w & F & W).
  exists (x :: w). split; [|cbn [app]; f_equal; exact W]. constructor; [|exact F]. apply orb_true_iff in E. destruct E as [E|E]; apply Ascii.eqb_eq in E; [left|right]; exact E.
Qed.
Lemma trim_eq : forall st, o_rev (trim_spaces st) = fst (trim_loop (o_rev st) (o_col st)).
Proof. intros. unfold trim_spaces. destruct (trim_loop _ _). reflexivity. Qed.
Lemma suffix_app : forall (w t r Q : bytes), w ++ t = r ++ Q -> (exists r', r = w ++ r' /\ t = r' ++ Q) \/ (exists c w' w'', w = r ++ c :: w' /\ Q = c :: w' ++ w'' /\ t = w'').
Proof.
  induction w as [|x w IH]; intros t r Q E; [left; exists r; split; [reflexivity|exact E]|].
  destruct r as [|y r].
  - right. exists x, w, t. split; [reflexivity|]. split; [symmetry; exact E|reflexivity].
  - cbn [app] in E. injection E as -> E. destruct (IH t r Q E) as [(r' & -> & ->)|(c & w' & w'' & -> & -> & ->)]; [left; exists r'; auto|right; exists c, w', w''; auto].
Qed.
Lemma has_trim : forall B Q st, nonblank_top Q -> has B Q st -> has B Q (trim_spaces st).
Proof.
  intros B Q st HQ (r & H & K). destruct (trim_split (o_rev st) (o_col st)) as (w & F & E). rewrite <- trim_eq in E. rewrite H in E. symmetry in E.
  destruct (suffix_app _ _ _ _ E) as [(r' & -> & E')|(c & w' & w'' & -> & -> & _)].
  - exists r'. split; [exact E'|]. intros HB. apply K in HB. apply Forall_app in HB. tauto.
  - exfalso. apply Forall_app in F. destruct F as [_ F]. inversion F as [|? ? G]; subst. exact (HQ c (w' ++ w'') eq_refl G).
Qed.
Lemma rev_indent1 : forall n t st, exists w, Forall tb w /\ o_rev (print_indent1 n t st) = rev w ++ o_rev st.
Proof.
  intros. unfold print_indent1. destruct (strindent n t (o_col st)) as [o p] eqn:E. apply strindent_spec in E. destruct E as (_ & E2 & _). exists o. split.
  - eapply Forall_impl; [|exact E2]. unfold tb. tauto.
  - unfold put. cbn. apply rev_append_rev.
Qed.
Lemma has_indent1 : forall B Q n t st, has B Q st -> has B Q (print_indent1 n t st).
Proof. intros B Q n t st H. destruct (rev_indent1 n t st) as (w & F & E). exact (has_put_blank B Q w st _ E F H). Qed.
Lemma has_indent : forall B Q u n st, has B Q st -> has B Q (print_indent u n st).
Proof. intros B Q u n st H. unfold print_indent. destruct (0 <? o_parens st); apply has_indent1; exact H. Qed.
Lemma has_align : forall B Q i s t st, has B Q st -> has B Q (exec_align i s t st).
Proof.
  intros B Q i s t st H. unfold exec_align. destruct t; apply has_indent1; [|exact H]. generalize i at 2. revert st H. induction i as [|f IH]; intros st H n; cbn [align_tabs]; [exact H|].
  destruct n; [exact H|]. apply IH. apply has_indent1, H.
Qed.

Section Print.
Variable limit : nat.
Variable usetabs : bool.

Lemma rev_column : forall s st, o_rev (doc_column limit s st) = o_rev st.
Proof. reflexivity. Qed.
Lemma has_now : forall B Q s ind pend mute st, nonblank_top Q -> (B = true -> mute = true) -> has B Q st -> has B Q (print_now limit usetabs s ind pend mute st).
Proof.
  intros B Q s ind pend mute st HQ HB H. unfold print_now. destruct (is_newline s).
  - destruct (o_maxlines st <=? o_nlines st); [exact H|].
    set (s2 := if negb pend && _ then _ else _). assert (H2 : has B Q s2) by (unfold s2; destruct (negb pend && _); exact H).
    set (s4 := match o_mforce _ with Some _ => _ | None => _ end). assert (H4 : has B Q s4) by (unfold s4; destruct (o_mforce _); apply (has_trim B Q s2 HQ H2)).
    set (s5 := doc_column limit s _). assert (H5 : has B Q s5).
    { unfold s5. eapply has_same; [apply rev_column|]. destruct mute; [exact H4|]. destruct B; [discriminate (HB eq_refl)|]. apply has_put, H4. }
    destruct ind; [apply has_indent|]; exact H5.
  - eapply has_same; [apply rev_column|]. destruct mute; [exact H|]. destruct B; [discriminate (HB eq_refl)|]. apply has_put, H.
Qed.
Lemma has_at : forall B Q s ind pend f mute st, nonblank_top Q -> (B = true -> mute = true) -> has B Q st -> has B Q (print_at limit usetabs s ind pend f mute st).
Proof. intros B Q s ind pend f mute st HQ HB H. unfold print_at. destruct f; apply (has_now B Q s ind pend mute st HQ HB H). Qed.
Lemma has_print : forall B Q s ind f mute st, nonblank_top Q -> (B = true -> mute = true /\ f = false) -> has B Q st -> has B Q (fst (print_with limit usetabs s ind f mute st)).
Proof.
  intros B Q s ind f mute st HQ HB H. unfold print_with. assert (HM : B = true -> mute && negb f = true) by (intros E; destruct (HB E) as [-> ->]; reflexivity).
  set (m := mute && negb f) in *. clearbody m. set (s1 := if is_newline s && m then _ else _). assert (H1 : has B Q s1) by (unfold s1; destruct (is_newline s && m); exact H).
  destruct (o_newline s1); [|apply has_at; auto]. destruct (beq s [SP]); [exact H1|].
  match goal with |- context [print_at _ _ [NL] ind true f m ?y] => set (y1 := y) end. assert (HY : has B Q y1) by (unfold y1; destruct m; exact H1).
  assert (H3 := has_at B Q [NL] ind true f m y1 HQ HM HY). destruct (is_newline s); [exact H3|]. apply has_at; auto.
Qed.
End Print.

(** ** What it restores: the indent, the parentheses and the number of lines allowed *)
Definition frame (st : dstate) : nat * nat * nat := (o_cur st, o_parens st, o_maxlines st).
Lemma frame_inv : forall a b, frame a = frame b -> o_cur a = o_cur b /\ o_parens a = o_parens b /\ o_maxlines a = o_maxlines b.
Proof. unfold frame. intros a b H. inversion H. auto. Qed.
Lemma frame_trim : forall st, frame (trim_spaces st) = frame st.
Proof. intros. unfold trim_spaces. destruct (trim_loop _ _). reflexivity. Qed.
Lemma frame_indent1 : forall n t st, frame (print_indent1 n t st) = frame st.
Proof. intros. unfold print_indent1. destruct (strindent _ _ _). reflexivity. Qed.
Lemma frame_indent : forall u n st, frame (print_indent u n st) = frame st.
Proof. intros. unfold print_indent. destruct (_ <? _); rewrite frame_indent1; reflexivity. Qed.
Lemma frame_align : forall i s t st, frame (exec_align i s t st) = frame st.
Proof.
  intros i s t st. unfold exec_align. destruct t; rewrite frame_indent1; [|reflexivity]. generalize i at 2. revert st. induction i as [|f IH]; intros st n; cbn [align_tabs]; [reflexivity|].
  destruct n; [reflexivity|]. rewrite IH. apply frame_indent1.
Qed.
Section Frame.
Variable limit : nat.
Variable usetabs : bool.
Lemma frame_now : forall s ind pend mute st, frame (print_now limit usetabs s ind pend mute st) = frame st.
Proof.
  intros. unfold print_now. destruct (is_newline s).
  - destruct (o_maxlines st <=? o_nlines st); [reflexivity|].
    set (s2 := if negb pend && _ then _ else _). assert (H2 : frame s2 = frame st) by (unfold s2; destruct (negb pend && _); reflexivity).
    set (s4 := match o_mforce _ with Some _ => _ | None => _ end). assert (H4 : frame s4 = frame st).
    { unfold s4. destruct (o_mforce _); [change (frame (set_idx None (trim_spaces s2))) with (frame (trim_spaces s2))|]; rewrite frame_trim; exact H2. }
    set (s5 := doc_column limit s _). assert (H5 : frame s5 = frame st) by (unfold s5; destruct mute; exact H4).
    destruct ind; [rewrite frame_indent|]; exact H5.
  - destruct mute; reflexivity.
Qed.
Lemma frame_at : forall s ind pend f mute st, frame (print_at limit usetabs s ind pend f mute st) = frame st.
Proof. intros. unfold print_at. destruct f; [change (frame (set_slines (o_slines st) ?x)) with (frame x)|]; apply frame_now. Qed.
Lemma frame_print : forall s ind f mute st, frame (fst (print_with limit usetabs s ind f mute st)) = frame st.
Proof.
  intros. unfold print_with. set (m := mute && negb f). clearbody m. set (s1 := if is_newline s && m then _ else _). assert (H1 : frame s1 = frame st) by (unfold s1; destruct (is_newline s && m); reflexivity).
  destruct (o_newline s1); [|cbn [fst]; rewrite frame_at; exact H1]. destruct (beq s [SP]); [exact H1|].
  match goal with |- context [print_at _ _ [NL] ind true f m ?y] => set (y1 := y) end. assert (HY : frame y1 = frame st) by (unfold y1; destruct m; exact H1).
  destruct (is_newline s); cbn [fst]; rewrite ?frame_at; exact HY.
Qed.
End Frame.
