(** Indentation: C59. *)
From Verif Require Import Base StrModel UtilModel UtilProofs DocModel DocProofs DocEmit DocFit DocMin DocProps.

(** * Specification *)

(** The blanks that make up a given number of columns at the beginning of a line. *)
Definition blanks (tabs : bool) (i : nat) : bytes := if tabs then repeat TAB (i / 8) ++ repeat SP (i mod 8) else repeat SP i.
(** Without spaces and tabs at the end. *)
Fixpoint drop_blanks (s : bytes) : bytes := match s with c :: r => if (c =c SP) || (c =c TAB) then drop_blanks r else s | [] => [] end.
Definition rtrim (s : bytes) : bytes := rev (drop_blanks (rev s)).
Definition broken (tabs : bool) (i : nat) (s : bytes) : bytes := rtrim s ++ NL :: blanks tabs i.

(** What a document asks for: texts and places where the line may or must be broken, each
    with the indentation in force there.  A minimizer may choose any of its candidates. *)
Inductive event : Type := Txt (i : nat) (t : bytes) | Lin (i : nat) | Soft (i : nat) | Hard (i : nat) | Opt | Flush.
Definition shift (v : Z) (i : nat) : nat := Z.to_nat (Z.of_nat i + v).
Inductive events : nat -> doc -> list event -> Prop :=
| V_nil : forall i, events i (Concat []) []
| V_cons : forall i d l a b, events i d a -> events i (Concat l) b -> events i (Concat (d :: l)) (a ++ b)
| V_group : forall i d a, events i d a -> events i (Group d) a
| V_indent : forall i v d a, events (shift v i) d a -> events i (Indent v d) a
| V_noindent : forall i d a, events 0 d a -> events i (NoIndent d) (Flush :: a)
| V_text : forall i t, events i (Literal t) [Txt i t]
| V_line : forall i, events i DocModel.Line [Lin i]
| V_soft : forall i, events i Softline [Soft i]
| V_hard : forall i, events i Hardline [Hard i]
| V_optline : forall i, events i Optline [Opt]
| V_optional : forall i d a, events i d a -> events i (Optional d) a
| V_minimize : forall i id ms d v f a, In (v, f) ms -> events (shift v i) d a -> events i (Minimize id ms d) a
| V_scope : forall i d a, events i d a -> events i (Scope d) a
| V_maxlines : forall i n d a, events i d a -> events i (Maxlines n d) a.

(** [lay tabs buf es out s o]: [out] ends with the last text of [es] and [s] is the white
    space after it.  A line broken at indentation [i] goes on with the blanks for [i]
    instead of the white space at the end of the line.  Line breaks beyond the first may be
    dropped (C19); [o] tells that an optional one may be pending. *)
Inductive lay (tabs : bool) (buf : bytes) : list event -> bytes -> bytes -> bool -> Prop :=
| lay_nil : lay tabs buf [] buf [] false
| lay_text : forall es out s o i t, lay tabs buf es out s o -> lay tabs buf (es ++ [Txt i t]) (out ++ s ++ t) [] false
| lay_text_opt : forall es out s i t, lay tabs buf es out s true -> lay tabs buf (es ++ [Txt i t]) (out ++ broken tabs i s ++ t) [] false
| lay_space : forall es out s o i, lay tabs buf es out s o -> lay tabs buf (es ++ [Lin i]) out (s ++ [SP]) o
| lay_nospace : forall es out s i, lay tabs buf es out s true -> lay tabs buf (es ++ [Lin i]) out s true
| lay_nothing : forall es out s o i, lay tabs buf es out s o -> lay tabs buf (es ++ [Soft i]) out s o
| lay_break : forall es out s o i e, lay tabs buf es out s o -> In e [Lin i; Soft i; Hard i] -> lay tabs buf (es ++ [e]) out (broken tabs i s) o
| lay_enough : forall es out s o i e, lay tabs buf es out s o -> In e [Lin i; Soft i; Hard i] -> In NL s -> lay tabs buf (es ++ [e]) out s o
| lay_opt : forall es out s o o', lay tabs buf es out s o -> (o = true -> o' = true) -> lay tabs buf (es ++ [Opt]) out s o'
| lay_flush : forall es out s o, lay tabs buf es out s o -> lay tabs buf (es ++ [Flush]) out (rtrim s) o.

(** Ordinary documents: without verbatim and muted parts, alignment and the special indents
    of doc.h; texts are not empty, on one line and do not end with a blank. *)
Definition word (t : bytes) : Prop := ~ In NL t /\ exists x c, t = x ++ [c] /\ c <> SP /\ c <> TAB.
Fixpoint ordinary (d : doc) : Prop :=
  match d with
  | Concat l => fold_right (fun d P => ordinary d /\ P) True l
  | Group d | NoIndent d | Optional d | Scope d => ordinary d
  | Indent v d => (v < INDENT_WIDTH)%Z /\ ordinary d
  | Minimize _ ms d => Forall (fun m => (fst m < INDENT_WIDTH)%Z) ms /\ ordinary d
  | Maxlines n d => 1 <= n /\ ordinary d
  | Literal t => word t
  | DocModel.Line | Softline | Hardline | Optline => True
  | _ => False
  end.

(** * Proof *)

Section Indent.
Variable limit : nat.
Variable usetabs : bool.
Notation exec := (doc_exec1 limit usetabs).

(** ** What is restored *)
Definition kept (st st' : dstate) : Prop := o_cur st' = o_cur st /\ o_parens st' = o_parens st /\ o_maxlines st' = o_maxlines st /\ o_mode st' = o_mode st.
Lemma kept_refl : forall st, kept st st. Proof. repeat split. Qed.
Lemma kept_trans : forall a b c, kept a b -> kept b c -> kept a c.
Proof. unfold kept. intros a b c (H1 & H2 & H3 & H4) (K1 & K2 & K3 & K4). repeat split; congruence. Qed.
Lemma kept_indent1 : forall n t st, kept st (print_indent1 n t st).
Proof. intros n t st. unfold print_indent1. destruct (strindent n t (o_col st)). repeat split. Qed.
Lemma kept_indent : forall n st, kept st (print_indent usetabs n st).
Proof.
  intros n st. unfold print_indent. destruct (0 <? o_parens st); [apply kept_indent1|]. eapply kept_trans; [|apply kept_indent1]. repeat split.
Qed.
Lemma kept_trim : forall st, kept st (trim_spaces st).
Proof. intros st. unfold trim_spaces. destruct (trim_loop (o_rev st) (o_col st)). repeat split. Qed.
Lemma kept_column : forall s st, kept st (doc_column limit s st). Proof. repeat split. Qed.
Lemma kept_put : forall s st, kept st (put s st). Proof. repeat split. Qed.
Lemma kept_text : forall s (m : bool) st, kept st (doc_column limit s (if m then st else put s st)).
Proof. intros s [] st; repeat split. Qed.
Lemma kept_now : forall s ind pend m st, kept st (print_now limit usetabs s ind pend m st).
Proof.
  intros s ind pend m st. unfold print_now. destruct (is_newline s).
  - destruct (o_maxlines st <=? o_nlines st); [apply kept_refl|]. cbv zeta.
    match goal with |- kept st (if ind then print_indent _ _ ?x else ?x) => assert (K : kept st x) end.
    { eapply kept_trans; [|apply kept_text].
      match goal with |- kept st (match o_mforce ?x with _ => _ end) => assert (K : kept st x) end.
      { eapply kept_trans; [|apply kept_trim]. destruct (negb pend && _); repeat split. }
      destruct (o_mforce _); exact K. }
    destruct ind; [|exact K]. eapply kept_trans; [exact K|apply kept_indent].
  - eapply kept_trans; [|apply kept_text]. repeat split.
Qed.
Lemma kept_print : forall s ind st, kept st (fst (doc_print limit usetabs s ind st)).
Proof.
  intros s ind st. unfold doc_print. cbv zeta. set (st1 := if is_newline s && is_mute st then set_muteline true st else st). assert (K : kept st st1) by (unfold st1; destruct (is_newline s && is_mute st); repeat split). clearbody st1.
  destruct (o_newline st1); [|eapply kept_trans; [exact K|apply kept_now]]. destruct (beq s [SP]); [exact K|].
  match goal with |- kept st (fst (if _ then (?y, true) else _)) => assert (K3 : kept st y) end.
  { eapply kept_trans; [|apply kept_now]. eapply kept_trans; [exact K|]. destruct (is_mute st); repeat split. }
  destruct (is_newline s); [exact K3|]. eapply kept_trans; [exact K3|apply kept_now].
Qed.
Lemma kept_exec_indent : forall v k, (forall st, kept st (k st)) -> forall st, kept st (exec_indent usetabs v k st).
Proof.
  intros v k K st. unfold exec_indent. destruct (is_indent INDENT_PARENS v).
  - destruct (K (if parens_align st then set_parens (S (o_parens st)) st else st)) as (K1 & _ & K3 & K4). destruct (parens_align st); repeat split; assumption.
  - destruct (is_indent INDENT_FORCE v); [eapply kept_trans; [apply kept_indent|apply K]|]. cbv zeta.
    match goal with |- kept st (set_cur _ (k ?x)) => destruct (K x) as (_ & K2 & K3 & K4); assert (Q : o_parens x = o_parens st /\ o_maxlines x = o_maxlines st /\ o_mode x = o_mode st) end.
    { destruct (is_indent INDENT_NEWLINE v); [destruct (0 <? o_slines st); repeat split|]. destruct (is_indent INDENT_WIDTH v); [destruct (negb (o_newline st)); repeat split|]. destruct (0 <? v)%Z; repeat split. }
    destruct Q as (Q1 & Q2 & Q3). split; [reflexivity|]. split; [exact (eq_trans K2 Q1)|]. split; [exact (eq_trans K3 Q2)|exact (eq_trans K4 Q3)].
Qed.
Lemma kept_minimize1 : forall id ms k i, (forall st, kept st (k st)) -> forall st, kept st (minimize1 usetabs id ms k i st).
Proof.
  intros id ms k i K st. unfold minimize1. destruct (nth_error ms i) as [[v f]|]; [|repeat split]. eapply kept_trans; [|apply kept_exec_indent, K]. destruct (forced id ms i st); repeat split.
Qed.
Lemma kept_all : forall id ms k sn is st, kept sn st -> kept sn (snd (try_all usetabs id ms k sn is st)).
Proof.
  induction is as [|i r IH]; intros st K; [exact K|]. cbn [try_all]. cbv zeta.
  match goal with |- context [try_all usetabs id ms k sn r ?x] => specialize (IH x); destruct (try_all usetabs id ms k sn r x) as [ps st2] end. apply IH. repeat split.
Qed.
Lemma kept_exec : forall d st, kept st (exec d st).
Proof.
  induction d using doc_ind'; intros st; cbn [doc_exec1]; try apply kept_refl.
  - revert st. induction H as [|d l H _ IH]; intros st; [apply kept_refl|]. cbn [fold_left]. eapply kept_trans; [apply H|apply IH].
  - destruct (match o_mode st with MUNGE => negb (o_refit st) | BREAK => false end); [apply IHd|]. cbv zeta.
    match goal with |- kept st (set_mode _ (exec d ?x)) => destruct (IHd x) as (K1 & K2 & K3 & _) end. repeat split; assumption.
  - apply kept_exec_indent, IHd.
  - cbv zeta. match goal with |- kept st (set_pre _ (set_cur _ (exec d ?x))) => destruct (IHd x) as (_ & K2 & K3 & K4) end. destruct (kept_trim st) as (T1 & T2 & T3 & T4).
    split; [exact T1|]. split; [exact (eq_trans K2 T2)|]. split; [exact (eq_trans K3 T3)|exact (eq_trans K4 T4)].
  - unfold exec_align. match goal with |- kept _ (if ?t then _ else _) => destruct t end; [|apply kept_indent1]. eapply kept_trans; [|apply kept_indent1].
    assert (A : forall f n st, kept st (align_tabs f n st)).
    { induction f as [|f IH]; intros n st0; [apply kept_refl|]. destruct n; [apply kept_refl|]. cbn [align_tabs]. cbv zeta. eapply kept_trans; [apply kept_indent1|apply IH]. }
    apply A.
  - apply kept_print.
  - unfold exec_verbatim. destruct (is_mute st); [apply kept_refl|]. cbv zeta.
    match goal with |- kept st (if _ then print_indent _ _ ?x else ?x) => assert (K : kept st x) end.
    { eapply kept_trans; [|apply kept_print]. eapply kept_trans; [apply kept_trim|]. destruct (_ && _); repeat split. }
    destruct (_ || _); [|exact K]. eapply kept_trans; [exact K|apply kept_indent].
  - destruct (o_mode st); [apply kept_print|]. pose proof (kept_print [SP] true st) as K. destruct (doc_print limit usetabs [SP] true st) as [st1 []]; exact K.
  - destruct (o_mode st); [apply kept_print|apply kept_refl].
  - apply kept_print.
  - destruct (0 <? o_optline st); repeat split.
  - unfold exec_mute. destruct ((0 <? v)%Z || _); destruct (_ =? 0)%Z; repeat split.
  - unfold exec_mute. destruct ((0 <? v)%Z || _); destruct (_ =? 0)%Z; repeat split.
  - cbv zeta. pose proof (IHd (set_optline (S (o_optline st)) st)) as K. destruct (_ <=? _); exact K.
  - unfold exec_minimize. destruct (o_idx st) as [i|]; [apply kept_minimize1, IHd|].
    pose proof (kept_all id ms (exec d) st (seq 0 (length ms)) st (kept_refl st)) as K. destruct (try_all usetabs id ms (exec d) st (seq 0 (length ms)) st) as [ps st1]. cbn [snd] in K.
    destruct (best_of _ ps) as [best|]; [|exact K]. pose proof (kept_minimize1 id ms (exec d) best IHd (set_idx (Some best) st1)) as K2. exact (kept_trans _ _ _ K K2).
  - exact (IHd (set_slines 0 st)).
  - destruct (IHd (set_maxlines n st)) as (K1 & K2 & K3 & K4). repeat split; assumption.
Qed.

(** ** White space *)
Definition is_blank (c : byte) : bool := (c =c SP) || (c =c TAB).
Lemma tb_blank : forall c, is_blank c = true <-> tb c.
Proof. intros c. unfold is_blank, tb. rewrite orb_true_iff, !Ascii.eqb_eq. reflexivity. Qed.
Definition solid (out : bytes) : Prop := nonblank_top (rev out).
Lemma drop_solid : forall x, nonblank_top x -> drop_blanks x = x.
Proof.
  intros [|c r] H; [reflexivity|]. cbn [drop_blanks]. fold (is_blank c). destruct (is_blank c) eqn:E; [|reflexivity]. apply tb_blank in E. destruct (H c r eq_refl E).
Qed.
Lemma drop_app : forall a x, nonblank_top x -> drop_blanks (a ++ x) = drop_blanks a ++ x.
Proof.
  induction a as [|c a IH]; intros x H; [exact (drop_solid x H)|]. cbn [app drop_blanks]. fold (is_blank c). destruct (is_blank c); [apply IH, H|reflexivity].
Qed.
Lemma rtrim_app : forall out s, solid out -> rtrim (out ++ s) = out ++ rtrim s.
Proof. intros out s H. unfold rtrim. rewrite rev_app_distr, (drop_app _ _ H), rev_app_distr, rev_involutive. reflexivity. Qed.
Lemma trim_fst : forall r c, fst (trim_loop r c) = drop_blanks r.
Proof. induction r as [|x r IH]; intros c; [reflexivity|]. cbn [trim_loop drop_blanks]. destruct ((x =c SP) || (x =c TAB)); [apply IH|reflexivity]. Qed.
Lemma trim_out : forall st, rev (o_rev (trim_spaces st)) = rtrim (rev (o_rev st)).
Proof.
  intros st. unfold trim_spaces, rtrim. rewrite rev_involutive, <- (trim_fst (o_rev st) (o_col st)). destruct (trim_loop (o_rev st) (o_col st)). reflexivity.
Qed.
Lemma rtrim_bn : forall s, Forall bn s -> Forall bn (rtrim s).
Proof.
  intros s H. unfold rtrim. apply Forall_rev. apply Forall_rev in H. induction (rev s) as [|c r IH]; [constructor|]. cbn [drop_blanks]. destruct ((c =c SP) || (c =c TAB)); [apply IH; inversion H; assumption|exact H].
Qed.
Lemma rtrim_in : forall s, In NL s -> In NL (rtrim s).
Proof.
  intros s H. unfold rtrim. rewrite <- in_rev. apply in_rev in H. induction (rev s) as [|c r IH]; [destruct H|]. cbn [drop_blanks].
  destruct ((c =c SP) || (c =c TAB)) eqn:E; [|exact H]. destruct H as [H|H]; [subst c; discriminate E|apply IH, H].
Qed.
Lemma blanks_tb : forall i, Forall tb (blanks usetabs i).
Proof.
  intros i. unfold blanks. destruct usetabs; [apply Forall_app; split|]; apply Forall_forall; intros c H; apply repeat_spec in H; subst c; unfold tb; auto.
Qed.
Lemma blanks_bn : forall i, Forall bn (blanks usetabs i).
Proof. intros i. eapply Forall_impl; [|apply blanks_tb]. intros c H. left. exact H. Qed.
Lemma strindent_blanks : forall i pos, fst (strindent i usetabs pos) = blanks usetabs i.
Proof.
  intros i pos. destruct (strindent i usetabs pos) as [o p] eqn:E. apply strindent_spec in E. destruct E as (_ & _ & E1 & E2 & _). cbn [fst]. unfold blanks. destruct usetabs; [|auto].
  destruct (E2 eq_refl) as (t & s & -> & L & Q). assert (t = i / 8) by (apply (Nat.div_unique i 8 t s); lia). assert (s = i mod 8) by (apply (Nat.mod_unique i 8 t s); lia). congruence.
Qed.
Lemma put_out : forall s st, rev (o_rev (put s st)) = rev (o_rev st) ++ s.
Proof. intros s st. cbn [put set_rev o_rev]. rewrite rev_append_rev, rev_app_distr, rev_involutive. reflexivity. Qed.
Lemma indent_out : forall i st, o_parens st = 0 -> rev (o_rev (print_indent usetabs i st)) = rev (o_rev st) ++ blanks usetabs i.
Proof.
  intros i st P. unfold print_indent. rewrite P. cbn [Nat.ltb Nat.leb]. unfold print_indent1. rewrite <- (strindent_blanks i (o_col (set_pre i st))). destruct (strindent i usetabs (o_col (set_pre i st))) as [w c].
  change (rev (o_rev (put w (set_pre i st))) = rev (o_rev st) ++ fst (w, c)). rewrite put_out. reflexivity.
Qed.
Lemma broken_bn : forall i s, Forall bn s -> Forall bn (broken usetabs i s).
Proof. intros i s H. unfold broken. apply Forall_app. split; [apply rtrim_bn, H|]. constructor; [right; reflexivity|apply blanks_bn]. Qed.
Lemma broken_in : forall i s, In NL (broken usetabs i s).
Proof. intros i s. apply in_or_app. right. left. reflexivity. Qed.

(** ** Printing *)
Definition at_ (buf : bytes) (es : list event) (st : dstate) : Prop := exists out s o,
  lay usetabs buf es out s o /\ rev (o_rev st) = out ++ s /\ solid out /\ Forall bn s /\ (1 <= o_nlines st -> In NL s) /\ (o_newline st = true -> o = true) /\
  o_mute st = 0%Z /\ o_parens st = 0 /\ 1 <= o_maxlines st.

Ltac fields := repeat match goal with |- context [print_indent usetabs ?n ?x] => unfold print_indent, print_indent1 end.
Lemma indent_same : forall i st, o_nlines (print_indent usetabs i st) = o_nlines st /\ o_newline (print_indent usetabs i st) = o_newline st /\ o_mute (print_indent usetabs i st) = o_mute st.
Proof.
  intros i st. unfold print_indent, print_indent1. destruct (0 <? o_parens st); [destruct (strindent (o_pre st + o_parens st) usetabs (o_col st))|destruct (strindent i usetabs (o_col (set_pre i st)))]; auto.
Qed.
Lemma trim_same' : forall st, o_nlines (trim_spaces st) = o_nlines st /\ o_newline (trim_spaces st) = o_newline st /\ o_mute (trim_spaces st) = o_mute st /\ o_mforce (trim_spaces st) = o_mforce st.
Proof. intros st. unfold trim_spaces. destruct (trim_loop (o_rev st) (o_col st)). auto. Qed.
Lemma now_nl : forall pend st out s, rev (o_rev st) = out ++ s -> solid out -> Forall bn s -> (1 <= o_nlines st -> In NL s) -> o_parens st = 0 -> 1 <= o_maxlines st ->
  let st' := print_now limit usetabs [NL] true pend false st in
  o_newline st' = o_newline st /\ o_mute st' = o_mute st /\
  exists s', rev (o_rev st') = out ++ s' /\ Forall bn s' /\ (1 <= o_nlines st' -> In NL s') /\ ((s' = s /\ In NL s) \/ s' = broken usetabs (o_cur st) s).
Proof.
  intros pend st out s R S B N P M. cbv zeta. unfold print_now. change (is_newline [NL]) with true. cbv iota. destruct (Nat.leb_spec (o_maxlines st) (o_nlines st)) as [L|L].
  - split; [reflexivity|]. split; [reflexivity|]. exists s. repeat split; auto. left. split; [reflexivity|apply N; lia].
  - cbv zeta.
    match goal with |- context [trim_spaces ?x] => set (st2 := x); assert (Q : kept st st2 /\ rev (o_rev st2) = out ++ s /\ o_newline st2 = o_newline st /\ o_mute st2 = o_mute st) end.
    { unfold st2. destruct (negb pend && _); repeat split; auto. }
    clearbody st2. destruct Q as (Q1 & Q2 & Q3 & Q4). pose proof (trim_out st2) as T. pose proof (trim_same' st2) as (_ & T2 & T3 & _). pose proof (kept_trans _ _ _ Q1 (kept_trim st2)) as K. set (st3 := trim_spaces st2) in *. clearbody st3.
    set (st4 := match o_mforce st3 with Some _ => set_idx None st3 | None => st3 end).
    assert (Q : kept st st4 /\ rev (o_rev st4) = rtrim (rev (o_rev st2)) /\ o_newline st4 = o_newline st /\ o_mute st4 = o_mute st).
    { unfold st4. destruct (o_mforce st3); (split; [exact K|]); (split; [exact T|]); split; [exact (eq_trans T2 Q3)|exact (eq_trans T3 Q4)|exact (eq_trans T2 Q3)|exact (eq_trans T3 Q4)]. }
    clearbody st4. destruct Q as ((K1 & K2 & _ & _) & U & U2 & U3).
    match goal with |- context [print_indent usetabs _ ?x] => set (st5 := x) end.
    assert (W : rev (o_rev st5) = rev (o_rev st4) ++ [NL]) by exact (put_out [NL] st4). assert (W2 : o_cur st5 = o_cur st /\ o_parens st5 = 0 /\ o_newline st5 = o_newline st /\ o_mute st5 = o_mute st).
    { repeat split; [exact K1|exact (eq_trans K2 P)|exact U2|exact U3]. }
    clearbody st5. destruct W2 as (W2 & W3 & W4 & W5). destruct (indent_same (o_cur st5) st5) as (I1 & I2 & I3).
    split; [exact (eq_trans I2 W4)|]. split; [exact (eq_trans I3 W5)|]. exists (broken usetabs (o_cur st) s).
    split; [|split; [apply broken_bn, B|split; [intros _; apply broken_in|right; reflexivity]]].
    rewrite (indent_out _ _ W3), W, U, Q2, (rtrim_app _ _ S), W2. unfold broken. rewrite <- !app_assoc. reflexivity.
Qed.
Lemma word_not : forall t, word t -> is_newline t = false /\ beq t [SP] = false.
Proof.
  intros t (H & x & c & -> & C1 & C2). split.
  - destruct (is_newline (x ++ [c])) eqn:E; [|reflexivity]. apply is_newline_eq in E. rewrite E in H. destruct H. left. reflexivity.
  - destruct (beq (x ++ [c]) [SP]) eqn:E; [|reflexivity]. apply beq_eq in E. destruct x as [|y x]; [injection E as E; contradiction|]. injection E as _ E. destruct x; discriminate E.
Qed.
Lemma now_text : forall t st, is_newline t = false -> let st' := print_now limit usetabs t true false false st in
  rev (o_rev st') = rev (o_rev st) ++ t /\ o_nlines st' = 0 /\ o_newline st' = o_newline st /\ o_mute st' = o_mute st.
Proof.
  intros t st H. cbv zeta. unfold print_now. rewrite H. cbv zeta. split; [exact (put_out t (set_nlines 0 st))|]. repeat split.
Qed.
Lemma unmuted : forall st, o_mute st = 0%Z -> is_mute st = false.
Proof. intros st H. unfold is_mute. rewrite H. reflexivity. Qed.

Lemma print_break : forall buf es st e, at_ buf es st -> In e [Lin (o_cur st); Soft (o_cur st); Hard (o_cur st)] -> at_ buf (es ++ [e]) (fst (doc_print limit usetabs [NL] true st)).
Proof.
  intros buf es st e (out & s & o & L & R & S & B & N & O & M & P & X) E. unfold doc_print. rewrite (unmuted _ M). change (is_newline [NL]) with true. change (beq [NL] [SP]) with false. cbn [andb]. cbv iota zeta.
  destruct (o_newline st) eqn:NL0; cbn [fst].
  - destruct (now_nl true (set_newline false (set_refit true st)) out s R S B N P X) as (H1 & H2 & s' & H3 & H4 & H5 & H6). pose proof (kept_now [NL] true true false (set_newline false (set_refit true st))) as (_ & K2 & K3 & _).
    exists out, s', o. split; [destruct H6 as [[Q I]|Q]; rewrite Q; [eapply lay_enough; eassumption|eapply lay_break; eassumption]|].
    repeat (split; [assumption|]). split; [intros Q; rewrite H1 in Q; discriminate Q|]. split; [exact (eq_trans H2 M)|]. split; [exact (eq_trans K2 P)|]. change (o_maxlines (set_newline false (set_refit true st))) with (o_maxlines st) in K3. lia.
  - destruct (now_nl false st out s R S B N P X) as (H1 & H2 & s' & H3 & H4 & H5 & H6). pose proof (kept_now [NL] true false false st) as (_ & K2 & K3 & _).
    exists out, s', o. split; [destruct H6 as [[Q I]|Q]; rewrite Q; [eapply lay_enough; eassumption|eapply lay_break; eassumption]|].
    repeat (split; [assumption|]). split; [intros Q; rewrite H1, NL0 in Q; discriminate Q|]. split; [exact (eq_trans H2 M)|]. split; [exact (eq_trans K2 P)|]. lia.
Qed.
Lemma solid_word : forall x t, word t -> solid (x ++ t).
Proof.
  intros x t (_ & y & c & -> & C1 & C2) d r E. rewrite app_assoc, rev_app_distr in E. cbn [rev app] in E. injection E as E _. subst d. intros [Q|Q]; contradiction.
Qed.
Lemma print_text : forall buf es st t, at_ buf es st -> word t -> at_ buf (es ++ [Txt (o_cur st) t]) (fst (doc_print limit usetabs t true st)).
Proof.
  intros buf es st t (out & s & o & L & R & S & B & N & O & M & P & X) W. destruct (word_not _ W) as [W1 W2]. unfold doc_print. rewrite (unmuted _ M), W1, W2. cbn [andb]. cbv iota zeta.
  destruct (o_newline st) eqn:NL0; cbn [fst].
  - destruct (now_nl true (set_newline false (set_refit true st)) out s R S B N P X) as (H1 & H2 & s' & H3 & H4 & H5 & H6). pose proof (kept_now [NL] true true false (set_newline false (set_refit true st))) as (_ & K2 & K3 & _).
    set (st3 := print_now limit usetabs [NL] true true false (set_newline false (set_refit true st))) in *. destruct (now_text t st3 W1) as (T1 & T2 & T3 & T4). pose proof (kept_now t true false false st3) as (_ & J2 & J3 & _).
    exists (out ++ s' ++ t), [], false. split; [destruct H6 as [[Q I]|Q]; rewrite Q; [exact (lay_text _ _ _ _ _ _ _ _ L)|rewrite (O eq_refl) in L; exact (lay_text_opt _ _ _ _ _ _ _ L)]|].
    split; [rewrite T1, H3, app_nil_r, app_assoc; reflexivity|]. split; [rewrite app_assoc; apply solid_word, W|]. split; [constructor|]. split; [rewrite T2; lia|]. split; [intros Q; rewrite T3, H1 in Q; discriminate Q|].
    split; [exact (eq_trans T4 (eq_trans H2 M))|]. split; [exact (eq_trans J2 (eq_trans K2 P))|]. change (o_maxlines (set_newline false (set_refit true st))) with (o_maxlines st) in K3. lia.
  - destruct (now_text t st W1) as (T1 & T2 & T3 & T4). pose proof (kept_now t true false false st) as (_ & J2 & J3 & _).
    exists (out ++ s ++ t), [], false. split; [exact (lay_text _ _ _ _ _ _ _ _ L)|]. split; [rewrite T1, R, app_nil_r, app_assoc; reflexivity|]. split; [rewrite app_assoc; apply solid_word, W|]. split; [constructor|]. split; [rewrite T2; lia|]. split; [intros Q; rewrite T3, NL0 in Q; discriminate Q|].
    split; [exact (eq_trans T4 M)|]. split; [exact (eq_trans J2 P)|]. lia.
Qed.
Lemma print_space : forall buf es st i, at_ buf es st -> at_ buf (es ++ [Lin i]) (fst (doc_print limit usetabs [SP] true st)).
Proof.
  intros buf es st i (out & s & o & L & R & S & B & N & O & M & P & X). unfold doc_print. rewrite (unmuted _ M). change (is_newline [SP]) with false. change (beq [SP] [SP]) with true. cbn [andb]. cbv iota zeta.
  destruct (o_newline st) eqn:NL0; cbn [fst].
  - rewrite (O eq_refl) in L. exists out, s, true. split; [exact (lay_nospace _ _ _ _ _ _ L)|]. repeat (split; [assumption|]). split; [auto|]. auto.
  - destruct (now_text [SP] st eq_refl) as (T1 & T2 & T3 & T4). pose proof (kept_now [SP] true false false st) as (_ & J2 & J3 & _).
    exists out, (s ++ [SP]), o. split; [exact (lay_space _ _ _ _ _ _ _ L)|]. split; [rewrite T1, R, app_assoc; reflexivity|]. split; [exact S|]. split; [apply Forall_app; split; [exact B|repeat constructor]|]. split; [rewrite T2; lia|]. split; [intros Q; rewrite T3, NL0 in Q; discriminate Q|].
    split; [exact (eq_trans T4 M)|]. split; [exact (eq_trans J2 P)|]. lia.
Qed.

(** ** Documents *)
Lemma plain_indent : forall v k, (v < INDENT_WIDTH)%Z -> k = 27%Z \/ k = 28%Z \/ k = 29%Z \/ k = 30%Z -> is_indent (2 ^ k) v = false.
Proof.
  intros v k L K. unfold is_indent. destruct (Z.ltb_spec 0 v) as [P|P]; [|reflexivity]. cbn [andb]. assert (E : Z.land v (2 ^ k) = 0%Z); [|rewrite E; reflexivity].
  apply Z.bits_inj'. intros j J. rewrite Z.land_spec, Z.bits_0, Z.pow2_bits_eqb by lia. destruct (Z.eqb_spec k j) as [Q|Q]; [|apply andb_false_r]. rewrite andb_true_r. apply Z.bits_above_log2; [lia|].
  apply Z.log2_lt_pow2; [lia|]. eapply Z.lt_le_trans; [exact L|]. change INDENT_WIDTH with (2 ^ 27)%Z. apply Z.pow_le_mono_r; lia.
Qed.
Lemma indent_step : forall v k st, (v < INDENT_WIDTH)%Z -> exec_indent usetabs v k st = set_cur (o_cur st) (k (set_cur (shift v (o_cur st)) st)).
Proof.
  intros v k st L. unfold exec_indent.
  change INDENT_PARENS with (2 ^ 30)%Z. change INDENT_FORCE with (2 ^ 29)%Z. change INDENT_NEWLINE with (2 ^ 28)%Z. change INDENT_WIDTH with (2 ^ 27)%Z.
  rewrite (plain_indent v 30 L), (plain_indent v 29 L), (plain_indent v 28 L), (plain_indent v 27 L) by auto. cbv zeta. f_equal. f_equal. unfold shift. destruct (Z.ltb_spec 0 v); f_equal; lia.
Qed.
Definition placed (n : nat) (d : doc) : Prop := forall buf es st, idx_ok (fun _ => True) n st -> at_ buf es st -> exists a, events (o_cur st) d a /\ at_ buf (es ++ a) (exec d st).
Lemma place_indent : forall n d v, (v < INDENT_WIDTH)%Z -> placed n d -> placed n (Indent v d).
Proof.
  intros n d v L H buf es st I A. cbn [doc_exec1]. rewrite (indent_step _ _ _ L). destruct (H buf es (set_cur (shift v (o_cur st)) st) I A) as (a & E & G). exists a. split; [constructor; exact E|exact G].
Qed.
Lemma place : forall n d, wf n d -> ordinary d -> placed n d.
Proof.
  intros n. induction d using doc_ind'; intros W O; cbn [ordinary] in O; try contradiction; intros buf es st I A; cbn [doc_exec1].
  - revert es st I A W O. induction H as [|d l H _ IH]; intros es st I A W O.
    + exists []. split; [constructor|rewrite app_nil_r; exact A].
    + cbn [fold_left]. destruct O as [O1 O2]. destruct W as [W1 W2]. destruct (H W1 O1 buf es st I A) as (a & E & G).
      destruct (good_any limit usetabs n d W1 st I) as (_ & _ & I' & _). destruct (kept_exec d st) as (C & _). destruct (IH _ _ I' G W2 O2) as (b & E2 & G2). rewrite C in E2.
      exists (a ++ b). split; [constructor; assumption|rewrite app_assoc; exact G2].
  - destruct (match o_mode st with MUNGE => negb (o_refit st) | BREAK => false end).
    + destruct (IHd W O buf es st I A) as (a & E & G). exists a. split; [constructor; exact E|exact G].
    + cbv zeta. match goal with |- context [set_mode _ (exec d ?x)] => destruct (IHd W O buf es x I A) as (a & E & G) end. exists a. split; [constructor; exact E|exact G].
  - exact (place_indent n d v (proj1 O) (IHd W (proj2 O)) buf es st I A).
  - cbv zeta. destruct A as (out & s & o & L & R & S & B & N & OO & M & P & X). pose proof (trim_out st) as T. pose proof (trim_same' st) as (T1 & T2 & T3 & _). pose proof (kept_trim st) as (_ & K2 & K3 & _).
    assert (A : at_ buf (es ++ [Flush]) (set_pre 0 (set_cur 0 (trim_spaces st)))).
    { exists out, (rtrim s), o. split; [exact (lay_flush _ _ _ _ _ _ L)|]. split; [change (rev (o_rev (trim_spaces st)) = out ++ rtrim s); rewrite T, R, (rtrim_app _ _ S); reflexivity|]. split; [exact S|]. split; [apply rtrim_bn, B|].
      split; [intros Q; apply rtrim_in, N; change (1 <= o_nlines (trim_spaces st)) in Q; lia|]. split; [intros Q; apply OO; rewrite <- T2; exact Q|]. split; [exact (eq_trans T3 M)|]. split; [exact (eq_trans K2 P)|]. change (1 <= o_maxlines (trim_spaces st)). lia. }
    assert (I' : idx_ok (fun _ => True) n (set_pre 0 (set_cur 0 (trim_spaces st)))) by (apply (idx_ok_ctl _ _ st); [exact I|exact (ctl_trim st)]).
    destruct (IHd W O buf _ _ I' A) as (a & E & G). exists (Flush :: a). split; [constructor; exact E|]. rewrite <- app_assoc in G. exact G.
  - exists [Txt (o_cur st) s]. split; [constructor|apply print_text; assumption].
  - exists [Lin (o_cur st)]. split; [constructor|]. destruct (o_mode st); [apply print_break; [exact A|left; reflexivity]|].
    pose proof (print_space buf es st (o_cur st) A) as G. destruct (doc_print limit usetabs [SP] true st) as [st1 []]; exact G.
  - exists [Soft (o_cur st)]. split; [constructor|]. destruct (o_mode st); [apply print_break; [exact A|right; left; reflexivity]|].
    destruct A as (out & s & o & L & A). exists out, s, o. split; [exact (lay_nothing _ _ _ _ _ _ _ L)|exact A].
  - exists [Hard (o_cur st)]. split; [constructor|]. apply print_break; [exact A|right; right; left; reflexivity].
  - exists [Opt]. split; [constructor|]. destruct A as (out & s & o & L & R & S & B & N & OO & A). destruct (0 <? o_optline st).
    + exists out, s, true. split; [exact (lay_opt _ _ _ _ _ _ _ L (fun _ => eq_refl))|]. repeat (split; [assumption|]). split; [auto|exact A].
    + exists out, s, o. split; [exact (lay_opt _ _ _ _ _ _ _ L (fun Q => Q))|]. repeat (split; [assumption|]). exact A.
  - cbv zeta. destruct (IHd W O buf es (set_optline (S (o_optline st)) st) I A) as (a & E & G). exists a. split; [constructor; exact E|]. destruct (_ <=? _); exact G.
  - destruct O as [O1 O2]. destruct (o_idx st) as [i|] eqn:X.
    + unfold exec_minimize. rewrite X. destruct W as (W1 & W2 & W3). pose proof (proj1 I i X) as Li. destruct (nth_error ms i) as [[v f]|] eqn:E; [|apply nth_error_None in E; lia]. unfold minimize1. rewrite E.
      pose proof (nth_error_In _ _ E) as IN. pose proof (proj1 (Forall_forall _ _) O1 _ IN) as L. cbn [fst] in L.
      match goal with |- context [exec_indent usetabs v (exec d) ?x] => destruct (place_indent n d v L (IHd W3 O2) buf es x) as (a & V & G); [destruct (forced id ms i st); exact I|destruct (forced id ms i st); exact A|] end.
      exists a. split; [|exact G]. inversion V; subst. eapply V_minimize; [exact IN|]. destruct (forced id ms i st); assumption.
    + pose proof (C22_trials limit usetabs n id ms d st W X) as (best & v & fl & F & bad & mf & E & Q & _). cbn [doc_exec1] in Q. rewrite Q. pose proof (nth_error_In _ _ E) as IN. pose proof (proj1 (Forall_forall _ _) O1 _ IN) as L. cbn [fst] in L. destruct W as (W1 & W2 & W3).
      match goal with |- context [exec_indent usetabs v (exec d) ?x] => destruct (place_indent n d v L (IHd W3 O2) buf es x) as (a & V & G); [|exact A|] end.
      { split; [|exact Logic.I]. intros i Hi. cbn [set_mforce set_idx o_idx] in Hi. injection Hi as <-. rewrite <- W1. apply nth_error_Some. rewrite E. discriminate. }
      exists a. split; [|exact G]. inversion V; subst. eapply V_minimize; [exact IN|assumption].
  - destruct (IHd W O buf es (set_slines 0 st) I A) as (a & E & G). exists a. split; [constructor; exact E|exact G].
  - destruct O as [O1 O2]. destruct A as (out & s & o & L & R & S & B & N & OO & M & P & X).
    assert (A : at_ buf es (set_maxlines n0 st)) by (exists out, s, o; repeat (split; [assumption|]); assumption).
    destruct (IHd W O2 buf es (set_maxlines n0 st) (conj (proj1 I) Logic.I) A) as (a & E & G). exists a. split; [constructor; exact E|].
    destruct G as (out' & s' & o' & G1 & G2 & G3 & G4 & G5 & G6 & G7 & G8 & G9). exists out', s', o'. repeat (split; [assumption|]). assumption.
Qed.

(** ** Muted *)
Lemma drop_top : forall y, nonblank_top (drop_blanks y).
Proof.
  induction y as [|c y IH]; [intros d r E; discriminate E|]. cbn [drop_blanks]. fold (is_blank c). destruct (is_blank c) eqn:E; [exact IH|]. intros d r Q T. injection Q as Q _. subst d. apply tb_blank in T. congruence.
Qed.
Lemma drop_tb : forall y, Forall tb y -> drop_blanks y = [].
Proof. intros y H. induction H as [|c y T _ IH]; [reflexivity|]. cbn [drop_blanks]. fold (is_blank c). apply tb_blank in T. rewrite T. exact IH. Qed.
Lemma rtrim_blanks : forall x i, rtrim (rtrim x ++ blanks usetabs i) = rtrim x.
Proof.
  intros x i. unfold rtrim at 1. rewrite rev_app_distr. unfold rtrim at 1. rewrite rev_involutive, (drop_app _ _ (drop_top _)), drop_tb; [reflexivity|]. apply Forall_rev, blanks_tb.
Qed.
Lemma rtrim_twice : forall x, rtrim (rtrim x) = rtrim x.
Proof. intros x. unfold rtrim. rewrite rev_involutive, (drop_solid _ (drop_top _)). reflexivity. Qed.
Definition hidden (st0 : dstate) (b : bool) (st : dstate) : Prop :=
  o_mute st = 1%Z /\ o_newline st = false /\ o_parens st = 0 /\ o_maxlines st = o_maxlines st0 /\ o_cur st = o_cur st0 /\ o_muteline st = b /\
  (b = false -> o_rev st = o_rev st0) /\ rtrim (rev (o_rev st)) = rtrim (rev (o_rev st0)).
Lemma hidden_text : forall st0 b st s, hidden st0 b st -> is_newline s = false -> hidden st0 b (fst (doc_print limit usetabs s true st)).
Proof.
  intros st0 b st s (M & N & P & X & C & B & R1 & R2) W. unfold doc_print, is_mute. rewrite M, W. cbn [andb]. cbv iota zeta. rewrite N. cbn [fst]. unfold print_now. rewrite W. repeat split; assumption.
Qed.
Lemma muteline_indent : forall i st, o_muteline (print_indent usetabs i st) = o_muteline st.
Proof.
  intros i st. unfold print_indent, print_indent1. destruct (0 <? o_parens st); [destruct (strindent (o_pre st + o_parens st) usetabs (o_col st))|destruct (strindent i usetabs (o_col (set_pre i st)))]; auto.
Qed.
Lemma muteline_trim : forall st, o_muteline (trim_spaces st) = o_muteline st.
Proof. intros st. unfold trim_spaces. destruct (trim_loop (o_rev st) (o_col st)). reflexivity. Qed.
Lemma hidden_line : forall st0 b st, hidden st0 b st -> hidden st0 true (fst (doc_print limit usetabs [NL] true st)).
Proof.
  intros st0 b st (M & N & P & X & C & B & R1 & R2). unfold doc_print, is_mute. rewrite M. change (is_newline [NL]) with true. cbn [andb negb]. change (negb (1 =? 0)%Z) with true. cbv iota zeta. change (o_newline (set_muteline true st)) with (o_newline st). rewrite N. cbn [fst].
  unfold print_now. change (is_newline [NL]) with true. cbv iota. change (o_maxlines (set_muteline true st)) with (o_maxlines st). change (o_nlines (set_muteline true st)) with (o_nlines st). destruct (o_maxlines st <=? o_nlines st).
  { repeat split; try assumption. intros Q. discriminate Q. }
  cbv zeta.
  match goal with |- context [trim_spaces ?x] => set (st2 := x); assert (Q : hidden st0 true st2) end.
  { unfold st2. destruct (negb false && _); repeat split; try assumption; intros Q; discriminate Q. }
  clearbody st2. destruct Q as (M2 & N2 & P2 & X2 & C2 & B2 & _ & R3). pose proof (trim_out st2) as T. pose proof (trim_same' st2) as (_ & T2 & T3 & _). pose proof (kept_trim st2) as (T4 & T5 & T6 & _). pose proof (muteline_trim st2) as T7. set (st3 := trim_spaces st2) in *. clearbody st3.
  set (st4 := match o_mforce st3 with Some _ => set_idx None st3 | None => st3 end). assert (Q : hidden st0 true st4 /\ rev (o_rev st4) = rtrim (rev (o_rev st2))).
  { assert (Q : hidden st0 true st3). { repeat split; try congruence; try (intros Q; discriminate Q). rewrite T, rtrim_twice. exact R3. } unfold st4. destruct (o_mforce st3); (split; [exact Q|exact T]). }
  clearbody st4. destruct Q as ((M4 & N4 & P4 & X4 & C4 & B4 & _ & R4) & T8). match goal with |- context [print_indent usetabs _ ?x] => set (st5 := x) end.
  assert (Q : hidden st0 true st5 /\ rev (o_rev st5) = rtrim (rev (o_rev st2))). { unfold st5. split; [|exact T8]. repeat split; try assumption; intros Q; discriminate Q. }
  clearbody st5. destruct Q as ((M5 & N5 & P5 & X5 & C5 & B5 & _ & R5) & T9). destruct (indent_same (o_cur st5) st5) as (I1 & I2 & I3). pose proof (kept_indent (o_cur st5) st5) as (J1 & J2 & J3 & _). pose proof (muteline_indent (o_cur st5) st5) as J4.
  repeat split; try congruence; try (intros Q; discriminate Q). rewrite (indent_out _ _ P5), T9, rtrim_blanks. exact R3.
Qed.
Lemma hidden_docs : forall l st0 b st, Forall (fun d => d = Hardline \/ exists s, d = Literal s /\ is_newline s = false) l -> hidden st0 b st ->
  hidden st0 (b || existsb (fun d => match d with Hardline => true | _ => false end) l) (fold_left (fun st d => exec d st) l st).
Proof.
  induction l as [|d l IH]; intros st0 b st F H; [cbn [existsb fold_left]; rewrite orb_false_r; exact H|]. inversion F as [|? ? D F']; subst. cbn [fold_left existsb]. destruct D as [D|(s & D & W)]; subst d; cbn [doc_exec1].
  - rewrite orb_true_l, orb_true_r. apply (IH st0 true); [exact F'|exact (hidden_line _ _ _ H)].
  - rewrite orb_false_l. apply IH; [exact F'|]. exact (hidden_text _ _ _ _ H W).
Qed.
End Indent.

(** * Theorems *)

(** The indentation, the parenthesis depth, the limit on empty lines and the mode in force
    behind a document are those in force before it. *)
Theorem C59_restored : forall limit usetabs d st, let st' := doc_exec1 limit usetabs d st in
  o_cur st' = o_cur st /\ o_parens st' = o_parens st /\ o_maxlines st' = o_maxlines st /\ o_mode st' = o_mode st.
Proof. intros. apply kept_exec. Qed.

(** The output of an ordinary document is one of the layouts of its events: a line that is
    broken at some place goes on at the indentation of that place, which is the sum of the
    indents around it. *)
Theorem C59_placed : forall limit usetabs n d buf, wf n d -> ordinary d -> nonblank_top (rev buf) ->
  exists es out s o, events 0 d es /\ lay usetabs buf es out s o /\ fst (doc_exec limit usetabs d false buf) = out ++ s.
Proof.
  intros limit usetabs n d buf W O S. destruct (place limit usetabs n d W O buf [] (doc_state_init buf BREAK)) as (a & E & out & s & o & L & R & _).
  - split; [discriminate|exact I].
  - exists buf, [], false. split; [constructor|]. split; [cbn [doc_state_init o_rev]; rewrite rev_involutive, app_nil_r; reflexivity|]. split; [exact S|]. split; [constructor|]. cbn [doc_state_init o_nlines o_newline o_mute o_parens o_maxlines]. repeat split; try discriminate; lia.
  - exists a, out, s, o. split; [exact E|]. split; [exact L|exact R].
Qed.

(** Behind an opening parenthesis at the beginning of a line the next line is aligned with
    what follows the parenthesis. *)
Theorem C59_parens : forall limit usetabs st w r t, o_rev st = "("%char :: w ++ NL :: r -> Forall tb w -> o_parens st = 0 ->
  o_mute st = 0%Z -> o_newline st = false -> o_nlines st < o_maxlines st -> word t ->
  rev (o_rev (doc_exec1 limit usetabs (Indent INDENT_PARENS (Concat [Hardline; Literal t])) st)) = rev (o_rev st) ++ NL :: blanks usetabs (o_pre st + 1) ++ t.
Proof.
  intros limit usetabs st w r t R W P M N X T. cbn [doc_exec1 fold_left]. unfold exec_indent. change (is_indent INDENT_PARENS INDENT_PARENS) with true. cbv iota zeta.
  assert (PA : parens_align st = true).
  { unfold parens_align. rewrite R. cbn [span_len]. change ("("%char =c "("%char) with true. cbv iota. assert (Z : span_len (fun c => c =c "("%char) (w ++ NL :: r) = 0). { destruct W as [|c w [Q|Q] _]; [reflexivity|rewrite Q; reflexivity|rewrite Q; reflexivity]. }
    rewrite Z. cbn [skipn Nat.eqb orb]. replace (length (w ++ NL :: r) =? 0) with false by (rewrite app_length; cbn [length]; symmetry; apply Nat.eqb_neq; lia).
    clear - W. induction W as [|c w [Q|Q] _ IH]; [reflexivity|rewrite Q; exact IH|rewrite Q; exact IH]. }
  rewrite PA, P. set (st1 := set_parens 1 st).
  match goal with |- rev (o_rev (set_parens 0 ?x)) = _ => change (rev (o_rev x) = rev (o_rev st) ++ NL :: blanks usetabs (o_pre st + 1) ++ t) end.
  destruct (word_not _ T) as [T1 T2].
  assert (E : rev (o_rev (fst (doc_print limit usetabs [NL] true st1))) = rev (o_rev st) ++ NL :: blanks usetabs (o_pre st + 1) /\ o_newline (fst (doc_print limit usetabs [NL] true st1)) = false /\ o_mute (fst (doc_print limit usetabs [NL] true st1)) = 0%Z).
  { unfold doc_print. rewrite (unmuted st1 M). change (is_newline [NL]) with true. cbn [andb]. cbv iota zeta. change (o_newline st1) with (o_newline st). rewrite N. cbn [fst]. unfold print_now. change (is_newline [NL]) with true. cbv iota.
    change (o_maxlines st1) with (o_maxlines st). change (o_nlines st1) with (o_nlines st). destruct (Nat.leb_spec (o_maxlines st) (o_nlines st)); [lia|]. cbv zeta.
    match goal with |- context [trim_spaces ?x] => set (st2 := x); assert (Q : o_parens st2 = 1 /\ o_rev st2 = o_rev st /\ o_pre st2 = o_pre st /\ o_newline st2 = false /\ o_mute st2 = 0%Z) end.
    { unfold st2. destruct (negb false && _); repeat split; assumption. }
    clearbody st2. destruct Q as (Q1 & Q2 & Q3 & Q4 & Q5). unfold trim_spaces. rewrite Q2, R. cbn [trim_loop]. change (("("%char =c SP) || ("("%char =c TAB)) with false. cbv iota zeta. rewrite <- R.
    set (st3 := set_col (o_col st2) (set_rev (o_rev st) st2)). change (o_mforce st3) with (o_mforce st2). set (st4 := match o_mforce st2 with Some _ => set_idx None st3 | None => st3 end).
    assert (Q : o_parens st4 = 1 /\ o_rev st4 = o_rev st /\ o_pre st4 = o_pre st /\ o_newline st4 = false /\ o_mute st4 = 0%Z) by (unfold st4; destruct (o_mforce st2); repeat split; assumption).
    clearbody st4. clear st3. destruct Q as (U1 & U2 & U3 & U4 & U5). match goal with |- context [print_indent usetabs _ ?x] => set (st5 := x) end.
    assert (V : rev (o_rev st5) = rev (o_rev st) ++ [NL]) by (rewrite <- U2; exact (put_out [NL] st4)). assert (V2 : o_parens st5 = 1 /\ o_pre st5 = o_pre st /\ o_newline st5 = false /\ o_mute st5 = 0%Z) by (repeat split; assumption).
    clearbody st5. destruct V2 as (V2 & V3 & V4 & V5). destruct (indent_same usetabs (o_cur st5) st5) as (_ & I2 & I3). split; [|split; [exact (eq_trans I2 V4)|exact (eq_trans I3 V5)]].
    unfold print_indent. rewrite V2. cbn [Nat.ltb Nat.leb]. unfold print_indent1. rewrite V3. pose proof (strindent_blanks usetabs (o_pre st + 1) (o_col st5)) as SB. destruct (strindent (o_pre st + 1) usetabs (o_col st5)) as [wd cl]. cbn [fst] in SB. subst wd.
    match goal with |- rev (o_rev (set_col cl ?x)) = _ => change (rev (o_rev x) = rev (o_rev st) ++ NL :: blanks usetabs (o_pre st + 1)) end. rewrite put_out, V, <- app_assoc. reflexivity. }
  destruct E as (E1 & E2 & E3). set (st6 := fst (doc_print limit usetabs [NL] true st1)) in *. clearbody st6. unfold doc_print. rewrite (unmuted st6 E3), T1. cbn [andb]. cbv iota zeta. rewrite E2. cbn [fst]. destruct (now_text limit usetabs t st6 T1) as (H1 & _). rewrite H1, E1, <- app_assoc. reflexivity.
Qed.

(** Muted texts leave no trace but the fact that a line was broken: if so, the text behind
    them is on a line of its own. *)
Theorem C59_muted : forall limit usetabs st l t, o_mute st = 0%Z -> o_newline st = false -> o_muteline st = false -> o_parens st = 0 -> 1 <= o_maxlines st -> word t ->
  Forall (fun d => d = Hardline \/ exists s, d = Literal s /\ is_newline s = false) l ->
  rev (o_rev (doc_exec1 limit usetabs (Concat (Mute 1 :: l ++ [Mute (-1); Literal t])) st)) =
    if existsb (fun d => match d with Hardline => true | _ => false end) l then rtrim (rev (o_rev st)) ++ NL :: blanks usetabs (o_cur st) ++ t
    else rev (o_rev st) ++ t.
Proof.
  intros limit usetabs st l t M N ML P X T F. cbn [doc_exec1 fold_left]. rewrite fold_left_app. cbn [fold_left doc_exec1].
  assert (E : exec_mute 1 true st = set_mute 1 st) by (unfold exec_mute; cbn [Z.ltb orb]; cbv zeta; rewrite M; reflexivity). rewrite E.
  assert (H : hidden st false (set_mute 1 st)) by (repeat split; assumption). apply (hidden_docs limit usetabs l) in H; [|exact F]. cbn [orb] in H. set (b := existsb _ l) in *. clearbody b.
  set (st2 := fold_left _ l (set_mute 1 st)) in *. clearbody st2. destruct H as (M2 & N2 & P2 & X2 & C2 & B2 & R1 & R2).
  assert (E2 : exec_mute (-1) true st2 = set_newline b (reset_lines (set_mute 0 st2))).
  { unfold exec_mute. rewrite M2. change ((0 <? -1)%Z || (- -1 <=? 1)%Z) with true. cbv iota zeta. change (1 + -1)%Z with 0%Z. cbn [set_mute o_mute Z.eqb]. rewrite <- B2. reflexivity. }
  rewrite E2. set (st3 := set_newline b (reset_lines (set_mute 0 st2))). assert (M3 : o_mute st3 = 0%Z) by reflexivity. destruct (word_not _ T) as [T1 T2]. unfold doc_print. rewrite (unmuted st3 M3), T1, T2. cbn [andb]. cbv iota zeta. change (o_newline st3) with b. destruct b; cbn [fst].
  - set (st4 := set_newline false (set_refit true st3)). set (st5 := print_now limit usetabs [NL] true true false st4).
    assert (Z : rev (o_rev st5) = rtrim (rev (o_rev st2)) ++ NL :: blanks usetabs (o_cur st)).
    { unfold st5, print_now. change (is_newline [NL]) with true. cbv iota. change (o_nlines st4) with 0. change (o_maxlines st4) with (o_maxlines st2). destruct (Nat.leb_spec (o_maxlines st2) 0); [lia|]. cbn [negb andb]. cbv iota zeta.
      match goal with |- context [trim_spaces ?x] => set (st6 := x) end. pose proof (trim_out st6) as TO. pose proof (kept_trim st6) as (K1 & K2 & _). change (o_rev st6) with (o_rev st2) in TO. change (o_cur st6) with (o_cur st2) in K1. change (o_parens st6) with (o_parens st2) in K2. set (st7 := trim_spaces st6) in *. clearbody st7.
      set (st8 := match o_mforce st7 with Some _ => set_idx None st7 | None => st7 end). assert (Q : rev (o_rev st8) = rtrim (rev (o_rev st2)) /\ o_cur st8 = o_cur st2 /\ o_parens st8 = o_parens st2) by (unfold st8; destruct (o_mforce st7); auto). clearbody st8. destruct Q as (Q1 & Q2 & Q3).
      match goal with |- context [print_indent usetabs _ ?x] => set (st9 := x) end. assert (V : rev (o_rev st9) = rev (o_rev st8) ++ [NL]) by exact (put_out [NL] st8). assert (V2 : o_cur st9 = o_cur st2 /\ o_parens st9 = o_parens st2) by auto. clearbody st9. destruct V2 as [V2 V3].
      rewrite indent_out by congruence. rewrite V, Q1, V2, C2, <- app_assoc. reflexivity. }
    clearbody st5. destruct (now_text limit usetabs t st5 T1) as (H1 & _). rewrite H1, Z, R2, <- app_assoc. reflexivity.
  - destruct (now_text limit usetabs t st3 T1) as (H1 & _). rewrite H1. change (o_rev st3) with (o_rev st2). rewrite (R1 eq_refl). reflexivity.
Qed.

(** * Examples *)

Definition ex59 : doc :=
  Concat [Literal (s2b "x"); Indent 8 (Concat [Hardline; Literal (s2b "y"); Group (Indent (-4) (Concat [DocModel.Line; Literal (s2b "long text")]))]);
          NoIndent (Concat [Hardline; Literal (s2b "l:")]); Indent 8 (Minimize 0 [(4%Z, false)] (Concat [Hardline; Literal (s2b "z")])); Hardline; Literal (s2b "w")].
Ltac word := split; [cbn; intuition discriminate|]; match goal with |- exists x c, ?t = _ /\ _ => exists (removelast t), (last t NUL); repeat split; discriminate end.
Example C59_ex : wf 1 ex59 /\ ordinary ex59 /\ nonblank_top (rev []) /\
  fst (doc_exec 12 true ex59 false []) = s2b "x" ++ [NL; TAB] ++ s2b "y" ++ [NL] ++ s2b "    long text" ++ [NL] ++ s2b "l:" ++ [NL; TAB] ++ s2b "    z" ++ [NL] ++ s2b "w".
Proof.
  split; [cbn; intuition (discriminate || lia)|]. split; [|split; [intros c r Q; discriminate Q|vm_compute; reflexivity]].
  unfold ex59. cbn [ordinary fold_right]. repeat split; try (repeat constructor; fail); try (cbn; intuition discriminate); try reflexivity;
    match goal with |- exists x c, ?t = _ /\ _ => exists (removelast t), (last t NUL); repeat split; discriminate | _ => idtac end.
Qed.
Definition st59 : dstate := set_pre 8 (set_cur 8 (doc_state_init (s2b "if" ++ [NL; TAB] ++ s2b "(") BREAK)).
Example C59_parens_ex : rev (o_rev (doc_exec1 80 true (Indent INDENT_PARENS (Concat [Hardline; Literal (s2b "a")])) st59)) =
  s2b "if" ++ [NL; TAB] ++ s2b "(" ++ [NL; TAB; SP] ++ s2b "a".
Proof.
  rewrite (C59_parens 80 true st59 [TAB] (rev (s2b "if")) (s2b "a")); try reflexivity.
  - constructor; [right; reflexivity|constructor].
  - cbn. lia.
  - word.
Qed.
Example C59_muted_ex : rev (o_rev (doc_exec1 80 true (Concat (Mute 1 :: [Literal (s2b "a"); Hardline; Literal (s2b "b"); Hardline] ++ [Mute (-1); Literal (s2b "c")]))
    (set_cur 8 (doc_state_init (s2b "x ") BREAK)))) = s2b "x" ++ [NL; TAB] ++ s2b "c".
Proof.
  rewrite C59_muted; try reflexivity.
  - cbn. lia.
  - word.
  - repeat (constructor; [solve [left; reflexivity|right; eexists; split; reflexivity]|]). constructor.
Qed.

Print Assumptions C59_restored.
Print Assumptions C59_placed.
Print Assumptions C59_parens.
Print Assumptions C59_muted.
