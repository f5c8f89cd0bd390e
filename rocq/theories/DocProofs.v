(** Specification and proofs for the document printer (DocModel). *)
From Verif Require Import Base StrModel UtilModel UtilProofs DocModel.

(** ** Specification *)
(** A piece of text of the document; [true] for verbatim ones. *)
Definition text : Type := bool * bytes.

(** How DOC_MUTE/DOC_UNMUTE change the mute depth. *)
Definition mute_step (v m : Z) : Z := if (0 <? v)%Z || (- v <=? m)%Z then (m + v)%Z else m.

(** The texts of a document in order, leaving out those in muted parts and single
    newlines and spaces (which are layout), and the mute depth after it. *)
Definition text_of (verbatim : bool) (s : bytes) (m : Z) : list text :=
  if (m =? 0)%Z && negb (beq s [NL] || beq s [SP]) then [(verbatim, s)] else [].
Fixpoint texts (d : doc) (m : Z) : list text * Z :=
  match d with
  | Concat l => fold_left (fun '(ts, m) d => let '(ts', m') := texts d m in (ts ++ ts', m')) l ([], m)
  | Group d | Indent _ d | NoIndent d | Optional d | Minimize _ _ d | Scope d | Maxlines _ d => texts d m
  | Literal s => (text_of false s m, m)
  | Verbatim s => (text_of true s m, m)
  | Mute v | Unmute v => ([], mute_step v m)
  | _ => ([], m)
  end.

(** Well-formed documents: all minimizers have [n] > 0 candidates, no verbatim is empty. *)
Fixpoint wf (n : nat) (d : doc) : Prop :=
  match d with
  | Concat l => fold_right (fun d P => wf n d /\ P) True l
  | Group d | Indent _ d | NoIndent d | Optional d | Scope d | Maxlines _ d => wf n d
  | Minimize _ ms d => length ms = n /\ n > 0 /\ wf n d
  | Verbatim s => s <> []
  | _ => True
  end.

Definition tb (c : byte) : Prop := c = SP \/ c = TAB.
Definition bn (c : byte) : Prop := tb c \/ c = NL.

(** ** The effect on buffer, column, mute depth and the count of newlines *)
Definition cst : Type := bytes * nat * Z * nat.
Definition core (st : dstate) : cst := (o_rev st, o_col st, o_mute st, o_nlines st).
Lemma core_inv : forall a b, core a = core b ->
  o_rev a = o_rev b /\ o_col a = o_col b /\ o_mute a = o_mute b /\ o_nlines a = o_nlines b.
Proof. unfold core. intros a b H. inversion H. auto. Qed.
Definition nonblank_top (r : bytes) : Prop := forall c r', r = c :: r' -> ~ tb c.

(** What printing may do, as a relation labelled with the texts printed.  [Q] says which
    blanks may be written at which column, [MU] whether muting occurs, [FS] whether
    single spaces are printed and [ML] which maximal numbers of newlines are in force. *)
Section Emit.
Variable Q : bytes -> nat -> Prop.
Variables MU FS : Prop.
Variable ML : nat -> Prop.
Inductive emit : list text -> cst -> cst -> Prop :=
| e_refl : forall x, emit [] x x
| e_trans : forall a b x y z, emit a x y -> emit b y z -> emit (a ++ b) x z
| e_blank : forall w r c m k, Forall tb w -> Q w c -> emit [] (r, c, m, k) (rev w ++ r, display_col w c, m, k)
| e_trim : forall r c m k, emit [] (r, c, m, k) (fst (trim_loop r c), snd (trim_loop r c), m, k)
| e_nl : forall M r c k, nonblank_top r -> ML M -> k < M -> emit [] (r, c, 0%Z, k) (NL :: r, 0, 0%Z, S k)
| e_nl_muted : forall r c m k, m <> 0%Z -> emit [] (r, c, m, k) (r, 0, m, S k)
| e_text : forall v s r c k, s <> [NL] -> s <> [SP] -> (v = true -> nonblank_top r) ->
    emit [(v, s)] (r, c, 0%Z, k) (rev s ++ r, display_col s c, 0%Z, 0)
| e_space : forall r c k, FS -> emit [] (r, c, 0%Z, k) (SP :: r, S c, 0%Z, 0)
| e_text_muted : forall s r c m k, m <> 0%Z -> emit [] (r, c, m, k) (r, display_col s c, m, 0)
| e_mute : forall r c m m' k k', MU -> emit [] (r, c, m, k) (r, c, m', k').

Lemma e_trans0 : forall b x y z, emit [] x y -> emit b y z -> emit b x z.
Proof. intros. change b with ([] ++ b). eapply e_trans; eauto. Qed.
Lemma e_trans1 : forall b x y z, emit b x y -> emit [] y z -> emit b x z.
Proof. intros. rewrite <- (app_nil_r b). eapply e_trans; eauto. Qed.
End Emit.

(** ** Induction over documents *)
Section DocInd.
Variable P : doc -> Prop.
Hypothesis Hconcat : forall l, Forall P l -> P (Concat l).
Hypothesis Hgroup : forall d, P d -> P (Group d).
Hypothesis Hindent : forall v d, P d -> P (Indent v d).
Hypothesis Hnoindent : forall d, P d -> P (NoIndent d).
Hypothesis Halign : forall a b c, P (Align a b c).
Hypothesis Hliteral : forall s, P (Literal s).
Hypothesis Hverbatim : forall s, P (Verbatim s).
Hypothesis Hline : P Line.
Hypothesis Hsoftline : P Softline.
Hypothesis Hhardline : P Hardline.
Hypothesis Hoptline : P Optline.
Hypothesis Hmute : forall v, P (Mute v).
Hypothesis Hunmute : forall v, P (Unmute v).
Hypothesis Hoptional : forall d, P d -> P (Optional d).
Hypothesis Hminimize : forall id ms d, P d -> P (Minimize id ms d).
Hypothesis Hscope : forall d, P d -> P (Scope d).
Hypothesis Hmaxlines : forall n d, P d -> P (Maxlines n d).
Fixpoint doc_ind' (d : doc) : P d :=
  match d with
  | Concat l => Hconcat l ((fix go (l : list doc) : Forall P l :=
      match l with [] => Forall_nil P | d :: r => Forall_cons d (doc_ind' d) (go r) end) l)
  | Group d => Hgroup d (doc_ind' d)
  | Indent v d => Hindent v d (doc_ind' d)
  | NoIndent d => Hnoindent d (doc_ind' d)
  | Align a b c => Halign a b c
  | Literal s => Hliteral s
  | Verbatim s => Hverbatim s
  | Line => Hline
  | Softline => Hsoftline
  | Hardline => Hhardline
  | Optline => Hoptline
  | Mute v => Hmute v
  | Unmute v => Hunmute v
  | Optional d => Hoptional d (doc_ind' d)
  | Minimize id ms d => Hminimize id ms d (doc_ind' d)
  | Scope d => Hscope d (doc_ind' d)
  | Maxlines n d => Hmaxlines n d (doc_ind' d)
  end.
End DocInd.

Lemma trim_loop_top : forall r c, nonblank_top (fst (trim_loop r c)).
Proof.
  induction r as [|x r IH]; intros c y r' E; cbn [trim_loop] in E; [discriminate|].
  destruct ((x =c SP) || (x =c TAB)) eqn:Ex; [eapply IH; eauto|].
  cbn [fst] in E. inv E. apply orb_false_iff in Ex. destruct Ex as (E1 & E2).
  apply eqb_false in E1, E2. intros [H|H]; auto.
Qed.
Lemma is_newline_eq : forall s, is_newline s = true <-> s = [NL].
Proof. intros. apply beq_eq. Qed.

Lemma pick_some : forall force ps i best, (best <> None \/ ps <> []) ->
  (forall b q, best = Some (b, q) -> b < i) ->
  exists b, pick force i ps best = Some b /\ b < i + length ps.
Proof.
  intros force. induction ps as [|p ps IH]; intros i best Hne Hb; cbn [pick].
  - destruct best as [[b q]|]; [|destruct Hne; congruence]. exists b. split; auto. specialize (Hb b q eq_refl). simpl; lia.
  - destruct (force i); [exists i; split; auto; simpl; lia|].
    assert (H0 : exists b q, b < S i /\ (if match best with Some (_, m) => negb (Qle_bool m p) | None => true end
        then pick force (S i) ps (Some (i, p)) else pick force (S i) ps best) = pick force (S i) ps (Some (b, q))).
    { destruct best as [[b0 q0]|]; [|exists i, p; auto].
      destruct (negb (Qle_bool q0 p)); [exists i, p; auto|exists b0, q0; specialize (Hb b0 q0 eq_refl); auto]. }
    destruct H0 as (b0 & q0 & Hlt & ->).
    destruct (IH (S i) (Some (b0, q0))) as (b & H1 & H2); [left; discriminate|intros b q H; inv H; lia|].
    exists b. split; auto. simpl; lia.
Qed.

Section Proofs.
Variable limit : nat.
Variable usetabs : bool.
Variable Q : bytes -> nat -> Prop.
Variables MU FS : Prop.
Variable ML : nat -> Prop.
Hypothesis Q0 : forall n, Q (fst (strindent n usetabs 0)) 0.
Hypothesis Qsp : forall n c, Q (fst (strindent n false c)) c.
Notation exec := (doc_exec1 limit usetabs).
Notation emit := (emit Q MU FS ML).
Notation e_refl := (e_refl Q MU FS ML).
Notation e_trans0 := (e_trans0 Q MU FS ML).
Notation e_trans1 := (e_trans1 Q MU FS ML).
Notation e_trans := (e_trans Q MU FS ML).

(** Indentation anywhere and not only at the start of a line. *)
Definition QF : Prop := forall n c, Q (fst (strindent n usetabs c)) c.
(** A tab anywhere. *)
Definition QT : Prop := forall c, Q (fst (strindent 8 true c)) c.

Fixpoint lay (d : doc) : Prop :=
  match d with
  | Concat l => fold_right (fun d P => lay d /\ P) True l
  | Group d | NoIndent d | Optional d | Scope d => lay d
  | Indent v d => (is_indent INDENT_FORCE v = true -> QF) /\ lay d
  | Minimize _ ms d => Forall (fun m => is_indent INDENT_FORCE (fst m) = true -> QF) ms /\ lay d
  | Maxlines n d => ML n /\ lay d
  | Align _ _ tabalign => tabalign = true -> QT
  | Verbatim s => (s = [NL] -> QF) /\ (s = [SP] -> FS)
  | Literal s => s = [SP] -> FS
  | Line => FS
  | Mute _ | Unmute _ => MU
  | _ => True
  end.

Lemma core_trim : forall st, core (trim_spaces st) =
  (fst (trim_loop (o_rev st) (o_col st)), snd (trim_loop (o_rev st) (o_col st)), o_mute st, o_nlines st).
Proof. intros. unfold trim_spaces. destruct (trim_loop _ _). reflexivity. Qed.
Lemma trim_rev : forall st, nonblank_top (o_rev (trim_spaces st)).
Proof. intros. unfold trim_spaces. pose proof (trim_loop_top (o_rev st) (o_col st)). destruct (trim_loop _ _). auto. Qed.
Lemma trim_same : forall st, o_mute (trim_spaces st) = o_mute st /\ o_nlines (trim_spaces st) = o_nlines st.
Proof. intros. unfold trim_spaces. destruct (trim_loop _ _). auto. Qed.
Lemma emit_trim : forall st, emit [] (core st) (core (trim_spaces st)).
Proof. intros. rewrite core_trim. apply e_trim. Qed.

Lemma core_indent1 : forall n t st, let w := fst (strindent n t (o_col st)) in Forall tb w /\
  core (print_indent1 n t st) = (rev w ++ o_rev st, display_col w (o_col st), o_mute st, o_nlines st).
Proof.
  intros. unfold w, print_indent1. destruct (strindent n t (o_col st)) as [o p] eqn:E.
  apply strindent_spec in E. destruct E as (E1 & E2 & _). cbn [fst]. split.
  - eapply Forall_impl; [|exact E2]. unfold tb. tauto.
  - unfold core, put. cbn. rewrite rev_append_rev, E1. reflexivity.
Qed.
Lemma emit_indent1 : forall n t st, Q (fst (strindent n t (o_col st))) (o_col st) ->
  emit [] (core st) (core (print_indent1 n t st)).
Proof. intros n t st HQ. destruct (core_indent1 n t st) as (Hw & ->). apply e_blank; auto. Qed.
Lemma emit_indent : forall n st, o_col st = 0 \/ QF -> emit [] (core st) (core (print_indent usetabs n st)).
Proof.
  intros n st H. assert (HQ : forall n, Q (fst (strindent n usetabs (o_col st))) (o_col st)) by (destruct H as [-> | H]; auto).
  unfold print_indent. destruct (0 <? o_parens st); [apply emit_indent1; auto|].
  change (core st) with (core (set_pre n st)). apply emit_indent1. apply HQ.
Qed.

(** Fields other than [core] that matter. *)
Definition ctl (st : dstate) : option nat * bool * nat := (o_idx st, o_bad st, o_maxlines st).
Lemma ctl_inv : forall a b, ctl a = ctl b -> o_idx a = o_idx b /\ o_bad a = o_bad b /\ o_maxlines a = o_maxlines b.
Proof. unfold ctl. intros a b H. inversion H. auto. Qed.
Definition ctl_le (st st' : dstate) : Prop :=
  (o_idx st' = o_idx st \/ o_idx st' = None) /\ o_bad st' = o_bad st /\ o_maxlines st' = o_maxlines st.
Lemma ctl_le_eq : forall a b, ctl b = ctl a -> ctl_le a b.
Proof. intros a b H. apply ctl_inv in H. destruct H as (H1 & H2 & H3). repeat split; auto. Qed.
Lemma ctl_le_trans : forall a b c, ctl_le a b -> ctl_le b c -> ctl_le a c.
Proof.
  intros a b c (H1 & H2 & H3) (K1 & K2 & K3). repeat split; try congruence.
  destruct K1 as [K1|K1]; [rewrite K1; auto|auto].
Qed.

Lemma ctl_indent : forall n st, ctl (print_indent usetabs n st) = ctl st.
Proof. intros. unfold print_indent, print_indent1. destruct (_ <? _), (strindent _ _ _); reflexivity. Qed.
Lemma ctl_trim : forall st, ctl (trim_spaces st) = ctl st.
Proof. intros. unfold trim_spaces. destruct (trim_loop _ _); reflexivity. Qed.
Lemma mute_indent : forall n st, o_mute (print_indent usetabs n st) = o_mute st.
Proof. intros. unfold print_indent, print_indent1. destruct (_ <? _), (strindent _ _ _); reflexivity. Qed.

(** ** doc_print *)
Definition ptexts (v : bool) (s : bytes) (st : dstate) : list text := text_of v s (o_mute st).

Lemma emit_now_nl : forall ind pend st, ML (o_maxlines st) ->
  let st' := print_now limit usetabs [NL] ind pend (is_mute st) st in
  emit [] (core st) (core st') /\ ctl_le st st' /\ o_mute st' = o_mute st /\
  (nonblank_top (o_rev st) -> ind = false -> nonblank_top (o_rev st')).
Proof.
  intros ind pend st HML. cbv zeta. unfold print_now.
  change (is_newline [NL]) with true. cbv iota.
  destruct (Nat.leb_spec (o_maxlines st) (o_nlines st)) as [Hml|Hml].
  { repeat split; auto. apply e_refl. }
  set (st1 := set_slines (S (o_slines st)) (set_nlines (S (o_nlines st)) st)).
  set (st2 := if negb pend && (0 <? o_optline st1) then set_optline 0 st1 else st1).
  assert (E2 : core st2 = (o_rev st, o_col st, o_mute st, S (o_nlines st)) /\ ctl st2 = ctl st) by (unfold st2; destruct (_ && _); auto).
  clearbody st2. clear st1. destruct E2 as (E2 & C2).
  assert (E2' := E2). unfold core in E2'. injection E2' as R2 CL2 M2 N2.
  set (st3 := trim_spaces st2).
  assert (E3 : core st3 = (fst (trim_loop (o_rev st) (o_col st)), snd (trim_loop (o_rev st) (o_col st)), o_mute st, S (o_nlines st))).
  { unfold st3. rewrite core_trim, R2, CL2, M2, N2. reflexivity. }
  assert (C3 : ctl st3 = ctl st) by (unfold st3; rewrite ctl_trim; auto).
  clearbody st3. unfold core in E3. injection E3 as R3 CL3 M3 N3.
  set (st4 := match o_mforce st3 with Some _ => set_idx None st3 | None => st3 end).
  assert (E4 : core st4 = core st3 /\ ctl_le st st4).
  { pose proof (ctl_le_eq _ _ C3) as H. unfold st4. destruct (o_mforce st3); split; auto.
    destruct H as (H1 & H2 & H3). repeat split; auto. }
  clearbody st4. destruct E4 as (E4 & C4). destruct (core_inv _ _ E4) as (R4 & CL4 & M4 & N4).
  set (st5 := doc_column limit [NL] (if is_mute st then st4 else put [NL] st4)).
  assert (E5 : emit [] (core st) (core st5) /\ ctl_le st st5 /\ o_mute st5 = o_mute st /\ o_col st5 = 0 /\
     (nonblank_top (o_rev st) -> nonblank_top (o_rev st5))).
  { unfold st5, is_mute. destruct (o_mute st =? 0)%Z eqn:Em; cbn [negb].
    - apply Z.eqb_eq in Em. split; [|split; [exact C4|split; [cbn; congruence|split; [apply strwidth_spec|]]]].
      + eapply e_trans0; [apply e_trim|].
        unfold core, doc_column, put. cbn [o_rev o_col o_mute o_nlines set_sexceeds set_col set_rev].
        rewrite strwidth_spec. cbn [rev_append]. rewrite R4, R3, M4, M3, N4, N3, Em.
        apply e_nl with (M := o_maxlines st); auto. apply trim_loop_top.
      + intros _ c r' Hc. cbn in Hc. inv Hc. intros [H|H]; discriminate.
    - apply Z.eqb_neq in Em. split; [|split; [exact C4|split; [cbn; congruence|split; [apply strwidth_spec|]]]].
      + eapply e_trans0; [apply e_trim|].
        unfold core, doc_column. cbn [o_rev o_col o_mute o_nlines set_sexceeds set_col set_rev].
        rewrite strwidth_spec, R4, R3, M4, M3, N4, N3. apply e_nl_muted. congruence.
      + intros _. cbn. rewrite R4, R3. apply trim_loop_top. }
  clearbody st5. destruct E5 as (E5 & C5 & M5 & Z5 & T5).
  destruct ind.
  - split; [|split; [|split]].
    + eapply e_trans0; [exact E5|]. apply emit_indent; auto.
    + eapply ctl_le_trans; [exact C5|]. apply ctl_le_eq. apply ctl_indent.
    + rewrite mute_indent. auto.
    + discriminate.
  - repeat split; auto; apply C5.
Qed.

Lemma emit_now_text : forall v s ind pend st, s <> [NL] -> (s = [SP] -> FS) -> (v = true -> nonblank_top (o_rev st)) ->
  let st' := print_now limit usetabs s ind pend (is_mute st) st in
  emit (ptexts v s st) (core st) (core st') /\ ctl_le st st' /\ o_mute st' = o_mute st /\
  o_col st' = display_col s (o_col st).
Proof.
  intros v s ind pend st Hs HFS Hv. cbv zeta. unfold print_now, ptexts, text_of.
  assert (E : is_newline s = false) by (apply not_true_is_false; rewrite is_newline_eq; auto).
  rewrite E. change (beq s [NL]) with (is_newline s). rewrite E. unfold is_mute.
  destruct (o_mute st =? 0)%Z eqn:Em; cbn [negb andb orb].
  - apply Z.eqb_eq in Em. split; [|repeat split; auto; apply strwidth_spec]. unfold core, doc_column, put.
    cbn [o_rev o_col o_mute o_nlines set_sexceeds set_col set_rev set_nlines]. rewrite strwidth_spec, rev_append_rev, Em.
    destruct (beq s [SP]) eqn:Es; cbn [negb].
    + apply beq_eq in Es. subst s. cbn [rev app]. replace (display_col [SP] (o_col st)) with (S (o_col st)).
      * apply e_space; auto.
      * unfold display_col. cbn. lia.
    + apply e_text; auto. intros H. apply beq_eq in H. congruence.
  - apply Z.eqb_neq in Em. split; [|repeat split; auto; apply strwidth_spec]. unfold core, doc_column.
    cbn [o_rev o_col o_mute o_nlines set_sexceeds set_col set_rev set_nlines]. rewrite strwidth_spec.
    apply e_text_muted; auto.
Qed.

Lemma print_spec : forall v s ind st, ML (o_maxlines st) -> (s = [SP] -> FS) ->
  (v = true -> nonblank_top (o_rev st) /\ ind = false) ->
  let st' := fst (doc_print limit usetabs s ind st) in
  emit (ptexts v s st) (core st) (core st') /\ ctl_le st st' /\ o_mute st' = o_mute st /\
  (forall s', s = s' ++ [NL] -> s' <> [] -> o_col st' = 0).
Proof.
  intros v s ind st HML HFS Hv. cbv zeta. unfold doc_print.
  set (st1 := if is_newline s && is_mute st then set_muteline true st else st).
  assert (E1 : core st1 = core st /\ ctl st1 = ctl st /\ is_mute st1 = is_mute st)
    by (unfold st1; destruct (_ && _); auto).
  clearbody st1. destruct E1 as (E1 & C1 & M1). rewrite <- M1. apply ctl_le_eq in C1.
  destruct (core_inv _ _ E1) as (R1 & CL1 & MM1 & N1).
  unfold ptexts. rewrite <- MM1, <- E1. fold (ptexts v s st1).
  assert (Hv1 : v = true -> nonblank_top (o_rev st1) /\ ind = false) by (rewrite R1; auto).
  assert (HML1 : ML (o_maxlines st1)) by (destruct C1 as (_ & _ & ->); auto).
  enough (G : forall st', st' = fst (if o_newline st1 then if beq s [SP] then (st1, false)
      else if is_newline s then (print_now limit usetabs [NL] ind true (is_mute st1)
              (if is_mute st1 then set_muteline true (set_newline false (set_refit true st1)) else set_newline false (set_refit true st1)), true)
           else (print_now limit usetabs s ind false (is_mute st1) (print_now limit usetabs [NL] ind true (is_mute st1)
              (if is_mute st1 then set_muteline true (set_newline false (set_refit true st1)) else set_newline false (set_refit true st1))), true)
      else (print_now limit usetabs s ind false (is_mute st1) st1, true)) ->
      emit (ptexts v s st1) (core st1) (core st') /\ ctl_le st1 st' /\ o_mute st' = o_mute st1 /\
      (forall s', s = s' ++ [NL] -> s' <> [] -> o_col st' = 0)).
  { destruct (G _ eq_refl) as (G1 & G2 & G3 & G4). split; [exact G1|]. split; [|split; [|exact G4]].
    - eapply ctl_le_trans; eauto.
    - exact G3. }
  clear Hv E1 C1 M1 HML R1 CL1 MM1 N1. clear st. rename st1 into st, Hv1 into Hv, HML1 into HML. intros st' ->.
  assert (Hnl : s = [NL] -> ptexts v s st = []).
  { intros ->. unfold ptexts, text_of. cbn. rewrite andb_false_r. reflexivity. }
  assert (Hcol : forall c s', s = s' ++ [NL] -> display_col s c = 0).
  { intros c s' ->. rewrite display_col_app. reflexivity. }
  assert (Hone : forall s', [NL] = s' ++ [NL] -> s' <> [] -> False).
  { intros s' H Hne. destruct s' as [|x [|y s']]; [congruence|discriminate..]. }
  destruct (o_newline st).
  - destruct (beq s [SP]) eqn:Es.
    { apply beq_eq in Es. subst s. cbn [fst]. split; [|split; [apply ctl_le_eq; auto|split; auto]].
      - unfold ptexts, text_of. cbn. rewrite andb_false_r. apply e_refl.
      - intros s' H Hne. exfalso. destruct s' as [|x [|y s']]; discriminate. }
    set (st2 := if is_mute st then set_muteline true (set_newline false (set_refit true st)) else set_newline false (set_refit true st)).
    assert (E2 : core st2 = core st /\ ctl st2 = ctl st /\ is_mute st2 = is_mute st) by (unfold st2; destruct (is_mute st) eqn:EM; repeat split; exact EM).
    clearbody st2. destruct E2 as (E2 & C2 & M2). rewrite <- M2. apply ctl_le_eq in C2.
    destruct (core_inv _ _ E2) as (R2 & CL2 & MM2 & N2).
    destruct (emit_now_nl ind true st2) as (H1 & H2 & H3 & H4). { destruct C2 as (_ & _ & ->). auto. }
    rewrite E2 in H1. set (st3 := print_now limit usetabs [NL] ind true (is_mute st2) st2) in *. clearbody st3.
    pose proof (ctl_le_trans _ _ _ C2 H2) as C3.
    destruct (is_newline s) eqn:En; cbn [fst].
    + apply is_newline_eq in En. rewrite (Hnl En). split; [exact H1|split; [exact C3|split; [congruence|]]].
      intros s' H Hne. exfalso. subst s. eapply Hone; eauto.
    + assert (En' : s <> [NL]) by (intros H; apply is_newline_eq in H; congruence).
      assert (M3 : is_mute st2 = is_mute st3) by (unfold is_mute; rewrite H3; auto). rewrite M3.
      destruct (emit_now_text v s ind false st3 En' HFS) as (T1 & T2 & T3 & T4).
      { intros Hvt. destruct (Hv Hvt) as (Hv1 & Hv2). apply H4; auto. rewrite R2. auto. }
      replace (ptexts v s st) with (ptexts v s st3) by (unfold ptexts; congruence).
      split; [eapply e_trans0; eauto|split; [eapply ctl_le_trans; eauto|split; [congruence|]]].
      intros s' H Hne. rewrite T4. eapply Hcol; eauto.
  - cbn [fst]. destruct (is_newline s) eqn:En.
    + apply is_newline_eq in En. rewrite (Hnl En). subst s.
      destruct (emit_now_nl ind false st HML) as (H1 & H2 & H3 & H4). split; [exact H1|split; [exact H2|split; [exact H3|]]].
      intros s' H Hne. exfalso. eapply Hone; eauto.
    + assert (En' : s <> [NL]) by (intros H; apply is_newline_eq in H; congruence).
      destruct (emit_now_text v s ind false st En' HFS) as (T1 & T2 & T3 & T4).
      { intros Hvt. apply Hv; auto. }
      split; [exact T1|split; [exact T2|split; [exact T3|]]]. intros s' H Hne. rewrite T4. eapply Hcol; eauto.
Qed.

(** ** Walking and fitting *)
Lemma wf_concat : forall n l, fold_right (fun d P => wf n d /\ P) True l <-> Forall (wf n) l.
Proof.
  intros n. induction l as [|d l IH]; cbn [fold_right]; split; intros H; auto.
  - destruct H. constructor; auto. apply IH; auto.
  - inv H. split; auto. apply IH; auto.
Qed.

Lemma fits_not_bad : forall n nl fuel stack f, Forall (wf n) stack -> f_bad f = false ->
  f_bad (doc_walk fuel (doc_fits1 limit nl) stack f) = false.
Proof.
  intros n nl. induction fuel as [|fuel IH]; intros [|d stack] f Hw Hf; cbn [doc_walk]; auto.
  assert (Hcb : f_bad (snd (doc_fits1 limit nl d f)) = false).
  { inv Hw. unfold doc_fits1. destruct nl; auto.
    assert (He : forall g, f_bad g = false -> f_bad (snd (fits_end limit g)) = false).
    { intros g Hg. unfold fits_end. destruct (_ <? _); auto. }
    destruct d; try (apply He; auto; fail).
    - cbn [wf] in *. destruct (rev str) as [|c r] eqn:Er.
      + exfalso. apply (f_equal (@length byte)) in Er. rewrite rev_length in Er. destruct str; [congruence|discriminate].
      + apply He. destruct (c =c NL); auto.
    - destruct (0 <? f_optline f); [auto|apply He; auto]. }
  destruct (doc_fits1 limit nl d f) as [[|] f']; auto. cbn [snd] in Hcb. apply IH; auto. inv Hw.
  apply Forall_app. split; auto. destruct d; cbn [children]; auto; cbn [wf] in *; try (constructor; auto; tauto).
  apply wf_concat; auto.
Qed.

(** ** doc_exec1 *)
Definition idx_ok (n : nat) (st : dstate) : Prop := (forall i, o_idx st = Some i -> i < n) /\ ML (o_maxlines st).
Lemma idx_ok_le : forall n st st', idx_ok n st -> ctl_le st st' -> idx_ok n st'.
Proof.
  intros n st st' (H & HM) (E & _ & M). split; [|rewrite M; auto].
  intros i Hi. destruct E as [E|E]; rewrite E in Hi; [auto|discriminate].
Qed.
Lemma idx_ok_ctl : forall n st st', idx_ok n st -> ctl st' = ctl st -> idx_ok n st'.
Proof. intros. eapply idx_ok_le; eauto. apply ctl_le_eq; auto. Qed.

Definition good (n : nat) (d : doc) (k : dstate -> dstate) : Prop := forall st, idx_ok n st ->
  emit (fst (texts d (o_mute st))) (core st) (core (k st)) /\
  o_mute (k st) = snd (texts d (o_mute st)) /\ idx_ok n (k st) /\ o_bad (k st) = o_bad st.

(** A state that only differs in fields of no concern can be used instead. *)
Lemma good_at : forall n d k st st', good n d k -> idx_ok n st -> core st' = core st -> ctl st' = ctl st ->
  emit (fst (texts d (o_mute st))) (core st) (core (k st')) /\
  o_mute (k st') = snd (texts d (o_mute st)) /\ idx_ok n (k st') /\ o_bad (k st') = o_bad st.
Proof.
  intros n d k st st' Hk Hi E C. destruct (core_inv _ _ E) as (R & CL & M & N). destruct (ctl_inv _ _ C) as (C1 & C2 & C3).
  destruct (Hk st') as (H1 & H2 & H3 & H4); [eapply idx_ok_ctl; eauto|]. rewrite M, E in *. rewrite C2 in H4. auto.
Qed.

Lemma texts_concat : forall l ts m,
  fold_left (fun '(ts, m) d => let '(ts', m') := texts d m in (ts ++ ts', m')) l (ts, m) =
  (ts ++ fst (texts (Concat l) m), snd (texts (Concat l) m)).
Proof.
  cbn [texts]. induction l as [|d l IH]; intros ts m; cbn [fold_left]; [rewrite app_nil_r; auto|].
  destruct (texts d m) as [t1 m1]. rewrite IH. rewrite (IH ([] ++ t1)). cbn [fst snd app]. rewrite app_assoc. reflexivity.
Qed.
Lemma texts_cons : forall d l m, texts (Concat (d :: l)) m =
  (fst (texts d m) ++ fst (texts (Concat l) (snd (texts d m))), snd (texts (Concat l) (snd (texts d m)))).
Proof.
  intros. cbn [texts fold_left]. destruct (texts d m) as [t1 m1]. rewrite texts_concat. reflexivity.
Qed.

Lemma ctl_indent1 : forall n t st, ctl (print_indent1 n t st) = ctl st /\ o_mute (print_indent1 n t st) = o_mute st.
Proof. intros. unfold print_indent1. destruct (strindent _ _ _). auto. Qed.

Lemma emit_align_tabs : QT -> forall fuel n st, emit [] (core st) (core (align_tabs fuel n st)) /\
  ctl (align_tabs fuel n st) = ctl st /\ o_mute (align_tabs fuel n st) = o_mute st.
Proof.
  intros HQ. induction fuel as [|fuel IH]; intros [|n] st; cbn [align_tabs]; try (repeat split; auto; apply e_refl).
  set (st' := print_indent1 8 true st). destruct (ctl_indent1 8 true st) as (H4 & H5). fold st' in H4, H5.
  destruct (IH (S n - (o_col st' - o_col st)) st') as (H1 & H2 & H3).
  repeat split; try congruence. eapply e_trans0; [|exact H1]. apply emit_indent1. apply HQ.
Qed.

Lemma good_indent : forall n v d k, (is_indent INDENT_FORCE v = true -> QF) -> good n d k -> good n d (exec_indent usetabs v k).
Proof.
  intros n v d k HQ Hk st Hi. unfold exec_indent.
  destruct (is_indent INDENT_PARENS v).
  { apply (good_at n d k st _ Hk Hi); destruct (parens_align st); auto. }
  destruct (is_indent INDENT_FORCE v).
  { set (st1 := print_indent usetabs (o_cur st) st).
    pose proof (emit_indent (o_cur st) st (or_intror (HQ eq_refl))) as HE. fold st1 in HE.
    pose proof (ctl_indent (o_cur st) st) as C. fold st1 in C.
    pose proof (mute_indent (o_cur st) st) as M. fold st1 in M.
    destruct (Hk st1 (idx_ok_ctl _ _ _ Hi C)) as (H1 & H2 & H3 & H4). rewrite M in *.
    destruct (ctl_inv _ _ C) as (C1 & C2 & C3). repeat split; auto; try congruence; try apply H3.
    eapply e_trans0; eauto. }
  set (st1 := if is_indent INDENT_NEWLINE v then _ else _).
  apply (good_at n d k st st1 Hk Hi); unfold st1;
    repeat match goal with |- context [if ?b then _ else _] => destruct b end; auto.
Qed.

Lemma good_minimize1 : forall n id ms d k i, Forall (fun m => is_indent INDENT_FORCE (fst m) = true -> QF) ms ->
  good n d k -> i < length ms -> good n d (minimize1 usetabs id ms k i).
Proof.
  intros n id ms d k i HF Hk Hlt st Hi. unfold minimize1.
  destruct (nth_error ms i) as [[v b]|] eqn:E; [|apply nth_error_None in E; lia].
  assert (HQ : is_indent INDENT_FORCE v = true -> QF).
  { apply nth_error_In in E. rewrite Forall_forall in HF. apply (HF (v, b)); auto. }
  apply (good_at n d _ st _ (good_indent n v d k HQ Hk) Hi); destruct (forced _ _ _ _); auto.
Qed.

Lemma try_all_spec : forall n id ms d k sn, Forall (fun m => is_indent INDENT_FORCE (fst m) = true -> QF) ms ->
  good n d k -> n = length ms -> idx_ok n sn ->
  forall is st, Forall (fun i => i < n) is -> core st = core sn -> ctl st = ctl sn ->
  let '(ps, st') := try_all usetabs id ms k sn is st in
  core st' = core sn /\ ctl st' = ctl sn /\ length ps = length is.
Proof.
  intros n id ms d k sn HF Hk Hn Hsn. induction is as [|i is IH]; intros st Hf Hc Hctl; cbn [try_all]; [auto|].
  inv Hf. set (st0 := set_idx (Some i) _). set (st1 := minimize1 usetabs id ms k i st0).
  destruct (ctl_inv _ _ Hctl) as (T1 & T2 & T3).
  assert (Hi0 : idx_ok (length ms) st0).
  { split; [intros j Hj; cbn in Hj; inv Hj; auto|]. cbn. rewrite T3. apply Hsn. }
  destruct (good_minimize1 (length ms) id ms d k i HF Hk ltac:(auto) st0 Hi0) as (_ & _ & _ & H4). fold st1 in H4.
  assert (Hb : o_bad st1 = o_bad sn) by (rewrite H4; auto).
  set (flags := match o_mforce st1 with Some _ => _ | None => _ end).
  specialize (IH (set_dbad (o_bad st1) (set_force flags sn)) ltac:(auto) eq_refl).
  destruct (try_all _ _ _ _ _ _ _) as [ps st2]. destruct IH as (I1 & I2 & I3).
  { unfold ctl. cbn. rewrite Hb. reflexivity. }
  repeat split; auto. cbn [length]. congruence.
Qed.

Lemma good_minimize : forall n id ms d k, Forall (fun m => is_indent INDENT_FORCE (fst m) = true -> QF) ms ->
  good n d k -> length ms = n -> n > 0 -> good n d (exec_minimize usetabs id ms k).
Proof.
  intros n id ms d k HF Hk Hn Hpos st Hi. unfold exec_minimize.
  destruct (o_idx st) as [i|] eqn:Ei.
  - apply good_minimize1; auto. rewrite Hn. apply Hi. auto.
  - pose proof (try_all_spec n id ms d k st HF Hk (eq_sym Hn) Hi (seq 0 (length ms)) st) as HT.
    destruct (try_all usetabs id ms k st (seq 0 (length ms)) st) as [ps st1]. destruct HT as (E & C & L); auto.
    { apply Forall_forall. intros i Hin. apply in_seq in Hin. lia. }
    rewrite seq_length in L. unfold best_of.
    set (qs := map _ ps). assert (Lq : length qs = n) by (unfold qs; rewrite map_length; lia). clearbody qs.
    destruct (pick_some (fun i => forced id ms i st1) qs 0 None) as (b & H1 & H2).
    { right. destruct qs; [simpl in Lq; lia|discriminate]. }
    { discriminate. }
    rewrite H1. destruct (core_inv _ _ E) as (E1 & E2 & E3 & E4). destruct (ctl_inv _ _ C) as (C1 & C2 & C3).
    destruct (good_minimize1 n id ms d k b HF Hk ltac:(lia) (set_idx (Some b) st1)) as (G1 & G2 & G3 & G4).
    { split; [intros j Hj; cbn in Hj; inv Hj; lia|]. cbn. rewrite C3. apply Hi. }
    change (core (set_idx (Some b) st1)) with (core st1) in G1. cbn [o_mute o_bad set_idx] in G1, G2, G4.
    rewrite E, E3 in G1. rewrite E3 in G2.
    split; [exact G1|split; [exact G2|split; [|cbn; congruence]]]. split; [intros j Hj; discriminate|apply G3].
Qed.

Lemma good_print : forall n v s ind, (v = true -> ind = false) -> (s = [SP] -> FS) ->
  forall st, idx_ok n st -> (v = true -> nonblank_top (o_rev st)) ->
  let st' := fst (doc_print limit usetabs s ind st) in
  emit (text_of v s (o_mute st)) (core st) (core st') /\ o_mute st' = o_mute st /\ idx_ok n st' /\ o_bad st' = o_bad st /\
  (forall s', s = s' ++ [NL] -> s' <> [] -> o_col st' = 0).
Proof.
  intros n v s ind Hv HFS st Hi Ht. cbv zeta. destruct (print_spec v s ind st) as (H1 & H2 & H3 & H4); auto.
  { apply Hi. }
  split; [exact H1|split; [exact H3|split; [eapply idx_ok_le; eauto|split; [apply H2|exact H4]]]].
Qed.
Lemma good_layout : forall n c st, idx_ok n st -> c = NL \/ c = SP /\ FS ->
  let st' := fst (doc_print limit usetabs [c] true st) in
  emit [] (core st) (core st') /\ o_mute st' = o_mute st /\ idx_ok n st' /\ o_bad st' = o_bad st.
Proof.
  intros n c st Hi Hc. destruct (good_print n false [c] true) with (st := st) as (H1 & H2 & H3 & H4 & _); auto.
  { intros H. destruct Hc as [Hc | (Hc & HF)]; auto. inv H. discriminate. }
  { discriminate. }
  cbv zeta. replace (text_of false [c] (o_mute st)) with (@nil text) in H1; auto.
  unfold text_of. destruct Hc as [Hc | (Hc & _)]; subst c; cbn; rewrite andb_false_r; auto.
Qed.
Lemma lay_concat : forall l, fold_right (fun d P => lay d /\ P) True l <-> Forall lay l.
Proof.
  induction l as [|d l IH]; cbn [fold_right]; split; intros H; auto.
  - destruct H. constructor; auto. apply IH; auto.
  - inv H. split; auto. apply IH; auto.
Qed.

Lemma exec_good : forall n d, wf n d -> lay d -> good n d (exec d).
Proof.
  intros n. induction d using doc_ind'; intros Hwf Hlay; cbn [wf] in Hwf; cbn [lay] in Hlay;
    try (intros st Hi; split; [apply e_refl|auto]; fail).
  - apply wf_concat in Hwf. apply lay_concat in Hlay. induction l as [|d l IHl].
    + intros st Hi. split; [apply e_refl|auto].
    + inv H. inv Hwf. inv Hlay. intros st Hi. rewrite texts_cons. cbn [fst snd doc_exec1 fold_left].
      destruct (H2 H1 H5 st Hi) as (G1 & G2 & G3 & G4).
      destruct (IHl H3 H4 H6 (exec d st) G3) as (K1 & K2 & K3 & K4). rewrite G2 in *.
      cbn [doc_exec1] in K1, K2, K3, K4. split; [eapply e_trans; eauto|split; [auto|split; [auto|congruence]]].
  - intros st Hi. cbn [doc_exec1 texts]. destruct (match o_mode st with MUNGE => _ | BREAK => _ end); [apply IHd; auto|].
    set (f := doc_fits limit (Group d) (set_refit false st)).
    assert (Hb : f_bad f = false) by (apply (fits_not_bad n); auto; constructor; auto). rewrite Hb, orb_false_r.
    apply (good_at n d (exec d) st _ (IHd Hwf Hlay) Hi); auto.
  - apply good_indent; tauto || apply IHd; tauto.
  - intros st Hi. cbn [doc_exec1 texts].
    pose proof (emit_trim st) as HT. pose proof (ctl_trim st) as CT. destruct (trim_same st) as (HM & HN).
    destruct (ctl_inv _ _ CT) as (C1 & C2 & C3).
    destruct (good_at n d (exec d) (trim_spaces st) (set_pre 0 (set_cur 0 (trim_spaces st))) (IHd Hwf Hlay)) as (G1 & G2 & G3 & G4); auto.
    { eapply idx_ok_ctl; eauto. }
    rewrite HM in *. rewrite C2 in G4. split; [|split; [exact G2|split; [exact G3|exact G4]]].
    eapply e_trans0; [exact HT|exact G1].
  - intros st Hi. cbn [doc_exec1 texts fst snd]. unfold exec_align. destruct c.
    + destruct (emit_align_tabs (Hlay eq_refl) a a st) as (H1 & H2 & H3). set (st1 := align_tabs a a st) in *. clearbody st1.
      destruct (ctl_indent1 b false st1) as (H6 & H7). rewrite H2 in H6. split; [|split; [congruence|split]].
      * eapply e_trans0; [exact H1|]. apply emit_indent1. apply Qsp.
      * eapply idx_ok_ctl; eauto.
      * apply ctl_inv in H6. apply H6.
    + destruct (ctl_indent1 (a + b) false st) as (H6 & H7). split; [|split; [congruence|split]].
      * apply emit_indent1. apply Qsp.
      * eapply idx_ok_ctl; eauto.
      * apply ctl_inv in H6. apply H6.
  - intros st Hi. cbn [doc_exec1 texts fst snd].
    destruct (good_print n false s true) with (st := st) as (H1 & H2 & H3 & H4 & _); auto. discriminate.
  - intros st Hi. cbn [doc_exec1 texts fst snd]. unfold exec_verbatim, is_mute.
    destruct (o_mute st =? 0)%Z eqn:Em; cbn [negb].
    2:{ unfold text_of. rewrite Em. cbn [andb]. split; [apply e_refl|auto]. }
    set (isblock := _ && _). pose proof (emit_trim st) as HT. pose proof (ctl_trim st) as CT.
    pose proof (trim_rev st) as Htop. destruct (trim_same st) as (HM & HN).
    set (st1 := trim_spaces st) in *. clearbody st1.
    set (st2 := if isblock && (0 <? o_col st1) then set_newline true st1 else st1).
    assert (E2 : core st2 = core st1 /\ ctl st2 = ctl st1) by (unfold st2; clearbody isblock; destruct (isblock && (0 <? o_col st1)); auto).
    destruct E2 as (E2 & C3). clearbody st2. destruct (core_inv _ _ E2) as (E3 & E4 & E5 & E6).
    rewrite CT in C3. destruct (ctl_inv _ _ C3) as (C4 & C5 & C6).
    destruct (good_print n true s false) with (st := st2) as (G1 & G2 & G3 & G4 & G5); auto.
    { apply Hlay. }
    { eapply idx_ok_ctl; eauto. }
    { intros _. rewrite E3. auto. }
    set (st3 := fst (doc_print limit usetabs s false st2)) in *. clearbody st3.
    rewrite E5, HM in G1. rewrite E2 in G1. pose proof (e_trans0 _ _ _ _ HT G1) as G.
    destruct (isblock || is_newline s) eqn:Eb.
    + set (ind := if 0 <? o_col st1 then _ else _). pose proof (ctl_indent ind st3) as CI.
      split; [|split; [rewrite mute_indent; congruence|split]].
      * eapply e_trans1; [exact G|]. apply emit_indent.
        destruct isblock eqn:Ei.
        -- left. unfold isblock in Ei. apply andb_true_iff in Ei. destruct Ei as (L & Ei). apply Nat.ltb_lt in L.
           destruct (rev s) as [|x r] eqn:Er; [discriminate|]. apply eqb_true in Ei. subst x.
           apply (G5 (rev r)).
           ++ rewrite <- (rev_involutive s), Er. reflexivity.
           ++ intros H. apply (f_equal (@length byte)) in Er. cbn in Er. rewrite rev_length in Er.
              apply (f_equal (@length byte)) in H. rewrite rev_length in H. cbn in H. lia.
        -- cbn [orb] in Eb. apply is_newline_eq in Eb. right. apply Hlay. auto.
      * eapply idx_ok_ctl; eauto.
      * apply ctl_inv in CI. destruct CI as (_ & CI & _). congruence.
    + split; [exact G|split; [congruence|split; [exact G3|congruence]]].
  - intros st Hi. cbn [doc_exec1 texts fst snd]. destruct (o_mode st); [apply good_layout; auto|].
    pose proof (good_layout n SP st Hi ltac:(auto)) as HS. cbv zeta in HS.
    destruct (doc_print limit usetabs [SP] true st) as [st1 [|]]; exact HS.
  - intros st Hi. cbn [doc_exec1 texts fst snd]. destruct (o_mode st); [apply good_layout; auto|]. split; [apply e_refl|auto].
  - intros st Hi. apply good_layout; auto.
  - intros st Hi. cbn [doc_exec1 texts fst snd]. destruct (0 <? o_optline st); split; try apply e_refl; auto.
  - intros st Hi. cbn [doc_exec1 texts fst snd]. unfold exec_mute, mute_step.
    repeat match goal with |- context [if ?b then _ else _] => destruct b end; split; auto; try (apply e_mute; auto); apply e_refl.
  - intros st Hi. cbn [doc_exec1 texts fst snd]. unfold exec_mute, mute_step.
    repeat match goal with |- context [if ?b then _ else _] => destruct b end; split; auto; try (apply e_mute; auto); apply e_refl.
  - intros st Hi. cbn [doc_exec1 texts].
    destruct (good_at n d (exec d) st (set_optline (S (o_optline st)) st) (IHd Hwf Hlay) Hi) as (G1 & G2 & G3 & G4); auto.
    destruct (_ <=? _); auto.
  - apply good_minimize; tauto || apply IHd; tauto.
  - intros st Hi. cbn [doc_exec1 texts]. apply (good_at n d (exec d) st _ (IHd Hwf Hlay) Hi); auto.
  - destruct Hlay as (HM & Hlay). intros st Hi. cbn [doc_exec1 texts].
    destruct (IHd Hwf Hlay (set_maxlines n0 st)) as (G1 & G2 & G3 & G4).
    { split; [apply Hi|exact HM]. }
    split; [exact G1|split; [exact G2|split; [|exact G4]]]. split; [apply G3|apply Hi].
Qed.
End Proofs.
