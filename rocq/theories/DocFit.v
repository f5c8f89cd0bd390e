(** Groups that fit on a line and the choice among indentations (DocModel). *)
From Verif Require Import Base StrModel UtilModel UtilProofs DocModel DocProofs DocEmit.

(** ** Specification of flat documents *)
(** Number of tabs that cover [indent] columns from column [c] on. *)
Definition ntabs (indent c : nat) : nat :=
  if indent =? 0 then 0 else S ((indent - (8 - c mod 8) + 7) / 8).

(** The text of a document laid out on one line from column [c] on. *)
Fixpoint flat_text (d : doc) (c : nat) : bytes :=
  match d with
  | Concat l => fold_left (fun t d => t ++ flat_text d (display_col t c)) l []
  | Group d | Indent _ d | NoIndent d | Optional d | Minimize _ _ d | Scope d | Maxlines _ d => flat_text d c
  | Align indent spaces tabalign =>
      if tabalign then repeat TAB (ntabs indent c) ++ repeat SP spaces else repeat SP (indent + spaces)
  | Literal s => s
  | Line => [SP]
  | _ => []
  end.
Definition flat_end (d : doc) (c : nat) : nat := display_col (flat_text d c) c.

(** Documents that can be laid out on one line: no unconditional or optional line, no
    verbatim text and no muting. *)
Fixpoint flat (d : doc) : Prop :=
  match d with
  | Concat l => fold_right (fun d P => flat d /\ P) True l
  | Group d | Optional d | Scope d | Maxlines _ d => flat d
  | Indent v d => is_indent INDENT_FORCE v = false /\ flat d
  | Minimize _ ms d => Forall (fun m => is_indent INDENT_FORCE (fst m) = false) ms /\ flat d
  | Align _ _ _ => True
  | Literal s => ~ In NL s
  | Line | Softline => True
  | _ => False
  end.

Lemma flat_concat : forall l, fold_right (fun d P => flat d /\ P) True l <-> Forall flat l.
Proof.
  induction l as [|d l IH]; cbn [fold_right]; split; intros H; auto.
  - destruct H. constructor; auto. apply IH; auto.
  - inv H. split; auto. apply IH; auto.
Qed.

Fixpoint seq_end (l : list doc) (c : nat) : nat := match l with [] => c | d :: r => seq_end r (flat_end d c) end.
Fixpoint seq_text (l : list doc) (c : nat) : bytes :=
  match l with [] => [] | d :: r => flat_text d c ++ seq_text r (flat_end d c) end.
Lemma seq_text_end : forall l c, display_col (seq_text l c) c = seq_end l c.
Proof. induction l; intros c; cbn [seq_text seq_end]; auto. rewrite display_col_app. apply IHl. Qed.
Lemma flat_text_concat : forall l t c,
  fold_left (fun t d => t ++ flat_text d (display_col t c)) l t = t ++ seq_text l (display_col t c).
Proof.
  induction l as [|d l IH]; intros t c; cbn [fold_left seq_text]; [rewrite app_nil_r; auto|].
  rewrite IH, display_col_app, <- app_assoc. reflexivity.
Qed.
Lemma flat_text_seq : forall l c, flat_text (Concat l) c = seq_text l c.
Proof. intros. cbn [flat_text]. rewrite flat_text_concat. reflexivity. Qed.
Lemma flat_end_seq : forall l c, flat_end (Concat l) c = seq_end l c.
Proof. intros. unfold flat_end. rewrite flat_text_seq. apply seq_text_end. Qed.

(** ** Columns only grow without newlines *)
Lemma display_col_ge : forall s c, ~ In NL s -> c <= display_col s c.
Proof.
  induction s as [|x s IH]; intros c H; [cbn; auto|]. unfold display_col. cbn [fold_left].
  fold (display_col s (col_step c x)). etransitivity; [|apply IH; intros Hin; apply H; right; auto].
  unfold col_step. destruct (x =c TAB); [rewrite <- next_tab; lia|].
  destruct (x =c NL) eqn:E; [exfalso; apply H; left; apply eqb_true in E; auto|lia].
Qed.

Lemma flat_no_nl : forall d c, flat d -> ~ In NL (flat_text d c).
Proof.
  induction d using doc_ind'; intros c0 Hf; cbn [flat] in Hf; cbn [flat_text]; auto; try (apply IHd; tauto);
    try (intros []; fail).
  - change (fold_left (fun t d => t ++ flat_text d (display_col t c0)) l []) with (flat_text (Concat l) c0).
    rewrite flat_text_seq. apply flat_concat in Hf. revert c0. induction l as [|d l IHl]; intros c0; cbn [seq_text]; auto.
    inv H. inv Hf. intros Hin. apply in_app_or in Hin. destruct Hin as [Hin|Hin]; [eapply H2; eauto|eapply IHl; eauto].
  - destruct c; intros Hin.
    + apply in_app_or in Hin. destruct Hin as [Hin|Hin]; apply repeat_spec in Hin; discriminate.
    + apply repeat_spec in Hin; discriminate.
  - intros [E|[]]. discriminate.
Qed.
Lemma flat_end_ge : forall d c, flat d -> c <= flat_end d c.
Proof. intros. apply display_col_ge. apply flat_no_nl. auto. Qed.
Lemma seq_end_ge : forall l c, Forall flat l -> c <= seq_end l c.
Proof.
  induction l; intros c H; cbn; auto. inv H. etransitivity; [apply (flat_end_ge a); auto|auto].
Qed.
Lemma seq_end_app : forall a b c, seq_end (a ++ b) c = seq_end b (seq_end a c).
Proof. induction a; intros; cbn; auto. Qed.

(** ** The tab loop *)
Lemma ntabs_step : forall indent c, indent > 0 ->
  ntabs indent c = S (ntabs (indent - (8 - c mod 8)) (c + (8 - c mod 8))).
Proof.
  intros indent c H. unfold ntabs at 1. destruct (Nat.eqb_spec indent 0); [lia|]. f_equal.
  set (i := indent - (8 - c mod 8)). rewrite next_tab. unfold ntabs. destruct (Nat.eqb_spec i 0) as [->|Hi]; [reflexivity|].
  rewrite (Nat.mul_comm 8), Nat.mod_mul by lia. rewrite Nat.sub_0_r.
  destruct (Nat.le_gt_cases i 8).
  - replace (i - 8) with 0 by lia. change ((0 + 7) / 8) with 0. symmetry; apply (Nat.div_unique _ _ _ (i - 1)); lia.
  - replace (i + 7) with ((i - 8 + 7) + 1 * 8) by lia. rewrite Nat.div_add by lia. lia.
Qed.

Lemma tab_loop_spec : forall fuel indent c, indent <= fuel ->
  tab_loop fuel indent c = display_col (repeat TAB (ntabs indent c)) c.
Proof.
  induction fuel as [|fuel IH]; intros [|i] c H; cbn [tab_loop]; try reflexivity; try lia.
  rewrite ntabs_step by lia. pose proof (Nat.mod_upper_bound c 8 ltac:(lia)). rewrite IH by lia. cbn [repeat].
  unfold display_col. cbn [fold_left]. f_equal. unfold col_step. change (TAB =c TAB) with true. cbv iota. apply next_tab.
Qed.

Lemma flat_end_align : forall i s t c, flat_end (Align i s t) c =
  if t then tab_loop i i c + s else c + (i + s).
Proof.
  intros. unfold flat_end. cbn [flat_text]. destruct t.
  - rewrite display_col_app, display_col_spaces, tab_loop_spec; auto.
  - apply display_col_spaces.
Qed.

Lemma strindent8 : forall c, strindent 8 true c = ([TAB], c + (8 - c mod 8)).
Proof.
  intros c. destruct (strindent 8 true c) as [o p] eqn:E. apply strindent_spec in E. destruct E as (E1 & _ & _ & E2 & _).
  destruct (E2 eq_refl) as (t & s & E3 & E4 & E5). assert (t = 1) by lia. assert (s = 0) by lia. subst t s. subst o p.
  f_equal. rewrite next_tab. reflexivity.
Qed.

Section Fit.
Variable limit : nat.
Variable usetabs : bool.
Notation exec := (doc_exec1 limit usetabs).

Definition sizes (l : list doc) : nat := fold_right (fun d n => doc_size d + n) 0 l.
Lemma sizes_app : forall a b, sizes (a ++ b) = sizes a + sizes b.
Proof. induction a; intros; cbn; auto. unfold sizes in *. rewrite IHa. lia. Qed.

Lemma walk_fits : forall fuel stack f, Forall flat stack -> sizes stack <= fuel ->
  f_fits f = true -> f_col f <= limit ->
  f_fits (doc_walk fuel (doc_fits1 limit false) stack f) = (seq_end stack (f_col f) <=? limit).
Proof.
  induction fuel as [|fuel IH]; intros [|d stack] f Hfl Hsz Hf Hc.
  - cbn. rewrite Hf. symmetry. apply Nat.leb_le. auto.
  - exfalso. destruct d; cbn in Hsz; lia.
  - cbn. rewrite Hf. symmetry. apply Nat.leb_le. auto.
  - inv Hfl. assert (Hs : doc_size d + sizes stack <= S fuel) by exact Hsz.
    (* a leaf that ends at column [c] *)
    assert (Hleaf : forall c, children d = [] -> doc_size d = 1 -> flat_end d (f_col f) = c ->
      f_fits (match fits_end limit (Fit c (f_optline f) (f_fits f) (f_bad f)) with
        | (true, a') => a' | (false, a') => doc_walk fuel (doc_fits1 limit false) (children d ++ stack) a' end) =
      (seq_end (d :: stack) (f_col f) <=? limit)).
    { intros c Hch Hd1 He. rewrite Hch. unfold fits_end. cbn [f_col app]. cbn [seq_end]. rewrite He.
      destruct (Nat.ltb_spec limit c) as [Hlt|Hlt].
      - cbn [f_fits]. symmetry. apply Nat.leb_gt. pose proof (seq_end_ge stack c H2). lia.
      - rewrite IH; auto. lia. }
    (* an inner node *)
    assert (Hinner : forall o, Forall flat (children d) -> sizes (children d) < doc_size d ->
      (forall c, seq_end (children d) c = flat_end d c) ->
      f_fits (match fits_end limit (Fit (f_col f) o (f_fits f) (f_bad f)) with
        | (true, a') => a' | (false, a') => doc_walk fuel (doc_fits1 limit false) (children d ++ stack) a' end) =
      (seq_end (d :: stack) (f_col f) <=? limit)).
    { intros o Hch H3 He. unfold fits_end. cbn [f_col]. destruct (Nat.ltb_spec limit (f_col f)); [lia|].
      rewrite IH; auto.
      - rewrite seq_end_app, He. reflexivity.
      - apply Forall_app; auto.
      - rewrite sizes_app. lia. }
    assert (Hfe : forall (g : fit), Fit (f_col g) (f_optline g) (f_fits g) (f_bad g) = g) by (intros []; auto).
    cbn [doc_walk]. unfold doc_fits1.
    destruct d; cbn [flat] in H1; try contradiction;
      try (rewrite <- (Hfe f) at 1; apply Hinner; cbn [children doc_size]; [repeat constructor; tauto|cbn; lia|reflexivity]).
    + rewrite <- (Hfe f) at 1. apply Hinner; cbn [children doc_size].
      * apply flat_concat. auto.
      * unfold sizes. lia.
      * intros c. symmetry. apply flat_end_seq.
    + apply Hleaf; auto. apply flat_end_align.
    + apply Hleaf; auto. unfold flat_end. cbn [flat_text]. symmetry. apply strwidth_spec.
    + apply Hleaf; auto. unfold flat_end. cbn. unfold display_col. cbn. lia.
Qed.

Theorem doc_fits_flat : forall d st, flat d -> o_newline st = false ->
  f_fits (doc_fits limit d st) = (flat_end d (o_col st) <=? limit).
Proof.
  intros d st Hf Hn. unfold doc_fits. rewrite Hn. destruct (Nat.le_gt_cases (o_col st) limit) as [Hc|Hc].
  - rewrite walk_fits; auto. cbn. lia.
  - assert (Hw : forall g, f_col g > limit -> f_fits (snd (fits_end limit g)) = false /\ fst (fits_end limit g) = true).
    { intros g Hg. unfold fits_end. destruct (Nat.ltb_spec limit (f_col g)); [auto|lia]. }
    pose proof (flat_end_ge d (o_col st) Hf). replace (flat_end d (o_col st) <=? limit) with false by (symmetry; apply Nat.leb_gt; lia).
    destruct d eqn:Ed; cbn [flat] in Hf; try contradiction; cbn [doc_size doc_walk]; unfold doc_fits1;
      match goal with |- context [fits_end limit ?g] => destruct (Hw g) as (W1 & W2);
        [cbn [f_col]; try lia | destruct (fits_end limit g) as [b a]; cbn in W1, W2; subst b; exact W1] end.
    + rewrite <- (flat_end_align indent spaces tabalign). lia.
    + rewrite strwidth_spec. unfold flat_end in H. cbn [flat_text] in H. lia.
Qed.

(** ** Executing a flat document on one line *)
Definition on_line (st : dstate) : Prop := o_newline st = false /\ o_mute st = 0%Z /\ o_mode st = MUNGE.

Definition flat_ok (n : nat) (d : doc) (k : dstate -> dstate) : Prop := forall st, on_line st ->
  idx_ok (fun _ => True) n st -> flat_end d (o_col st) <= limit ->
  on_line (k st) /\ o_rev (k st) = rev (flat_text d (o_col st)) ++ o_rev st /\ o_col (k st) = flat_end d (o_col st).

Lemma lay_any : forall d, lay usetabs (fun _ _ => True) True True (fun _ => True) d.
Proof.
  induction d using doc_ind'; cbn [lay]; auto; try (split; auto; fail).
  1: { induction H; cbn; auto. }
  all: unfold QF, QT; repeat split; auto; apply Forall_forall; auto.
Qed.
Lemma good_any : forall n d, wf n d -> good (fun _ _ => True) True True (fun _ => True) n d (exec d).
Proof. intros. apply exec_good; auto. apply lay_any. Qed.

Lemma print_flat : forall s st, on_line st -> s <> [NL] ->
  let st' := fst (doc_print limit usetabs s true st) in
  on_line st' /\ o_rev st' = rev s ++ o_rev st /\ o_col st' = display_col s (o_col st) /\ snd (doc_print limit usetabs s true st) = true.
Proof.
  intros s st (H1 & H2 & H3) Hs. cbv zeta. unfold doc_print.
  assert (E : is_newline s = false) by (apply not_true_is_false; rewrite is_newline_eq; auto).
  unfold is_mute. rewrite E, H2. cbn [andb negb Z.eqb]. rewrite H1. unfold print_now. rewrite E.
  cbn [fst snd]. unfold on_line, put, doc_column. cbn. rewrite rev_append_rev, strwidth_spec. auto.
Qed.

(** The state after trying candidates is the one before but for the FORCE flags. *)
Lemma try_all_state : forall id ms k sn is st, (exists F b, st = set_dbad b (set_force F sn)) ->
  exists F b, snd (try_all usetabs id ms k sn is st) = set_dbad b (set_force F sn).
Proof.
  intros id ms k sn. induction is as [|i is IH]; intros st Hst; cbn [try_all]; auto.
  set (st1 := minimize1 _ _ _ _ _ _). set (fl := match o_mforce st1 with Some _ => _ | None => _ end).
  specialize (IH (set_dbad (o_bad st1) (set_force fl sn))).
  destruct (try_all _ _ _ _ _ _ _) as [ps st2]. apply IH. eauto.
Qed.

Lemma try_all_length : forall id ms k sn is st, length (fst (try_all usetabs id ms k sn is st)) = length is.
Proof.
  intros id ms k sn. induction is as [|i is IH]; intros st; cbn [try_all]; auto.
  match goal with |- context [try_all _ _ _ _ _ _ ?s] => specialize (IH s); destruct (try_all usetabs id ms k sn is s) end.
  cbn in *. auto.
Qed.

Lemma flat_indent : forall n v d k, is_indent INDENT_FORCE v = false -> flat_ok n d k -> flat_ok n d (exec_indent usetabs v k).
Proof.
  intros n v d k Hv Hk st Hl Hi Hfit. unfold exec_indent.
  destruct (is_indent INDENT_PARENS v).
  { destruct (parens_align st).
    - exact (Hk (set_parens (S (o_parens st)) st) Hl Hi Hfit).
    - exact (Hk st Hl Hi Hfit). }
  rewrite Hv.
  repeat match goal with |- context [if ?b then _ else _] => destruct b end;
    match goal with |- context [k ?s] => exact (Hk s Hl Hi Hfit) end.
Qed.

Lemma exec_flat : forall n d, wf n d -> flat d -> flat_ok n d (exec d).
Proof.
  intros n. induction d using doc_ind'; intros Hwf Hf; cbn [flat] in Hf; cbn [wf] in Hwf; try contradiction.
  - apply wf_concat in Hwf. apply flat_concat in Hf. intros st Hl Hi Hfit.
    rewrite flat_end_seq in *. rewrite flat_text_seq. cbn [doc_exec1]. revert st Hl Hi Hfit.
    induction l as [|d l IHl]; intros st Hl Hi Hfit; cbn [fold_left seq_end seq_text] in *; auto.
    inv H. inv Hwf. inv Hf. pose proof (seq_end_ge l (flat_end d (o_col st)) H6).
    destruct (H2 H1 H5 st Hl Hi ltac:(lia)) as (G1 & G2 & G3).
    destruct (good_any n d H1 st Hi) as (_ & _ & G4 & _).
    destruct (IHl H3 H4 H6 (exec d st) G1 G4) as (K1 & K2 & K3).
    { rewrite G3. auto. }
    rewrite G3 in *. rewrite K2, G2, rev_app_distr, <- app_assoc. auto.
  - intros st Hl Hi Hfit. assert (Hl' := Hl). destruct Hl' as (L1 & L2 & L3). cbn [doc_exec1]. rewrite L3.
    destruct (negb (o_refit st)); [apply IHd; auto|].
    assert (HF : f_fits (doc_fits limit (Group d) (set_refit false st)) = true).
    { rewrite doc_fits_flat; auto. apply Nat.leb_le. exact Hfit. }
    rewrite HF.
    match goal with |- context [exec d ?s] => destruct (IHd Hwf Hf s) as (G1 & G2 & G3);
      [repeat split; auto|exact Hi|exact Hfit|] end.
    split; [|split; [exact G2|exact G3]]. repeat split; auto; apply G1.
  - apply flat_indent; [tauto|]. apply IHd; tauto.
  - intros st Hl Hi Hfit. cbn [doc_exec1]. unfold exec_align. cbn [flat_text].
    assert (Hp1 : forall i st, on_line st -> on_line (print_indent1 i false st) /\
       o_rev (print_indent1 i false st) = rev (repeat SP i) ++ o_rev st /\ o_col (print_indent1 i false st) = o_col st + i).
    { intros i st0 H0. unfold print_indent1. destruct (strindent i false (o_col st0)) as [w p] eqn:E.
      apply strindent_spec in E. destruct E as (E1 & _ & E3 & _ & _). rewrite (E3 eq_refl) in *. unfold put, on_line in *. cbn.
      rewrite rev_append_rev, E1, display_col_spaces. auto. }
    destruct c.
    + assert (Ht : forall fuel i st, i <= fuel -> on_line st -> on_line (align_tabs fuel i st) /\
        o_rev (align_tabs fuel i st) = rev (repeat TAB (ntabs i (o_col st))) ++ o_rev st /\
        o_col (align_tabs fuel i st) = display_col (repeat TAB (ntabs i (o_col st))) (o_col st)).
      { clear. induction fuel as [|fuel IH]; intros [|i] st Hle Hl; cbn [align_tabs]; try lia; auto.
        assert (Hp : on_line (print_indent1 8 true st) /\ o_rev (print_indent1 8 true st) = TAB :: o_rev st /\
           o_col (print_indent1 8 true st) = o_col st + (8 - o_col st mod 8)).
        { unfold print_indent1. assert (E : strindent 8 true (o_col st) = ([TAB], o_col st + (8 - o_col st mod 8))) by apply strindent8.
          rewrite E. unfold on_line in *. cbn -[Nat.modulo Nat.sub]. tauto. }
        destruct Hp as (P1 & P2 & P3). pose proof (Nat.mod_upper_bound (o_col st) 8 ltac:(lia)).
        destruct (IH (S i - (o_col (print_indent1 8 true st) - o_col st)) (print_indent1 8 true st)) as (G1 & G2 & G3); auto; [lia|].
        rewrite P3 in *. replace (o_col st + (8 - o_col st mod 8) - o_col st) with (8 - o_col st mod 8) in * by lia.
        rewrite (ntabs_step (S i)) by lia. split; auto. rewrite G2, G3, P2. cbn [repeat rev]. rewrite <- app_assoc. split; auto.
        unfold display_col. cbn [fold_left]. f_equal. unfold col_step. change (TAB =c TAB) with true. cbv iota. apply next_tab. }
      destruct (Ht a a st (le_n _) Hl) as (T1 & T2 & T3).
      destruct (Hp1 b _ T1) as (P1 & P2 & P3). rewrite P2, P3, T2, T3. rewrite rev_app_distr, <- app_assoc. split; auto. split; auto.
      unfold flat_end. cbn [flat_text]. rewrite display_col_app, display_col_spaces. auto.
    + destruct (Hp1 (a + b) st Hl) as (P1 & P2 & P3). rewrite P2, P3. split; auto. split; auto.
      unfold flat_end. cbn [flat_text]. rewrite display_col_spaces. auto.
  - intros st Hl Hi Hfit. cbn [doc_exec1 flat_text]. destruct (print_flat s st Hl) as (P1 & P2 & P3 & _); auto.
    intros ->. apply Hf. left; auto.
  - intros st Hl Hi Hfit. cbn [doc_exec1 flat_text]. assert (Hl' := Hl). destruct Hl' as (L1 & L2 & L3). rewrite L3.
    destruct (print_flat [SP] st Hl ltac:(discriminate)) as (P1 & P2 & P3 & P4).
    destruct (doc_print limit usetabs [SP] true st) as [st1 b]. cbn [fst snd] in *. subst b. split; auto.
  - intros st Hl Hi Hfit. cbn [doc_exec1 flat_text]. assert (Hl' := Hl). destruct Hl' as (L1 & L2 & L3). rewrite L3. auto.
  - intros st Hl Hi Hfit. cbn [doc_exec1 flat_text].
    destruct (IHd Hwf Hf (set_optline (S (o_optline st)) st)) as (G1 & G2 & G3); auto.
    destruct (_ <=? _); auto.
  - destruct Hwf as (W1 & W2 & W3). destruct Hf as (F1 & F2). specialize (IHd W3 F2).
    assert (Hm : forall i, i < length ms -> flat_ok n d (minimize1 usetabs id ms (exec d) i)).
    { intros i Hlt st Hl Hi Hfit. unfold minimize1. destruct (nth_error ms i) as [[v b]|] eqn:E; [|apply nth_error_None in E; lia].
      assert (HF : is_indent INDENT_FORCE v = false).
      { apply nth_error_In in E. rewrite Forall_forall in F1. apply (F1 (v, b)); auto. }
      destruct (forced _ _ _ _); [|exact (flat_indent n v d (exec d) HF IHd st Hl Hi Hfit)].
      exact (flat_indent n v d (exec d) HF IHd (set_mforce (Some i) st) Hl Hi Hfit). }
    intros st Hl Hi Hfit. cbn [doc_exec1 flat_text]. unfold exec_minimize. destruct (o_idx st) as [i|] eqn:Ei.
    + apply Hm; auto. rewrite W1. apply Hi. auto.
    + pose proof (try_all_state id ms (exec d) st (seq 0 (length ms)) st) as HS.
      pose proof (try_all_length id ms (exec d) st (seq 0 (length ms)) st) as L.
      destruct (try_all usetabs id ms (exec d) st (seq 0 (length ms)) st) as [ps st1]. cbn [fst snd] in *.
      destruct HS as (F & b0 & ->).
      { exists (o_force st), (o_bad st). destruct st; reflexivity. }
      rewrite seq_length in L. unfold best_of.
      set (qs := map _ ps). assert (Lq : length qs = n) by (unfold qs; rewrite map_length; lia). clearbody qs.
      destruct (pick_some (fun i => forced id ms i (set_dbad b0 (set_force F st))) qs 0 None) as (b & H1 & H2).
      { right. destruct qs; [simpl in Lq; lia|discriminate]. }
      { discriminate. }
      rewrite H1. destruct (Hm b ltac:(lia) (set_idx (Some b) (set_dbad b0 (set_force F st)))) as (G1 & G2 & G3); auto.
      split; [intros j Hj; cbn in Hj; inv Hj; lia|auto].
  - intros st Hl Hi Hfit. cbn [doc_exec1 flat_text]. exact (IHd Hwf Hf (set_slines 0 st) Hl Hi Hfit).
  - intros st Hl Hi Hfit. cbn [doc_exec1 flat_text].
    exact (IHd Hwf Hf (set_maxlines n0 st) Hl (conj (proj1 Hi) I) Hfit).
Qed.
End Fit.
