(** The document of an expression: C60. *)
From Verif Require Import Base TokenModel LexModel UtilModel UtilProofs DocModel DocProofs DocFit DocProps ExprModel ExprProofs ExprProps BuildModel BuildProofs ExprDocModel ExprDocProofs.
Local Close Scope Q_scope.
Local Open Scope nat_scope.

(** * Specification, continued from ExprDocProofs ([piece], [show], [shown_exec], [pdoc]) *)

(** The tokens among pieces. *)
Definition toks_of (ps : list piece) : list token := flat_map (fun p => match p with Tk k => [k] | Rec ks => ks | _ => [] end) ps.
(** The text of a document that is not muted. *)
Definition doc_text (d : doc) : bytes := concat (map snd (fst (texts d 0))).
(** Documents for tokens that can be printed anywhere: muted parts end where they start. *)
Definition printable (d : doc) : Prop := wf 2 d /\ snd (texts d 0) = 0%Z.

(** * Proofs *)

(** ** Texts *)
Definition seq_texts (l : list doc) (m : Z) : list text * Z := texts (Concat l) m.
Lemma texts_app : forall a b m, texts (Concat (a ++ b)) m =
  (fst (texts (Concat a) m) ++ fst (texts (Concat b) (snd (texts (Concat a) m))), snd (texts (Concat b) (snd (texts (Concat a) m)))).
Proof.
  induction a as [|d a IH]; intros b m; [destruct (texts (Concat b) m) eqn:E; change (texts (Concat []) m) with (@nil text, m); cbn [app fst snd]; rewrite E; reflexivity|].
  cbn [app]. rewrite !texts_cons, IH. cbn [fst snd]. rewrite app_assoc. reflexivity.
Qed.
Lemma texts_one : forall d m, texts (Concat [d]) m = texts d m.
Proof. intros d m. rewrite texts_cons. change (texts (Concat []) (snd (texts d m))) with (@nil text, snd (texts d m)). cbn [fst snd]. rewrite app_nil_r. destruct (texts d m); reflexivity. Qed.
Lemma texts_leaves : forall d m, texts d m = texts (Concat (leaves d)) m.
Proof.
  induction d using doc_ind'; intros m; cbn [leaves]; try (rewrite texts_one; reflexivity); try (cbn [texts]; apply IHd); try reflexivity.
  revert m. induction H as [|d l E _ IH]; intros m; [reflexivity|]. cbn [flat_map]. rewrite texts_cons, texts_app, <- E, <- IH. reflexivity.
Qed.
Lemma printable_seq : forall l, Forall printable l -> snd (texts (Concat l) 0) = 0%Z /\ map snd (fst (texts (Concat l) 0)) = flat_map (fun d => map snd (fst (texts d 0))) l.
Proof.
  induction 1 as [|d l [_ H] _ [IH1 IH2]]; [split; reflexivity|]. rewrite texts_cons, H. cbn [fst snd flat_map]. rewrite map_app. split; [exact IH1|]. apply (f_equal2 (@app bytes)); [reflexivity|exact IH2].
Qed.

Section Theorems.
Variable q : queries.
Variable D : docs.
Variable S_ : setting.
(** The document of an expression on its own. *)
Definition doc_of (x : expr) : option doc := match expr_doc_exec q D S_ x 0 root with Some (_, s) => Some (built s) | None => None end.

Lemma doc_of_spec : forall (good : doc -> Prop) (gk : kind -> Prop) x,
  (forall l, Forall good l -> good (Concat l)) -> (forall k d, gk k -> good d -> good (wrap1 k d)) -> good Softline ->
  gk KGroup -> gk (KMaxlines 1) -> gk KScope -> gk KOptional ->
  (forall v, In v [INDENT_WIDTH; INDENT_PARENS; (- Z.of_nat (a_indent S_))%Z; Z.of_nat (a_align S_); Z.of_nat (a_indent S_)] -> gk (KIndent v)) ->
  (forall id i, i = 0 \/ i = a_indent S_ -> gk (KMinimize id [(INDENT_WIDTH, false); (Z.of_nat i, false)]) /\ gk (KMinimize id [(0%Z, false); (Z.of_nat i, true)])) ->
  solid x -> x <> ENull -> Forall (fun p => good (pdoc D p)) (shown_exec q S_ x) ->
  exists d, doc_of x = Some d /\ good d /\ leaves d = flat_map (fun p => leaves (pdoc D p)) (shown_exec q S_ x).
Proof.
  intros good gk x G1 G2 G3 K1 K2 K3 K4 K5 K6 S1 N O. unfold doc_of.
  assert (A : adds D good gk (expr_doc_exec q D S_ x) (shown_exec q S_ x)).
  { apply adds_exec; auto; [intros v V; apply K5; cbn [In] in *; tauto|split; apply K5; cbn [In]; tauto]. }
  specialize (A 0 root). unfold wp in A. destruct (expr_doc_exec q D S_ x 0 root) as [[p s]|]; [|exfalso; apply A; unfold root; cbn; lia].
  destruct A as (_ & A); [unfold root; cbn; lia|]. pose proof (grew_plv _ _ _ _ _ _ A) as B. destruct A as (ips & (_ & _ & _ & C & _) & _). exists (built s). split; [reflexivity|]. split.
  - apply (good_built good gk G1 G2). apply C. repeat constructor.
  - rewrite leaves_built, B. reflexivity.
Qed.

(** * Theorems *)

(** The document consists of the pieces, in order, whatever the style: nothing is lost, added
    or moved. *)
Theorem C60_pieces : forall x, solid x -> x <> ENull ->
  exists d, doc_of x = Some d /\ leaves d = flat_map (fun p => leaves (pdoc D p)) (shown_exec q S_ x).
Proof.
  intros x S1 N. destruct (doc_of_spec (fun _ => True) (fun _ => True) x) as (d & A & _ & B); auto; [apply Forall_forall; auto|eauto].
Qed.

Lemma toks_app : forall a b, toks_of (a ++ b) = toks_of a ++ toks_of b.
Proof. intros. apply flat_map_app. Qed.
Lemma toks_map : forall l, length l <= 1 -> toks_of (map Tk (firstn 1 l)) = l.
Proof. intros [|k [|k' l]] H; try reflexivity. cbn in H. lia. Qed.
Lemma toks_opt : forall b p, toks_of [p] = [] -> toks_of (opt_ b p) = [].
Proof. intros [] p H; [exact H|reflexivity]. Qed.
Lemma toks_rest : forall ks, toks_of (flat_map (fun k => [Ln; Tk k]) ks) = ks.
Proof. induction ks as [|k ks IH]; [reflexivity|]. cbn [flat_map app]. change (toks_of (Ln :: Tk k :: ?l)) with (k :: toks_of l). rewrite IH. reflexivity. Qed.
(** The pieces have the tokens of the tree, in order. *)
Theorem C60_tokens : forall x, solid x -> toks_of (show q S_ x) = fringe x.
Proof.
  induction x; intros S1; cbn [solid] in S1; cbn [show fringe]; cbv zeta; repeat match goal with H : _ /\ _ |- _ => destruct H end;
   repeat match goal with IH : ?a -> _, H : ?a |- _ => specialize (IH H) end; rewrite ?toks_app; try reflexivity.
  - change (toks_of (Tk tk :: ?l)) with (tk :: toks_of l). congruence.
  - rewrite toks_opt by (destruct (_ && _); reflexivity). replace (toks_of (if broken q S_ tk then [Brk] else _)) with (@nil token); [rewrite IHx1, IHx2; reflexivity|]. destruct (broken q S_ tk); [reflexivity|]. symmetry. apply toks_opt. destruct (_ || _); reflexivity.
  - replace (toks_of (if a_ruler S_ then [Col tk] else _)) with (@nil token); [rewrite IHx1, IHx2; reflexivity|]. destruct (a_ruler S_); [reflexivity|]. symmetry. apply toks_opt. reflexivity.
  - rewrite toks_map by assumption. replace (toks_of (if isnull x2 then [] else _)) with (fringe x2).
    + replace (toks_of [if s_break_ternary S_ then Sp else Ln]) with (@nil token) by (destruct (s_break_ternary S_); reflexivity). rewrite IHx1, IHx3. reflexivity.
    + destruct (isnull x2) eqn:E; [destruct x2; (reflexivity || discriminate E)|]. change (?a :: show q S_ x2 ++ [Ln]) with ([a] ++ show q S_ x2 ++ [Ln]). rewrite !toks_app. destruct (s_break_ternary S_); cbn [toks_of flat_map app]; rewrite app_nil_r; symmetry; assumption.
  - change (toks_of (Tk tk :: ?l)) with (tk :: toks_of l). congruence.
  - rewrite IHx. reflexivity.
  - rewrite toks_map by assumption. rewrite IHx. reflexivity.
  - rewrite toks_map by assumption. rewrite IHx1, IHx2. reflexivity.
  - rewrite IHx1, IHx2. reflexivity.
  - rewrite toks_map by assumption. rewrite IHx1, IHx2. reflexivity.
  - rewrite toks_map by assumption. rewrite IHx1, IHx2. reflexivity.
  - rewrite IHx. destruct lp as [|k [|? ?]]; cbn [length] in *; try lia; destruct rp as [|k' [|? ?]]; cbn [length] in *; try lia; destruct (s_sizeof S_); reflexivity.
  - rewrite toks_rest. congruence.
  - apply app_nil_r.
Qed.

(** ** What is printed *)
Lemma piece_printable : forall p, (forall k, printable (tok D k)) -> (forall ks, printable (rec D ks)) -> printable (pdoc D p).
Proof. intros [] H1 H2; cbn [pdoc]; auto; try (split; [exact Logic.I|reflexivity]). destruct (aligned D k) as [[i s] t]. split; [exact Logic.I|reflexivity]. Qed.
Lemma strip_concat : forall l, strip (concat l) = concat (map strip l).
Proof. induction l as [|x l IH]; [reflexivity|]. cbn [concat map]. rewrite strip_app, IH. reflexivity. Qed.
Lemma strip_flat : forall (l : list doc), concat (map strip (flat_map (fun d => map snd (fst (texts d 0))) l)) = concat (map (fun d => strip (doc_text d)) l).
Proof. induction l as [|d l IH]; [reflexivity|]. cbn [flat_map map concat]. rewrite map_app, concat_app, IH. unfold doc_text at 2. rewrite strip_concat. reflexivity. Qed.

(** Blanks aside the text printed is the one of the pieces, whatever the limit. *)
Theorem C60_text : forall x, solid x -> x <> ENull -> (forall k, printable (tok D k)) -> (forall ks, printable (rec D ks)) ->
  exists d, doc_of x = Some d /\ forall limit usetabs trim,
    strip (fst (doc_exec limit usetabs d trim [])) = concat (map (fun p => strip (doc_text (pdoc D p))) (shown_exec q S_ x)).
Proof.
  intros x S1 N H1 H2.
  destruct (doc_of_spec (wf 2) (fun k => match k with KMinimize _ ms => length ms = 2 | _ => True end) x) as (d & A & W & B); auto.
  - intros l F. induction F as [|y l Y _ IH]; cbn [wf fold_right]; [exact Logic.I|]. split; assumption.
  - intros [] d K G; cbn [wrap1 wf] in *; try assumption. repeat split; [exact K|lia|exact G].
  - exact Logic.I.
  - apply Forall_forall. intros p _. apply (piece_printable p H1 H2).
  - exists d. split; [exact A|]. intros limit usetabs trim. rewrite (C17_strip limit usetabs 2 d trim [] W). cbn [strip filter app].
    assert (P : Forall printable (map (pdoc D) (shown_exec q S_ x))) by (apply Forall_map, Forall_forall; intros p _; apply (piece_printable p H1 H2)).
    destruct (printable_seq _ P) as (_ & T). rewrite texts_leaves, B.
    assert (E : flat_map (fun p => leaves (pdoc D p)) (shown_exec q S_ x) = leaves (Concat (map (pdoc D) (shown_exec q S_ x)))) by (cbn [leaves]; rewrite flat_map_concat_map, (flat_map_concat_map leaves), map_map; reflexivity).
    rewrite E, <- texts_leaves. etransitivity; [apply (f_equal (fun l => concat (map strip l))); exact T|]. rewrite strip_flat, map_map. reflexivity.
Qed.

(** No parentheses are added. *)
Lemma no_parens : forall x, s_parens S_ = false -> s_sizeof S_ = false -> shown q S_ x = show q S_ x /\ forall p, In p (shown_exec q S_ x) -> p <> Open /\ p <> Close.
Proof.
  intros x P1 P2. assert (E : shown q S_ x = show q S_ x) by (destruct x; try reflexivity; unfold shown; rewrite P1; reflexivity). split; [exact E|].
  intros p I. unfold shown_exec in I. replace (shown q S_ x) with (show q S_ x) in I by (symmetry; exact E).
    assert (O : forall b y, In p (opt_ b y) -> p = y) by (intros [] y J; [destruct J as [J|[]]; auto|destruct J]).
    assert (T : forall l, In p (map Tk l) -> exists k, p = Tk k) by (intros l J; apply in_map_iff in J; destruct J as (k & J & _); eauto).
    assert (X : forall y, In p (show q S_ y) -> p <> Open /\ p <> Close).
    { induction y; cbn [show]; cbv zeta; rewrite ?P2; intros J; repeat first
        [ match type of J with In _ (_ ++ _) => apply in_app_or in J; destruct J as [J|J] end
        | match type of J with In _ (opt_ false _) => destruct J end
        | match type of J with In _ (opt_ _ _) => apply O in J; subst p end
        | match type of J with In _ (map Tk _) => apply T in J; destruct J as (k' & J); subst p end
        | match type of J with In _ (if ?c then _ else _) => destruct c end
        | match type of J with In _ (match ?c with _ => _ end) => destruct c end
        | match type of J with In _ (_ :: _) => destruct J as [J|J]; [subst p|] end
        | match type of J with In _ [] => destruct J end ]; auto;
        try (split; discriminate); try (repeat match goal with |- context [if ?c then _ else _] => destruct c end; split; discriminate).
      apply in_flat_map in J. destruct J as (k & _ & [J|[J|[]]]); subst p; split; discriminate. }
    apply in_app_or in I. destruct I as [I|I]; [apply O in I; subst p; split; discriminate|]. apply in_app_or in I. destruct I as [I|I]; [apply O in I; subst p; split; discriminate|]. apply (X x), I.
Qed.

(** The text of the pieces is the one of the tokens. *)
Lemma shown_text : forall x, solid x -> s_parens S_ = false -> s_sizeof S_ = false ->
  (forall ks, strip (doc_text (rec D ks)) = concat (map (fun k => strip (doc_text (tok D k))) ks)) ->
  concat (map (fun p => strip (doc_text (pdoc D p))) (shown_exec q S_ x)) = concat (map (fun k => strip (doc_text (tok D k))) (fringe x)).
Proof.
  intros x S1 P1 P2 H2.
  assert (G : forall ps, (forall p, In p ps -> p <> Open /\ p <> Close) -> concat (map (fun p => strip (doc_text (pdoc D p))) ps) = concat (map (fun k => strip (doc_text (tok D k))) (toks_of ps))).
  { induction ps as [|p ps IH]; intros F; [reflexivity|]. change (p :: ps) with ([p] ++ ps) at 2. rewrite toks_app, map_app, concat_app. cbn [map concat]. rewrite IH by (intros p' I'; apply F; right; exact I'). f_equal.
    destruct (F p (or_introl eq_refl)) as [F1 F2]. destruct p; cbn [pdoc toks_of flat_map map concat app]; rewrite ?app_nil_r; try reflexivity; try congruence.
    destruct (aligned D k) as [[i j] t]. reflexivity. }
  destruct (no_parens x P1 P2) as [E N]. rewrite G by exact N. f_equal. f_equal. unfold shown_exec. rewrite !toks_app, !toks_opt by reflexivity. cbn [app]. rewrite E. apply C60_tokens, S1.
Qed.

(** Hence printing the expression read from tokens prints all tokens consumed in order, and
    nothing but blanks besides, unless parentheses are to be added or dropped. *)
Theorem C60_output : forall stop tpeek braces s x s', expr_exec stop tpeek braces s = Some (x, s') -> x <> ENull ->
  sane stop (cast_of tpeek) (e_done s) (e_toks s) -> ready s ->
  (forall k, printable (tok D k)) -> (forall ks, printable (rec D ks) /\ strip (doc_text (rec D ks)) = concat (map (fun k => strip (doc_text (tok D k))) ks)) ->
  s_parens S_ = false -> s_sizeof S_ = false ->
  exists ks d, e_toks s = ks ++ e_toks s' /\ doc_of x = Some d /\ forall limit usetabs trim,
    strip (fst (doc_exec limit usetabs d trim [])) = concat (map (fun k => strip (doc_text (tok D k))) ks).
Proof.
  intros stop tpeek braces s x s' H N SA RE H1 H2 P1 P2.
  assert (S1 : solid x /\ e_err s' = false).
  { unfold expr_exec in H. destruct (run stop tpeek braces _ (Exec 0) s) as [[y s1]|] eqn:R; [|discriminate]. inversion H; subst. destruct (e_err s') eqn:E; [congruence|]. split; [|reflexivity]. exact (run_solid _ _ _ _ (Exec 0) _ _ _ Logic.I R). }
  destruct S1 as [S1 E]. destruct (C52_all_tokens _ _ _ _ _ _ H E SA RE) as [A _].
  destruct (C60_text x S1 N H1 (fun ks => proj1 (H2 ks))) as (d & B & C). exists (fringe x), d. split; [exact A|]. split; [exact B|]. intros limit usetabs trim. rewrite C.
  apply shown_text; auto. intros ks. apply H2.
Qed.

(** ** On one line *)
(** Pieces of one line that do not depend on the column. *)
Definition simple (p : piece) : Prop := p = Ln \/ exists t, pdoc D p = Literal t /\ ~ In NL t.
Definition line_text (p : piece) : bytes := match pdoc D p with Literal t => t | DocModel.Line => [SP] | _ => [] end.
Lemma force_small : forall v, (v < INDENT_FORCE)%Z -> is_indent INDENT_FORCE v = false.
Proof.
  intros v H. unfold is_indent. destruct (0 <? v)%Z eqn:Z; [|reflexivity]. apply Z.ltb_lt in Z. cbn [andb]. replace (Z.land v INDENT_FORCE) with 0%Z; [reflexivity|].
  symmetry. apply Z.bits_inj'. intros n N. rewrite Z.land_spec, Z.bits_0. change INDENT_FORCE with (2 ^ 29)%Z in *. rewrite Z.pow2_bits_eqb by lia. destruct (29 =? n)%Z eqn:E; [|apply andb_false_r]. apply Z.eqb_eq in E. subst n. rewrite andb_true_r.
  apply Z.bits_above_log2; [lia|]. apply Z.log2_lt_pow2; [exact Z|exact H].
Qed.
Lemma seq_text_app : forall a b c, seq_text (a ++ b) c = seq_text a c ++ seq_text b (seq_end a c).
Proof. induction a as [|d a IH]; intros b c; [reflexivity|]. cbn [app seq_text seq_end]. rewrite IH, app_assoc. reflexivity. Qed.
Lemma flat_text_leaves : forall d c, flat_text d c = seq_text (leaves d) c.
Proof.
  induction d using doc_ind'; intros c0; cbn [leaves flat_text seq_text]; rewrite ?app_nil_r; try reflexivity; try apply IHd.
  rewrite flat_text_concat. cbn [app]. change (display_col [] c0) with c0. revert c0. induction H as [|d l E _ IH]; intros c0; [reflexivity|]. cbn [flat_map seq_text]. rewrite seq_text_app, IH, <- E. f_equal. f_equal. rewrite <- seq_text_end, <- E. reflexivity.
Qed.

(** If there is room for it the expression is printed on the line as its pieces one after
    another, with one space for each place where the line could have been broken. *)
Theorem C60_one_line : forall x, solid x -> x <> ENull -> Forall simple (shown_exec q S_ x) ->
  (Z.of_nat (a_indent S_) < INDENT_FORCE)%Z -> (Z.of_nat (a_align S_) < INDENT_FORCE)%Z ->
  exists d, doc_of x = Some d /\ forall limit usetabs st, o_newline st = false -> o_mute st = 0%Z -> o_mode st = BREAK -> idx_ok (fun _ => True) 2 st ->
    let t := concat (map line_text (shown_exec q S_ x)) in
    display_col t (o_col st) <= limit -> rev (o_rev (doc_exec1 limit usetabs (Group d) st)) = rev (o_rev st) ++ t.
Proof.
  intros x S1 N SI L1 L2.
  destruct (doc_of_spec (fun d => wf 2 d /\ flat d) (fun k => match k with KMinimize _ ms => length ms = 2 /\ Forall (fun m => is_indent INDENT_FORCE (fst m) = false) ms | KIndent v => is_indent INDENT_FORCE v = false | KNoIndent => False | _ => True end) x) as (d & A & (W & F) & B); auto.
  - intros l F. induction F as [|y l [Y1 Y2] _ [IH1 IH2]]; [split; exact Logic.I|]. split; cbn [wf flat fold_right]; split; assumption.
  - intros [] d K (G1 & G2); cbn [wrap1 wf flat] in *; try (split; assumption); try contradiction; destruct K; repeat split; auto; lia.
  - split; exact Logic.I.
  - intros v [V|[V|[V|[V|[V|[]]]]]]; subst v; try reflexivity; apply force_small; try assumption. unfold INDENT_FORCE in *. lia.
  - intros id i I. split; (split; [reflexivity|]); (constructor; [reflexivity|constructor; [|constructor]]); cbn [fst]; apply force_small; unfold INDENT_FORCE in *; destruct I; subst i; lia.
  - apply Forall_forall. intros p I. rewrite Forall_forall in SI. destruct (SI p I) as [E|(t & E & E')]; [subst p; split; exact Logic.I|]. rewrite E. split; [exact Logic.I|exact E'].
  - exists d. split; [exact A|]. intros limit usetabs st I1 I2 I3 I4 t Hc.
    assert (T : flat_text d (o_col st) = t).
    { rewrite flat_text_leaves, B. unfold t. generalize (o_col st). clear - SI. induction SI as [|p ps [E|(u & E & _)] _ IH]; intros c; [reflexivity| |].
      - subst p. cbn [pdoc leaves flat_map map concat]. rewrite seq_text_app, IH. reflexivity.
      - cbn [flat_map map concat]. rewrite seq_text_app, IH. unfold line_text at 2. rewrite E. cbn [leaves seq_text flat_text]. rewrite app_nil_r. reflexivity. }
    destruct (C20_group limit usetabs 2 d st W F I1 I2 I3 I4) as [G _]. rewrite T in G. apply (G Hc).
Qed.
End Theorems.

(** Style options only decide where lines are broken: with places where a line could be
    broken counted as spaces the pieces are the same for any style. *)
Definition unbroken (p : piece) : piece := match p with Ln => Sp | p => p end.
Theorem C60_style : forall q S1 S2 x, a_line S1 = a_line S2 -> a_hardline S1 = a_hardline S2 -> a_ruler S1 = a_ruler S2 -> s_parens S1 = s_parens S2 -> s_sizeof S1 = s_sizeof S2 ->
  (forall k, q_comment q k = false) ->
  map unbroken (shown_exec q S1 x) = map unbroken (shown_exec q S2 x).
Proof.
  intros q S1 S2 x0 E1 E2 E3 E4 E5 C.
  assert (O : forall b x y, unbroken x = unbroken y -> map unbroken (opt_ b x) = map unbroken (opt_ b y)) by (intros [] a b H; cbn; congruence).
  assert (X : forall x, map unbroken (show q S1 x) = map unbroken (show q S2 x)).
  { induction x; cbn [show map]; cbv zeta; rewrite ?map_app; try congruence.
    - unfold broken. rewrite C, !andb_false_r. cbn [andb]. rewrite IHx1, IHx2. f_equal. f_equal; [apply O; destruct (_ && _), (_ && _); reflexivity|]. f_equal. f_equal. apply O. destruct (_ || _), (_ || _); reflexivity.
    - rewrite E3. congruence.
    - rewrite IHx1. f_equal. f_equal. f_equal; [|f_equal; f_equal; [destruct (s_break_ternary S1), (s_break_ternary S2); reflexivity|exact IHx3]].
      destruct (isnull x2); [reflexivity|]. cbn [map]. rewrite !map_app, IHx2. destruct (s_break_ternary S1), (s_break_ternary S2); reflexivity.
    - rewrite E5. congruence. }
  unfold shown_exec. rewrite !map_app, E1, E2. f_equal. f_equal. unfold shown. destruct x0; try apply X. rewrite E4. destruct (s_parens S2); apply X.
Qed.

(** * Examples *)

Definition text_of_token (k : token) : bytes := match t_str (k_tok k) with Own s => s | _ => [] end.
Definition D1 : docs := Docs (fun k => Literal (text_of_token k)) (fun ks => Literal (concat (map text_of_token ks))) (fun _ => 0) (fun _ => (0, 1, false)).
Definition q1 : queries := Queries (fun _ => false) (fun _ => true) (fun _ => false) (fun _ => true) (fun _ => false) (fun _ => false).
Definition S_plain : setting := Setting true false true false false false false false false 0 4 false false.
Definition S_other : setting := Setting false true false true false false false false false 0 4 false false.
Definition print (S_ : setting) (limit : nat) (x : expr) : option bytes :=
  match doc_of q1 D1 S_ x with Some d => Some (fst (doc_exec limit false (Group d) false [])) | None => None end.
Definition assign (s : string) : token := K T_EQUAL (N.lor F_BINARY F_ASSIGN) s.
Definition e2 : expr :=
  EBinary (L "a") (assign "=")
    (ETernary
       (EBinary
          (EBinary (L "b") plus (EBinary (L "c") star (EUnary minus (ESquares (L "d") lsq (L "i") [rsq]))))
          eqeq
          (ECall (L "f") lp (EArg (L "x") comma (ECast lp (ERecover [int]) [rp] (L "y"))) [rp]))
       quest (EField (L "p") arrow (L "q")) [colon] (ESizeof (K T_SIZEOF 0 "sizeof") [] (L "z") [])).
Example e2_hyp : solid e2 /\ e2 <> ENull /\ Forall (simple D1) (shown_exec q1 S_plain e2) /\ shown_exec q1 S_plain e2 <> shown_exec q1 S_other e2.
Proof.
  split; [cbn; repeat split; try discriminate; lia|]. split; [discriminate|]. split; [|discriminate].
  apply Forall_forall. intros p H. cbn in H. repeat (destruct H as [H|H]; [subst p; first [left; reflexivity | right; eexists; split; [reflexivity|]; vm_compute; intuition discriminate]|]). destruct H.
Qed.
Example e2_line : print S_plain 80 e2 = Some (s2b "a = b + c * -d[i] == f(x, (int)y) ? p->q : sizeof z") /\
  print S_other 80 e2 = Some (s2b "a = b + c * -d[i] == f(x, (int)y) ? p->q : sizeof z").
Proof. split; vm_compute; reflexivity. Qed.
Example e2_broken :
  print S_plain 30 e2 = Some (s2b "a = b + c * -d[i] ==" ++ [NL] ++ s2b "    f(x, (int)y) ? p->q :" ++ [NL] ++ s2b "    sizeof z") /\
  print S_other 30 e2 = Some (s2b "a = b + c * -d[i]" ++ [NL] ++ s2b "    == f(x, (int)y) ? p->q" ++ [NL] ++ s2b "    : sizeof z").
Proof. split; vm_compute; reflexivity. Qed.

(** The hypotheses of C60_output for [e1], read from its tokens (ExprProps.e1_sane, e1_read). *)
Example e1_output : (forall k, printable (tok D1 k)) /\ (forall ks, printable (rec D1 ks)) /\ strip (doc_text (rec D1 [int; star])) = concat (map (fun k => strip (doc_text (tok D1 k))) [int; star]) /\
  exists x s', go (fringe e1) = Some (x, s') /\ x <> ENull /\ print S_plain 80 x = Some (s2b "a = b + c * -d[i] == f(x, y) ? p->q : z").
Proof.
  assert (P : forall t, printable (Literal t)) by (intros t; split; [exact Logic.I|reflexivity]). split; [intros k; apply P|]. split; [intros ks; apply P|]. split; [vm_compute; reflexivity|].
  do 2 eexists. split; [vm_compute; reflexivity|]. split; [discriminate|vm_compute; reflexivity].
Qed.

Print Assumptions C60_pieces.
Print Assumptions C60_tokens.
Print Assumptions C60_text.
Print Assumptions C60_output.
Print Assumptions C60_one_line.
Print Assumptions C60_style.
