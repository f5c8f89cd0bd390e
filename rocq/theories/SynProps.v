(** Statements: C61.  The specification is at the beginning of SynProofs: [stm] says which
    parts a statement consists of, where lines end and how lines are indented, [shed] which
    tokens may be left out. *)
From Verif Require Import Base TokenModel LexModel UtilModel UtilProofs DocModel DocProofs DocFit DocProps ExprModel ExprProofs ExprProps BuildModel BuildProofs ExprDocModel ExprDocProofs ExprDocProps SynModel RunProofs SynProofs.
Local Close Scope Q_scope.
Local Open Scope nat_scope.

(** * Specification, continued *)

(** Tokens other than semicolons. *)
Definition solid_tokens (l : list token) : list token := filter (fun k => negb (is T_SEMI k)) l.
(** No token is lost by the expression (C52_all_tokens says when). *)
Definition kept (i : item) : Prop := match i with EX _ _ _ x _ => fringe x = ins i | _ => True end.

(** * Proofs *)

Lemma less_solid : forall q a b, less q a b -> solid_tokens a = solid_tokens b.
Proof.
  unfold solid_tokens. induction 1 as [q|q k a b H IH|q k a b K _ H IH]; cbn [filter]; [reflexivity| |rewrite K; exact IH]. destruct (negb (is T_SEMI k)); [f_equal|]; exact IH.
Qed.

(** All expressions of a statement were read with the style options given. *)
Scheme stm_m := Minimality for stm Sort Prop with elses_m := Minimality for elses Sort Prop with blk_m := Minimality for blk Sort Prop with stms_m := Minimality for stms Sort Prop with tail_m := Minimality for tail Sort Prop.
Combined Scheme stm_mut from stm_m, elses_m, blk_m, stms_m, tail_m.
Section Proper.
Variable S_ : setting.
(** What is there besides tokens is blank; the tokens of expressions come in order. *)
Definition proper (i : item) : Prop :=
  match i with
  | EX _ a _ x _ => s_parens a = s_parens S_ /\ s_sizeof a = s_sizeof S_ /\ (x <> ENull -> solid x) /\ ExprProps.sub (fringe x) (ins i)
  | BL d => printable d /\ strip (doc_text d) = []
  | _ => True
  end.
Variable tpeek : bool -> list token -> list token -> option nat.
Variable braces : list token -> list token -> option nat * bool.
Variable iw : nat.
Variable declares : what -> Z -> list token -> list item -> list token -> Prop.
Hypothesis declares_proper : forall w z l its l', declares w z l its l' -> Forall proper its.
Lemma read_proper : forall stop a s x s', read tpeek braces stop s x s' -> s_parens a = s_parens S_ -> s_sizeof a = s_sizeof S_ -> proper (EX stop a s x s').
Proof. intros stop a s x s' (H & _) H1 H2. split; [exact H1|]. split; [exact H2|]. split; [intros N; apply (exec_solid _ _ _ _ H N)|]. destruct (C52_tokens _ _ _ _ _ _ H) as (ks & E & _ & SU). cbn [ins]. rewrite E, app_length, Nat.add_sub, firstn_app, Nat.sub_diag, firstn_all, app_nil_r. exact SU. Qed.
Lemma reads_proper : forall ln stop a s x s', reads S_ tpeek braces ln stop a s x s' -> proper (EX stop a s x s').
Proof. intros ln stop a s x s' (H & E & al & ind & ->). apply read_proper; [split; assumption|reflexivity|reflexivity]. Qed.
Lemma proper_sp : forall z b, proper (between z b).
Proof. intros z []; exact Logic.I. Qed.
Lemma proper_gap : forall z l, proper (gap iw z l).
Proof. intros z l. unfold gap. destruct (next_is _ _); exact Logic.I. Qed.
Lemma proper_sep : forall z sw l l', proper (sep z sw l l').
Proof. intros. unfold sep. destruct (_ && _); exact Logic.I. Qed.
Ltac prop := repeat first [apply Forall_nil | apply Forall_cons | apply Forall_app; split]; eauto; try exact Logic.I; try apply proper_sp; try apply proper_gap; try apply proper_sep; try (eapply reads_proper; eassumption).
Lemma parens_proper : forall l h r l', parens S_ tpeek braces l h r l' -> Forall proper h.
Proof. intros l h r l' (lp & a & s & x & s' & rp & _ & _ & _ & H & _ & _ & ->). prop. Qed.
Lemma for_proper : forall l h l', for_rest S_ tpeek braces l h l' -> Forall proper h.
Proof. intros l h l' (a & s & x & s' & c & b & t & y & t' & rp & _ & H1 & _ & _ & H2 & _ & _ & ->). prop. Qed.
Lemma head_proper : forall z l h z' l', head S_ tpeek braces declares iw z l h z' l' -> Forall proper h.
Proof. intros z l h z' l' H. destruct H; prop; try (destruct (is T_IDENT k); prop); eauto using parens_proper, for_proper. Qed.
Lemma heads_proper : forall z l h l', heads S_ tpeek braces declares iw z l h l' -> Forall proper h.
Proof. induction 1; prop. eapply head_proper; eassumption. Qed.
Lemma lab_proper : forall z k l h l', lab S_ tpeek braces z k l h l' -> Forall proper h.
Proof. intros z k l h l' H. destruct H; prop. Qed.
Lemma whiles_proper : forall l h l', whiles S_ tpeek braces l h l' -> Forall proper h.
Proof. intros l h l' (w & l1 & e & r & l2 & sm & _ & _ & H & _ & ->). prop. eapply parens_proper; eassumption. Qed.
Lemma trail_proper : forall l m l', trail l m l' -> Forall proper m.
Proof. intros l m l' [(_ & -> & _)|(k & _ & ->)]; prop. Qed.
Lemma stm_proper : forall z l its l', stm S_ tpeek braces declares iw z l its l' -> Forall proper its.
Proof.
  apply (stm_mut S_ tpeek braces declares iw (fun _ _ its _ => Forall proper its) (fun _ _ _ its _ => Forall proper its) (fun _ _ _ _ its _ => Forall proper its) (fun _ _ _ _ its _ => Forall proper its) (fun _ _ _ its _ => Forall proper its));
   intros; prop; eauto using parens_proper, head_proper, heads_proper, lab_proper, whiles_proper, trail_proper.
Qed.
(** When no token is lost. *)
Lemma sane_kept : forall ln stop a s x s', reads S_ tpeek braces ln stop a s x s' -> sane stop (cast_of tpeek) (e_done s) (e_toks s) -> ready s -> kept (EX stop a s x s').
Proof.
  intros ln stop a s x s' (H & E & _) SA RE. destruct (C52_all_tokens _ _ _ _ _ _ H E SA RE) as [A _]. cbn [kept ins]. rewrite A, app_length, Nat.add_sub, firstn_app, Nat.sub_diag, firstn_all, app_nil_r. reflexivity.
Qed.
End Proper.

(** All documents; documents that can be printed. *)
Definition any_doc (d : doc) : Prop := True.
Definition any_kind (k : kind) : Prop := True.
Lemma okay_any : forall q D labelled iw, (Z.of_nat iw < INDENT_WIDTH)%Z -> okay q D labelled iw any_doc any_kind.
Proof. intros q D labelled iw H. constructor; unfold any_doc, any_kind; auto 6. Qed.
Definition fine_kind (k : kind) : Prop := match k with KMinimize _ ms => length ms = 2 | _ => True end.
Lemma okay_fine : forall q D labelled iw, (Z.of_nat iw < INDENT_WIDTH)%Z -> (forall k, printable (tok D k)) -> (forall k, printable (labelled k)) -> (forall ks, printable (rec D ks)) -> okay q D labelled iw (wf 2) fine_kind.
Proof.
  intros q D labelled iw H H1 H2 H3. constructor; auto.
  - intros y G. induction G as [|x y X _ IH]; cbn [wf fold_right]; [exact Logic.I|]. split; assumption.
  - intros [] d K G; cbn [wrap1 wf] in *; try assumption. repeat split; [exact K|lia|exact G].
  - intros p. apply (piece_printable D p H1 H3).
  - intros k. apply (H2 k).
  - exact Logic.I.
  - repeat split.
  - intros v. exact Logic.I.
Qed.

Section Theorems.
Variable q : queries.
Variable D : docs.
Variable labelled : token -> doc.
Variable iw cw : nat.
Variable openbsd : bool.
Variable S_ : setting.
Variable width : bs -> point -> nat.
Variable tpeek : bool -> list token -> list token -> option nat.
Variable braces : list token -> list token -> option nat * bool.
Variable decl_type : list token -> list token -> bool.
Variable expr_peek : list token -> list token -> option nat.
Variable loop_stmt : list token -> list token -> bool.
Variable other : what -> point -> P ret_.
Variable declares : what -> Z -> list token -> list item -> list token -> Prop.
(** What is left to parser_decl() and parser_stmt_asm(): the parts they consist of are added
    below the document given, at least a token is read, none but semicolons are left out and
    nothing changes unless there is something to read; [good] and [gk]: what all documents
    are like; [loose]: whether they may not end or fail.  IndentWidth: less than the flags of
    doc.h. *)
Definition fair (loose : Prop) (good : doc -> Prop) (gk : kind -> Prop) : Prop :=
  (forall w z p l b, pt z p b -> pwp loose (other w p) (post q D labelled good gk (declares w z) (nothing w l) p l b) (Ps l b)) /\
  (forall p s, next_is T_ASSEMBLY (e_toks (lx s)) = false -> other WAsm p s = none_ s) /\
  (forall w z l its l', declares w z l its l' -> consumed its <> [] /\ Forall (proper S_) its) /\
  (Z.of_nat iw < INDENT_WIDTH)%Z.
Definition statement (p : point) (l : st) (b : bs) : out ret_ := parser_stmt q D labelled iw cw openbsd S_ width tpeek braces decl_type expr_peek loop_stmt other p (Ps l b).
Definition statement_gnu (p : point) (l : st) (b : bs) : out (ret_ * point) := parser_stmt_expr_gnu q D labelled iw cw openbsd S_ width tpeek braces decl_type expr_peek loop_stmt other p (Ps l b).

Local Notation stm := (stm S_ tpeek braces declares iw).
Local Notation stuck := (stuck iw S_ tpeek braces declares).
Lemma run_any : forall (loose : Prop) (good : doc -> Prop) (gk : kind -> Prop) p l b, fair loose good gk -> okay q D labelled iw good gk ->
  p < length (b_path b) -> match statement p l b with Ok r s' => post q D labelled good gk (stm (deep p b)) (stuck (deep p b)) p l b r s' | _ => loose end.
Proof.
  intros loose good gk p l b (F1 & F2 & F3 & F4) O P. apply (parser_stmt_spec q D labelled iw cw openbsd S_ width tpeek braces decl_type expr_peek loop_stmt other declares F1 F2 (fun w z l i l' H => proj1 (F3 w z l i l' H)) (deep p b) p l b (pt_some p b P)).
Qed.
Lemma run_true : forall loose p l b, fair loose any_doc any_kind -> p < length (b_path b) -> match statement p l b with Ok r s' => post q D labelled any_doc any_kind (stm (deep p b)) (stuck (deep p b)) p l b r s' | _ => loose end.
Proof. intros loose p l b F P. apply run_any; [exact F| |exact P]. apply okay_any, F. Qed.
(** Documents of the items. *)
Definition idl (i : item) : list doc :=
  match i with
  | T k => [tok D k]
  | TL k => [labelled k]
  | RunProofs.SP => [Literal (s2b " ")]
  | LN _ => [DocModel.Line]
  | HL _ => [Hardline]
  | EX _ a _ x _ => if isnull x then [] else map (pdoc D) (shown_exec q a x)
  | BL d => [d]
  end.
Lemma idocs_idl : forall its, map snd (idocs q D labelled its) = flat_map leaves (flat_map idl its).
Proof.
  induction its as [|i its IH]; [reflexivity|]. cbn [idocs flat_map]. rewrite flat_map_app, map_app. f_equal; [|exact IH]. destruct i; cbn [idoc idl flat_map leaves]; rewrite ?app_nil_r; try apply snd_any; try reflexivity.
  - rewrite map_map. cbn [snd]. apply snd_ileaves.
  - destruct (isnull x); [reflexivity|]. rewrite snd_any. unfold plvs. rewrite !flat_map_concat_map, map_map. reflexivity.
Qed.

(** * Theorems *)

(** Reading a statement always ends, whatever the tokens are; no assertion fails.  If it is
    not accepted for good tokens an error is reported or nothing but heads of statements was
    read, see C61_none. *)
Theorem C61_total : forall p l b, fair False any_doc any_kind -> p < length (b_path b) -> exists r s', statement p l b = Ok r s' /\ (e_err (lx s') = true <-> r = FAIL).
Proof.
  intros p l b F P. pose proof (run_true False p l b F P) as X. destruct (statement p l b) as [r s'| |]; [|destruct X..]. exists r, s'. split; [reflexivity|]. destruct r; destruct X as (X & _); rewrite X; split; congruence.
Qed.
(** The same for statements within expressions. *)
Theorem C61_total_gnu : forall p l b, fair False any_doc any_kind -> p < length (b_path b) -> exists r s', statement_gnu p l b = Ok r s' /\ (e_err (lx s') = true <-> fst r = FAIL) /\ p <= snd r < length (b_path (bd s')).
Proof.
  intros p l b (F1 & F2 & F3 & F4) P. pose proof (okay_any q D labelled iw F4) as O. pose proof (parser_gnu_spec q D labelled iw cw openbsd S_ width tpeek braces decl_type expr_peek loop_stmt other declares F1 F2 (fun w z l i l' H => proj1 (F3 w z l i l' H)) (deep p b) p l b (pt_some p b P)) as X.
  unfold pwp in X. unfold statement_gnu. destruct (parser_stmt_expr_gnu _ _ _ _ _ _ _ _ _ _ _ _ _ _ p _) as [r s'| |]; [|destruct X..]. exists r, s'. split; [reflexivity|]. destruct X as (X & Y1 & Y2 & _). split; [|split; assumption]. destruct r as [r e]. cbn [fst] in *. destruct r; destruct X as (X & _); rewrite X; split; congruence.
Qed.

(** The statement on its own: its document consists of the parts of a statement, in order,
    and lines are indented as they should be.  The tokens of the parts and the ones that
    remain are the tokens given but for semicolons that go with another one or with a right
    brace. *)
Theorem C61_layout : forall l s', fair True any_doc any_kind -> statement 0 l root = Ok GOOD s' ->
  exists its, stm 0 (e_toks l) its (e_toks (lx s')) /\ fits q D labelled (ileaves 0 (built (bd s'))) its /\ shed (e_toks l) (consumed its ++ e_toks (lx s')).
Proof.
  intros l s' F H. pose proof (run_true True 0 l root F (Nat.lt_0_succ 0)) as X. rewrite H in X. destruct X as (EE & its & _ & ds & (_ & _ & G & _) & A3). destruct (A3 EE) as (_ & B2 & B3 & B4). exists its. split; [exact B4|]. split; [|exact B3].
  rewrite ileaves_built, G. exact B2.
Qed.
(** Anywhere in a document: the statement is added below the document given, behind what was
    there, at the indentation of the document given; nothing else is touched. *)
Theorem C61_place : forall p l b s', fair True any_doc any_kind -> p < length (b_path b) -> statement p l b = Ok GOOD s' ->
  exists its ds, stm (deep p b) (e_toks l) its (e_toks (lx s')) /\ ileaves 0 (built (bd s')) = ileaves 0 (built b) ++ ds /\ fits q D labelled ds its /\
    firstn p (b_path (bd s')) = firstn p (b_path b) /\ shed (e_toks l) (consumed its ++ e_toks (lx s')).
Proof.
  intros p l b s' F P H. pose proof (run_true True p l b F P) as X. rewrite H in X. destruct X as (EE & its & _ & ds & (G1 & _ & G & _) & A3). destruct (A3 EE) as (_ & B2 & B3 & B4). exists its, ds. split; [exact B4|]. split; [rewrite !ileaves_built; exact G|]. split; [exact B2|]. split; [exact G1|exact B3].
Qed.
(** If neither accepted nor rejected, heads of statements (while, for, labels) were read that
    lack the statement; none of their tokens are left out.  What follows does not start with
    any of the keywords looked for last ([late]). *)
Theorem C61_none : forall p l b s', fair True any_doc any_kind -> p < length (b_path b) -> statement p l b = Ok NONE s' ->
  exists its ds, heads S_ tpeek braces declares iw (deep p b) (e_toks l) its (e_toks (lx s')) /\ late (lx s') = false /\ ileaves 0 (built (bd s')) = ileaves 0 (built b) ++ ds /\ fits q D labelled ds its /\ shed (e_toks l) (consumed its ++ e_toks (lx s')).
Proof.
  intros p l b s' F P H. pose proof (run_true True p l b F P) as X. rewrite H in X. destruct X as (EE & its & _ & ds & (G1 & _ & G & _) & A3). destruct (A3 EE) as (_ & B2 & B3 & B4 & B5). exists its, ds. split; [exact B4|]. split; [exact B5|]. split; [rewrite !ileaves_built; exact G|]. split; [exact B2|exact B3].
Qed.
(** Hence no token but semicolons is dropped or moved, and at least one is read. *)
Theorem C61_tokens : forall l s', fair True any_doc any_kind -> statement 0 l root = Ok GOOD s' ->
  exists its, stm 0 (e_toks l) its (e_toks (lx s')) /\ solid_tokens (e_toks l) = solid_tokens (consumed its) ++ solid_tokens (e_toks (lx s')) /\ length (e_toks (lx s')) < length (e_toks l).
Proof.
  intros l s' F H. destruct (C61_layout l s' F H) as (its & A1 & _ & A3). exists its. split; [exact A1|]. split; [rewrite (less_solid _ _ _ A3); apply filter_app|]. apply less_length in A3. apply stm_consumes in A1; [|intros; eapply F; eassumption]. rewrite app_length in A3. destruct (consumed its); [congruence|]. cbn [length] in *. lia.
Qed.

(** What is printed: the tokens kept, in order, and nothing but blanks besides. *)
Lemma item_text : forall i, (forall k, strip (doc_text (labelled k)) = strip (doc_text (tok D k))) -> (forall ks, strip (doc_text (rec D ks)) = concat (map (fun k => strip (doc_text (tok D k))) ks)) ->
  s_parens S_ = false -> s_sizeof S_ = false -> proper S_ i -> kept i ->
  concat (map (fun d => strip (doc_text d)) (idl i)) = concat (map (fun k => strip (doc_text (tok D k))) (ins i)).
Proof.
  intros i H1 H2 Q1 Q2 H3 KE. destruct i as [k|k| | | |stop a s x s'|d]; cbn [idl map concat]; rewrite ?app_nil_r; try reflexivity; try (cbn [ins map concat]; rewrite ?app_nil_r; auto).
  2: apply H3.
  destruct H3 as (P1 & P2 & SO & _). rewrite Q1 in P1. rewrite Q2 in P2. cbn [kept ins] in KE. rewrite <- KE. destruct (isnull x) eqn:N; [destruct x; (reflexivity || discriminate N)|]. rewrite map_map. apply shown_text; auto. apply SO. intros ->. discriminate N.
Qed.
(** All that is built can be printed ([wf], [fine_kind]). *)
Theorem C61_output : forall l s', fair True (wf 2) fine_kind -> statement 0 l root = Ok GOOD s' ->
  (forall k, printable (tok D k)) -> (forall k, printable (labelled k) /\ strip (doc_text (labelled k)) = strip (doc_text (tok D k))) ->
  (forall ks, printable (rec D ks) /\ strip (doc_text (rec D ks)) = concat (map (fun k => strip (doc_text (tok D k))) ks)) ->
  s_parens S_ = false -> s_sizeof S_ = false ->
  exists its, stm 0 (e_toks l) its (e_toks (lx s')) /\ shed (e_toks l) (consumed its ++ e_toks (lx s')) /\
    (Forall kept its -> forall limit usetabs trim,
      strip (fst (doc_exec limit usetabs (built (bd s')) trim [])) = concat (map (fun k => strip (doc_text (tok D k))) (consumed its))).
Proof.
  intros l s' F H H1 H2 H3 P1 P2.
  assert (X : match statement 0 l root with Ok r s' => post q D labelled (wf 2) fine_kind (stm (deep 0 root)) (stuck (deep 0 root)) 0 l root r s' | _ => True end).
  { apply run_any; [exact F|apply okay_fine; [apply F|exact H1|intros k; apply H2|intros ks; apply H3]|apply Nat.lt_0_succ]. }
  rewrite H in X. destruct X as (EE & its & _ & ds & (_ & _ & G & GF & _) & A3). destruct (A3 EE) as (_ & B2 & B3 & B4). exists its. split; [exact B4|]. split; [exact B3|]. intros KE limit usetabs trim.
  assert (PP : Forall (proper S_) its) by (eapply stm_proper; [|exact B4]; intros; eapply F; eassumption).
  assert (W : wf 2 (built (bd s'))) by (apply (good_built (wf 2) fine_kind); [intros y Y; induction Y as [|x y X _ IH]; cbn [wf fold_right]; [exact Logic.I|split; assumption]|intros [] d K Y; cbn [wrap1 wf] in *; try assumption; repeat split; [exact K|lia|exact Y]|apply GF; repeat constructor]).
  rewrite (C17_strip limit usetabs 2 _ trim [] W). cbn [strip filter app].
  assert (PR : Forall printable (flat_map idl its)).
  { apply Forall_flat_map. rewrite Forall_forall in PP |- *. intros i I. specialize (PP i I). destruct i; cbn [idl]; try (apply Forall_cons; [|constructor]); try (split; [exact Logic.I|reflexivity]); [apply H1|apply H2| |apply PP]. destruct (isnull x); [constructor|]. apply Forall_map, Forall_forall. intros p _. apply (piece_printable D p H1 (fun ks => proj1 (H3 ks))). }
  destruct (printable_seq _ PR) as (_ & TT). rewrite texts_leaves, <- (snd_ileaves _ 0), ileaves_built, G, map_app, (fits_snd _ _ _ _ _ B2), idocs_idl. cbn [app map]. change (map snd (iplv 0 (b_path root)) ++ flat_map leaves (flat_map idl its)) with (leaves (Concat (flat_map idl its))). rewrite <- texts_leaves.
  etransitivity; [apply (f_equal (fun l => concat (map strip l))); exact TT|]. rewrite strip_flat. unfold consumed. clear - KE PP P1 P2 H2 H3. induction its as [|i its IH]; [reflexivity|]. inversion KE as [|? ? K1 K2]; inversion PP as [|? ? R1 R2]; subst. cbn [flat_map]. rewrite !map_app, !concat_app, IH by assumption. f_equal.
  apply item_text; auto; [intros k; apply H2|intros ks; apply H3].
Qed.
End Theorems.

(** * Examples *)

(** Expressions are looked for by reading one; declarations start with [int] and end with the
    first semicolon. *)
Definition peek_expr (d t : list token) : option nat :=
  match expr_exec 0 tp br (St d t false) with
  | Some (x, s) => if isnull x || e_err s then None else Some (length t - length (e_toks s))
  | None => None
  end.
Fixpoint upto_semi (l : list token) : option (list token * list token) :=
  match l with
  | [] => None
  | k :: r => if is T_SEMI k then Some ([k], r) else match upto_semi r with Some (a, b) => Some (k :: a, b) | None => None end
  end.
(** Tokens, with spaces between words. *)
Definition D2 : docs := Docs (tok D1) (fun ks => Concat (flat_map (fun k => (if is T_INT k then [Literal (text_of_token k); Literal (s2b " ")] else [Literal (text_of_token k)])) ks)) (fun _ => 0) (fun _ => (0, 1, false)).
Definition word_item (k : token) : list item := if is T_INT k then [T k; RunProofs.SP] else [T k].
Definition word_doc (k : token) : list doc := if is T_INT k then [tok D2 k; Literal (s2b " ")] else [tok D2 k].
Definition decls (w : what) (p : point) : P ret_ := fun s =>
  match w with
  | WAsm => if next_is T_ASSEMBLY (e_toks (lx s)) then fail_ s else none_ s
  | WDecl _ =>
      if next_is T_INT (e_toks (lx s)) then
        match upto_semi (e_toks (lx s)) with
        | Some (a, r) => (bld (leaf (Concat (flat_map word_doc a)) p);! (fun s => good_ (Ps (St (rev a ++ e_done (lx s)) r (e_err (lx s))) (bd s)))) s
        | None => fail_ s
        end
      else none_ s
  end.
Definition declared (w : what) (z : Z) (l : list token) (its : list item) (l' : list token) : Prop := exists ks, ks <> [] /\ l = ks ++ l' /\ its = flat_map word_item ks.
Lemma upto_semi_spec : forall l a b, upto_semi l = Some (a, b) -> a <> [] /\ l = a ++ b.
Proof.
  induction l as [|k l IH]; intros a b H; [discriminate|]. cbn [upto_semi] in H. destruct (is T_SEMI k); [inversion H; subst; split; [discriminate|reflexivity]|]. destruct (upto_semi l) as [[a' b']|]; [|discriminate]. inversion H; subst. destruct (IH _ _ eq_refl) as (_ & ->). split; [discriminate|reflexivity].
Qed.
Lemma words_consumed : forall ks, consumed (flat_map word_item ks) = ks.
Proof. induction ks as [|k ks IH]; [reflexivity|]. cbn [flat_map]. rewrite consumed_app, IH. unfold word_item. destruct (is T_INT k); reflexivity. Qed.
Lemma words_fit : forall z ks, fits q1 D2 (tok D2) (ileaves z (Concat (flat_map word_doc ks))) (flat_map word_item ks).
Proof.
  intros z ks. unfold fits. replace (idocs q1 D2 (tok D2) (flat_map word_item ks)) with (any (leaves (Concat (flat_map word_doc ks)))); [apply fits_any, snd_ileaves|].
  cbn [leaves]. induction ks as [|k ks IH]; [reflexivity|]. cbn [flat_map]. rewrite idocs_app, flat_map_app. unfold any in *. rewrite map_app, IH. f_equal. unfold word_doc, word_item. destruct (is T_INT k); reflexivity.
Qed.
Lemma decls_good : forall good gk, okay q1 D2 (tok D2) 8 good gk -> (forall a, good (Concat (flat_map word_doc a))) -> fair q1 D2 (tok D2) 8 S_plain decls declared False good gk.
Proof.
  intros good gk O GO. split; [|split; [|split; [|reflexivity]]].
  - intros w z p l b P. pose proof (A_init z p l b P) as HA. unfold pwp, decls. cbn [lx bd]. destruct w as [t|].
    + destruct (next_is T_INT (e_toks l)); [|eapply (p_none (loose := False)); [exact HA|]; intros _; repeat split; discriminate]. destruct (upto_semi (e_toks l)) as [[a r]|] eqn:U; [|apply (p_fail (loose := False) (declared (WDecl t) z) (nothing (WDecl t) l) _ _ _ _ _ _ _ _ _ HA)]. apply upto_semi_spec in U. destruct U as (U1 & U2). unfold pbnd, bld. cbn [lx bd].
      pose proof (leaf_stepi good gk ok_good_concat ok_good_wrap (Concat (flat_map word_doc a)) 0 p b (proj1 P) (GO a)) as W. unfold wp in W. unfold leaf. destruct (leaf_weight _ 0 p b) as [[[] b']|]; [|destruct W]. destruct W as (W1 & W2).
      change (pwp False good_ (post q1 D2 (tok D2) good gk (declared (WDecl t) z) (nothing (WDecl t) l) p l b) (Ps (St (rev a ++ e_done l) r (e_err l)) b')).
      eapply (p_good (loose := False) _ _ _ _ _ 0 (flat_map word_item a) (e_toks l = a ++ r)).
      * split; [cbn [e_toks]; rewrite U2, app_length; lia|]. eexists. split; [exact W1|]. cbn [e_err e_toks]. intros E. split; [exact E|]. split; [apply words_fit|]. rewrite words_consumed. split; [cbn [app]; rewrite <- U2; apply less_refl|exact U2].
      * cbn [e_toks]. intros Y. exists a. auto.
    + destruct (next_is T_ASSEMBLY (e_toks l)) eqn:N; [apply (p_fail (loose := False) (declared WAsm z) (nothing WAsm l) _ _ _ _ _ _ _ _ _ HA)|]. eapply (p_none (loose := False)); [exact HA|]. intros _. repeat split. intros _. exact N.
  - intros p s H. cbn [decls]. rewrite H. reflexivity.
  - intros w z l its l' (ks & N & _ & ->). rewrite words_consumed. split; [exact N|]. apply Forall_flat_map, Forall_forall. intros k _. unfold word_item. destruct (is T_INT k); repeat constructor.
Qed.
Definition on (n : nat) (k : token) : token := let t := k_tok k in Token (Tok (t_type t) (t_flags t) (t_str t) (t_off t) (t_end t) n (t_cno t)) (k_pre k) (k_suf k).
Definition parse (l : list token) : out ret_ :=
  statement q1 D2 (tok D2) 8 4 false S_plain (fun _ _ => 0) tp br (fun _ _ => false) peek_expr (fun _ _ => false) decls 0 (St [] l false) root.
Definition format (l : list token) : option (ret_ * string * nat) :=
  match parse l with Ok r s => Some (r, string_of_list_ascii (fst (doc_exec 80 false (built (bd s)) false [])), length (e_toks (lx s))) | _ => None end.
Definition kw (t : ttype) (s : string) : token := K t 0 s.
Definition lb := K T_LBRACE 0 "{".
Definition rb := K T_RBRACE 0 "}".
Local Notation semi := ExprProps.semi.
Definition line_of (l : list string) : string := fold_right (fun a b => String.append a (String (ascii_of_nat 10) b)) EmptyString l.
(** [if (a) { int x; for (i = 0; i == n; i++) f(x); } else if (b) return c;; else { switch (d) { case 1: break; default: goto out; } out: do ; while (e); }] *)
Definition prog : list token :=
  [kw T_IF "if"; lp; id "a"; rp; lb; int; id "x"; semi; kw T_FOR "for"; lp; id "i"; eq; id "z"; semi; id "i"; eqeq; id "n"; semi; id "i"; inc; rp; id "f"; lp; id "x"; rp; semi; rb; semi;
   kw T_ELSE "else"; kw T_IF "if"; lp; id "b"; rp; kw T_RETURN "return"; id "c"; semi; semi; kw T_ELSE "else"; lb;
   kw T_SWITCH "switch"; lp; id "d"; rp; lb; kw T_CASE "case"; id "u"; colon; on 2 (kw T_BREAK "break"); semi; kw T_DEFAULT "default"; colon; on 3 (kw T_GOTO "goto"); id "out"; semi; rb;
   id "out"; colon; on 4 (kw T_DO "do"); semi; kw T_WHILE "while"; lp; id "e"; rp; semi; rb; eof].
Example prog_format : format prog = Some (GOOD, "if (a) {
        int x;
        for (i = z; i == n; i++)
                f(x);
} else if (b)
        return c;
else {
        switch (d) {
        case u:
                break;
        default:
                goto out;
        }
out:
        do
                ;
        while (e);
}"%string, 1).
Proof. vm_compute. reflexivity. Qed.
(** The hypotheses of C61_total and the others. *)
Example decls_fair : fair q1 D2 (tok D2) 8 S_plain decls declared False any_doc any_kind.
Proof. apply decls_good; [apply okay_any; reflexivity|intros a; exact Logic.I]. Qed.
(** The hypotheses of C61_output; two semicolons of [prog] are left out. *)
Lemma printable_seq' : forall ds, Forall printable ds -> printable (Concat ds).
Proof.
  intros ds F. split; [|apply (printable_seq ds F)]. induction F as [|d ds [W _] _ IH]; cbn [wf fold_right]; [exact Logic.I|]. split; assumption.
Qed.
Lemma words_printable : forall ks, Forall printable (flat_map word_doc ks).
Proof. intros ks. apply Forall_flat_map, Forall_forall. intros k _. unfold word_doc. assert (PL : forall t, printable (Literal t)) by (intros t; split; [exact Logic.I|reflexivity]). destruct (is T_INT k); repeat apply Forall_cons; try apply Forall_nil; apply PL. Qed.
Lemma D2_printable : (forall k, printable (tok D2 k)) /\ (forall ks, printable (rec D2 ks) /\ strip (doc_text (rec D2 ks)) = concat (map (fun k => strip (doc_text (tok D2 k))) ks)).
Proof.
  split; [intros k; split; [exact Logic.I|reflexivity]|]. intros ks. pose proof (words_printable ks) as F.
  split; [apply printable_seq', F|]. unfold doc_text at 1. cbn [rec D2]. etransitivity; [apply strip_concat|]. etransitivity; [apply (f_equal (fun l => concat (map strip l))); exact (proj2 (printable_seq _ F))|]. rewrite strip_flat. clear F. induction ks as [|k ks IH]; [reflexivity|]. cbn [flat_map map concat]. rewrite map_app, concat_app. rewrite IH. f_equal. unfold word_doc. destruct (is T_INT k); cbn [map concat]; rewrite ?app_nil_r; reflexivity.
Qed.
Example prog_output : (forall k, printable (tok D2 k)) /\ (forall ks, printable (rec D2 ks) /\ strip (doc_text (rec D2 ks)) = concat (map (fun k => strip (doc_text (tok D2 k))) ks)) /\
  s_parens S_plain = false /\ s_sizeof S_plain = false /\ fair q1 D2 (tok D2) 8 S_plain decls declared False (wf 2) fine_kind /\
  exists s', parse prog = Ok GOOD s' /\ strip (fst (doc_exec 80 false (built (bd s')) false [])) = concat (map (fun k => strip (doc_text (tok D2 k))) (firstn 27 prog ++ skipn 28 (firstn 35 prog) ++ removelast (skipn 36 prog))).
Proof.
  destruct D2_printable as [H1 H2]. split; [exact H1|]. split; [exact H2|]. split; [reflexivity|]. split; [reflexivity|]. split; [|eexists; split; [vm_compute; reflexivity|]; vm_compute; reflexivity].
  apply decls_good; [apply okay_fine; [exact eq_refl|exact H1|exact H1|intros ks; apply H2]|]. intros a. apply (printable_seq' _ (words_printable a)).
Qed.
(** No expression of [a = b;] loses tokens. *)
Definition assignment : list token := [id "a"; eq; id "b"; semi; eof].
Example assignment_kept : exists x s', reads S_plain tp br false 0 (args S_plain 0 4 false) (St [] assignment false) x s' /\ x <> ENull /\ kept (EX 0 (args S_plain 0 4 false) (St [] assignment false) x s') /\ e_toks s' = [semi; eof] /\ format assignment = Some (GOOD, "a = b;"%string, 1).
Proof.
  do 2 eexists. split; [split; [vm_compute; reflexivity|]; split; [reflexivity|do 2 eexists; reflexivity]|]. split; [discriminate|]. repeat split; vm_compute; reflexivity.
Qed.
(** Heads without a statement. *)
Example head_only : format [kw T_WHILE "while"; lp; id "a"; rp; rb; eof] = Some (NONE, "while (a)
        "%string, 2).
Proof. vm_compute. reflexivity. Qed.
Example rejected : option_map (fun r => fst (fst r)) (format [kw T_RETURN "return"; id "a"; rb; eof]) = Some FAIL.
Proof. vm_compute. reflexivity. Qed.

(** It is not so that a left brace ends the line: if a label and nothing else is on the same
    line as the braces, the label is put there ([nstmt] does not count it). *)
Theorem C61_braces_refuted : exists l s' d, parse l = Ok GOOD s' /\ next_is T_LBRACE l = true /\ e_toks (lx s') = [eof] /\ leaves (built (bd s')) = tok D2 lb :: tok D2 d :: skipn 2 (leaves (built (bd s'))) /\
  format l = Some (GOOD, "{l:
}"%string, 1).
Proof.
  exists [lb; id "l"; colon; rb; eof]. do 2 eexists. split; [vm_compute; reflexivity|]. split; [reflexivity|]. split; [reflexivity|]. split; [|vm_compute; reflexivity].
  instantiate (1 := id "l"). vm_compute. reflexivity.
Qed.
(** It is not so that all comments are kept: the comment behind the first of two semicolons is
    dropped along with it ([; /* c */ ;]). *)
Definition D3 : docs := Docs (fun k => Concat (Literal (text_of_token k) :: map (fun t => Literal (match t_str t with Own s => s | _ => [] end)) (k_suf k))) (rec D2) (fun _ => 0) (fun _ => (0, 1, false)).
Definition semi_c : token := Token (k_tok semi) [] [Tok T_COMMENT 0 (Own (s2b " /* c */")) 0 0 1 1].
Definition parse3 (l : list token) : out ret_ :=
  statement q1 D3 (tok D3) 8 4 false S_plain (fun _ _ => 0) tp br (fun _ _ => false) peek_expr (fun _ _ => false) decls 0 (St [] l false) root.
Theorem C61_comments_refuted : exists l s', parse3 l = Ok GOOD s' /\ e_toks (lx s') = [eof] /\ In semi_c l /\
  doc_text (tok D3 semi_c) = s2b "; /* c */" /\ fst (doc_exec 80 false (built (bd s')) false []) = s2b ";".
Proof.
  exists [semi_c; semi; eof]. eexists. split; [vm_compute; reflexivity|]. split; [reflexivity|]. split; [left; reflexivity|]. split; vm_compute; reflexivity.
Qed.

Print Assumptions C61_total.
Print Assumptions C61_total_gnu.
Print Assumptions C61_layout.
Print Assumptions C61_place.
Print Assumptions C61_none.
Print Assumptions C61_tokens.
Print Assumptions C61_output.
Print Assumptions C61_braces_refuted.
Print Assumptions C61_comments_refuted.
