(** Whole files, from the bytes read to the bytes written: C63. *)
From Verif Require Import SynModel RunProofs SynProps DeclModel DeclProps Base StrModel UtilModel UtilProofs DocModel DocProofs DocEmit DocProps.
From Verif Require Import TokenModel LexModel LexSpec LexAll CppAlignModel CppAlignProps LinesModel ParserModel ExprModel ExprProofs ExprProps BuildModel ExprDocModel ExprDocProps InkProofs WholeModel WholeProofs LexSpec LexProps.
Local Close Scope Q_scope.
Local Open Scope nat_scope.

(** * Specification *)

(** [ink s] (WholeProofs): the bytes of [s] other than blanks, as told by isspace().
    [words k]: what the token [k] consists of, the comments and directives in front of it, the
    token itself, the comments behind it.  [tokens]: what is read from the input (LexProps). *)

(** Semicolons that carry no comments or directives. *)
Definition bare (k : token) : Prop := forall t, In t (k_pre k ++ k_suf k) -> t_type t = T_SPACE.
(** Semicolons that are next to another one or behind a right brace are bare. *)
Fixpoint spare (q : bool) (l : list token) : Prop :=
  match l with
  | [] => True
  | k :: r => (is T_SEMI k = true -> q = true \/ next_is T_SEMI r = true -> bare k) /\ spare (stopper k) r
  end.
Definition other (c : byte) : bool := negb (c =c ";"%char).

Section Theorems.
Variable inp : bytes.
Variable in_diff : nat -> bool.
Variable usetabs : bool.
Variable align : bytes -> option bytes.
Variable q : queries.
Variable D : docs.
Variable labelled : token -> doc.
Variable iw : nat.
Variable cw : nat.
Variable openbsd : bool.
Variable S_ : setting.
Variable width : bs -> point -> nat.
Variable tpeek : bool -> list token -> list token -> option nat.
Variable braces : list token -> list token -> option nat * bool.
Variable O : asks.
Variable Y : layout.
Variable expr_peek : list token -> list token -> option nat.
Variable loop_stmt : list token -> list token -> bool.
Notation bytes_of t := (text_bytes inp (t_str t)).
Notation toks := (tokens inp in_diff usetabs align).
Notation source := (source q D labelled iw cw openbsd S_ width tpeek braces O Y expr_peek loop_stmt).

(** The documents of tokens are the ones of the tool. *)
Definition documented : Prop :=
  (forall k, tok D k = tokdoc inp k) /\
  (forall k, printable (labelled k) /\ inked (labelled k) = inked (tokdoc inp k)) /\
  (forall ks, printable (rec D ks) /\ inked (rec D ks) = flat_map (fun k => inked (tokdoc inp k)) ks).
(** [out] is what is printed for the file. *)
Definition formatted (f : nat) (limit : nat) (tabs trim : bool) (out : bytes) : Prop :=
  exists l s', fst (tokenized inp in_diff usetabs align) = Some l /\ source true f l = Ok GOOD s' /\ out = fst (doc_exec limit tabs (built (bd s')) trim []).
(** No backslash on its own. *)
Definition no_backslash : Prop := forall k, In k toks -> is_discard k = false.
(** Settings of the properties below. *)
Definition fair : Prop := decent iw tpeek braces O /\ documented /\ s_parens S_ = false /\ s_sizeof S_ = false /\ no_backslash.

(** * Proofs *)
Lemma toks_ok : forall k, In k toks -> token_ok inp in_diff (ctrim usetabs) align k.
Proof. intros k I. pose proof (C01_tokens inp in_diff usetabs align) as T. rewrite Forall_forall in T. apply T, I. Qed.
Lemma printed_whole : forall f limit tabs trim out, fair -> formatted f limit tabs trim out ->
  exists its k n, ends toks k /\ k_suf k = [] /\ Forall (proper S_) its /\ shed toks (consumed its ++ silent_end k) /\ ExprProps.sub (printed its) (consumed its) /\ (Forall SynProps.kept its -> printed its = consumed its) /\
    (trim = false -> n = 0) /\ rendered (flat_map (fun k => inked (tokdoc inp k)) (printed its)) (out ++ repeat NL n).
Proof.
  intros f limit tabs trim out (DE & (D1 & D2 & D3) & P1 & P2 & NB) (l & s' & HT & HS & ->). rewrite (no_discards inp in_diff usetabs align NB) in HT. injection HT as <-. destruct (ends_toks inp in_diff usetabs align) as (k & E & SU).
  assert (X : forall ks, flat_map (fun k => inked (tok D k)) ks = flat_map (fun k => inked (tokdoc inp k)) ks) by (intros ks; apply flat_map_ext; intros k'; rewrite D1; reflexivity).
  destruct (C62_rendered _ _ _ _ _ _ _ _ _ _ _ _ _ _ f _ k s' DE E HS) as (its & A1 & A2 & A3 & A4 & A5); auto.
  - intros k'. rewrite D1. apply tokdoc_printable; assumption.
  - intros k'. rewrite D1. apply D2.
  - intros ks. split; [apply D3|]. rewrite X. apply D3.
  - exists its, k. specialize (A5 limit tabs trim). destruct (doc_exec limit tabs (built (bd s')) trim []) as [out bad]. destruct A5 as (_ & n & B1 & B2). exists n. rewrite X in B1. cbn [fst]. repeat (split; [assumption|]). assumption.
Qed.
Lemma sub_in : forall A (a b : list A), ExprProps.sub a b -> forall x, In x a -> In x b.
Proof. induction 1 as [|y a b H IH|y a b H IH]; intros x I; [destruct I|destruct I as [->|I]; [left; reflexivity|right; auto]|right; auto]. Qed.
Lemma sub_left : forall A (a b c : list A), ExprProps.sub (a ++ b) c -> ExprProps.sub a c.
Proof. intros A a b c H. eapply WholeProofs.sub_trans; [exact H|]. rewrite <- (app_nil_r a) at 1. apply sub_app; [apply sub_refl|constructor]. Qed.
Lemma ink_printed : forall ks, (forall k, In k ks -> In k toks) -> concat (map ink (flat_map (fun k => inked (tokdoc inp k)) ks)) = concat (map (fun k => concat (map (fun t => ink (bytes_of t)) (token_toks k))) ks).
Proof.
  induction ks as [|k ks IH]; intros H; [reflexivity|]. cbn [flat_map map concat]. rewrite map_app, concat_app, IH by (intros k' I'; apply H; right; exact I'). f_equal. eapply tokdoc_ink. apply H. left. reflexivity.
Qed.
Lemma ink_newlines : forall out n, ink (out ++ repeat NL n) = ink out.
Proof. intros out n. rewrite ink_app, (ink_none (repeat NL n)), app_nil_r; [reflexivity|]. intros c I. apply repeat_spec in I. subst c. reflexivity. Qed.

(** * Theorems *)

(** The output is the words of tokens read, in order, with blanks in between (and blanks
    missing at the end of a word at most). *)
Theorem C63_words : forall f limit tabs trim out, fair -> formatted f limit tabs trim out ->
  exists ks n, ExprProps.sub ks toks /\ (trim = false -> n = 0) /\
    rendered (filter solid_text (map (fun t => bytes_of t) (flat_map words ks))) (out ++ repeat NL n).
Proof.
  intros f limit tabs trim out FA FO. destruct (printed_whole _ _ _ _ _ FA FO) as (its & k & n & _ & _ & _ & SH & SU & _ & N & RE). apply less_sub, sub_left in SH. pose proof (WholeProofs.sub_trans _ _ _ SH _ SU) as S1. exists (printed its), n. split; [exact S1|]. split; [exact N|].
  replace (filter solid_text (map (fun t => bytes_of t) (flat_map words (printed its)))) with (flat_map (fun k => inked (tokdoc inp k)) (printed its)); [exact RE|].
  pose proof (sub_in _ _ _ S1) as IN. clear - IN. induction (printed its) as [|k ks IH]; [reflexivity|]. cbn [flat_map]. rewrite map_app, filter_app, IH by (intros k' I'; apply IN; right; exact I'). f_equal. apply (tokdoc_words inp in_diff usetabs align). apply IN. left. reflexivity.
Qed.

(** Nothing is made up: the bytes of the output other than blanks are some of the input, in
    order.  Tabs are used for indentation, lines do not end in carriage returns: see
    C63_twice_refuted. *)
Theorem C63_nothing_new : forall f limit tabs trim out, fair -> formatted f limit tabs trim out -> usetabs = true -> ~ In CR inp ->
  (forall s s', incl s inp -> align s = Some s' -> ink s' = ink s) -> ExprProps.sub (ink out) (ink inp).
Proof.
  intros f limit tabs trim out FA FO U NC SA. destruct (printed_whole _ _ _ _ _ FA FO) as (its & k & n & _ & _ & _ & SH & SU & _ & _ & RE). apply less_sub, sub_left in SH. pose proof (WholeProofs.sub_trans _ _ _ SH _ SU) as S1.
  apply ink_rendered in RE. rewrite ink_newlines in RE. rewrite RE, ink_printed by (apply sub_in, S1). rewrite (ink_input inp in_diff usetabs align). apply sub_concat; [|exact S1]. intros k' I'. apply sub_concat; [|apply sub_refl]. intros t J. eapply text_sub; [apply toks_ok, I'|exact J| |].
  - intros s s' N A. rewrite (SA s s' N A). apply sub_refl.
  - apply (all_lean inp in_diff usetabs align); [|exact U|exact NC]. apply in_flat_map. exists k'. split; assumption.
Qed.

Lemma bare_semi : forall k, In k toks -> is T_SEMI k = true -> bare k -> filter other (concat (map (fun t => ink (src inp t)) (token_toks k))) = [].
Proof.
  intros k I E B. assert (P : k_pre k = []). { pose proof (toks_ok k I) as (P & _). destruct (k_pre k) as [|t l] eqn:K; [reflexivity|]. exfalso. inversion P as [|? ? [(A & _)|(_ & _ & _ & A & _)] _]; subst.
    - specialize (B t). rewrite K in B. specialize (B (or_introl eq_refl)). congruence.
    - specialize (B t). rewrite K in B. specialize (B (or_introl eq_refl)). rewrite B in A. destruct A as (m & n & _ & _ & _ & (x & y & _ & _ & _ & _ & _ & Hc & _) & _). destruct Hc as [(z & Hz & _)|(Hz & _)]; [|discriminate].
      assert (Hn : forallb (fun p => negb (ttype_eqb (fst p) T_SPACE)) cpp_names = true) by (vm_compute; reflexivity). rewrite forallb_forall in Hn. specialize (Hn _ Hz). discriminate. }
  unfold token_toks. rewrite P. cbn [app map concat]. rewrite (semi_text inp in_diff usetabs align k I E), filter_app. change (filter other (ink (s2b ";"))) with (@nil byte). cbn [app].
  assert (G : forall l, (forall t, In t l -> ink (src inp t) = []) -> concat (map (fun t => ink (src inp t)) l) = []) by (induction l as [|t l IH]; intros H; [reflexivity|]; cbn [map concat]; rewrite (H t (or_introl eq_refl)); apply IH; intros t' I'; apply H; right; exact I').
  rewrite G; [reflexivity|]. intros t J. eapply (space_ink inp in_diff usetabs align k I t J). apply B. rewrite P. exact J.
Qed.
Lemma less_other : forall (G : token -> bytes) qk a b, less qk a b -> forall q', (qk = true -> q' = true) -> spare q' a ->
  (forall k, In k a -> is T_SEMI k = true -> bare k -> filter other (G k) = []) -> filter other (concat (map G a)) = filter other (concat (map G b)).
Proof.
  intros G qk a b H. induction H as [qk|qk k a b H IH|qk k a b K C H IH]; intros q' W SP_ HG; [reflexivity|..]; cbn [spare] in SP_; destruct SP_ as [S1 S2]; cbn [map concat]; rewrite ?filter_app.
  - f_equal. apply (IH (stopper k)); auto. intros k' I'. apply HG. right. exact I'.
  - rewrite (HG k (or_introl eq_refl) K), (IH (stopper k)); auto.
    + intros _. unfold stopper. rewrite K. reflexivity.
    + intros k' I'. apply HG. right. exact I'.
    + apply (S1 K). destruct C as [C|C]; [left; auto|right; eapply less_next; eassumption].
Qed.

(** Nothing is lost besides semicolons, provided that comments do not run together on a line
    (C63_comment_refuted), that expressions lose no tokens (see C52), that the text does not
    end within a literal (C63_end_refuted) and that no comment hangs on a semicolon that may
    be left out (C61_comments_refuted). *)
Theorem C63_only_semicolons : forall f limit tabs trim out, fair -> formatted f limit tabs trim out ->
  (forall s s', incl s inp -> align s = Some s' -> ink s' = ink s) ->
  (forall t, In t (all_toks toks) -> t_type t = T_COMMENT -> single inp (ctrim usetabs) t \/ verbatim inp t) ->
  (forall k, In k toks -> is_eof k = true -> ink (src inp (k_tok k)) = []) -> spare false toks ->
  exists its k, Forall (proper S_) its /\ ends toks k /\ shed toks (consumed its ++ silent_end k) /\
    (Forall SynProps.kept its -> filter other (ink out) = filter other (ink inp)).
Proof.
  intros f limit tabs trim out FA FO SA PL EO SP_. destruct (printed_whole _ _ _ _ _ FA FO) as (its & k & n & EN & SU & PR & SH & _ & KE & _ & RE). exists its, k. split; [exact PR|]. split; [exact EN|]. split; [exact SH|]. intros KP. rewrite (KE KP) in RE.
  pose proof (less_sub _ _ _ SH) as S1. pose proof (sub_in _ _ _ (sub_left _ _ _ _ S1)) as IN. apply ink_rendered in RE. rewrite ink_newlines in RE. rewrite RE, ink_printed by exact IN.
  assert (E : map (fun k => concat (map (fun t => ink (bytes_of t)) (token_toks k))) (consumed its) = map (fun k => concat (map (fun t => ink (src inp t)) (token_toks k))) (consumed its)).
  { apply map_ext_in. intros k' I'. f_equal. apply map_ext_in. intros t J. eapply text_ink; [apply toks_ok, IN, I'|exact J|exact SA|]. intros T. apply PL; [|exact T]. apply in_flat_map. exists k'. split; [apply IN, I'|exact J]. }
  rewrite E, (ink_input inp in_diff usetabs align). rewrite (less_other _ _ _ _ SH false (fun x => x) SP_); [|intros k' I' K' B; apply bare_semi; assumption]. rewrite map_app, concat_app, filter_app.
  assert (Z : filter other (concat (map (fun k => concat (map (fun t => ink (src inp t)) (token_toks k))) (silent_end k))) = []).
  { unfold silent_end. destruct (k_pre k) eqn:P; [|reflexivity]. unfold token_toks. cbn [map]. rewrite P, SU. cbn [app map concat]. rewrite !app_nil_r, EO; [reflexivity| |].
    - destruct EN as (a & -> & _). apply in_or_app. right. left. reflexivity.
    - destruct EN as (a & _ & EK & _). exact EK. }
  rewrite Z, app_nil_r. reflexivity.
Qed.
(** The documents are those of the tool. *)
Theorem C63_documents : forall lx k nx, In k toks -> (forall s s', incl s inp -> align s = Some s' -> ink s' = ink s) ->
  (forall t, In t (k_pre k) -> has_flag (t_flags t) F_COMMENT_CLANG_FORMAT_ON = false /\ has_flag (t_flags t) F_COMMENT_CLANG_FORMAT_OFF = false) ->
  (forall n, nx = Some n -> has_flag (t_flags (k_tok n)) F_BRANCH = false) ->
  exists ds, tokdoc inp k = Concat ds /\ doc_token inp lx false k nx parser_init = (ds, parser_init).
Proof. intros lx k nx I SA CF NB. eexists. split; [reflexivity|]. exact (tokdoc_same inp in_diff usetabs align lx k nx I SA CF NB). Qed.
End Theorems.

(** cpp-align.c meets what is asked of the alignment of backslashes. *)
Theorem C63_alignment : forall mode limit indentw tabs tk inp, ~ In NUL inp -> forall s s', incl s inp -> 
  match cpp_align mode limit indentw tabs tk s with COut o => Some o | _ => None end = Some s' -> ink s' = ink s.
Proof.
  intros mode limit indentw tabs tk inp N s s' I H. destruct (C24_blanks mode limit indentw tabs tk s (fun X => N (I _ X))) as (ks & rest & E & OK & _ & C). destruct (cpp_align mode limit indentw tabs tk s) as [| |o]; try discriminate. injection H as ->. destruct C as [_ ->]. rewrite E, !ink_app. f_equal. clear - OK.
  induction OK as [|k ks (A & B & _) _ IH]; [reflexivity|]. cbn [List.map concat]. rewrite !ink_app, IH. f_equal. unfold dst, CppAlignProps.src. rewrite !ink_app, (ink_none (k_ws k) A), (ink_none (k_pad k)); [reflexivity|]. intros c J. destruct (B c J) as [->| ->]; reflexivity.
Qed.

(** * Examples *)

Definition wdocs (inp : bytes) : docs := Docs (tokdoc inp) (fun ks => Concat (map (tokdoc inp) ks)) (fun _ => 0) (fun _ => (0, 1, false)).
Definition whole (usetabs : bool) (inp : bytes) : option bytes :=
  match fst (tokenized inp (fun _ => false) usetabs (fun _ => None)) with
  | Some l => match source q4 (wdocs inp) (tokdoc inp) 8 4 false S_plain (fun _ _ => 0) tp br O4 Y4 peek_expr (fun _ _ => false) true (10 * length l) l with
      | Ok GOOD s => Some (fst (doc_exec 80 false (built (bd s)) false [])) | _ => None end
  | None => None
  end.
Lemma wdocs_fine : forall inp, documented inp (wdocs inp) (tokdoc inp).
Proof.
  intros inp. assert (P : forall k, printable (tokdoc inp k)) by (intros k; apply (tokdoc_printable inp (fun _ => false) true (fun _ => None) k)). split; [reflexivity|]. split; [intros k; split; [apply P|reflexivity]|]. intros ks. cbn [rec wdocs].
  assert (F : Forall printable (map (tokdoc inp) ks)) by (apply Forall_map, Forall_forall; intros k _; apply P). destruct (printable_seq _ F) as [S1 _]. split; [split; [|exact S1]|].
  - cbn [wf]. clear - F. induction F as [|d l [P _] _ IH]; cbn [fold_right]; [exact Logic.I|split; assumption].
  - unfold inked at 1. rewrite inked_seq by exact F. clear. induction ks as [|k ks IH]; [reflexivity|]. cbn [map flat_map]. rewrite IH. reflexivity.
Qed.
Definition spareb := fix go (q : bool) (l : list token) : bool :=
  match l with
  | [] => true
  | k :: r => (negb (is T_SEMI k && (q || next_is T_SEMI r)) || forallb (fun t => ttype_eqb (t_type t) T_SPACE) (k_pre k ++ k_suf k)) && go (stopper k) r
  end.
Lemma spareb_spec : forall l q, spareb q l = true -> spare q l.
Proof.
  induction l as [|k l IH]; intros q H; [exact Logic.I|]. cbn [spareb spare] in *. apply andb_prop in H. destruct H as [H1 H2]. split; [|apply IH, H2]. intros K C t J. rewrite K in H1. cbn [andb] in H1. apply orb_prop in H1. destruct H1 as [H1|H1].
  - apply negb_true_iff, orb_false_elim in H1. destruct C as [->|C]; [destruct H1; discriminate|]. rewrite C in H1. destruct H1; discriminate.
  - rewrite forallb_forall in H1. apply ttype_eqb_spec, H1, J.
Qed.
Definition prog : bytes := s2b "#include <a.h>
/* f:
 * g */
int
f(int   x) /* y */
{
	/* a */
	while (x)  { x++; };
	return x? 1 :(2); /* b */
}
/* end */".
Definition prog_out : bytes := s2b "#include <a.h>
/* f:
 * g */
int
f(int x) /* y */
{
	/* a */
        while (x) {
                x++;
        }
        return x ? 1 : (2); /* b */
}
/* end */".
(** The hypotheses above are met by a file, and what is said of it is so. *)
Example prog_fine : let ts := tokens prog (fun _ => false) true (fun _ => None) in
  fair prog (fun _ => false) true (fun _ => None) (wdocs prog) (tokdoc prog) 8 S_plain tp br O4 /\
  formatted prog (fun _ => false) true (fun _ => None) q4 (wdocs prog) (tokdoc prog) 8 4 false S_plain (fun _ _ => 0) tp br O4 Y4 peek_expr (fun _ _ => false) 1000 80 false false prog_out /\
  ~ In CR prog /\ (forall t, In t (all_toks ts) -> t_type t = T_COMMENT -> single prog (ctrim true) t \/ verbatim prog t) /\
  (forall k, In k ts -> is_eof k = true -> ink (src prog (k_tok k)) = []) /\ spare false ts /\
  filter other (ink prog_out) = filter other (ink prog) /\ length (ink prog_out) + 1 = length (ink prog).
Proof.
  set (ts := tokens prog (fun _ => false) true (fun _ => None)). cbv zeta. split; [|split; [|split; [|split; [|split; [|split; [|split]]]]]].
  - split; [apply decent4|]. split; [apply wdocs_fine|]. split; [reflexivity|]. split; [reflexivity|]. assert (X : forallb (fun k => negb (is_discard k)) ts = true) by (vm_compute; reflexivity). rewrite forallb_forall in X. intros k I. apply negb_true_iff, X, I.
  - do 2 eexists. split; [vm_compute; reflexivity|]. split; [vm_compute; reflexivity|]. vm_compute. reflexivity.
  - vm_compute. intuition discriminate.
  - assert (X : forallb (fun t => negb (ttype_eqb (t_type t) T_COMMENT) || beq (text_bytes prog (t_str t)) (src prog t)) (all_toks ts) = true) by (vm_compute; reflexivity). rewrite forallb_forall in X. intros t I T. specialize (X t I). rewrite T in X. right. apply beq_eq, X.
  - assert (X : forallb (fun k => negb (is_eof k) || beq (ink (src prog (k_tok k))) []) ts = true) by (vm_compute; reflexivity). rewrite forallb_forall in X. intros k I E. specialize (X k I). rewrite E in X. apply beq_eq, X.
  - apply spareb_spec. vm_compute. reflexivity.
  - vm_compute. reflexivity.
  - vm_compute. reflexivity.
Qed.

(** * Refutations *)

(** Declarations may become comments: two comments on a line the last of which lasts until
    its end and is followed by blanks lose the end of the line. *)
Theorem C63_comment_refuted : exists inp out, whole true inp = Some out /\
  inp = s2b "/* a */ // b  
int x;
" /\ out = s2b "/* a */ // b int x;
" /\ map (fun k => t_type (k_tok k)) (tokens inp (fun _ => false) true (fun _ => None)) = [T_INT; T_IDENT; T_SEMI; T_EOF] /\
  map (fun k => t_type (k_tok k)) (tokens out (fun _ => false) true (fun _ => None)) = [T_EOF].
Proof. do 2 eexists. split; [|split; [reflexivity|split; [reflexivity|split; vm_compute; reflexivity]]]. vm_compute. reflexivity. Qed.
(** Declarations may be printed twice: without tabs, trimming makes the last of two comments
    on a line longer, and the text of both is as many bytes of the input. *)
Theorem C63_twice_refuted : exists inp out, whole false inp = Some out /\
  inp = s2b "/* a */ /*
	*/
int x;
" /\ out = s2b "/* a */ /*
	*/
int x;
int x;
" /\ ~ ExprProps.sub (ink out) (ink inp).
Proof.
  do 2 eexists. split; [|split; [reflexivity|split; [reflexivity|]]]; [vm_compute; reflexivity|]. intros H.
  assert (L : forall (A : Type) (a b : list A), ExprProps.sub a b -> length a <= length b) by (induction 1; cbn [length]; lia). apply L in H. vm_compute in H. lia.
Qed.
(** A literal that does not end is lost along with all that follows it. *)
Theorem C63_end_refuted : exists inp out, whole true inp = Some out /\ inp = s2b "int x; 'a; int y;" /\ out = s2b "int x;
".
Proof. do 2 eexists. split; [|split; reflexivity]. vm_compute. reflexivity. Qed.

Print Assumptions C63_words.
Print Assumptions C63_nothing_new.
Print Assumptions C63_only_semicolons.
Print Assumptions C63_documents.
Print Assumptions C63_alignment.
Print Assumptions C63_comment_refuted.
Print Assumptions C63_twice_refuted.
Print Assumptions C63_end_refuted.
