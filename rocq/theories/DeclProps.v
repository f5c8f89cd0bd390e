(** Source files: C62.  What is said of a file accepted: which tokens are printed ([shed],
    see RunProofs), in which order and what else is printed (blanks, [proper]). *)
From Verif Require Import Base TokenModel LexModel LexProps UtilModel UtilProofs DocModel DocProofs DocEmit DocFit DocProps ExprModel ExprProofs ExprProps BuildModel BuildProofs ExprDocModel ExprDocProofs ExprDocProps SynModel RunProofs SynProofs SynProps InkProofs DeclModel DeclProofs BelowProofs.
Local Close Scope Q_scope.
Local Open Scope nat_scope.

(** * Specification *)

(** The tokens of a file: the last one and no other marks the end. *)
Definition ends (l : list token) (k : token) : Prop := exists a, l = a ++ [k] /\ is T_EOF k = true /\ Forall (fun k => is T_EOF k = false) a.
(** The end of the file is printed for what precedes it (comments, preprocessor directives),
    not for itself. *)
Definition silent_end (k : token) : list token := match k_pre k with [] => [k] | _ => [] end.

(** * Proofs *)

Lemma less_end : forall q a b, less q a b -> forall x k, a = x ++ [k] -> is T_SEMI k = false -> exists y, b = y ++ [k].
Proof.
  induction 1 as [q|q k0 a b H IH|q k0 a b S0 _ H IH]; intros x k E K.
  - destruct x; discriminate.
  - destruct x as [|x0 x]; inversion E; subst; [inversion H; exists []; reflexivity|]. destruct (IH x k eq_refl K) as [y Y]. exists (x0 :: y). rewrite Y. reflexivity.
  - destruct x as [|x0 x]; inversion E; subst; [congruence|]. apply (IH x k eq_refl K).
Qed.
Lemma less_in : forall q a b, less q a b -> forall k, In k b -> In k a.
Proof. induction 1 as [q|q k0 a b H IH|q k0 a b S0 _ H IH]; intros k I; [destruct I|destruct I as [->|I]; [left; reflexivity|right; auto]|right; auto]. Qed.
Lemma less_before : forall q a b, less q a b -> forall x k y, a = x ++ [k] -> b = y ++ [k] -> is T_SEMI k = false -> forall j, In j y -> In j x.
Proof.
  induction 1 as [q|q k0 a b H IH|q k0 a b S0 _ H IH]; intros x k y E1 E2 K j I.
  - destruct x; discriminate.
  - destruct x as [|x0 x]; inversion E1; subst.
    + inversion H; subst. destruct y as [|y0 y]; [destruct I|]. destruct y; discriminate.
    + destruct y as [|y0 y]; [destruct I|]. inversion E2; subst. destruct I as [->|I]; [left; reflexivity|right]. eapply IH; [reflexivity|reflexivity|exact K|exact I].
  - destruct x as [|x0 x]; inversion E1; subst; [congruence|]. right. eapply IH; [reflexivity|reflexivity|exact K|exact I].
Qed.
Lemma is_other : forall t u k, t <> u -> is t k = true -> is u k = false.
Proof. intros t u k N H. unfold is in *. apply ttype_eqb_spec in H. destruct (ttype_eqb (ty k) u) eqn:E; [|reflexivity]. apply ttype_eqb_spec in E. congruence. Qed.
Lemma end_last : forall l k k' a r, ends l k -> shed l (a ++ k' :: r) -> is T_EOF k' = true -> r = [] /\ k' = k.
Proof.
  intros l k k' a r (x & E & K & F) H K'. assert (KS : is T_SEMI k = false) by (apply (is_other T_EOF); [discriminate|exact K]). destruct (less_end _ _ _ H x k E KS) as [y Y].
  destruct r as [|r0 r] using rev_ind; [|clear IHr].
  - apply app_inj_tail in Y. destruct Y as [_ ->]. auto.
  - rewrite app_comm_cons, app_assoc in Y. apply app_inj_tail in Y. destruct Y as [Y ->]. exfalso. rewrite app_comm_cons, app_assoc in H.
    assert (I : In k' x) by (eapply (less_before _ _ _ H x k (a ++ k' :: r) E eq_refl KS); apply in_or_app; right; left; reflexivity).
    rewrite Forall_forall in F. rewrite (F k' I) in K'. discriminate.
Qed.

Section Theorems.
Variable q : queries.
Variable D : docs.
Variable labelled : token -> doc.
Variable iw cw : nat.
Variable openbsd : bool.
Variable S_ : setting.
Variable width : bs -> point -> nat.
Variable tpeek : bool -> list token -> list token -> option nat.
Variable braces : list token -> list token -> option nat * bool.
Variable O : asks.
Variable Y : layout.
Variable expr_peek : list token -> list token -> option nat.
Variable loop_stmt : list token -> list token -> bool.
(** Reading a file; [f]: bound on the depth of the calls. *)
Definition source (strict : bool) (f : nat) (l : list token) : out ret_ :=
  exec q D iw cw S_ width tpeek braces O Y strict labelled openbsd expr_peek loop_stmt f 0 (Ps (St [] l false) root).
(** What is asked of the functions used: types and initializers looked ahead for consist of
    a token at least, what is put between tokens of assembly is blank.  IndentWidth: less
    than the flags of doc.h. *)
Definition decent : Prop :=
  (forall d l n, tpeek false d l = Some n -> 0 < n) /\ (forall d l n e, braces d l = (Some n, e) -> 0 < n) /\ (forall k, strip (o_gap O k) = []) /\ (Z.of_nat iw < INDENT_WIDTH)%Z.
Local Notation idl := (idl q D labelled).
Lemma source_any : forall (good : doc -> Prop) (gk : kind -> Prop) f l k s', decent -> okay q D labelled iw good gk -> (forall k, good (Literal (o_gap O k))) -> ends l k -> source true f l = Ok GOOD s' ->
  e_err (lx s') = false /\ e_toks (lx s') = [] /\ exists its ds, grewi good gk 0 root ds (bd s') /\ fits q D labelled ds its /\ Forall (proper S_) its /\ shed l (consumed its ++ silent_end k).
Proof.
  intros good gk f l k s' (H1 & H2 & H3 & H4) OK G E H.
  pose proof (exec_spec q D labelled iw cw S_ width tpeek braces O Y good gk OK H1 H2 G H3 openbsd expr_peek loop_stmt f 0 0 (St [] l false) root false (St [] l false) root) as X.
  specialize (X (B_init q D labelled iw cw S_ width tpeek braces O Y good gk OK H1 H2 G H3 0 _ root (Nat.lt_0_succ 0)) (le_n 0) (Nat.lt_0_succ 0) eq_refl).
  unfold pwp in X. unfold source in H. rewrite H in X. destruct (X eq_refl) as (X1 & k' & X2 & (a & X3) & acc & _ & ds & X4 & X5). destruct (X5 X1) as (_ & Y1 & Y2 & Y3 & _). cbn [e_toks] in *.
  destruct (end_last _ _ _ _ _ E X3 X2) as [R ->]. split; [exact X1|]. split; [exact R|]. exists acc, ds. rewrite R, app_nil_r in Y2. repeat split; try assumption; apply X4.
Qed.

(** * Theorems *)

(** The document built for a file consists of its tokens, in order, but for semicolons that
    go with another one or with a right brace; all else is blank.  The end of the file is
    left out if there is nothing to print for it. *)
Theorem C62_tokens : forall f l k s', decent -> ends l k -> source true f l = Ok GOOD s' ->
  e_toks (lx s') = [] /\ exists its, leaves (built (bd s')) = flat_map leaves (flat_map idl its) /\ Forall (proper S_) its /\ shed l (consumed its ++ silent_end k).
Proof.
  intros f l k s' DE E H. destruct (source_any any_doc any_kind f l k s' DE (okay_any _ _ _ _ (proj2 (proj2 (proj2 DE)))) (fun _ => Logic.I) E H) as (_ & A1 & its & ds & (_ & _ & G & _) & A2 & A3 & A4). split; [exact A1|].
  exists its. split; [|split; assumption]. rewrite <- (snd_ileaves _ 0), ileaves_built, G, map_app, (fits_snd _ _ _ _ _ A2), idocs_idl. reflexivity.
Qed.
(** No token but semicolons is lost or moved. *)
Theorem C62_solid : forall f l k s', decent -> ends l k -> source true f l = Ok GOOD s' ->
  exists its, leaves (built (bd s')) = flat_map leaves (flat_map idl its) /\ solid_tokens l = solid_tokens (consumed its) ++ silent_end k.
Proof.
  intros f l k s' DE E H. destruct (C62_tokens f l k s' DE E H) as (_ & its & A1 & _ & A3). exists its. split; [exact A1|]. rewrite (less_solid _ _ _ A3). unfold solid_tokens. rewrite filter_app. f_equal.
  destruct E as (a & _ & K & _). unfold silent_end. destruct (k_pre k); [|reflexivity]. cbn [filter]. rewrite (is_other T_EOF T_SEMI k) by (discriminate || exact K). reflexivity.
Qed.
Lemma source_fine : forall f l k s', decent -> ends l k -> source true f l = Ok GOOD s' ->
  (forall k, printable (tok D k)) -> (forall k, printable (labelled k)) -> (forall ks, printable (rec D ks)) ->
  exists its, shed l (consumed its ++ silent_end k) /\ Forall (proper S_) its /\ wf 2 (built (bd s')) /\ Forall printable (flat_map idl its) /\ texts (built (bd s')) 0 = texts (Concat (flat_map idl its)) 0.
Proof.
  intros f l k s' DE E H H1 H2 H3.
  destruct (source_any (wf 2) fine_kind f l k s' DE (okay_fine _ _ _ _ (proj2 (proj2 (proj2 DE))) H1 H2 H3) (fun _ => Logic.I) E H) as (_ & _ & its & ds & (_ & _ & G & GF & _) & B2 & PP & A4). exists its. split; [exact A4|]. split; [exact PP|].
  split; [apply (good_built (wf 2) fine_kind); [intros y Y1; induction Y1 as [|x y X _ IH]; cbn [wf fold_right]; [exact Logic.I|split; assumption]|intros [] d K Y1; cbn [wrap1 wf] in *; try assumption; repeat split; [exact K|lia|exact Y1]|apply GF; repeat constructor]|].
  split.
  { apply Forall_flat_map. rewrite Forall_forall in PP |- *. intros i I. specialize (PP i I). destruct i; cbn [SynProps.idl]; try (apply Forall_cons; [|constructor]); try (split; [exact Logic.I|reflexivity]); [apply H1|apply H2| |apply PP]. destruct (isnull x); [constructor|]. apply Forall_map, Forall_forall. intros p _. apply (piece_printable D p H1 H3). }
  rewrite texts_leaves, <- (snd_ileaves _ 0), ileaves_built, G, map_app, (fits_snd _ _ _ _ _ B2), idocs_idl. cbn [app map]. change (map snd (iplv 0 (b_path root)) ++ flat_map leaves (flat_map idl its)) with (leaves (Concat (flat_map idl its))). rewrite <- texts_leaves. reflexivity.
Qed.
(** What is printed: the tokens kept, in order, and nothing but blanks besides, whatever the
    limit, the style of indentation and whether blanks at the end are trimmed. *)
Theorem C62_output : forall f l k s', decent -> ends l k -> source true f l = Ok GOOD s' ->
  (forall k, printable (tok D k)) -> (forall k, printable (labelled k) /\ strip (doc_text (labelled k)) = strip (doc_text (tok D k))) ->
  (forall ks, printable (rec D ks) /\ strip (doc_text (rec D ks)) = concat (map (fun k => strip (doc_text (tok D k))) ks)) ->
  s_parens S_ = false -> s_sizeof S_ = false ->
  exists its, shed l (consumed its ++ silent_end k) /\
    (Forall kept its -> forall limit usetabs trim,
      strip (fst (doc_exec limit usetabs (built (bd s')) trim [])) = concat (map (fun k => strip (doc_text (tok D k))) (consumed its))).
Proof.
  intros f l k s' DE E H H1 H2 H3 P1 P2. destruct (source_fine f l k s' DE E H H1 (fun k => proj1 (H2 k)) (fun ks => proj1 (H3 ks))) as (its & A4 & PP & W & PR & TE). exists its. split; [exact A4|]. intros KE limit usetabs trim.
  rewrite (C17_strip limit usetabs 2 _ trim [] W). cbn [strip filter app]. destruct (printable_seq _ PR) as (_ & TT). rewrite TE.
  etransitivity; [apply (f_equal (fun l => concat (map strip l))); exact TT|]. rewrite strip_flat. unfold consumed. clear - KE PP P1 P2 H2 H3. induction its as [|i its IH]; [reflexivity|]. inversion KE as [|? ? K1 K2]; inversion PP as [|? ? R1 R2]; subst. cbn [flat_map]. rewrite !map_app, !concat_app, IH by assumption. f_equal.
  eapply item_text; eauto; [intros k'; apply H2|intros ks; apply H3].
Qed.
(** The same without leaving out the blanks within tokens: the output is the texts of tokens
    as they are, with blanks in between and blanks missing at the end of a text at most
    ([rendered]).  The tokens printed are among the ones read, in order, even if expressions
    lose some. *)
Theorem C62_rendered : forall f l k s', decent -> ends l k -> source true f l = Ok GOOD s' ->
  (forall k, printable (tok D k)) -> (forall k, printable (labelled k) /\ inked (labelled k) = inked (tok D k)) ->
  (forall ks, printable (rec D ks) /\ inked (rec D ks) = flat_map (fun k => inked (tok D k)) ks) ->
  s_parens S_ = false -> s_sizeof S_ = false ->
  exists its, shed l (consumed its ++ silent_end k) /\ Forall (proper S_) its /\ ExprProps.sub (printed its) (consumed its) /\ (Forall kept its -> printed its = consumed its) /\
    forall limit usetabs trim, let '(out, bad) := doc_exec limit usetabs (built (bd s')) trim [] in
      bad = false /\ exists n, rendered (flat_map (fun k => inked (tok D k)) (printed its)) (out ++ repeat NL n) /\ (trim = false -> n = 0).
Proof.
  intros f l k s' DE E H H1 H2 H3 P1 P2. destruct (source_fine f l k s' DE E H H1 (fun k => proj1 (H2 k)) (fun ks => proj1 (H3 ks))) as (its & A4 & PP & W & PR & TE). exists its. split; [exact A4|]. split; [exact PP|]. split; [eapply printed_sub, PP|]. split; [apply printed_kept|]. intros limit usetabs trim.
  pose proof (C17_texts limit usetabs 2 _ trim [] W) as X. destruct (doc_exec limit usetabs (built (bd s')) trim []) as [out bad]. destruct X as (X1 & n & X2 & X3 & _). split; [exact X1|]. exists n. split; [|exact X3]. rewrite TE in X2. apply rendered_ink in X2. cbn [filter] in X2. change (solid_text []) with false in X2. cbn beta iota in X2. rewrite inked_seq in X2 by exact PR.
  rewrite (items_inked q D labelled (fun k => proj2 (H2 k)) (fun ks => proj2 (H3 ks)) S_) in X2 by assumption. exact X2.
Qed.
(** An answer is the same for every greater bound on the depth of the calls, and an answer
    in the strict reading is the answer of the tool. *)
Theorem C62_answer : forall hard strict f f' l r s', (hard = false -> strict = false) -> f <= f' -> source hard f l = Ok r s' -> source strict f' l = Ok r s'.
Proof.
  intros hard strict f f' l r s' W F H. pose proof (exec_below q D iw cw S_ width tpeek braces O Y hard strict W labelled openbsd expr_peek loop_stmt f f' F 0 (Ps (St [] l false) root)) as X. unfold source in *. rewrite H in X. exact X.
Qed.
End Theorems.

(** * Examples *)

(** The tokens the lexer reads, each with its own text. *)
Definition src (s : string) : list token :=
  match fst (tokenized (s2b s) (fun _ => false) true (fun _ => None)) with
  | Some l => map (fun k => let t := k_tok k in Token (Tok (t_type t) (t_flags t) (Own (text_bytes (s2b s) (t_str t))) (t_off t) (t_end t) (t_lno t) (t_cno t)) (k_pre k) (k_suf k)) l
  | None => []
  end.
Definition nl (fl : N) (k : token) : bool := existsb (fun t => ttype_eqb (t_type t) T_SPACE && (N.land (t_flags t) fl =? 0)%N) (k_suf k).
Definition q4 := Queries (nl F_OPTSPACE) (fun _ => true) (fun _ => false) (fun _ => true) (fun _ => false) (fun _ => false).
Definition spc (k : token) : bool := existsb (fun t => ttype_eqb (t_type t) T_SPACE && negb (N.land (t_flags t) F_OPTSPACE =? 0)%N) (k_suf k).
Definition O4 := Asks (fun _ => false) (fun _ => false) spc (nl (N.lor F_OPTSPACE F_OPTLINE)) (fun _ => false) (fun _ => false) (fun _ => false) (fun _ => s2b " ") (fun _ => None) (fun s => match e_toks s with [_] => false | _ => true end).
Definition Y4 := Layout false true false false false true false false.
Definition D4 : docs := Docs (tok D1) (rec D2) (fun _ => 0) (fun _ => (0, 1, false)).
Definition read_file (strict : bool) (l : list token) : out ret_ :=
  source q4 D4 (tok D4) 8 4 false S_plain (fun _ _ => 0) tp br O4 Y4 peek_expr (fun _ _ => false) strict (10 * length l) l.
Definition form (strict : bool) (s : string) : option string :=
  match read_file strict (src s) with Ok GOOD s => Some (string_of_list_ascii (fst (doc_exec 80 false (built (bd s)) false []))) | _ => None end.

Definition prog1 : string := "typedef struct s{int a:1,b[2];struct t*n;}s_t;
static int const x=1,*y;int f(int a,char*(*g)(int),...)__attribute__((noreturn));
extern ""C""{
int z;}
enum e{A,B=2,};
int f(int a,char*b){int i=0;for(i=0;i<a;i++){asm(""nop"");b[i]=x;}return i;;}
".
Example prog1_form : form true prog1 = Some "typedef struct s {
        int a:1, b[2];
        struct t *n;
} s_t;
static int const x = 1, *y;
int f(int a, char *(*g)(int), ...) __attribute__((noreturn));
extern ""C"" {
int z;
}
enum e {A, B = 2, };
int
f(int a, char *b)
{
        int i = 0;
        for (i = 0; i < a; i++) {
                asm(""nop"");
                b[i] = x;
        }
        return i;
}
"%string /\ form false prog1 = form true prog1.
Proof. split; vm_compute; reflexivity. Qed.
(** The hypotheses of the theorems: types looked ahead for are not empty. *)
Lemma seq_len : forall ts l r, seq ts l = Some r -> length r + length ts = length l.
Proof. induction ts as [|t ts IH]; intros [|k l] r H; cbn [seq length] in *; try (inversion H; subst; cbn [length]; lia); try discriminate. destruct (is t k); [|discriminate]. apply IH in H. lia. Qed.
Lemma opt_len : forall t l, length (opt t l) <= length l.
Proof. intros t l. unfold opt. destruct (next_is t l); [rewrite skipn_length; lia|apply le_n]. Qed.
Lemma optf_len : forall t l, length (optf t l) <= length l.
Proof. intros t [|k l]; cbn [optf]; [apply le_n|]. destruct (flag t k); cbn [length]; lia. Qed.
Lemma pair_len : forall a b l d r, pair_end a b d l = Some r -> length r < length l.
Proof. induction l as [|k l IH]; intros d r H; cbn [pair_end] in H; [discriminate|]. destruct (is T_EOF k); [discriminate|]. destruct (_ =? 0); [inversion H; subst; cbn [length]; lia|]. apply IH in H. cbn [length]. lia. Qed.
Lemma squares_len : forall l r, squares l = Some r -> length r < length l.
Proof. intros l r H. unfold squares in H. destruct (seq [T_LSQUARE] l) as [l1|] eqn:E; [|discriminate]. apply seq_len in E. apply seq_len in H. pose proof (opt_len T_LITERAL l1). cbn [length] in *. lia. Qed.
Lemma func_ptr_len : forall l r, func_ptr l = Some r -> length r < length l.
Proof.
  intros l r H. unfold func_ptr in H. destruct (seq [T_LPAREN; T_STAR] l) as [l1|] eqn:E; [|discriminate]. apply seq_len in E. cbn zeta in H.
  set (l2 := optf F_QUALIFIER (many T_STAR (optf F_QUALIFIER l1))) in *. assert (L2 : length l2 <= length l1) by (unfold l2; etransitivity; [apply optf_len|]; etransitivity; [apply many_length|]; apply optf_len).
  set (l3 := if next_is T_LSQUARE (opt T_IDENT l2) then _ else _) in *. assert (L3 : length l3 <= length l2).
  { unfold l3. pose proof (opt_len T_IDENT l2). destruct (next_is T_LSQUARE _); [|assumption]. etransitivity; [apply opt_len|]. etransitivity; [apply opt_len|]. rewrite skipn_length. lia. }
  destruct (seq [T_RPAREN] l3) as [l4|] eqn:E4; [|discriminate]. apply seq_len in E4. cbn [length] in *. destruct (if_pair T_LPAREN T_RPAREN l4) as [l5|] eqn:E5.
  - inversion H; subst. unfold if_pair in E5. destruct (next_is T_LPAREN l4); [|discriminate]. apply pair_len in E5. lia.
  - destruct (_ && _); [|discriminate]. inversion H; subst. lia.
Qed.
Lemma ptr_array_len : forall l r, ptr_array l = Some r -> length r < length l.
Proof.
  intros l r H. unfold ptr_array in H. destruct (seq [T_LPAREN; T_STAR] l) as [l1|] eqn:E; [|discriminate]. apply seq_len in E. destruct (seq [T_RPAREN; T_LSQUARE] (opt T_IDENT l1)) as [l2|] eqn:E2; [|discriminate]. apply seq_len in E2. pose proof (opt_len T_IDENT l1). destruct (_ || _); [|discriminate]. apply seq_len in H. rewrite skipn_length in H. cbn [length] in *. lia.
Qed.
Lemma cpp_type_len : forall e l r, cpp_type e l = Some r -> length r < length l.
Proof.
  intros e l r H. unfold cpp_type in H. destruct (seq [T_IDENT; T_LPAREN; T_IDENT; T_RPAREN] l) as [l1|] eqn:E.
  - apply seq_len in E. destruct l as [|k l]; [cbn [length] in E; lia|]. destruct l1 as [|nx l1]; [|destruct (_ || _); [inversion H; subst; cbn [length] in *; lia|]];
    (destruct (e k); [|discriminate]; destruct (seq [T_IDENT; T_LPAREN; T_IDENT; T_COMMA; T_IDENT; T_RPAREN] (k :: l)) as [l2|] eqn:E2; [|discriminate]; apply seq_len in E2; destruct (next_is _ _); [|discriminate]; inversion H; subst; cbn [length] in *; lia).
  - destruct l as [|k l]; [discriminate|]. destruct (e k); [|discriminate]. destruct (seq [T_IDENT; T_LPAREN; T_IDENT; T_COMMA; T_IDENT; T_RPAREN] (k :: l)) as [l2|] eqn:E2; [|discriminate]. apply seq_len in E2. destruct (next_is _ _); [|discriminate]. inversion H; subst. cbn [length] in *. lia.
Qed.
Lemma type_loop_len : forall e f b l pk nkw nt r pk' u nkw' nt', type_loop e f b l pk nkw nt = (r, pk', u, nkw', nt') -> length r <= length l /\ ((pk' = pk /\ nt' = nt) \/ length r < length l).
Proof.
  induction f as [|f IH]; intros b l pk nkw nt r pk' u nkw' nt' H; cbn [type_loop] in H; [inversion H; subst; auto|].
  assert (AG : forall l1 p1 n1 R, (if b then (l1, p1, false, n1, S nt) else type_loop e f b l1 p1 n1 (S nt)) = R -> R = (r, pk', u, nkw', nt') -> length l1 < length l -> length r <= length l /\ ((pk' = pk /\ nt' = nt) \/ length r < length l)).
  { intros l1 p1 n1 R E1 E2 L. subst R. destruct b; [inversion E2; subst; lia|]. apply IH in E2. lia. }
  destruct l as [|k l]; [inversion H; subst; auto|]. destruct (is T_EOF k); [inversion H; subst; auto|]. destruct (flag (N.lor F_QUALIFIER F_STORAGE) k); [eapply AG; [reflexivity|exact H|cbn [length]; lia]|].
  destruct (flag F_TYPE k).
  { eapply AG; [reflexivity|exact H|]. set (l2 := if is T_ENUM k || is T_STRUCT k || is T_UNION k then opt T_IDENT l else l). assert (L2 : length l2 <= length l) by (unfold l2; destruct (_ || _); [apply opt_len|apply le_n]). destruct (squares l2) as [l3|] eqn:S3; [apply squares_len in S3|]; cbn [length]; lia. }
  destruct ((0 <? nt) && is T_STAR k); [destruct (next_is T_IDENT l); [inversion H; subst; cbn [length]; lia|eapply AG; [reflexivity|exact H|cbn [length]; lia]]|].
  destruct (cpp_type e (k :: l)) as [l1|] eqn:C; [apply cpp_type_len in C; eapply AG; [reflexivity|exact H|exact C]|].
  destruct (is T_IDENT k); [eapply AG; [reflexivity|exact H|cbn [length]; lia]|].
  destruct (0 <? nt); [|inversion H; subst; auto]. destruct (func_ptr (k :: l)) as [l1|] eqn:F1; [apply func_ptr_len in F1; inversion H; subst; lia|]. destruct (ptr_array (k :: l)) as [l1|] eqn:F2; [apply ptr_array_len in F2; inversion H; subst; lia|]. inversion H; subst. auto.
Qed.
Lemma type_peek_some : forall e d l n, type_peek e false d l = Some n -> 0 < n.
Proof.
  intros e d l n H. unfold type_peek in H. cbn [andb] in H. destruct (bitfield l); [inversion H; lia|]. destruct (type_loop e (length l) (back_if T_SIZEOF d) l false 0 0) as [[[[r pk] u] nkw] nt] eqn:E. apply type_loop_len in E.
  destruct (if (0 <? nt) && (nt =? nkw) then false else pk || (negb u && (0 <? nt))) eqn:P; [|discriminate]. inversion H; subst. destruct E as [_ [[-> ->]|E]]; [|lia]. cbn in P. rewrite andb_false_r in P. discriminate.
Qed.
Lemma decent4 : decent 8 tp br O4.
Proof.
  split; [|split; [|split; [reflexivity|vm_compute; reflexivity]]].
  - intros d l n H. unfold tp in H. apply type_peek_some in H. exact H.
  - intros d l n e H. discriminate.
Qed.
Definition ends_b (l : list token) : bool := match rev l with k :: a => is T_EOF k && forallb (fun k => negb (is T_EOF k)) a | [] => false end.
Lemma ends_b_spec : forall l, ends_b l = true -> ends l (last l eof).
Proof.
  intros l H. unfold ends_b in H. destruct (rev l) as [|k a] eqn:E; [discriminate|]. apply andb_prop in H. destruct H as [H1 H2]. exists (rev a). apply (f_equal (@rev token)) in E. rewrite rev_involutive in E. cbn [rev] in E. subst l. rewrite last_last. split; [reflexivity|]. split; [exact H1|]. apply Forall_rev. rewrite Forall_forall. rewrite forallb_forall in H2. intros x X. specialize (H2 x X). destruct (is T_EOF x); [discriminate|reflexivity].
Qed.
Definition text_tokens (l : list token) : bytes := concat (map (fun k => strip (doc_text (tok D4 k))) l).
Example prog1_read : decent 8 tp br O4 /\ ends (src prog1) (last (src prog1) eof) /\
  (forall k, printable (tok D4 k)) /\ (forall ks, printable (rec D4 ks) /\ strip (doc_text (rec D4 ks)) = concat (map (fun k => strip (doc_text (tok D4 k))) ks)) /\
  exists s', read_file true (src prog1) = Ok GOOD s' /\
    exists a b semi1 semi2, src prog1 = a ++ semi1 :: semi2 :: b /\ is T_SEMI semi1 = true /\ is T_SEMI semi2 = true /\
      strip (fst (doc_exec 80 false (built (bd s')) false [])) = text_tokens (a ++ semi1 :: b).
Proof.
  split; [apply decent4|]. split; [apply ends_b_spec; vm_compute; reflexivity|]. split; [apply D2_printable|]. split; [apply D2_printable|].
  eexists. split; [vm_compute; reflexivity|]. set (n := length (src prog1) - 4). exists (firstn n (src prog1)), (skipn (n + 2) (src prog1)), (nth n (src prog1) eof), (nth (n + 1) (src prog1) eof). 
  split; [vm_compute; reflexivity|]. split; [vm_compute; reflexivity|]. split; [vm_compute; reflexivity|]. vm_compute. reflexivity.
Qed.

(** * Refutations *)

(** It is not so for every file accepted that the tokens keep their order: in
    "int a, (*b)[2];" the semicolon is put in front of what is not understood, as the
    document of the first declarator is given to it ([strict] excludes this). *)
Theorem C62_order_refuted : exists s s', ends (src s) (last (src s) eof) /\ read_file false (src s) = Ok GOOD s' /\ read_file true (src s) = Bad /\ s = "int a, (*b)[2];"%string /\
  fst (doc_exec 80 false (built (bd s')) false []) = s2b "int a, ;(*b)[2]
".
Proof. exists "int a, (*b)[2];"%string. eexists. split; [apply ends_b_spec; vm_compute; reflexivity|]. split; [vm_compute; reflexivity|]. split; [vm_compute; reflexivity|]. split; [reflexivity|]. vm_compute. reflexivity. Qed.
(** Nor that none is lost: the comma of [int , ;] is removed along with the document of the
    declarators. *)
Theorem C62_lost_refuted : exists s s', ends (src s) (last (src s) eof) /\ read_file false (src s) = Ok GOOD s' /\ read_file true (src s) = Bad /\ s = "int , ;"%string /\
  fst (doc_exec 80 false (built (bd s')) false []) = s2b "int ;
".
Proof. exists "int , ;"%string. eexists. split; [apply ends_b_spec; vm_compute; reflexivity|]. split; [vm_compute; reflexivity|]. split; [vm_compute; reflexivity|]. split; [reflexivity|]. vm_compute. reflexivity. Qed.
(** Nor that words are kept apart: only identifiers are, within the arguments of functions. *)
Theorem C62_apart_refuted : exists s s', ends (src s) (last (src s) eof) /\ read_file true (src s) = Ok GOOD s' /\ s = "void f(int a[static 4]);"%string /\
  fst (doc_exec 80 false (built (bd s')) false []) = s2b "void f(int a[static4]);
".
Proof. exists "void f(int a[static 4]);"%string. eexists. split; [apply ends_b_spec; vm_compute; reflexivity|]. split; [vm_compute; reflexivity|]. split; [reflexivity|]. vm_compute. reflexivity. Qed.

Print Assumptions C62_tokens.
Print Assumptions C62_solid.
Print Assumptions C62_output.
Print Assumptions C62_rendered.
Print Assumptions C62_answer.
Print Assumptions C62_order_refuted.
Print Assumptions C62_lost_refuted.
Print Assumptions C62_apart_refuted.
