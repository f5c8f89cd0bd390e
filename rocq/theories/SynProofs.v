(** What statements consist of, and that the parser (SynModel) builds just that. *)
From Verif Require Import Base TokenModel LexModel DocModel ExprModel ExprProofs ExprProps BuildModel BuildProofs ExprDocModel ExprDocProofs SynModel RunProofs.
Local Close Scope Q_scope.
Local Open Scope nat_scope.

(** * Specification *)

Section Grammar.
(** Style options used for expressions. *)
Variable S_ : setting.
Variable tpeek : bool -> list token -> list token -> option nat.
Variable braces : list token -> list token -> option nat * bool.
(** Declarations and asm: the indentation, the tokens, the parts and the tokens that remain. *)
Variable declares : what -> Z -> list token -> list item -> list token -> Prop.

(** IndentWidth *)
Variable iw : nat.
Local Notation reads := (reads S_ tpeek braces).
Local Notation deeper := (deeper iw).
(** Between the head of a statement and its body, and the indentation of the body; between
    statements.  [z]: the indentation of the statement. *)
Definition gap (z : Z) (l : list token) : item := if next_is T_LBRACE l then SP else HL (deeper z).
Definition body (z : Z) (l : list token) : Z := if next_is T_LBRACE l then z else deeper z.
Definition sep (z : Z) (switch : bool) (l l' : list token) : item :=
  if switch && next_is T_CASE l && next_is T_CASE l' && match l with k :: _ => on_line k l' | [] => false end then SP else HL z.
Definition inside (z : Z) (switch : bool) : Z := if switch then z else deeper z.

(** Semicolons on the same line: the last one is kept. *)
Definition semis (l : list token) (k : token) (l' : list token) : Prop :=
  exists pre, l = pre ++ k :: l' /\ Forall (fun x => is T_SEMI x = true /\ lno x = lno k) (k :: pre) /\ (next_is T_SEMI l' = true -> on_line k l' = false).
(** An expression in parentheses. *)
Definition parens (l : list token) (h : list item) (r l' : list token) : Prop :=
  exists lp a s x s' rp, l = lp :: e_toks s /\ is T_LPAREN lp = true /\ if_pair T_LPAREN T_RPAREN l = Some r /\
    reads false (S (length r)) a s x s' /\ e_toks s' = rp :: l' /\ is T_RPAREN rp = true /\
    h = [T lp; EX (S (length r)) a s x s'; T rp].

(** The head of a for loop from the second expression on. *)
Definition for_rest (l : list token) (h : list item) (l' : list token) : Prop :=
  exists a s x s' c b t y t' rp, l = e_toks s /\ reads true 0 a s x s' /\ e_toks s' = c :: e_toks t /\ is T_SEMI c = true /\
    reads true 0 b t y t' /\ e_toks t' = rp :: l' /\ is T_RPAREN rp = true /\ h = [EX 0 a s x s'; T c; EX 0 b t y t'; T rp].
(** What precedes a statement that goes with it, and the indentation of the latter. *)
Inductive head (z : Z) : list token -> list item -> Z -> list token -> Prop :=
| H_kw : forall k l e r l', is T_WHILE k || is T_SWITCH k || is T_IDENT k = true -> parens l e r l' ->
    head z (k :: l) ([T k] ++ (if is T_IDENT k then [] else [SP]) ++ e ++ [gap z l']) (body z l') l'
| H_for_decl : forall k lp d l l1 h l', is T_FOR k = true -> is T_LPAREN lp = true -> declares (WDecl false) z l d l1 -> for_rest l1 h l' ->
    head z (k :: lp :: l) (([T k; SP; T lp] ++ d) ++ h ++ [gap z l']) (body z l') l'
| H_for : forall k lp a s x s' c l1 h l', is T_FOR k = true -> is T_LPAREN lp = true -> reads false 0 a s x s' -> e_toks s' = c :: l1 -> is T_SEMI c = true -> for_rest l1 h l' ->
    head z (k :: lp :: e_toks s) ([T k; SP; T lp; EX 0 a s x s'; T c] ++ h ++ [gap z l']) (body z l') l'
| H_label : forall k c l, is T_IDENT k = true -> is T_COLON c = true -> on_line c l = true -> head z (k :: c :: l) [TL k; T c] z l.
(** Braces of a switch statement are dealt with on their own. *)
Definition plain (l l' : list token) : Prop := next_is T_SWITCH l = true -> if_pair T_LBRACE T_RBRACE l' = None.
(** Statements of which nothing but this is there: something not understood follows. *)
Inductive heads : Z -> list token -> list item -> list token -> Prop :=
| H_nil : forall z l, heads z l [] l
| H_cons : forall z l h z1 l1 b l', head z l h z1 l1 -> plain l l1 -> heads z1 l1 b l' -> heads z l (h ++ b) l'.
Inductive lab (z : Z) : token -> list token -> list item -> list token -> Prop :=
| L_case : forall k a s x s' c l, is T_CASE k = true -> reads false 0 a s x s' -> x <> ENull -> e_toks s' = c :: l -> is T_COLON c = true ->
    lab z k (k :: e_toks s) [T k; LN z; EX 0 a s x s'; T c] l
| L_default : forall k c l, is T_DEFAULT k = true -> is T_COLON c = true -> lab z k (k :: c :: l) [T k; T c] l.
(** The rest of do: while, the condition. *)
Definition whiles (l : list token) (h : list item) (l' : list token) : Prop :=
  exists w l1 e r l2 sm, l = w :: l1 /\ is T_WHILE w = true /\ parens l1 e r l2 /\ semis l2 sm l' /\ h = [T w; SP] ++ e ++ [T sm].
(** The semicolons after a right brace: the first is dropped. *)
Definition after (r : list token) : list token := if next_is T_SEMI r then skipn 1 r else r.
Definition trail (l : list token) (m : list item) (l' : list token) : Prop :=
  (next_is T_SEMI l = false /\ m = [] /\ l = l') \/ exists k, semis l k l' /\ m = [T k].

Inductive stm : Z -> list token -> list item -> list token -> Prop :=
| S_block : forall z l b l', blk z false false l b l' -> stm z l b l'
| S_switch : forall z l h z1 l1 b l', next_is T_SWITCH l = true -> head z l h z1 l1 -> blk z true false l1 b l' -> stm z l (h ++ b) l'
| S_head : forall z l h z1 l1 b l', head z l h z1 l1 -> plain l l1 -> stm z1 l1 b l' -> stm z l (h ++ b) l'
| S_label : forall z k c l, is T_IDENT k = true -> is T_COLON c = true -> on_line c l = false -> stm z (k :: c :: l) [TL k; T c] l
| S_if : forall z k l e r l1 b l2 es l', is T_IF k = true -> parens l e r l1 -> stm (body z l1) l1 b l2 -> elses z (next_is T_LBRACE r) l2 es l' ->
    stm z (k :: l) ([T k; SP] ++ e ++ [gap z l1] ++ b ++ es) l'
| S_do_block : forall z k l b l1 h l', is T_DO k = true -> blk z false false l b l1 -> whiles l1 h l' -> stm z (k :: l) ([T k; SP] ++ b ++ [SP] ++ h) l'
| S_do : forall z k l b l1 h l', is T_DO k = true -> next_is T_LBRACE l = false -> stm (deeper z) l b l1 -> whiles l1 h l' -> stm z (k :: l) ([T k; HL (deeper z)] ++ b ++ [HL z] ++ h) l'
| S_case : forall z k l h l1 t l', lab z k l h l1 -> next_is T_LBRACE l1 = false -> tail (deeper z) k l1 t l' -> stm z l (h ++ t) l'
| S_case_block : forall z k l h l1 b l2 t l', lab z k l h l1 -> next_is T_LBRACE l1 = true -> stm z l1 b l2 -> tail (deeper z) k l2 t l' -> stm z l (h ++ [LN z] ++ b ++ t) l'
| S_case_heads : forall z k l h l1 b l2 t l', lab z k l h l1 -> next_is T_LBRACE l1 = true -> heads z l1 b l2 -> tail (deeper z) k l2 t l' -> stm z l (h ++ [LN z] ++ b ++ t) l'
| S_goto : forall z k i l sm l', is T_GOTO k = true -> is T_IDENT i = true -> semis l sm l' -> stm z (k :: i :: l) [T k; LN z; T i; T sm] l'
| S_jump : forall z k l sm l', is T_BREAK k || is T_CONTINUE k = true -> semis l sm l' -> stm z (k :: l) [T k; T sm] l'
| S_return : forall z k l sm l', is T_RETURN k = true -> semis l sm l' -> stm z (k :: l) [T k; T sm] l'
| S_return_expr : forall z k a s x s' sm l', is T_RETURN k = true -> next_is T_SEMI (e_toks s) = false -> reads false 0 a s x s' -> x <> ENull -> semis (e_toks s') sm l' ->
    stm z (k :: e_toks s) [T k; SP; EX 0 a s x s'; T sm] l'
| S_semi : forall z l sm l', semis l sm l' -> stm z l [T sm] l'
| S_expr : forall z a s x s' sm l', reads false 0 a s x s' -> x <> ENull -> semis (e_toks s') sm l' -> stm z (e_toks s) [EX 0 a s x s'; T sm] l'
| S_decl : forall w z l d l', declares w z l d l' -> stm z l d l'
with elses : Z -> bool -> list token -> list item -> list token -> Prop :=
| E_end : forall z c l, next_is T_ELSE l = false -> elses z c l [] l
| E_if : forall z c e k l h r l1 b l2 es l', is T_ELSE e = true -> is T_IF k = true -> lno e = lno k -> parens l h r l1 -> stm (body z l1) l1 b l2 -> elses z (next_is T_LBRACE r) l2 es l' ->
    elses z c (e :: k :: l) ([between z c; T e; SP; T k; SP] ++ h ++ [gap z l1] ++ b ++ es) l'
| E_block : forall z c e l b l', is T_ELSE e = true -> next_is T_LBRACE l = true -> stm z l b l' -> elses z c (e :: l) ([between z c; T e; SP] ++ b) l'
| E_heads : forall z c e l b l', is T_ELSE e = true -> next_is T_LBRACE l = true -> heads z l b l' -> elses z c (e :: l) ([between z c; T e; SP] ++ b) l'
| E_stm : forall z c e l b l', is T_ELSE e = true -> next_is T_LBRACE l = false -> (next_is T_IF l = true -> on_line e l = false) -> stm (deeper z) l b l' ->
    elses z c (e :: l) ([between z c; T e; SP; HL (deeper z)] ++ b) l'
with blk : Z -> bool -> bool -> list token -> list item -> list token -> Prop :=
| B_some : forall z sw gnu lb l r l1 b rb l2 m l', is T_LBRACE lb = true -> if_pair T_LBRACE T_RBRACE (lb :: l) = Some r -> l1 = firstn (length l - length r) l ++ after r ->
    stms (inside z sw) sw (length (after r)) l1 b (rb :: l2) -> is T_RBRACE rb = true -> trail l2 m l' ->
    blk z sw gnu (lb :: l) ([T lb; between (inside z sw) gnu] ++ b ++ [between z gnu; T rb] ++ m) l'
| B_none : forall z sw gnu lb l r l1 b rb l2 m l', is T_LBRACE lb = true -> if_pair T_LBRACE T_RBRACE (lb :: l) = Some r -> l1 = firstn (length l - length r) l ++ after r ->
    heads (inside z sw) l1 b (rb :: l2) -> is T_RBRACE rb = true -> trail l2 m l' ->
    blk z sw gnu (lb :: l) ([T lb] ++ b ++ [between z gnu; T rb] ++ m) l'
with stms : Z -> bool -> nat -> list token -> list item -> list token -> Prop :=
| M_one : forall z sw n l b l', stm z l b l' -> length l' = S n -> stms z sw n l b l'
| M_more : forall z sw n l b l1 c l', stm z l b l1 -> length l1 <> S n -> stms z sw n l1 c l' -> stms z sw n l (b ++ [sep z sw l l1] ++ c) l'
| M_rest : forall z sw n l b l1 c l', stm z l b l1 -> length l1 <> S n -> heads z l1 c l' -> stms z sw n l (b ++ [sep z sw l l1] ++ c) l'
with tail : Z -> token -> list token -> list item -> list token -> Prop :=
| A_end : forall z k l, next_is T_CASE l || next_is T_DEFAULT l = true -> tail z k l [] l
| A_more : forall z k l b l1 c l', next_is T_CASE l || next_is T_DEFAULT l = false -> stm z l b l1 -> tail z k l1 c l' -> tail z k l ([between z (on_line k l)] ++ b ++ c) l'
| A_rest : forall z k l b l', next_is T_CASE l || next_is T_DEFAULT l = false -> heads z l b l' -> tail z k l b l'.
End Grammar.

(** * Proofs *)

Section Run.
Variable q : queries.
Variable D : docs.
Variable labelled : token -> doc.
Variable iw cw : nat.
Variable openbsd : bool.
Variable S_ : setting.
Variable width : bs -> point -> nat.
Variable tpeek : bool -> list token -> list token -> option nat.
Variable braces : list token -> list token -> option nat * bool.
Variable decl_type : list token -> list token -> bool.
Variable expr_peek : list token -> list token -> option nat.
Variable loop_stmt : list token -> list token -> bool.
Variable other : what -> point -> P ret_.
Variable declares : what -> Z -> list token -> list item -> list token -> Prop.
Context {loose : Prop} {good : doc -> Prop} {gk : kind -> Prop} {OK : okay q D labelled iw good gk}.
Let good_concat : forall l, Forall good l -> good (Concat l) := ok_good_concat.
Let good_wrap : forall k d, gk k -> good d -> good (wrap1 k d) := ok_good_wrap.
Let good_piece : forall p, good (pdoc D p) := ok_good_piece.
Let good_label : forall k, good (labelled k) := ok_good_label.
Let good_soft : good Softline := ok_good_soft.
Let gk_simple : gk KGroup /\ gk (KMaxlines 1) /\ gk KScope /\ gk KOptional /\ gk KNoIndent := ok_gk_simple.
Let gk_indent : forall v, gk (KIndent v) := ok_gk_indent.
Let gk_min : forall id ms, length ms = 2 -> gk (KMinimize id ms) := ok_gk_min.
Local Notation grewi := (grewi good gk).
Local Notation idocs := (idocs q D labelled).
Local Notation fits := (fits q D labelled).
Local Notation reads := (reads S_ tpeek braces).
Local Notation head := (head S_ tpeek braces declares iw).
Local Notation stm := (stm S_ tpeek braces declares iw).
Local Notation blk := (blk S_ tpeek braces declares iw).
Local Notation heads := (heads S_ tpeek braces declares iw).
Local Notation elses := (elses S_ tpeek braces declares iw).
Local Notation stms := (stms S_ tpeek braces declares iw).
Local Notation tail := (tail S_ tpeek braces declares iw).
Local Notation lab := (lab S_ tpeek braces).
Local Notation deeper := (deeper iw).
Local Notation gap := (gap iw).
Local Notation body := (body iw).
Local Notation inside := (inside iw).
Local Notation pwp := (pwp loose).
Local Notation A := (A q D labelled good gk).
Local Notation post := (post q D labelled good gk).
Local Notation read := (read tpeek braces).

(** What is left to parser_decl() and parser_stmt_asm(). *)
Definition nothing (w : what) (s : st) (l : list token) (its : list item) (s' : st) : Prop := its = [] /\ s' = s /\ (w = WAsm -> next_is T_ASSEMBLY (e_toks s) = false).
Hypothesis other_spec : forall w z p l b, pt z p b -> pwp (other w p) (post (declares w z) (nothing w l) p l b) (Ps l b).
Hypothesis asm_none : forall p s, next_is T_ASSEMBLY (e_toks (lx s)) = false -> other WAsm p s = none_ s.
Hypothesis declares_some : forall w z l its l', declares w z l its l' -> consumed its <> [].

(** ** The functions *)
Definition Gsemi (l : list token) (its : list item) (l' : list token) : Prop := exists k, its = [T k] /\ semis l k l'.
Definition never (l : list token) (its : list item) (l' : st) : Prop := False.
Lemma drop_semis : forall pre q k r, Forall (fun x => is T_SEMI x = true) pre -> is T_SEMI k = true -> less q (pre ++ k :: r) (k :: r).
Proof. induction pre as [|x pre IH]; intros q0 k r F K; [apply less_refl|]. inversion F; subst. cbn [app]. apply less_drop; [assumption|right; exact K|apply IH; assumption]. Qed.
Lemma semi_spec : forall z p l b, pt z p b -> pwp (semi D p) (post Gsemi never p l b) (Ps l b).
Proof.
  intros z p l b P. pose proof (A_init z p l b P) as HA. unfold semi. apply p_bnd. eapply p_expect; [exact HA| |]; cbn beta iota.
  - intros k l' E1 E2 HA'. cbn [app] in HA'. apply p_bnd, p_toks. cbn beta zeta. destruct (same_line_spec k (e_toks l')) as (pre & r & B1 & B2 & B3 & B4). rewrite <- B2. apply p_bnd.
    destruct (length pre =? 0) eqn:Z.
    + apply Nat.eqb_eq in Z. destruct pre; [|discriminate]. cbn [app] in B1. eapply p_emit; [exact HA'|lia|exact P|]. intros b' HB _. cbn [app] in HB. eapply p_good; [exact HB|]. intros _. exists k. split; [reflexivity|]. exists []. rewrite E1. cbn [app]. split; [reflexivity|]. split; [constructor; auto|]. rewrite B1. exact B4.
    + apply Nat.eqb_neq in Z. destruct (exists_last (l := pre)) as (pre' & k' & ->); [destruct pre; [elim Z; reflexivity|discriminate]|]. apply Forall_app in B3. destruct B3 as [B3 B5]. inversion B5 as [|? ? [B6 B7] _]; subst.
      rewrite app_length in *. cbn [length] in *. apply p_bnd. unfold pwp at 1, pop_last. cbn [lx bd]. replace (length pre' + 1 - 1) with (length pre') by lia. rewrite B1, <- app_assoc, skipn_app, skipn_all, Nat.sub_diag. cbn [app skipn].
      set (l2 := St (k' :: e_done l') r (e_err l')).
      assert (HB : A p l b 0 [] [k'] True l2 b).
      { destruct HA' as (A1 & ds & A2 & A3). split; [unfold l2; cbn [e_toks]; rewrite B1, !app_length in A1; lia|]. exists ds. split; [exact A2|]. unfold l2. cbn [e_err e_toks]. intros E. destruct (A3 E) as (C1 & C2 & C3 & _). repeat split; auto.
        cbn [consumed flat_map app]. rewrite E1, B1, <- app_assoc. cbn [app]. change (k :: pre' ++ k' :: r) with ((k :: pre') ++ k' :: r). apply drop_semis; [|exact B6]. constructor; [exact E2|]. eapply Forall_impl; [|exact B3]. intros x [X _]. exact X. }
      cbn [emit_opt]. eapply p_emit; [exact HB|lia|pp|]. intros b' HC _. cbn [app] in HC. eapply p_good; [exact HC|]. intros _. exists k'. split; [reflexivity|]. exists (k :: pre'). unfold l2. cbn [e_toks]. rewrite E1, B1, <- app_assoc. cbn [app]. split; [reflexivity|].
      split; [|intros X; specialize (B4 X); destruct r as [|x r]; [reflexivity|]; cbn [on_line] in *; rewrite B7; exact B4]. constructor; [auto|]. constructor; [auto|]. eapply Forall_impl; [|exact B3]. intros x [X1 X2]. split; [exact X1|congruence].
  - intros l' _ _ E HA'. eapply p_fail, HA'.
Qed.

Lemma reads_rest : forall ln stop a s x s', reads ln stop a s x s' -> e_toks s = ins (EX stop a s x s') ++ e_toks s'.
Proof.
  intros ln stop a s x s' (E & _). destruct (C52_tokens _ _ _ _ _ _ E) as (ks & T1 & _ & _). cbn [ins]. rewrite T1, app_length, Nat.add_sub, firstn_app, Nat.sub_diag, firstn_all, app_nil_r. reflexivity.
Qed.
Lemma head_consumes : forall z l h z' l', head z l h z' l' -> consumed h <> [].
Proof. intros z l h z' l' H. destruct H; rewrite ?consumed_app; cbn; discriminate. Qed.
Lemma blk_consumes : forall z sw gnu l h l', blk z sw gnu l h l' -> consumed h <> [].
Proof. intros z sw gnu l h l' H. destruct H; rewrite ?consumed_app; cbn; discriminate. Qed.
Lemma cons_app : forall (a b : list token), a <> [] \/ b <> [] -> a ++ b <> [].
Proof. intros [|x a] b H; [destruct H; [congruence|exact H]|discriminate]. Qed.
Lemma stm_consumes : forall z l h l', stm z l h l' -> consumed h <> [].
Proof.
  intros z l h l' H. destruct H; rewrite ?consumed_app; try (cbn; discriminate).
  - eapply blk_consumes; eassumption.
  - apply cons_app. left. eapply head_consumes; eassumption.
  - apply cons_app. left. eapply head_consumes; eassumption.
  - apply cons_app. left. destruct H; cbn; discriminate.
  - apply cons_app. left. destruct H; cbn; discriminate.
  - apply cons_app. left. destruct H; cbn; discriminate.
  - unfold consumed. cbn [flat_map]. apply cons_app. right. cbn. discriminate.
  - eapply declares_some; eassumption.
Qed.
Lemma A_strict : forall p0 l0 b0 m acc (F : Prop) l b, A p0 l0 b0 m acc [] F l b -> e_err l = false -> (F -> consumed acc <> []) -> A p0 l0 b0 1 acc [] F l b.
Proof.
  intros p0 l0 b0 m acc F l b (A1 & ds & A2 & A3) E N. destruct (A3 E) as (B1 & B2 & B3 & B4). split; [|eauto]. apply less_length in B3. specialize (N B4). rewrite !app_length in B3. destruct (consumed acc); [congruence|]. cbn [length] in *. lia.
Qed.

(** A statement of which no more than the beginning was understood; none of the
    alternatives tried after it applies either. *)
Definition asm_next (s : st) : bool := next_is T_ASSEMBLY (e_toks s).
Definition lates : list (st -> bool) :=
  [ fun s => next_is T_FOR (e_toks s); fun s => next_is T_WHILE (e_toks s); fun s => isSome (seq [T_IDENT; T_COLON] (e_toks s)); fun s => next_is T_SWITCH (e_toks s);
    fun s => next_is T_CONTINUE (e_toks s); asm_next; fun s => next_is T_DO (e_toks s); fun s => next_is T_SEMI (e_toks s); fun s => peek_cpp (e_toks s) ].
Definition late (s : st) : bool := existsb (fun t => t s) lates.
Definition stuck (z : Z) (l : list token) (its : list item) (s : st) : Prop := heads z l its (e_toks s) /\ late s = false.

Section Inner.
Variable n : nat.
Variable rc : point -> P ret_.
Hypothesis rc_ok : forall z p l b, pt z p b -> length (e_toks l) < n -> pwp (rc p) (post (stm z) (stuck z) p l b) (Ps l b).

Definition spost (z : Z) (sw : bool) (k : nat) (any : bool) (p : point) (l : st) (b : bs) (o : option bool) (s' : ps) : Prop :=
  exists its, A p l b 0 its [] (match o with
    | None => False
    | Some a => (a = true /\ stms z sw k (e_toks l) its (e_toks (lx s'))) \/ (a = any /\ heads z (e_toks l) its (e_toks (lx s')))
    end) (lx s') (bd s').
Lemma stmts_spec : forall sw k f any z p pv r l b, pt z p b -> length (e_toks l) < f -> length (e_toks l) < n -> e_toks l = pv :: r ->
  pwp (stmts f rc sw k p pv any) (spost z sw k any p l b) (Ps l b).
Proof.
  induction f as [|f IH]; intros any z p pv r l b P LF LN E; [lia|]. cbn [stmts]. pose proof (A_init z p l b P) as HA. apply p_bnd.
  eapply p_call; [eapply rc_ok; eassumption|exact HA|lia|pp| | |]; cbn beta iota delta [is_good].
  - intros its l1 b1 E1 H1 P1. cbn [app] in H1. apply A_strict in H1; [|exact E1|intros [_ X]; eapply stm_consumes, X]. apply p_bnd, p_toks. cbn beta. destruct (length (e_toks l1) =? S k) eqn:Z.
    + apply Nat.eqb_eq in Z. apply p_ret. exists its. cbn [lx bd]. apply (A_less _ _ _ 1 0); [|lia]. eapply A_fact; [exact H1|]. intros _ [_ X]. left. split; [reflexivity|]. apply M_one; assumption.
    + apply Nat.eqb_neq in Z. apply p_bnd.
      assert (SEP : forall Q : unit -> ps -> Prop, (forall b', A p l b 1 (its ++ [sep z sw (e_toks l) (e_toks l1)]) [] (True /\ stm z (e_toks l) its (e_toks l1)) l1 b' -> pt z p b' -> Q tt (Ps l1 b')) ->
        pwp (if sw && case_on_same_line pv (e_toks l1) then space p else hardline p) Q (Ps l1 b1)).
      { intros Q HQ. eapply p_between; [exact H1|lia|exact P1|]. intros b' H2 P2. apply HQ; [|exact P2]. replace (sep z sw (e_toks l) (e_toks l1)) with (between z (sw && case_on_same_line pv (e_toks l1))); [exact H2|].
        unfold sep, between. rewrite E. cbn [next_is]. unfold case_on_same_line, on_line. destruct sw, (is T_CASE pv); try reflexivity. destruct (e_toks l1); reflexivity. }
      apply SEP. intros b' H2 P2. cbn beta. destruct (e_toks l1) as [|pv' r'] eqn:E'.
      * apply p_bnd. unfold pwp at 1, fail_. cbn [lx bd]. apply p_ret. exists []. cbn [lx bd]. apply (A_less _ _ _ 1 0); [|lia]. eapply A_bad, H2.
      * pose proof (A_len _ _ _ _ _ _ _ _ _ H2) as LL. eapply p_mono; [eapply (IH true z p pv' r' l1 b'); [exact P2|lia|lia|exact E']|].
        intros o [l2 b2] (its' & H3). cbn [lx bd] in *. rewrite <- E' in H2. pose proof (A_trans _ _ _ _ _ _ _ _ _ _ _ _ _ _ _ H2 (le_n p) H3) as H4. exists ((its ++ [sep z sw (e_toks l) (e_toks l1)]) ++ its'). cbn [lx bd]. apply (A_less _ _ _ (1 + 0) 0); [|lia]. eapply A_fact; [exact H4|]. intros _ ((_ & X) & Y). destruct o as [a|]; [|exact Y]. left.
        rewrite <- app_assoc. rewrite <- E' in Z. destruct Y as [(Y1 & Y2)|(Y1 & Y2)]; (split; [exact Y1|]); [eapply M_more|eapply M_rest]; eassumption.
  - intros its l1 b1 E1 H1 P1. apply p_ret. exists its. cbn [lx bd app] in *. apply (A_less _ _ _ 0 0); [|lia]. eapply A_fact; [exact H1|]. intros _ [_ [X _]]. right. auto.
  - intros l1 b1 E1 H1 P1. apply p_ret. exists []. cbn [lx bd]. eapply A_err; eassumption.
Qed.

(** Blocks. *)
Lemma pair_shed : forall a l r, if_pair a T_RBRACE l = Some r -> shed l (firstn (length l - length r) l ++ after r).
Proof.
  intros a l r H. apply if_pair_close in H. destruct H as (_ & pre & k & E & K). rewrite E.
  replace (length (pre ++ k :: r) - length r) with (length (pre ++ [k])) by (rewrite !app_length; cbn [length]; lia). replace (pre ++ k :: r) with ((pre ++ [k]) ++ r) by (rewrite <- app_assoc; reflexivity). rewrite firstn_app, Nat.sub_diag, firstn_all, app_nil_r.
  unfold shed. clear E. generalize false. induction pre as [|x pre IH]; intros z; cbn [app]; constructor; [|apply IH]. unfold stopper. rewrite K, orb_true_r. unfold after. destruct r as [|y r]; [apply less_refl|]. cbn [next_is skipn]. destruct (is T_SEMI y) eqn:Y; [|apply less_refl].
  apply less_drop; [exact Y|left; reflexivity|apply less_refl].
Qed.
Definition no_block (s : st) (l : list token) (its : list item) (s' : st) : Prop := its = [] /\ s' = s /\ if_pair T_LBRACE T_RBRACE (e_toks s) = None.
Definition bpost (z : Z) (sw gnu : bool) (tl : point) (l : st) (b : bs) (r : ret_ * point) (s' : ps) : Prop :=
  post (blk z sw gnu) (no_block l) tl l b (fst r) s' /\ tl <= snd r /\ pt z (snd r) (bd s').
Lemma block_spec : forall f sw gnu zh hd z tl l b, tl <= hd -> pt zh hd b -> pt z tl b -> length (e_toks l) <= f -> length (e_toks l) <= n ->
  pwp (block D iw f rc sw gnu hd tl) (bpost z sw gnu tl l b) (Ps l b).
Proof.
  intros f sw gnu zh hd z tl l b L P PT LF LN. pose proof (A_init z tl l b PT) as HA. unfold block. apply p_bnd, p_toks. cbn beta.
  assert (BAD : forall m acc held F l1 b1, A tl l b m acc held F l1 b1 -> pwp (let! r := fail_ in pret (r, tl)) (bpost z sw gnu tl l b) (Ps l1 b1)).
  { intros m acc held F l1 b1 H. apply p_bnd. eapply p_mono; [eapply p_fail, H|]. intros r [l2 b2] PO. apply p_ret. split; [exact PO|]. split; [apply le_n|]. exact (post_pt _ _ _ _ _ _ _ _ PO PT). }
  destruct (if_pair T_LBRACE T_RBRACE (e_toks l)) as [r|] eqn:PAIR.
  2: { apply p_bnd. eapply p_mono; [eapply (p_none (blk z sw gnu) (no_block l)); [exact HA|intros _; repeat split; exact PAIR]|]. intros r [l2 b2] PO. apply p_ret. split; [exact PO|]. split; [apply le_n|]. exact (post_pt _ _ _ _ _ _ _ _ PO PT). }
  fold (after r). apply p_bnd. unfold pwp at 1, set_toks. cbn [lx bd]. set (l1 := St (e_done l) (firstn (length (e_toks l) - length r) (e_toks l) ++ after r) (e_err l)).
  assert (H1 : A tl l b 0 [] [] True l1 b).
  { pose proof (pair_shed _ _ _ PAIR) as SH. split; [unfold l1; cbn [e_toks]; apply less_length in SH; cbn [plus]; exact SH|]. exists []. split; [apply grewi_refl, PT|]. intros E. repeat split; auto. constructor. }
  apply p_bnd. eapply p_expect; [exact H1| |intros l' _ _ _ H; eapply BAD, H]; cbn beta iota. intros lb l2 E2 K2 H2. cbn [app] in H2.
  assert (T2 : exists lt, e_toks l = lb :: lt /\ e_toks l2 = firstn (length lt - length r) lt ++ after r).
  { destruct (if_pair_close _ _ _ _ PAIR) as (N1 & pre & k & N2 & N3). destruct (e_toks l) as [|x lt] eqn:EL; [discriminate N1|]. assert (LR : length r <= length lt).
    { destruct pre as [|y pre]; cbn [app] in N2; inversion N2; subst; [reflexivity|]. rewrite app_length. cbn [length]. lia. }
    unfold l1 in E2. cbn [e_toks] in E2. cbn [length] in E2. rewrite Nat.sub_succ_l in E2 by exact LR. cbn [firstn app] in E2. inversion E2; subst. exists lt. auto. }
  destruct T2 as (lt & T1 & T2).
  apply p_bnd. eapply p_emit; [exact H2|exact L|pp|]. intros b2 H3 P3. cbn beta. cbn [app] in H3. apply p_bnd.
  set (zi := inside z sw).
  assert (IND : forall Q : point -> ps -> Prop, (forall ind b3, A tl l b 1 [T lb] [] True l2 b3 -> tl <= ind -> pt zi ind b3 -> Q ind (Ps l2 b3)) -> pwp (if sw then pret tl else indented iw tl) Q (Ps l2 b2)).
  { intros Q HQ. unfold zi, inside in HQ. destruct sw; [apply p_ret, HQ; [exact H3|apply le_n|pp]|]. eapply p_indent; [exact H3|lia|pp|]. intros b3 H4 P4. apply HQ; [exact H4|lia|exact P4]. }
  apply IND. clear IND. intros ind b3 H4 LI P4. cbn beta. unfold gap_line. eapply p_marked; [exact H4|exact LI|exact P4|]. intros mk b4 MK H5 P5. apply p_bnd, p_toks. cbn beta.
  destruct (e_toks l2) as [|pv lr] eqn:EL2; [eapply BAD, H5|]. apply p_bnd. pose proof (A_len _ _ _ _ _ _ _ _ _ H5) as LL. rewrite EL2 in LL. cbn [length] in LL.
  eapply p_mono; [eapply (stmts_spec sw (length (after r)) f false zi ind pv lr l2 b4); [exact P5|rewrite EL2; cbn [length]; lia|rewrite EL2; cbn [length]; lia|exact EL2]|].
  intros o [l3 b5] (its & H6). cbn [lx bd] in H6. rewrite EL2 in H6. destruct o as [any|]; [|eapply BAD; eapply (A_trans _ _ _ _ _ _ _ _ _ _ _ _ _ _ _ H5); [|exact H6]; lia].
  (* the line is kept if there was a statement *)
  assert (REM : forall Q : unit -> ps -> Prop, (forall body b6, A tl l b 1 ([T lb] ++ body) [] (exists its, (stms zi sw (length (after r)) (pv :: lr) its (e_toks l3) /\ body = between zi gnu :: its) \/ (heads zi (pv :: lr) its (e_toks l3) /\ body = its)) l3 b6 -> Q tt (Ps l3 b6)) ->
    pwp (if any then pret tt else bld (remove_at ind mk)) Q (Ps l3 b5)).
  { intros Q HQ. destruct any.
    - apply p_ret. apply (HQ (between zi gnu :: its)). pose proof (A_trans _ _ _ _ _ _ _ _ _ _ _ _ _ _ _ H5 LI H6) as X. apply (A_less _ _ _ (1 + 0) 1); [|lia]. cbn [app] in *. eapply A_fact; [exact X|]. intros _ (_ & [(_ & Y)|(Y & _)]); [|discriminate]. exists its. left. auto.
    - eapply p_remove; [exact H4|exact LI|exact MK|exact H6|]. intros b6 X. apply (HQ its). apply (A_less _ _ _ (1 + 0) 1); [|lia]. eapply A_fact; [exact X|]. intros _ (_ & [(Y & _)|(_ & Y)]); [discriminate|]. exists its. right. auto. }
  apply p_bnd. apply REM. clear REM. intros body b6 H7. apply p_bnd. cbn beta. eapply p_between; [exact H7|lia|pp|]. intros b7 H8 P8. apply p_bnd. cbn beta. eapply p_group; [exact H8|lia|pp|]. intros b8 H9 P9. cbn beta.
  eapply p_expect_opt; [exact H9|lia|pp|]. intros rb l4 b9 H10 P10. apply p_bnd, p_toks. cbn beta.
  assert (FIN : forall m l5 b10, A tl l b 1 (((([T lb] ++ body) ++ [between z gnu]) ++ [T rb]) ++ m) [] ((((exists its, (stms zi sw (length (after r)) (pv :: lr) its (e_toks l3) /\ body = between zi gnu :: its) \/ (heads zi (pv :: lr) its (e_toks l3) /\ body = its))) /\ e_toks l3 = rb :: e_toks l4 /\ is T_RBRACE rb = true) /\ trail (e_toks l4) m (e_toks l5)) l5 b10 ->
    pt z (S tl) b10 -> pwp (let! r := good_ in pret (r, S tl)) (bpost z sw gnu tl l b) (Ps l5 b10)).
  { intros m l5 b10 HF PF. apply p_bnd. eapply p_mono with (Q := fun r s' => s' = Ps l5 b10 /\ post (blk z sw gnu) (no_block l) tl l b r s').
    - assert (PG : pwp good_ (post (blk z sw gnu) (no_block l) tl l b) (Ps l5 b10)); [|unfold pwp, good_ in *; split; [reflexivity|exact PG]].
      eapply p_good; [exact HF|]. intros (((its' & Y) & Y2 & Y3) & Y4). rewrite T1. rewrite <- !app_assoc. destruct Y as [(Y & ->)|(Y & ->)].
      + change ([T lb] ++ (between zi gnu :: its') ++ ?x) with ([T lb; between zi gnu] ++ its' ++ x). rewrite Y2 in Y. eapply (B_some S_ tpeek braces declares iw z sw gnu lb lt r (pv :: lr)); eauto. rewrite <- T1. exact PAIR.
      + rewrite Y2 in Y. eapply (B_none S_ tpeek braces declares iw z sw gnu lb lt r (pv :: lr)); eauto. rewrite <- T1. exact PAIR.
    - intros rr s' (-> & PO). apply p_ret. split; [exact PO|]. cbn [snd bd]. split; [lia|exact PF]. }
  apply p_bnd. destruct (next_is T_SEMI (e_toks l4)) eqn:NS.
  - eapply p_call; [eapply semi_spec; exact P10|exact H10|lia|pp| | |].
    + intros m l5 b10 E5 H11 P11. apply (FIN m); [|exact P11]. eapply A_fact; [exact H11|]. intros _ (Y & k & -> & Y2). split; [exact Y|]. right. exists k. auto.
    + intros m l5 b10 E5 H11 P11. apply (FIN m); [|exact P11]. eapply A_fact; [exact H11|]. intros _ (_ & []).
    + intros l5 b10 E5 H11 P11. apply (FIN []); [|exact P11]. eapply A_err; eassumption.
  - apply p_ret. apply (FIN []); [|exact P10]. rewrite app_nil_r. eapply A_fact; [exact H10|]. intros _ Y. split; [exact Y|]. left. auto.
Qed.

Lemma late_brace : forall s, next_is T_LBRACE (e_toks s) = true -> late s = false.
Proof.
  intros s H. unfold late, lates, asm_next. cbn [existsb]. unfold peek_cpp. destruct (e_toks s) as [|k l]; [reflexivity|]. cbn [next_is seq] in *. unfold is in *. apply ttype_eqb_spec in H. rewrite H. reflexivity.
Qed.

(** A keyword, an expression and what follows. *)
Definition gapped {X} (z : Z) (B : list token -> list item -> X -> Prop) (l : list token) (its : list item) (l' : X) : Prop := exists b, its = [gap z l] ++ b /\ B l b l'.
Definition Gbody (z : Z) (sw : bool) (l : list token) (its : list item) (l' : list token) : Prop := if next_is T_LBRACE l then blk z sw false l its l' else stm (deeper z) l its l'.
Definition Nbody (z : Z) (l : list token) (its : list item) (l' : st) : Prop := if next_is T_LBRACE l then its = [] /\ e_toks l' = l /\ if_pair T_LBRACE T_RBRACE l = None else stuck (deeper z) l its l'.
Definition Kw {X} (elseif : bool) (t : ttype) (B : list token -> list item -> X -> Prop) (l : list token) (its : list item) (l' : X) : Prop :=
  exists pre k l1 e r l2 b, l = consumed pre ++ k :: l1 /\ its = pre ++ [T k] ++ (if is T_IDENT k then [] else [SP]) ++ e ++ b /\ is t k = true /\ parens S_ tpeek braces l1 e r l2 /\ B l2 b l' /\
    (if elseif then exists el, is T_ELSE el = true /\ pre = [T el; SP] else pre = []).
Lemma kw_expr_spec : forall f t elseif dowhile z p l b, pt z p b -> length (e_toks l) <= f -> length (e_toks l) <= n ->
  pwp (kw_expr q D iw cw openbsd S_ width tpeek braces f rc t elseif dowhile p)
    (post (Kw elseif t (if dowhile then Gsemi else gapped z (Gbody z (ttype_eqb t T_SWITCH)))) (if dowhile then never else Kw elseif t (gapped z (Nbody z))) p l b) (Ps l b).
Proof.
  intros f t elseif dowhile z p l b P LF LN. pose proof (A_init z p l b P) as HA. unfold kw_expr. apply p_bnd.
  set (G := Kw elseif t (if dowhile then Gsemi else gapped z (Gbody z (ttype_eqb t T_SWITCH)))). set (N := if dowhile then never else Kw elseif t (gapped z (Nbody z))).
  match goal with |- pwp _ (fun pre => pwp (if _ then _ else ?rest) _) _ =>
    assert (REST : forall prefix m l1, (match prefix with Some el => elseif = true /\ is T_ELSE el = true /\ e_toks l = el :: e_toks l1 | None => elseif = false /\ e_toks l = e_toks l1 end) ->
      A p l b m [] (match prefix with Some k => [k] | None => [] end) True l1 b -> pwp ((fun pre : option token => rest) prefix) (post G N p l b) (Ps l1 b)) end.
  { intros prefix m l1 HP H1. cbn beta. apply p_bnd. eapply p_expect; [exact H1| |intros l' _ _ _ H; eapply p_fail, H]; cbn beta iota. intros kw l2 E2 K2 H2. apply p_bnd, p_toks. cbn beta.
    destruct (if_pair T_LPAREN T_RPAREN (e_toks l2)) as [r|] eqn:PAIR; [|eapply p_fail, H2]. apply p_bnd. eapply p_group; [exact H2|lia|pp|]. intros b1 H3 P3. cbn beta. apply p_bnd.
    set (pre := match prefix with Some el => [T el; SP] | None => [] end).
    assert (PRE : forall Q : unit -> ps -> Prop, (forall b2, A p l b (S m) pre [kw] True l2 b2 -> pt z (S p) b2 -> Q tt (Ps l2 b2)) -> pwp (match prefix with Some k => emit D k (S p);! space (S p) | None => pret tt end) Q (Ps l2 b1)).
    { intros Q HQ. unfold pre in HQ. destruct prefix as [el|]; cbn [app] in H3; [|apply p_ret, HQ; assumption]. apply p_bnd. eapply p_emit; [exact H3|lia|pp|]. intros b2 H4 P4. cbn beta. cbn [app] in H4. eapply p_space; [exact H4|lia|pp|]. intros b3 H5 P5. apply HQ; assumption. }
    apply PRE. clear PRE. intros b2 H4 P4. cbn beta. apply p_bnd. eapply p_emit; [exact H4|lia|pp|]. intros b3 H5 P5. cbn beta. apply p_bnd.
    assert (SPC : forall Q : unit -> ps -> Prop, (forall b2, A p l b (S m) ((pre ++ [T kw]) ++ (if is T_IDENT kw then [] else [SP])) [] True l2 b2 -> pt z (S p) b2 -> Q tt (Ps l2 b2)) -> pwp (if is T_IDENT kw then pret tt else space (S p)) Q (Ps l2 b3)).
    { intros Q HQ. destruct (is T_IDENT kw); [apply p_ret, HQ; [rewrite app_nil_r; exact H5|exact P5]|]. eapply p_space; [exact H5|lia|pp|]. exact HQ. }
    apply SPC. clear SPC. intros b4 H6 P6. cbn beta. set (acc := (pre ++ [T kw]) ++ (if is T_IDENT kw then [] else [SP])) in *. apply p_bnd. apply p_bnd. eapply p_expect; [exact H6| |]; cbn beta iota.
    2: { intros l' NX. destruct (if_pair_close _ _ _ _ PAIR) as (NY & _). congruence. }
    intros lp l3 E3 K3 H7. cbn [app] in H7. apply p_bnd.
    assert (LPE : forall Q : unit -> ps -> Prop, (forall b2, A p l b (S (S m)) (acc ++ [T lp]) [] True l3 b2 -> pt z (S p) b2 -> Q tt (Ps l3 b2)) -> pwp (if q_comment q lp then let! optional := bld (alloc [KOptional] (S p)) in emit D lp optional else emit D lp (S p)) Q (Ps l3 b4)).
    { intros Q HQ. destruct (q_comment q lp); [|eapply p_emit; [exact H7|lia|pp|exact HQ]]. apply p_bnd. eapply p_alloc; [exact H7|lia|pp|constructor; [apply gk_simple|constructor]|]. intros b5 H8 P8 K8. cbn beta. eapply p_emit_; [exact H8|lia|pp|]. intros b6 H9 P9 K9. apply HQ; [exact H9|]. apply K9; [lia|]. apply K8; [lia|exact P6]. }
    apply LPE. clear LPE. intros b5 H8 P8. cbn beta. apply p_bnd. eapply p_expr; [exact H8|lia|pp|do 2 eexists; reflexivity| |]; cbn beta.
    2: { intros l' EE H. cbn [fst is_fail]. eapply p_fail, H. }
    intros x e ze l4 b6 H9 E4 LXE XE P9. cbn [fst snd]. replace (is_fail (if isnull x then NONE else GOOD)) with false by (destruct (isnull x); reflexivity).
    eapply p_expect_opt; [exact H9|lia|pp|]. intros rp l5 b7 H10 P10. cbn beta.
    set (a := args S_ _ cw false) in *.
    assert (PARENS : e_toks l4 = rp :: e_toks l5 -> is T_RPAREN rp = true -> reads (a_line a) (S (length r)) a l3 x l4 -> parens S_ tpeek braces (e_toks l2) [T lp; EX (S (length r)) a l3 x l4; T rp] r (e_toks l5)).
    { intros Y1 Y2 Y3. exists lp, a, l3, x, l4, rp. repeat split; auto; apply Y3. }
    assert (KW : forall X (B : list token -> list item -> X -> Prop) bb l6, e_toks l4 = rp :: e_toks l5 -> is T_RPAREN rp = true -> reads (a_line a) (S (length r)) a l3 x l4 -> B (e_toks l5) bb l6 ->
      Kw elseif t B (e_toks l) ((((acc ++ [T lp]) ++ [EX (S (length r)) a l3 x l4]) ++ [T rp]) ++ bb) l6).
    { intros X B bb l6 Y1 Y2 Y3 Y4. exists pre, kw, (e_toks l2), [T lp; EX (S (length r)) a l3 x l4; T rp], r, (e_toks l5), bb. split.
      - unfold pre. destruct prefix; [destruct HP as (_ & _ & HP)|destruct HP as (_ & HP)]; rewrite HP, E2; reflexivity.
      - split; [unfold acc; rewrite <- !app_assoc; reflexivity|]. split; [exact K2|]. split; [apply PARENS; assumption|]. split; [exact Y4|].
        unfold pre. destruct prefix; [destruct HP as (-> & HP & _); eauto|destruct HP as (-> & _); reflexivity]. }
    destruct dowhile.
    - subst G N. cbn beta iota. eapply p_call; [eapply semi_spec; exact P10|exact H10|lia|pp| | |].
      + intros bb l6 b8 E6 H11 P11. eapply post_good; [exact H11|exact E6|]. intros (((_ & Y3) & Y1 & Y2) & Y4). apply KW; auto.
      + intros bb l6 b8 E6 H11 P11. eapply post_none; [exact H11|exact E6|]. intros (_ & []).
      + intros l6 b8 E6 H11 P11. eapply post_bad; eassumption.
    - apply p_bnd, p_toks. cbn beta. destruct (next_is T_LBRACE (e_toks l5)) eqn:NL.
      + apply p_bnd. eapply p_space; [exact H10|lia|pp|]. intros b8 H11 P11. cbn beta. apply p_bnd. pose proof (A_len _ _ _ _ _ _ _ _ _ H11) as LL.
        eapply p_mono; [eapply (block_spec f _ _ ze e z p); [lia|exact P11|pp|lia|lia]|]. intros [rr e'] [l6 b9] (PO & PO2). cbn [fst snd bd] in *. apply p_ret.
        eapply (p_call (loose := loose) (fun s => Ok rr (Ps l6 b9)) _ _ z p); [exact PO|exact H11|lia|pp| | |].
        * intros bb l7 b10 E7 H12 P12. rewrite <- app_assoc in H12. eapply post_good; [exact H12|exact E7|]. intros (((_ & Y3) & Y1 & Y2) & Y4). apply KW; auto. exists bb. unfold gap, Gbody. rewrite NL. split; [reflexivity|exact Y4].
        * intros bb l7 b10 E7 H12 P12. rewrite <- app_assoc in H12. eapply post_none; [exact H12|exact E7|]. intros (((_ & Y3) & Y1 & Y2) & Y4). apply KW; auto. exists bb. unfold gap, Nbody. rewrite NL. destruct Y4 as (-> & -> & Y4). repeat split. exact Y4.
        * intros l7 b10 E7 H12 P12. eapply post_bad; eassumption.
      + apply p_bnd. eapply p_indent; [exact H10|lia|pp|]. intros b8 H11 P11. cbn beta. apply p_bnd. eapply p_hardline; [exact H11|lia|pp|]. intros b9 H12 P12. cbn beta. pose proof (A_len _ _ _ _ _ _ _ _ _ H12) as LL.
        eapply p_call; [eapply rc_ok; [exact P12|lia]|exact H12|lia|pp| | |].
        * intros bb l7 b10 E7 H13 P13. rewrite <- app_assoc in H13. eapply post_good; [exact H13|exact E7|]. intros (((_ & Y3) & Y1 & Y2) & Y4). apply KW; auto. exists bb. unfold gap, Gbody. rewrite NL. split; [reflexivity|exact Y4].
        * intros bb l7 b10 E7 H13 P13. rewrite <- app_assoc in H13. eapply post_none; [exact H13|exact E7|]. intros (((_ & Y3) & Y1 & Y2) & Y4). apply KW; auto. exists bb. unfold gap, Nbody. rewrite NL. split; [reflexivity|exact Y4].
        * intros l7 b10 E7 H13 P13. eapply post_bad; eassumption. }
  destruct elseif.
  - eapply p_expect; [exact HA| |]; cbn beta iota.
    + intros k l1 E1 K1 H1. cbn [isSome negb andb]. apply (REST (Some k) 1 l1); [auto|exact H1].
    + intros l1 _ _ _ H1. cbn [isSome negb andb]. eapply p_fail, H1.
  - apply p_ret. cbn [andb]. apply (REST None 0 l); [auto|exact HA].
Qed.

(** [t]: the test of the alternative. *)
Definition idle (t : st -> bool) (z : Z) (s : st) (l : list token) (its : list item) (s' : st) : Prop := (its = [] /\ s' = s /\ t s = false) \/ stuck z l its s'.
Definition pst (t : st -> bool) (z : Z) (p : point) (l : st) (b : bs) : ret_ -> ps -> Prop := post (stm z) (idle t z l) p l b.
Definition untested : st -> bool := fun _ => false.
Definition untouched (s : st) (l : list token) (its : list item) (s' : st) : Prop := its = [] /\ s' = s.
Definition pse (z : Z) (p : point) (l : st) (b : bs) : ret_ -> ps -> Prop := post (stm z) (untouched l) p l b.
Lemma braces_of : forall k l1 e r l2, parens S_ tpeek braces l1 e r l2 -> is T_IF k = true -> has_if_braces (k :: l1) = next_is T_LBRACE r.
Proof. intros k l1 e r l2 (lp & a & s & x & s' & rp & _ & _ & E & _) K. unfold has_if_braces. cbn [seq]. rewrite K, E. reflexivity. Qed.
Lemma is_if_ident : forall k t, is t k = true -> ttype_eqb t T_IDENT = false -> is T_IDENT k = false.
Proof. intros k t K E. unfold is in *. eapply ttype_eqb_spec in K. rewrite K. exact E. Qed.
Lemma body_stm : forall z l b l', Gbody z false l b l' -> stm (body z l) l b l'.
Proof. intros z l b l' H. unfold Gbody, SynProofs.body in *. destruct (next_is T_LBRACE l); [apply S_block|]; exact H. Qed.
Lemma kw_if : forall z el l its l', Kw el T_IF (gapped z (Gbody z (ttype_eqb T_IF T_SWITCH))) l its l' -> exists pre k l1 e r l2 b, l = consumed pre ++ k :: l1 /\ is T_IF k = true /\ parens S_ tpeek braces l1 e r l2 /\ stm (body z l2) l2 b l' /\
  its = pre ++ [T k; SP] ++ e ++ [gap z l2] ++ b /\ (if el then exists e0, is T_ELSE e0 = true /\ pre = [T e0; SP] else pre = []).
Proof.
  intros z el l its l' (pre & k & l1 & e & r & l2 & b & E1 & E2 & K & PA & (b' & -> & B) & PR). exists pre, k, l1, e, r, l2, b'. rewrite (is_if_ident k T_IF K eq_refl) in E2. repeat split; auto. apply body_stm, B.
Qed.
Lemma kw_strict : forall X el t (B : list token -> list item -> X -> Prop) l its l', Kw el t B l its l' -> consumed its <> [].
Proof. intros X el t B l its l' (pre & k & l1 & e & r & l2 & b & _ & E2 & _). rewrite E2, !consumed_app. apply cons_app. right. cbn. discriminate. Qed.

Lemma elses_spec : forall f z c p l b, pt z p b -> length (e_toks l) < f -> length (e_toks l) <= n ->
  pwp (SynModel.elses q D iw cw openbsd S_ width tpeek braces f rc c p) (post (elses z c) never p l b) (Ps l b).
Proof.
  induction f as [|f IH]; intros z c p l b P LF LN; [lia|]. pose proof (A_init z p l b P) as HA. cbn [SynModel.elses]. apply p_bnd, p_toks. cbn beta. destruct (next_is T_ELSE (e_toks l)) eqn:NE; [|eapply p_good; [exact HA|]; intros _; apply E_end, NE].
  apply p_bnd. eapply p_between; [exact HA|lia|pp|]. intros b1 H1 P1. cbn beta. cbn [app] in H1. destruct (peek_else_if (e_toks l)) eqn:PE.
  - apply p_bnd. eapply p_call; [eapply kw_expr_spec; [exact P1|lia|lia]|exact H1|lia|pp| | |]; cbn beta iota delta [is_good].
    + intros its l1 b2 E1 H2 P2. pose proof (A_strict _ _ _ _ _ _ _ _ H2 E1 (fun X => ltac:(rewrite consumed_app; apply cons_app; right; exact (kw_strict _ _ _ _ _ _ _ (proj2 X))))) as H2'. pose proof ((A_len _ _ _ _ _ _ _ _ _ H2')) as LL.
      eapply p_call; [apply IH; [exact P2|lia|lia]|exact H2|lia|pp| | |].
      * intros its' l2 b3 E2 H3 P3. eapply post_good; [exact H3|exact E2|]. intros ((_ & Y1) & Y2). apply kw_if in Y1. destruct Y1 as (pre & k & l3 & e & r & l4 & bb & F1 & F2 & F3 & F4 & -> & e0 & F5 & ->). cbn [consumed flat_map ins app] in F1. rewrite F1 in *.
        cbn [skipn] in Y2. rewrite (braces_of _ _ _ _ _ F3 F2) in Y2. cbn [peek_else_if] in PE. apply andb_true_iff in PE. destruct PE as [_ PE]. apply Nat.eqb_eq in PE.
        match goal with |- SynProofs.elses _ _ _ _ _ _ _ _ ?x _ => replace x with ([between z c; T e0; SP; T k; SP] ++ e ++ [gap z l4] ++ bb ++ its') by (cbn [app]; rewrite <- !app_assoc; reflexivity) end. eapply E_if; eassumption.
      * intros its' l2 b3 E2 H3 P3. eapply post_none; [exact H3|exact E2|]. intros (_ & []).
      * intros l2 b3 E2 H3 P3. eapply post_bad; eassumption.
    + intros its l1 b2 E1 H2 P2. eapply p_fail, H2.
    + intros l1 b2 E1 H2 P2. eapply p_fail, H2.
  - apply p_bnd. eapply p_expect; [exact H1| |intros l' _ _ _ H; eapply p_fail, H]; cbn beta iota. intros k l1 E1 K1 H2. cbn [app] in H2. apply p_bnd. eapply p_emit; [exact H2|lia|pp|]. intros b2 H3 P3. cbn beta. apply p_bnd. eapply p_space; [exact H3|lia|pp|]. intros b3 H4 P4. cbn beta. cbn [app] in H4. apply p_bnd, p_toks. cbn beta.
    pose proof ((A_len _ _ _ _ _ _ _ _ _ H4)) as LL. destruct (next_is T_LBRACE (e_toks l1)) eqn:NL.
    + apply p_bnd. eapply p_call; [eapply rc_ok; [exact P4|lia]|exact H4|lia|pp| | |]; cbn beta iota delta [is_fail].
      * intros its l2 b4 E2 H5 P5. eapply p_good; [exact H5|]. intros (_ & Y). rewrite E1. exact (E_block S_ tpeek braces declares iw z c k _ _ _ K1 NL Y).
      * intros its l2 b4 E2 H5 P5. eapply p_good; [exact H5|]. intros (_ & Y & _). rewrite E1. exact (E_heads S_ tpeek braces declares iw z c k _ _ _ K1 NL Y).
      * intros l2 b4 E2 H5 P5. eapply p_fail, H5.
    + apply p_bnd. eapply p_indent; [exact H4|lia|pp|]. intros b4 H5 P5. cbn beta. apply p_bnd. eapply p_hardline; [exact H5|lia|pp|]. intros b5 H6 P6. cbn beta. cbn [app] in H6. apply p_bnd.
      eapply p_call; [eapply rc_ok; [exact P6|lia]|exact H6|lia|pp| | |]; cbn beta iota delta [is_good].
      * intros its l2 b6 E2 H7 P7. eapply p_good; [exact H7|]. intros (_ & Y). rewrite E1 in *. refine (E_stm S_ tpeek braces declares iw z c k _ _ _ K1 NL _ Y). intros NI. cbn [peek_else_if] in PE. destruct (e_toks l1) as [|i r]; [reflexivity|]. cbn [next_is on_line] in *. rewrite K1, NI in PE. exact PE.
      * intros its l2 b6 E2 H7 P7. eapply p_fail, H7.
      * intros l2 b6 E2 H7 P7. eapply p_fail, H7.
Qed.
Lemma stmt_if_spec : forall z f p l b, pt z p b -> length (e_toks l) <= f -> length (e_toks l) <= n ->
  pwp (stmt_if q D iw cw openbsd S_ width tpeek braces f rc p) (pse z p l b) (Ps l b).
Proof.
  intros z f p l b P LF LN. pose proof (A_init z p l b P) as HA. unfold stmt_if. apply p_bnd, p_toks. cbn beta. destruct (next_is T_IF (e_toks l)) eqn:NE; [|eapply p_none; [exact HA|]; intros _; split; reflexivity].
  apply p_bnd. eapply p_call; [eapply kw_expr_spec; [exact P|lia|lia]|exact HA|lia|pp| | |]; cbn beta iota delta [is_good].
  - intros its l1 b2 E1 H2 P2. cbn [app] in H2. pose proof (A_strict _ _ _ _ _ _ _ _ H2 E1 (fun X => kw_strict _ _ _ _ _ _ _ (proj2 X))) as H2'. pose proof ((A_len _ _ _ _ _ _ _ _ _ H2')) as LL.
    eapply p_call; [eapply elses_spec; [exact P2|lia|lia]|exact H2|lia|pp| | |].
    + intros its' l2 b3 E2 H3 P3. eapply post_good; [exact H3|exact E2|]. intros ((_ & Y1) & Y2). apply kw_if in Y1. destruct Y1 as (pre & k & l3 & e & r & l4 & bb & F1 & F2 & F3 & F4 & -> & ->). cbn [consumed flat_map ins app] in F1. rewrite F1 in *.
      rewrite (braces_of _ _ _ _ _ F3 F2) in Y2. cbn [app]. match goal with |- SynProofs.stm _ _ _ _ _ _ _ ?x _ => replace x with ([T k; SP] ++ e ++ [gap z l4] ++ bb ++ its') by (cbn [app]; rewrite <- !app_assoc; reflexivity) end. eapply S_if; eassumption.
    + intros its' l2 b3 E2 H3 P3. eapply post_none; [exact H3|exact E2|]. intros (_ & []).
    + intros l2 b3 E2 H3 P3. eapply post_bad; eassumption.
  - intros its l1 b2 E1 H2 P2. eapply p_fail, H2.
  - intros l1 b2 E1 H2 P2. eapply p_fail, H2.
Qed.

(** while, switch, and loops behind cpp. *)
Lemma stmt_head_spec : forall f t z p l b, pt z p b -> length (e_toks l) <= f -> length (e_toks l) <= n -> In t [T_WHILE; T_SWITCH; T_IDENT] ->
  pwp (kw_expr q D iw cw openbsd S_ width tpeek braces f rc t false false p) (post (stm z) (stuck z) p l b) (Ps l b).
Proof.
  intros f t z p l b P LF LN HT. pose proof (A_init z p l b P) as HA.
  assert (KW : forall k, is t k = true -> is T_WHILE k || is T_SWITCH k || is T_IDENT k = true) by (intros k K; cbn [In] in HT; destruct HT as [<-|[<-|[<-|[]]]]; rewrite K, ?orb_true_r; reflexivity).
  assert (SW : forall k l1, is t k = true -> next_is T_SWITCH (k :: l1) = ttype_eqb t T_SWITCH) by (intros k l1 K; cbn [next_is]; unfold is in *; eapply ttype_eqb_spec in K; rewrite K; reflexivity).
  eapply p_call; [eapply kw_expr_spec; [exact P|lia|lia]|exact HA|lia|pp| | |]; cbn beta iota.
  - intros its l1 b2 E1 H2 P2. eapply post_good; [exact H2|exact E1|]. intros (_ & pre & k & l3 & e & r & l4 & bb & F1 & -> & F3 & F4 & (bb' & -> & F5) & ->). cbn [consumed flat_map ins app] in *. rewrite F1. clear F1.
    match goal with |- SynProofs.stm _ _ _ _ _ _ _ ?x _ => replace x with (([T k] ++ (if is T_IDENT k then [] else [SP]) ++ e ++ [gap z l4]) ++ bb') by (cbn [app]; rewrite <- !app_assoc; reflexivity) end. pose proof (H_kw S_ tpeek braces declares iw z k l3 e r l4 (KW k F3) F4) as HK.
    unfold Gbody in F5. unfold SynProofs.body in HK. destruct (next_is T_LBRACE l4) eqn:NL.
    + destruct (ttype_eqb t T_SWITCH) eqn:TS; [eapply S_switch; [apply SW, F3|exact HK|exact F5]|]. eapply S_head; [exact HK| |apply S_block, F5]. unfold plain. rewrite SW by exact F3. discriminate.
    + eapply S_head; [exact HK| |exact F5]. intros _. unfold if_pair. rewrite NL. reflexivity.
  - intros its l1 b2 E1 H2 P2. eapply post_none; [exact H2|exact E1|]. intros (_ & pre & k & l3 & e & r & l4 & bb & F1 & -> & F3 & F4 & (bb' & -> & F5) & ->). cbn [consumed flat_map ins app] in *. rewrite F1. clear F1.
    match goal with |- stuck _ _ ?x _ => replace x with (([T k] ++ (if is T_IDENT k then [] else [SP]) ++ e ++ [gap z l4]) ++ bb') by (cbn [app]; rewrite <- !app_assoc; reflexivity) end. pose proof (H_kw S_ tpeek braces declares iw z k l3 e r l4 (KW k F3) F4) as HK.
    unfold Nbody in F5. destruct (next_is T_LBRACE l4) eqn:NL.
    + destruct F5 as (-> & F6 & F5). split; [|apply late_brace; rewrite F6; exact NL]. eapply H_cons; [exact HK|intros _; exact F5|rewrite F6; constructor].
    + destruct F5 as (F5 & F6). split; [|exact F6]. unfold SynProofs.body in HK. rewrite NL in HK. eapply H_cons; [exact HK| |exact F5]. intros _. unfold if_pair. rewrite NL. reflexivity.
  - intros l1 b2 E1 H2 P2. eapply post_bad; eassumption.
Qed.
Lemma none_spec : forall t z p l b, pt z p b -> t l = false -> pwp none_ (pst t z p l b) (Ps l b).
Proof. intros t z p l b P F. eapply p_none; [exact (A_init z p l b P)|]. intros _. left. auto. Qed.
Lemma none_spece : forall z p l b, pt z p b -> pwp none_ (pse z p l b) (Ps l b).
Proof. intros z p l b P. eapply p_none; [exact (A_init z p l b P)|]. intros _. split; reflexivity. Qed.
Lemma to_pst : forall t z c p l b, pwp c (post (stm z) (stuck z) p l b) (Ps l b) -> pwp c (pst t z p l b) (Ps l b).
Proof.
  intros t z c p l b H. eapply p_mono; [exact H|]. intros [] s' PO; try exact PO. destruct PO as (E & its & PO). split; [exact E|]. exists its. eapply A_fact; [exact PO|]. intros _ X. right. exact X.
Qed.
Lemma stmt_kw_spec : forall f t z p l b, pt z p b -> length (e_toks l) <= f -> length (e_toks l) <= n -> In t [T_WHILE; T_SWITCH; T_IDENT] ->
  pwp (stmt_kw q D iw cw openbsd S_ width tpeek braces t f rc p) (pst (fun s => next_is t (e_toks s)) z p l b) (Ps l b).
Proof. intros. unfold stmt_kw. apply p_bnd, p_toks. destruct (next_is t (e_toks l)) eqn:E; [apply to_pst, stmt_head_spec|apply none_spec]; assumption. Qed.
Lemma stmt_cpp_spec : forall f z p l b, pt z p b -> length (e_toks l) <= f -> length (e_toks l) <= n ->
  pwp (stmt_cpp q D iw cw openbsd S_ width tpeek braces f rc p) (pst (fun s => peek_cpp (e_toks s)) z p l b) (Ps l b).
Proof. intros. unfold stmt_cpp. apply p_bnd, p_toks. destruct (peek_cpp (e_toks l)) eqn:E; [apply to_pst, stmt_head_spec; try assumption; cbn [In]; tauto|apply none_spec; assumption]. Qed.

Lemma is_not : forall t t' k, is t k = true -> ttype_eqb t t' = false -> is t' k = false.
Proof. intros t t' k K E. unfold is in *. eapply ttype_eqb_spec in K. rewrite K. exact E. Qed.
Lemma plain_not : forall t k l l', is t k = true -> ttype_eqb t T_SWITCH = false -> plain (k :: l) l'.
Proof. intros t k l l' K E H. cbn [next_is] in H. rewrite (is_not _ _ _ K E) in H. discriminate. Qed.

(** Declarations. *)
Lemma stmt_decl_spec : forall c z p l b, pt z p b -> pwp (other (WDecl c) p) (pse z p l b) (Ps l b).
Proof.
  intros c z p l b P. eapply p_call; [eapply other_spec, P|exact (A_init z p l b P)|lia|pp| | |].
  - intros its l1 b1 E1 H1 P1. eapply post_good; [exact H1|exact E1|]. intros (_ & Y). eapply S_decl, Y.
  - intros its l1 b1 E1 H1 P1. eapply post_none; [exact H1|exact E1|]. intros (_ & -> & -> & _). split; reflexivity.
  - intros l1 b1 E1 H1 P1. eapply post_bad; eassumption.
Qed.
Lemma stmt_asm_spec : forall z p l b, pt z p b -> pwp (other WAsm p) (pst asm_next z p l b) (Ps l b).
Proof.
  intros z p l b P. eapply p_call; [eapply other_spec, P|exact (A_init z p l b P)|lia|pp| | |].
  - intros its l1 b1 E1 H1 P1. eapply post_good; [exact H1|exact E1|]. intros (_ & Y). eapply S_decl, Y.
  - intros its l1 b1 E1 H1 P1. eapply post_none; [exact H1|exact E1|]. intros (_ & -> & -> & O). left. split; [reflexivity|]. split; [reflexivity|]. exact (O eq_refl).
  - intros l1 b1 E1 H1 P1. eapply post_bad; eassumption.
Qed.

(** Simple statements. *)
Lemma stmt_goto_spec : forall z p l b, pt z p b -> pwp (stmt_goto D p) (pse z p l b) (Ps l b).
Proof.
  intros z p l b P. pose proof (A_init z p l b P) as HA. unfold stmt_goto. apply p_bnd. eapply p_lif; [exact HA| |intros _; apply none_spece, P]; cbn beta iota. intros k l1 E1 K1 H1. cbn [app] in H1. apply p_bnd. eapply p_group; [exact H1|lia|pp|]. intros b1 H2 P2. cbn beta.
  apply p_bnd. eapply p_emit; [exact H2|lia|pp|]. intros b2 H3 P3. cbn beta. apply p_bnd. eapply p_line; [exact H3|lia|pp|]. intros b3 H4 P4. cbn beta. cbn [app] in H4. eapply p_expect_opt; [exact H4|lia|pp|]. intros i l2 b4 H5 P5. cbn beta.
  eapply p_call; [eapply semi_spec, P5|exact H5|lia|pp| | |].
  - intros its l3 b5 E3 H6 P6. eapply post_good; [exact H6|exact E3|]. intros ((_ & Y1 & Y2) & sm & -> & Y3). rewrite E1, Y1. cbn [app]. apply S_goto; assumption.
  - intros its l3 b5 E3 H6 P6. eapply post_none; [exact H6|exact E3|]. intros (_ & []).
  - intros l3 b5 E3 H6 P6. eapply post_bad; eassumption.
Qed.
Lemma stmt_jump_spec : forall z t p l b, pt z p b -> t = T_BREAK \/ t = T_CONTINUE -> pwp (stmt_jump D t p) (post (stm z) (fun _ its s' => its = [] /\ s' = l /\ next_is t (e_toks l) = false) p l b) (Ps l b).
Proof.
  intros z t p l b P HT. pose proof (A_init z p l b P) as HA. unfold stmt_jump. apply p_bnd, p_toks. cbn beta. destruct (next_is t (e_toks l)) eqn:NX; [|eapply p_none; [exact HA|auto]].
  eapply p_expect_opt; [exact HA|lia|pp|]. intros k l1 b1 H1 P1. cbn [app] in H1.
  eapply p_call; [eapply semi_spec, P1|exact H1|lia|pp| | |].
  - intros its l3 b5 E3 H6 P6. eapply post_good; [exact H6|exact E3|]. intros ((_ & Y1 & Y2) & sm & -> & Y3). rewrite Y1. cbn [app]. apply S_jump; [|exact Y3]. destruct HT as [HT|HT]; subst t; rewrite Y2; [reflexivity|apply orb_true_r].
  - intros its l3 b5 E3 H6 P6. eapply post_none; [exact H6|exact E3|]. intros (_ & []).
  - intros l3 b5 E3 H6 P6. eapply post_bad; eassumption.
Qed.
Lemma stmt_semi_spec : forall z p l b, pt z p b -> pwp (stmt_semi D p) (pst (fun s => next_is T_SEMI (e_toks s)) z p l b) (Ps l b).
Proof.
  intros z p l b P. pose proof (A_init z p l b P) as HA. unfold stmt_semi. apply p_bnd, p_toks. cbn beta. destruct (next_is T_SEMI (e_toks l)) eqn:NX; [|apply none_spec; assumption].
  eapply p_call; [eapply semi_spec, P|exact HA|lia|pp| | |].
  - intros its l3 b5 E3 H6 P6. eapply post_good; [exact H6|exact E3|]. intros (_ & sm & -> & Y3). cbn [app]. apply S_semi, Y3.
  - intros its l3 b5 E3 H6 P6. eapply post_none; [exact H6|exact E3|]. intros (_ & []).
  - intros l3 b5 E3 H6 P6. eapply post_bad; eassumption.
Qed.
Lemma stmt_return_spec : forall z p l b, pt z p b -> pwp (stmt_return q D cw S_ tpeek braces p) (pse z p l b) (Ps l b).
Proof.
  intros z p l b P. pose proof (A_init z p l b P) as HA. unfold stmt_return. apply p_bnd. eapply p_lif; [exact HA| |intros _; apply none_spece, P]; cbn beta iota. intros k l1 E1 K1 H1. cbn [app] in H1. apply p_bnd. eapply p_group; [exact H1|lia|pp|]. intros b1 H2 P2. cbn beta.
  apply p_bnd. eapply p_emit; [exact H2|lia|pp|]. intros b2 H3 P3. cbn beta. cbn [app] in H3. apply p_bnd, p_toks. cbn beta. destruct (next_is T_SEMI (e_toks l1)) eqn:NX.
  - eapply p_call; [eapply semi_spec, P3|exact H3|lia|pp| | |].
    + intros its l3 b5 E3 H6 P6. eapply post_good; [exact H6|exact E3|]. intros (_ & sm & -> & Y3). rewrite E1. cbn [app]. apply S_return; assumption.
    + intros its l3 b5 E3 H6 P6. eapply post_none; [exact H6|exact E3|]. intros (_ & []).
    + intros l3 b5 E3 H6 P6. eapply post_bad; eassumption.
  - apply p_bnd. eapply p_space; [exact H3|lia|pp|]. intros b3 H4 P4. cbn beta. apply p_bnd. eapply p_expr; [exact H4|lia|pp|do 2 eexists; reflexivity| |]; cbn beta.
    2: { intros l' EE H. cbn [fst is_good]. eapply p_fail, H. }
    intros x e ze l2 b4 H5 E2 LXE XE P5. cbn [fst snd]. destruct (isnull x) eqn:N; cbn [is_good]; [eapply p_fail, H5|].
    eapply p_call; [eapply semi_spec; pp|exact H5|lia|pp| | |].
    + intros its l3 b5 E3 H6 P6. eapply post_good; [exact H6|exact E3|]. intros ((_ & Y1) & sm & -> & Y3). rewrite E1. cbn [app]. apply S_return_expr; try assumption. intros ->. discriminate N.
    + intros its l3 b5 E3 H6 P6. eapply post_none; [exact H6|exact E3|]. intros (_ & []).
    + intros l3 b5 E3 H6 P6. eapply post_bad; eassumption.
Qed.
Lemma stmt_expr_spec : forall z p l b, pt z p b -> pwp (stmt_expr q D cw S_ tpeek braces decl_type expr_peek loop_stmt p) (pse z p l b) (Ps l b).
Proof.
  intros z p l b P. pose proof (A_init z p l b P) as HA. unfold stmt_expr. unfold pwp. cbn [lx]. destruct (if decl_type (e_done l) (e_toks l) then None else expr_peek (e_done l) (e_toks l)) as [m|]; [|apply none_spece, P].
  destruct (_ && _); [|apply none_spece, P]. match goal with |- match ?m ?s with _ => _ end => change (pwp m (pse z p l b) s) end. apply p_bnd. eapply p_expr; [exact HA|lia|pp|do 2 eexists; reflexivity| |]; cbn beta.
  2: { intros l' EE H. cbn [fst is_good]. eapply p_fail, H. }
  intros x e ze l2 b4 H5 E2 LXE XE P5. cbn [fst snd]. destruct (isnull x) eqn:N; cbn [is_good]; [eapply p_fail, H5|].
  eapply p_call; [eapply semi_spec; pp|exact H5|lia|pp| | |].
  - intros its l3 b5 E3 H6 P6. eapply post_good; [exact H6|exact E3|]. intros ((_ & Y1) & sm & -> & Y3). cbn [app]. apply S_expr; try assumption. intros ->. discriminate N.
  - intros its l3 b5 E3 H6 P6. eapply post_none; [exact H6|exact E3|]. intros (_ & []).
  - intros l3 b5 E3 H6 P6. eapply post_bad; eassumption.
Qed.
Lemma seq_label : forall l, isSome (seq [T_IDENT; T_COLON] l) = true -> exists k c r, l = k :: c :: r /\ is T_IDENT k = true /\ is T_COLON c = true.
Proof.
  intros l H. destruct l as [|k [|c r]]; cbn [seq] in H; [discriminate|destruct (is T_IDENT k); discriminate|]. destruct (is T_IDENT k) eqn:K; [|discriminate]. destruct (is T_COLON c) eqn:C; [|discriminate]. eauto 6.
Qed.
Lemma stmt_label_spec : forall z f p l b, pt z p b -> length (e_toks l) <= n -> pwp (stmt_label D labelled f rc p) (pst (fun s => isSome (seq [T_IDENT; T_COLON] (e_toks s))) z p l b) (Ps l b).
Proof.
  intros z f p l b P LN. pose proof (A_init z p l b P) as HA. unfold stmt_label. apply p_bnd, p_toks. cbn beta. destruct (isSome (seq [T_IDENT; T_COLON] (e_toks l))) eqn:SL; [|apply none_spec; assumption]. apply seq_label in SL. destruct SL as (k0 & c0 & r & EL & K0 & C0).
  apply p_bnd. eapply p_alloc; [exact HA|lia|pp|constructor; [apply gk_simple|constructor]|]. intros b1 H1 P1 _. cbn beta. apply p_bnd. eapply p_expect; [exact H1| |]; cbn beta.
  2: { rewrite EL. cbn [next_is]. intros l' X. congruence. }
  intros k l1 E1 K1 H2. cbn [app] in H2. apply p_bnd. eapply p_label; [exact H2|lia|pp|]. intros b2 H3 P3. cbn beta. cbn [app] in H3. apply p_bnd. eapply p_expect; [exact H3| |]; cbn beta iota.
  2: { intros l' X. rewrite EL in E1. injection E1. intros X2 X1. rewrite <- X2 in X. cbn [next_is] in X. congruence. }
  intros c l2 E2 K2 H4. apply p_bnd. cbn [app] in H4. eapply p_emit; [exact H4|lia|pp|]. intros b3 H5 P5. cbn beta. cbn [app] in H5. apply p_bnd, p_toks. cbn beta. change (match e_toks l2 with [] => false | nx :: _ => lno c =? lno nx end) with (on_line c (e_toks l2)). pose proof (A_len _ _ _ _ _ _ _ _ _ H5) as LL. rewrite E1, E2 in *. destruct (on_line c (e_toks l2)) eqn:OL.
  - apply p_bnd. eapply p_alloc; [exact H5|lia|pp|constructor; [apply gk_indent|constructor]|]. intros b4 H6 P6 _. cbn beta. change (fold_left inner [KIndent INDENT_FORCE] z) with z in P6.
    pose proof (H_label S_ tpeek braces declares iw z k c (e_toks l2) K1 K2 OL) as HL. pose proof (plain_not _ k (c :: e_toks l2) (e_toks l2) K1 eq_refl) as PN.
    eapply p_call; [eapply rc_ok; [exact P6|cbn [length] in *; lia]|exact H6|lia|pp| | |].
    + intros its l3 b5 E3 H7 P7. eapply post_good; [exact H7|exact E3|]. intros (_ & Y). rewrite E1. eapply S_head; eassumption.
    + intros its l3 b5 E3 H7 P7. eapply post_none; [exact H7|exact E3|]. intros (_ & Y & YL). right. split; [|exact YL]. rewrite E1. eapply H_cons; eassumption.
    + intros l3 b5 E3 H7 P7. eapply post_bad; eassumption.
  - eapply p_good; [exact H5|]. intros _. rewrite E1. apply S_label; assumption.
Qed.

Lemma stmt_dowhile_spec : forall z f p l b, pt z p b -> length (e_toks l) <= f -> length (e_toks l) <= n ->
  pwp (stmt_dowhile q D iw cw openbsd S_ width tpeek braces f rc p) (pst (fun s => next_is T_DO (e_toks s)) z p l b) (Ps l b).
Proof.
  intros z f p l b P LF LN. pose proof (A_init z p l b P) as HA. unfold stmt_dowhile. apply p_bnd. eapply p_lif; [exact HA| |intros NX; apply none_spec; assumption]; cbn beta iota. intros k l1 E1 K1 H1. cbn [app] in H1.
  apply p_bnd. eapply p_emit; [exact H1|lia|pp|]. intros b1 H2 P2. cbn beta. cbn [app] in H2. apply p_bnd, p_toks. cbn beta. apply p_bnd.
  match goal with |- pwp _ (fun e => pwp (@?cont e) ?R) _ =>
    assert (CONT : forall e body l2 b2, A p l b 1 body [] (exists bb, (blk z false false (e_toks l1) bb (e_toks l2) /\ body = [T k; SP] ++ bb ++ [SP]) \/ (next_is T_LBRACE (e_toks l1) = false /\ stm (deeper z) (e_toks l1) bb (e_toks l2) /\ body = [T k; HL (deeper z)] ++ bb ++ [HL z])) l2 b2 -> p <= e -> pt z e b2 ->
      pwp (cont (GOOD, e)) R (Ps l2 b2));
    [|assert (BAD : forall m acc held F l2 b2 r, A p l b m acc held F l2 b2 -> is_good (fst r) = false -> pwp (cont r) R (Ps l2 b2)) by (intros m acc held F l2 b2 r HB IG; cbn beta; rewrite IG; eapply p_fail, HB)] end.
  { intros e body l2 b2 H3 LE P3. cbn [fst snd is_good]. apply p_bnd, p_toks. cbn beta. destruct (next_is T_WHILE (e_toks l2)); [|eapply p_fail, H3]. pose proof (A_len _ _ _ _ _ _ _ _ _ H3) as LL. eapply p_call; [eapply kw_expr_spec; [exact P3|lia|lia]|exact H3|lia|exact P3| | |]; cbn beta iota.
    - intros its l3 b3 E3 H4 P4. eapply post_good; [exact H4|exact E3|]. intros ((bb & Y) & pre & w & l4 & ee & r & l5 & sm0 & F1 & -> & F3 & F4 & (sm & -> & F5) & ->). cbn [consumed flat_map app] in F1. rewrite E1.
      assert (W : whiles S_ tpeek braces (e_toks l2) ([T w; SP] ++ ee ++ [T sm]) (e_toks l3)) by (exists w, l4, ee, r, l5, sm; repeat split; auto). rewrite (is_not _ T_IDENT _ F3 eq_refl). cbn [app].
      destruct Y as [(Y1 & ->)|(Y0 & Y1 & ->)]; cbn [app]; rewrite <- app_assoc; cbn [app]; [eapply (S_do_block S_ tpeek braces declares iw z k _ bb)|eapply (S_do S_ tpeek braces declares iw z k _ bb)]; eassumption.
    - intros its l3 b3 E3 H4 P4. eapply post_none; [exact H4|exact E3|]. intros (_ & []).
    - intros l3 b3 E3 H4 P4. eapply post_bad; eassumption. }
  pose proof (A_len _ _ _ _ _ _ _ _ _ H2) as LL.
  destruct (next_is T_LBRACE (e_toks l1)) eqn:NL.
  - apply p_bnd. eapply p_space; [exact H2|lia|pp|]. intros b2 H3 P3. cbn beta. cbn [app] in H3. apply p_bnd. eapply p_mono; [eapply block_spec; [reflexivity|exact P3|exact P3|lia|lia]|]. intros [rr e] [l2 b3] (PO & PO2 & PO3). cbn [fst snd bd] in *.
    destruct rr; destruct PO as (EE & PO); cbn [is_good]; [|destruct PO as (? & PO)|]; [|apply p_bnd; unfold fail_, pwp at 1; cbn [lx bd]; apply p_ret; eapply (BAD _ [] [] False); [|reflexivity]; eapply A_bad; exact (A_trans _ _ _ _ _ _ _ _ _ _ _ _ _ _ _ H3 (le_n p) PO)..].
    destruct PO as (its & PO). pose proof (A_trans _ _ _ _ _ _ _ _ _ _ _ _ _ _ _ H3 (le_n p) PO) as H4. apply p_bnd. eapply p_space; [exact H4|exact PO2|exact PO3|]. intros b4 H5 P5. cbn beta. apply p_ret. eapply CONT; [|exact PO2|exact P5]. rewrite <- app_assoc in H5. cbn [lx app plus] in H5. cbn [app]. eapply A_fact; [exact H5|]. intros _ (_ & Y). exists its. left. auto.
  - apply p_bnd. eapply p_indent; [exact H2|lia|pp|]. intros b2 H3 P3. cbn beta. apply p_bnd. eapply p_hardline; [exact H3|lia|pp|]. intros b3 H4 P4. cbn beta. cbn [app] in H4. apply p_bnd.
    eapply p_call; [eapply rc_ok; [exact P4|lia]|exact H4|lia|pp| | |]; cbn beta.
    + intros its l2 b4 E2 H5 P5. apply p_bnd. eapply p_hardline; [exact H5|lia|pp|]. intros b5 H6 P6. cbn beta. apply p_ret. eapply CONT; [|apply le_n|exact P6]. rewrite <- app_assoc in H6. cbn [app] in *. eapply A_fact; [exact H6|]. intros _ (_ & Y). exists its. right. auto.
    + intros its l2 b4 E2 H5 P5. apply p_bnd. eapply p_hardline; [exact H5|lia|pp|]. intros b5 H6 P6. cbn beta. apply p_ret. eapply BAD; [exact H6|reflexivity].
    + intros l2 b4 E2 H5 P5. apply p_bnd. eapply p_hardline; [exact H5|lia|pp|]. intros b5 H6 P6. cbn beta. apply p_ret. eapply BAD; [exact H6|reflexivity].
Qed.

Lemma stmt_for_spec : forall z f p l b, pt z p b -> length (e_toks l) <= n ->
  pwp (stmt_for q D iw cw S_ width tpeek braces other f rc p) (pst (fun s => next_is T_FOR (e_toks s)) z p l b) (Ps l b).
Proof.
  intros z f p l b P LN. pose proof (A_init z p l b P) as HA. unfold stmt_for. apply p_bnd. eapply p_lif; [exact HA| |intros NX; apply none_spec; assumption]; cbn beta iota. intros k l1 E1 K1 H1. cbn [app] in H1.
  apply p_bnd. eapply p_group; [exact H1|lia|pp|]. intros b1 H2 P2. cbn beta. apply p_bnd. eapply p_emit; [exact H2|lia|pp|]. intros b2 H3 P3. cbn beta. apply p_bnd. eapply p_space; [exact H3|lia|pp|]. intros b3 H4 P4. cbn beta. cbn [app] in H4.
  eapply p_expect_opt; [exact H4|lia|pp|]. intros lp l2 b4 H5 P5. cbn [app] in H5. cbn beta. apply p_bnd. unfold pwp at 1. cbn [bd]. set (w := if s_align_operands S_ then width b4 p else cw). clearbody w.
  apply p_bnd.
  match goal with |- pwp _ (fun d => pwp (pbnd _ ?c) ?R) _ =>
    assert (CONT : forall pre l3 b5, A p l b 1 pre [] (forall h l', for_rest S_ tpeek braces (e_toks l3) h l' -> head z (e_toks l) (pre ++ h ++ [gap z l']) (body z l') l') l3 b5 -> pt z (S p) b5 -> pwp (c true) R (Ps l3 b5));
    [|assert (BAD : forall m acc held F l3 b5, A p l b m acc held F l3 b5 -> pwp (c false) R (Ps l3 b5)) by (intros m acc held F l3 b5 HB; cbn beta iota delta [negb]; eapply p_fail, HB)] end.
  { intros pre l3 b5 H6 P6. cbn beta iota delta [negb]. apply p_bnd. eapply p_expr; [exact H6|lia|pp|do 2 eexists; reflexivity| |]; cbn beta.
    2: { intros l' EE H. cbn [fst is_fail]. eapply p_fail, H. }
    intros x e ze l4 b6 H7 E4 LXE XE P7. cbn [fst snd]. replace (is_fail (if isnull x then NONE else GOOD)) with false by (destruct (isnull x); reflexivity).
    apply p_bnd. eapply p_expect; [exact H7| |intros l' _ _ _ H; eapply p_fail, H]; cbn beta iota. intros c l5 E5 K5 H8. cbn [app] in H8. apply p_bnd. eapply p_emit_; [exact H8|lia|exact XE|]. intros b7 H9 PE9 K9. pose proof (K9 _ _ LXE P7) as P9. cbn beta. apply p_bnd. eapply p_expr; [exact H9|lia|pp|do 2 eexists; reflexivity| |]; cbn beta.
    2: { intros l' EE H. cbn [fst is_fail]. eapply p_fail, H. }
    intros y e' ze' l6 b8 H10 E6 LYE YE P10. cbn [fst snd]. replace (is_fail (if isnull y then NONE else GOOD)) with false by (destruct (isnull y); reflexivity).
    eapply p_expect_opt; [exact H10|lia|pp|]. intros rp l7 b9 H11 P11. cbn beta. apply p_bnd, p_toks. cbn beta.
    match type of H11 with A _ _ _ _ _ _ ?F _ _ => assert (HEAD : F -> head z (e_toks l) (pre ++ [EX 0 (args S_ 0 w true) l3 x l4; T c; EX 0 (args S_ 0 w true) l5 y l6; T rp] ++ [gap z (e_toks l7)]) (body z (e_toks l7)) (e_toks l7) /\ plain (e_toks l) (e_toks l7)) end.
    { intros (((Y1 & Y2) & Y3) & Y4 & Y5). split; [|rewrite E1; exact (plain_not _ k (e_toks l1) (e_toks l7) K1 eq_refl)]. apply Y1. exists (args S_ 0 w true), l3, x, l4, c, (args S_ 0 w true), l5, y, l6, rp. repeat split; auto; solve [apply Y2|apply Y3]. }
    rewrite <- !app_assoc in H11. cbn [app] in H11. destruct (next_is T_LBRACE (e_toks l7)) eqn:NL.
    - apply p_bnd. eapply p_space; [exact H11|lia|pp|]. intros b10 H12 P12. cbn beta. pose proof (A_len _ _ _ _ _ _ _ _ _ H12) as LL. rewrite <- app_assoc in H12. cbn [app] in H12.
      unfold SynProofs.gap, SynProofs.body in HEAD. rewrite NL in HEAD. cbn [app] in HEAD.
      eapply p_call; [eapply rc_ok; [pp|lia]|exact H12|lia|pp| | |].
      + intros its l8 b11 E8 H13 P13. eapply post_good; [exact H13|exact E8|]. intros (Y & Z). destruct (HEAD Y) as (Y1 & Y2). eapply S_head; eassumption.
      + intros its l8 b11 E8 H13 P13. eapply post_none; [exact H13|exact E8|]. intros (Y & Z1 & Z2). destruct (HEAD Y) as (Y1 & Y2). right. split; [|exact Z2]. eapply H_cons; eassumption.
      + intros l8 b11 E8 H13 P13. eapply post_bad; eassumption.
    - apply p_bnd. eapply p_indent; [exact H11|lia|pp|]. intros b10 H12 P12. cbn beta. apply p_bnd. eapply p_hardline; [exact H12|lia|pp|]. intros b11 H13 P13. cbn beta. pose proof (A_len _ _ _ _ _ _ _ _ _ H13) as LL. rewrite <- app_assoc in H13. cbn [app] in H13.
      unfold SynProofs.gap, SynProofs.body in HEAD. rewrite NL in HEAD. cbn [app] in HEAD. apply p_bnd.
      eapply p_call; [eapply rc_ok; [exact P13|lia]|exact H13|lia|pp| | |]; cbn beta iota delta [is_good].
      + intros its l8 b12 E8 H14 P14. eapply p_good; [exact H14|]. intros (Y & Z). destruct (HEAD Y) as (Y1 & Y2). eapply S_head; eassumption.
      + intros its l8 b12 E8 H14 P14. eapply p_fail, H14.
      + intros l8 b12 E8 H14 P14. eapply p_fail, H14. }
  assert (EXPR : forall l3 b5, A p l b 1 [T k; SP; T lp] [] (e_toks l1 = lp :: e_toks l3 /\ is T_LPAREN lp = true) l3 b5 -> pt z (S p) b5 ->
    pwp (let! e := parser_expr q D tpeek braces 0 (args S_ 0 w false) (S p) in if is_fail (fst e) then pret false else let! k0 := lexpect T_SEMI in emit_opt D k0 (snd e);! pret true)
      (fun ok s' => exists acc F, (ok = false /\ A p l b 1 acc [] F (lx s') (bd s')) \/ (ok = true /\ pt z (S p) (bd s') /\ A p l b 1 acc [] (forall h l', for_rest S_ tpeek braces (e_toks (lx s')) h l' -> head z (e_toks l) (acc ++ h ++ [gap z l']) (body z l') l') (lx s') (bd s'))) (Ps l3 b5)).
  { intros l3 b5 H6 P6. apply p_bnd. eapply p_expr; [exact H6|lia|pp|do 2 eexists; reflexivity| |]; cbn beta.
    2: { intros l' EE H. cbn [fst is_fail]. apply p_ret. exists [], False. left. auto. }
    intros x e ze l4 b6 H7 E4 LXE XE P7. cbn [fst snd]. replace (is_fail (if isnull x then NONE else GOOD)) with false by (destruct (isnull x); reflexivity).
    eapply p_expect_opt_; [exact H7|lia|exact XE|]. intros c l5 b7 H8 PE8 K8. pose proof (K8 _ _ LXE P7) as P8. cbn beta. apply p_ret. exists [T k; SP; T lp; EX 0 (args S_ 0 w false) l3 x l4; T c], True. right. split; [reflexivity|]. cbn [lx bd]. split; [exact P8|]. cbn [app] in H8. eapply A_fact; [exact H8|].
    intros _ (((Y1 & Y2) & Y3) & Y4 & Y5) h l' FR. rewrite E1, Y1. eapply (H_for S_ tpeek braces declares iw z k lp _ l3 x l4 c (e_toks l5)); eassumption. }
  eapply p_call; [eapply other_spec, P5|exact H5|lia|pp| | |]; cbn beta iota delta [is_good].
  - intros its l3 b5 E3 H6 P6. apply p_bnd, p_ret. eapply CONT; [|exact P6]. eapply A_fact; [exact H6|]. intros _ ((_ & Y1 & Y2) & Y3) h l' FR. rewrite E1, Y1. eapply (H_for_decl S_ tpeek braces declares iw z k lp its); eassumption.
  - intros its l3 b5 E3 H6 P6. apply p_bnd. eapply p_mono; [apply EXPR; [|exact P6]|].
    + destruct H6 as (A1 & ds & A2 & A3). destruct (A3 E3) as (C1 & C2 & C3 & (_ & Y1 & Y2) & -> & -> & Y3). rewrite app_nil_r in *. split; [exact A1|]. exists ds. split; [exact A2|]. intros _. repeat split; auto. 
    + intros ok [l4 b6] (acc & F & [(-> & HB)|(-> & PB & HB)]); cbn [lx bd] in *; [eapply BAD, HB|eapply CONT; eassumption].
  - intros l3 b5 E3 H6 P6. apply p_bnd. eapply p_mono; [apply EXPR; [|exact P6]|].
    + eapply A_err; eassumption.
    + intros ok [l4 b6] (acc & F & [(-> & HB)|(-> & PB & HB)]); cbn [lx bd] in *; [eapply BAD, HB|eapply CONT; eassumption].
Qed.

Lemma case_stmts_spec : forall f z kw p l b, pt z p b -> length (e_toks l) < f -> length (e_toks l) < n ->
  pwp (case_stmts f rc kw p) (fun r s' => exists its, A p l b 0 its [] (r = true -> tail z kw (e_toks l) its (e_toks (lx s'))) (lx s') (bd s')) (Ps l b).
Proof.
  induction f as [|f IH]; intros z kw p l b P LF LN; [lia|]. pose proof (A_init z p l b P) as HA. cbn [case_stmts]. apply p_bnd, p_toks. cbn beta. destruct (next_is T_CASE (e_toks l) || next_is T_DEFAULT (e_toks l)) eqn:NX.
  { apply p_ret. exists []. cbn [lx bd]. eapply A_fact; [exact HA|]. intros _ _ _. apply A_end, NX. }
  destruct (e_toks l) as [|nx r] eqn:EL; [apply p_ret; exists []; cbn [lx bd]; eapply A_fact; [exact HA|discriminate]|].
  eapply p_marked; [exact HA|lia|pp|]. intros mk b1 MK H1 P1. cbn [app] in H1. apply p_bnd. rewrite <- EL in LF, LN. pose proof (rc_ok z p l b1 P1 LN) as RC. unfold pwp in RC |- *. destruct (rc p (Ps l b1)) as [rr [l1 b2]| |]; try exact RC. cbn [lx bd] in RC.
  destruct rr; destruct RC as (EE & PO); cbn [is_good]; cbn [lx bd] in *.
  - destruct PO as (its & PO). apply A_strict in PO; [|exact EE|eapply stm_consumes]. pose proof (A_len _ _ _ _ _ _ _ _ _ PO) as LL.
    pose proof (A_trans _ _ _ _ _ _ _ _ _ _ _ _ _ _ _ H1 (le_n p) PO) as H2. eapply p_mono; [apply IH; [pp|lia|lia]|]. intros rr [l2 b3] (its' & H3). cbn [lx bd] in *. pose proof (A_trans _ _ _ _ _ _ _ _ _ _ _ _ _ _ _ H2 (le_n p) H3) as H4.
    exists (([between z (lno kw =? lno nx)] ++ its) ++ its'). eapply (A_less _ _ _ _ 0) in H4; [|lia]. eapply A_fact; [exact H4|]. intros _ ((_ & Y1) & Y2) R. rewrite <- app_assoc. change (lno kw =? lno nx) with (on_line kw (nx :: r)). rewrite <- EL. eapply A_more; [rewrite EL; exact NX|exact Y1|exact (Y2 R)].
  - destruct PO as (its & PO). eapply p_bnd, p_remove; [exact HA|lia|exact MK|exact PO|]. intros b3 H2. cbn beta. apply p_ret. exists its. cbn [lx bd app plus] in *. eapply A_fact; [exact H2|]. intros _ (_ & Y & _) _. rewrite <- EL. apply A_rest; [rewrite EL; exact NX|exact Y].
  - eapply p_bnd, p_remove; [exact HA|lia|exact MK|exact PO|]. intros b3 H2. cbn beta. apply p_ret. exists []. cbn [lx bd app plus] in *. eapply A_fact; [exact H2|]. intros _ (_ & []).
Qed.
Lemma stmt_case_spec : forall z f p l b, pt z p b -> length (e_toks l) <= f -> length (e_toks l) <= n ->
  pwp (stmt_case q D iw S_ tpeek braces f rc p) (pse z p l b) (Ps l b).
Proof.
  intros z f p l b P LF LM. pose proof (A_init z p l b P) as HA. unfold stmt_case. apply p_bnd.
  match goal with |- pwp _ (fun k => pwp (pbnd _ ?c) ?R) _ =>
    assert (CONT : forall kw l1, is T_CASE kw = true \/ (is T_CASE kw = false /\ is T_DEFAULT kw = true) -> e_toks l = kw :: e_toks l1 -> A p l b 1 [] [kw] True l1 b -> pwp (c (Some kw)) R (Ps l1 b)) end.
  { intros kw l1 HK E1 H1. cbn beta iota. apply p_bnd. eapply p_group; [exact H1|lia|pp|]. intros b1 H2 P2. cbn beta. apply p_bnd. eapply p_emit; [exact H2|lia|pp|]. intros b2 H3 P3. cbn beta. cbn [app] in H3. apply p_bnd, p_toks. cbn beta.
    destruct (peek_until T_COLON (e_toks l1)); cbn [negb]; [|eapply p_fail, H3]. apply p_bnd.
    match goal with |- pwp _ (fun r => pwp (@?c r) ?R) _ =>
      assert (CONT : forall h l2 b3, A p l b 1 h [] (forall cl l', e_toks l2 = cl :: l' -> is T_COLON cl = true -> lab z kw (e_toks l) (h ++ [T cl]) l') l2 b3 -> pt z (S p) b3 -> pwp (c GOOD) R (Ps l2 b3)) end.
    { intros h l2 b3 H4 P4. cbn beta iota delta [is_good negb]. apply p_bnd. eapply p_expect; [exact H4| |intros l' _ _ _ H; eapply p_fail, H]; cbn beta iota. intros cl l3 E3 K3 H5. cbn [app] in H5. apply p_bnd. eapply p_emit; [exact H5|lia|pp|]. intros b4 H6 P6. cbn beta. apply p_bnd, p_toks. cbn beta. apply p_bnd.
      assert (TAIL : forall bs_ l4 b5, A p l b 2 ((h ++ [T cl]) ++ bs_) [] (lab z kw (e_toks l) (h ++ [T cl]) (e_toks l3) /\ forall t l', tail (deeper z) kw (e_toks l4) t l' -> lab z kw (e_toks l) (h ++ [T cl]) (e_toks l3) -> stm z (e_toks l) ((h ++ [T cl]) ++ bs_ ++ t) l') l4 b5 -> pt z p b5 ->
        pwp (let! indent := indented iw p in let! ok := case_stmts f rc kw indent in if ok then good_ else fail_) (pse z p l b) (Ps l4 b5)).
      { intros bs_ l4 b5 H7 P7. apply p_bnd. eapply p_indent; [exact H7|lia|pp|]. intros b6 H8 P8. cbn beta. apply p_bnd. pose proof (A_len _ _ _ _ _ _ _ _ _ H8) as LL. eapply p_mono; [eapply case_stmts_spec; [exact P8|lia|lia]|].
        intros ok [l5 b7] (t & H9). cbn [lx bd] in *. pose proof (A_trans _ _ _ _ _ _ _ _ _ _ _ _ _ _ _ H8 (Nat.le_succ_diag_r p) H9) as H10. destruct ok; [|eapply p_fail, H10]. eapply p_good; [exact H10|]. intros ((Y1 & Y2) & Y3). rewrite <- app_assoc. apply Y2; [exact (Y3 eq_refl)|exact Y1]. }
      assert (F6 : A p l b 2 (h ++ [T cl]) [] (lab z kw (e_toks l) (h ++ [T cl]) (e_toks l3)) l3 b4) by (eapply A_fact; [exact H6|]; intros _ Y; apply Y; assumption).
      destruct (next_is T_LBRACE (e_toks l3)) eqn:NL.
      - apply p_bnd. eapply p_line; [exact F6|lia|pp|]. intros b5 H7 P7. cbn beta. pose proof (A_len _ _ _ _ _ _ _ _ _ H7) as LL. eapply p_call; [eapply rc_ok; [pp|lia]|exact H7|lia|pp| | |]; cbn beta iota delta [is_fail].
        + intros its l4 b6 E4 H8 P8. apply (TAIL ([LN z] ++ its)); [|pp]. rewrite app_assoc. eapply A_fact; [exact H8|]. intros _ (Y1 & Y2). split; [exact Y1|]. intros t l' Y3 _. rewrite <- (app_assoc [LN z]). eapply S_case_block; eassumption.
        + intros its l4 b6 E4 H8 P8. apply (TAIL ([LN z] ++ its)); [|pp]. rewrite app_assoc. eapply A_fact; [exact H8|]. intros _ (Y1 & Y2 & _). split; [exact Y1|]. intros t l' Y3 _. rewrite <- (app_assoc [LN z]). eapply S_case_heads; eassumption.
        + intros l4 b6 E4 H8 P8. eapply p_fail, H8.
      - apply p_ret. cbn beta iota delta [is_fail]. apply (TAIL []); [|pp]. rewrite app_nil_r. eapply A_fact; [exact F6|]. intros _ Y1. split; [exact Y1|]. intros t l' Y3 _. cbn [app]. eapply S_case; eassumption. }
    destruct HK as [HK|(HK & HD)]; rewrite HK.
    - apply p_bnd. eapply p_line; [exact H3|lia|pp|]. intros b3 H4 P4. cbn beta. cbn [app] in H4. apply p_bnd. eapply p_expr; [exact H4|lia|pp|do 2 eexists; reflexivity| |]; cbn beta.
      2: { intros l' EE H. apply p_ret. cbn [fst is_good negb]. eapply p_fail, H. }
      intros x e ze l2 b4 H5 E2 LXE XE P5. cbn [fst snd]. apply p_ret. destruct (isnull x) eqn:N; [cbn [is_good negb]; eapply p_fail, H5|]. eapply CONT; [|exact P5]. eapply A_fact; [exact H5|]. intros _ (_ & Y) cl l' Y1 Y2. rewrite E1. cbn [app]. eapply (L_case S_ tpeek braces z kw _ l1 x l2 cl l'); try eassumption. intros ->. discriminate N.
    - apply p_ret. eapply CONT; [|exact P3]. eapply A_fact; [exact H3|]. intros _ _ cl l' Y1 Y2. rewrite E1, Y1. apply L_default; assumption. }
  eapply p_lif; [exact HA| |]; cbn beta iota.
  - intros kw l1 E1 K1 H1. apply p_bnd, p_ret. apply CONT; auto.
  - intros NC. apply p_bnd. eapply p_lif; [exact HA| |]; cbn beta iota.
    + intros kw l1 E1 K1 H1. apply CONT; auto. right. rewrite E1 in NC. auto.
    + intros _. apply none_spece, P.
Qed.

(** All of them. *)
Definition early (c : P ret_) (p : point) : Prop := forall z l b, pt z p b -> length (e_toks l) <= n -> pwp c (pse z p l b) (Ps l b).
Definition fine (c : P ret_) (t : st -> bool) (p : point) : Prop :=
  (forall z l b, pt z p b -> length (e_toks l) <= n -> pwp c (pst t z p l b) (Ps l b)) /\ forall s, t (lx s) = false -> c s = none_ s.
Lemma dormant : forall ms ts p, Forall2 (fun m t => fine m t p) ms ts -> forall s, e_err (lx s) = false -> existsb (fun t => t (lx s)) ts = false -> first_good ms s = none_ s.
Proof.
  intros ms ts p F s E. induction F as [|m t ms ts (_ & F1) F2 IH]; intros H; [reflexivity|]. cbn [existsb] in H. apply orb_false_iff in H. destruct H as [H1 H2]. cbn [first_good]. unfold pbnd. rewrite (F1 s H1). unfold none_ at 1. rewrite E. cbn [is_good]. exact (IH H2).
Qed.
Lemma bad_spec : forall c G N N' z p l0 b0 m acc held F l b, pwp c (post G N' p l b) (Ps l b) -> pt z p b -> e_err l = true -> A p l0 b0 m acc held F l b -> pwp c (post G N p l0 b0) (Ps l b).
Proof.
  intros c G N N' z p l0 b0 m acc held F l b H P E HA. eapply p_call; [exact H|exact (A_err _ _ _ _ _ _ _ _ _ HA E [] [] False)|apply le_n|exact P| | |].
  - intros its l1 b1 E1 H1 P1. eapply post_good; [exact H1|exact E1|]. intros ([] & _).
  - intros its l1 b1 E1 H1 P1. eapply post_none; [exact H1|exact E1|]. intros ([] & _).
  - intros l1 b1 E1 H1 P1. eapply post_bad; eassumption.
Qed.
Lemma late_spec : forall ms ts p, Forall2 (fun m t => fine m t p) ms ts -> (forall s, late s = false -> existsb (fun t => t s) ts = false) ->
  forall z l b, pt z p b -> length (e_toks l) <= n -> pwp (first_good ms) (pst (fun s => existsb (fun t => t s) ts) z p l b) (Ps l b).
Proof.
  intros ms ts p F. induction F as [|m t ms ts F1 F2 IH]; intros LT z l b P L; [apply none_spec; [exact P|reflexivity]|].
  assert (LT' : forall s, late s = false -> existsb (fun t => t s) ts = false) by (intros s H; specialize (LT s H); cbn [existsb] in LT; apply orb_false_iff in LT; apply LT). specialize (IH LT').
  pose proof (A_init z p l b P) as HA. cbn [first_good]. apply p_bnd.
  eapply p_call; [apply F1; eassumption|exact HA|lia|pp| | |]; cbn beta iota delta [is_good].
  - intros its l1 b1 E1 H1 P1. eapply p_good; [exact H1|]. intros (_ & Y). exact Y.
  - intros its l1 b1 E1 H1 P1. pose proof (A_len _ _ _ _ _ _ _ _ _ H1) as LL. cbn [plus] in LL. pose proof H1 as (_ & ds & _ & H1'). destruct (H1' E1) as (_ & _ & _ & _ & Y). destruct Y as [(-> & -> & Y)|(Y1 & Y2)].
    + eapply p_call; [apply IH; [exact P1|lia]|exact H1|lia|pp| | |].
      * intros its' l2 b2 E2 H2 P2. eapply post_good; [exact H2|exact E2|]. intros (_ & Y2). exact Y2.
      * intros its' l2 b2 E2 H2 P2. eapply post_none; [exact H2|exact E2|]. intros (_ & [(-> & -> & Y2)|Y2]); [left|right; exact Y2]. split; [reflexivity|]. split; [reflexivity|]. cbn [existsb]. rewrite Y. exact Y2.
      * intros l2 b2 E2 H2 P2. eapply post_bad; eassumption.
    + unfold pwp. rewrite (dormant _ _ _ F2); [|exact E1|exact (LT' _ Y2)]. eapply (p_none (loose := loose)); [exact H1|]. intros _. right. split; assumption.
  - intros l1 b1 E1 H1 P1. pose proof (A_len _ _ _ _ _ _ _ _ _ H1) as LL. cbn [plus] in LL. eapply bad_spec; [apply IH; [exact P1|lia]|exact P1|exact E1|exact H1].
Qed.
Lemma early_spec : forall ms c p G, Forall (fun m => early m p) ms -> (forall z l b, pt z p b -> length (e_toks l) <= n -> pwp (first_good c) (post (stm z) (G z l) p l b) (Ps l b)) ->
  forall z l b, pt z p b -> length (e_toks l) <= n -> pwp (first_good (ms ++ c)) (post (stm z) (G z l) p l b) (Ps l b).
Proof.
  induction ms as [|m ms IH]; intros c p G F C z l b P L; [apply C; assumption|]. inversion F as [|? ? F1 F2]; subst. pose proof (A_init z p l b P) as HA. cbn [app first_good]. apply p_bnd.
  eapply p_call; [apply F1; eassumption|exact HA|lia|pp| | |]; cbn beta iota delta [is_good].
  - intros its l1 b1 E1 H1 P1. eapply p_good; [exact H1|]. intros (_ & Y). exact Y.
  - intros its l1 b1 E1 H1 P1. pose proof H1 as (_ & ds & _ & H1'). destruct (H1' E1) as (_ & _ & _ & _ & -> & ->).
    eapply p_call; [apply (IH c p G F2 C z); assumption|exact H1|lia|pp| | |].
    + intros its' l2 b2 E2 H2 P2. eapply post_good; [exact H2|exact E2|]. intros (_ & Y2). exact Y2.
    + intros its' l2 b2 E2 H2 P2. eapply post_none; [exact H2|exact E2|]. intros (_ & Y2). exact Y2.
    + intros l2 b2 E2 H2 P2. eapply post_bad; eassumption.
  - intros l1 b1 E1 H1 P1. pose proof (A_len _ _ _ _ _ _ _ _ _ H1) as LL. cbn [plus] in LL. eapply bad_spec; [apply (IH c p G F2 C); [exact P1|lia]|exact P1|exact E1|exact H1].
Qed.
Lemma lif_not : forall X t (K : option token -> P X) s, next_is t (e_toks (lx s)) = false -> pbnd (lif t) K s = K None s.
Proof. intros X t K s H. unfold pbnd, lif. destruct (e_toks (lx s)) as [|k l]; [reflexivity|]. cbn [next_is] in H. rewrite H. reflexivity. Qed.
Lemma stmt1_spec : forall f z p l b, n <= f -> pt z p b -> length (e_toks l) <= n -> pwp (stmt1 q D labelled iw cw openbsd S_ width tpeek braces decl_type expr_peek loop_stmt other f rc p) (post (stm z) (stuck z) p l b) (Ps l b).
Proof.
  intros f z p l b NF P L. unfold stmt1.
  match goal with |- pwp (first_good [?a1; ?a2; ?a3; ?a4; ?a5; ?a6; ?a7; ?a8; ?b1; ?b2; ?b3; ?b4; ?b5; ?b6; ?b7; ?b8; ?b9]) _ _ =>
    change (pwp (first_good ([a1; a2; a3; a4; a5; a6; a7; a8] ++ [b1; b2; b3; b4; b5; b6; b7; b8; b9])) (post (stm z) ((fun z (_ : st) => stuck z) z l) p l b) (Ps l b)) end.
  apply early_spec; [| |exact P|exact L]; clear z l b P L.
  - repeat constructor; intros z l b P L.
    + apply p_bnd. eapply p_mono; [eapply block_spec; [reflexivity|exact P|exact P|lia|lia]|]. intros [rr e] s' (PO & _). cbn [fst] in *. apply p_ret. destruct rr; destruct PO as (E & PO); (split; [exact E|]); [destruct PO as (its & PO); exists its; eapply A_fact; [exact PO|]..|exact PO].
      * intros _ Y. apply S_block, Y.
      * intros _ (-> & -> & _). split; reflexivity.
    + apply stmt_expr_spec, P.
    + apply stmt_if_spec; [exact P|lia|lia].
    + apply stmt_return_spec, P.
    + apply stmt_decl_spec, P.
    + apply stmt_case_spec; [exact P|lia|lia].
    + pose proof (stmt_jump_spec z T_BREAK p l b P (or_introl eq_refl)) as H. eapply p_mono; [exact H|]. intros [] s' PO; try exact PO. destruct PO as (E & its & PO). split; [exact E|]. exists its. eapply A_fact; [exact PO|]. intros _ (-> & -> & _). split; reflexivity.
    + apply stmt_goto_spec, P.
  - intros z l b P L. eapply p_mono; [eapply (late_spec _ lates p); [|exact (fun s H => H)|exact P|exact L]|].
    + unfold lates. repeat apply Forall2_cons; try apply Forall2_nil.
      * split; [intros; apply stmt_for_spec; [assumption|lia]|]. intros s H. apply lif_not, H.
      * split; [intros; apply stmt_kw_spec; [assumption|lia|lia|cbn [In]; tauto]|]. intros s H. unfold stmt_kw, pbnd, toks. rewrite H. reflexivity.
      * split; [intros; apply stmt_label_spec; [assumption|lia]|]. intros s H. unfold stmt_label, pbnd, toks. rewrite H. reflexivity.
      * split; [intros; apply stmt_kw_spec; [assumption|lia|lia|cbn [In]; tauto]|]. intros s H. unfold stmt_kw, pbnd, toks. rewrite H. reflexivity.
      * split; [|intros s H; unfold stmt_jump, pbnd, toks; rewrite H; reflexivity]. clear z l b P L. intros z l b P L. pose proof (stmt_jump_spec z T_CONTINUE p l b P (or_intror eq_refl)) as H. eapply p_mono; [exact H|]. intros [] s' PO; try exact PO. destruct PO as (E & its & PO). split; [exact E|]. exists its. eapply A_fact; [exact PO|]. intros _ X. left. exact X.
      * split; [intros; apply stmt_asm_spec; assumption|]. intros s H. apply asm_none, H.
      * split; [intros; apply stmt_dowhile_spec; [assumption|lia|lia]|]. intros s H. apply lif_not, H.
      * split; [intros; apply stmt_semi_spec; assumption|]. intros s H. unfold stmt_semi, pbnd, toks. rewrite H. reflexivity.
      * split; [intros; apply stmt_cpp_spec; [assumption|lia|lia]|]. intros s H. unfold stmt_cpp, pbnd, toks. rewrite H. reflexivity.
    + intros [] s' PO; try exact PO. destruct PO as (E & its & PO). split; [exact E|]. exists its. eapply A_fact; [exact PO|]. intros _ [(-> & -> & X)|X]; [|exact X]. split; [constructor|exact X].
Qed.
End Inner.

Lemma stmt_spec : forall f z p l b, pt z p b -> length (e_toks l) < f -> pwp (stmt q D labelled iw cw openbsd S_ width tpeek braces decl_type expr_peek loop_stmt other f p) (post (stm z) (stuck z) p l b) (Ps l b).
Proof.
  induction f as [|f IH]; intros z p l b P L; [lia|]. cbn [stmt]. apply (stmt1_spec f _ IH f z p l b (le_n f) P). lia.
Qed.
Lemma parser_stmt_spec : forall z p l b, pt z p b -> pwp (parser_stmt q D labelled iw cw openbsd S_ width tpeek braces decl_type expr_peek loop_stmt other p) (post (stm z) (stuck z) p l b) (Ps l b).
Proof. intros z p l b P. unfold parser_stmt, pwp. cbn [lx]. apply stmt_spec; [exact P|lia]. Qed.
Lemma parser_gnu_spec : forall z p l b, pt z p b ->
  pwp (parser_stmt_expr_gnu q D labelled iw cw openbsd S_ width tpeek braces decl_type expr_peek loop_stmt other p) (bpost z false true p l b) (Ps l b).
Proof. intros z p l b P. unfold parser_stmt_expr_gnu, pwp. cbn [lx]. apply (block_spec (S (length (e_toks l))) _ (stmt_spec _) _ _ _ z p z p); [reflexivity|exact P|exact P|lia|lia]. Qed.
Lemma parser_block_spec : forall z p l b, pt z p b ->
  pwp (parser_block q D labelled iw cw openbsd S_ width tpeek braces decl_type expr_peek loop_stmt other p) (bpost z false false p l b) (Ps l b).
Proof. intros z p l b P. unfold parser_block, pwp. cbn [lx]. apply (block_spec (S (length (e_toks l))) _ (stmt_spec _) _ _ _ z p z p); [reflexivity|exact P|exact P|lia|lia]. Qed.
End Run.
