(** C74: running a pass over its own result. *)
From Coq Require Import Lia Permutation.
From Verif Require Import Base TokenModel StreamModel StreamProofs TokListModel TokListProofs StreamProps TokListProps.
From Verif Require Import StaticModel StaticProps PrintfModel PrintfProps.

(** ** static first, int spelled out *)
(** The declaration left behind is left alone the next time, read from its new beginning to
    its new end. *)
Theorem C74_static : forall E p beg d q x, wfl E x -> x_toks x = p ++ (beg :: d) ++ q ->
  exists beg' d' fin' y, simple_static beg (last (beg :: d) beg) x = Some (Some fin', y) /\
    x_toks y = p ++ (beg' :: d') ++ q /\ fin' = last (beg' :: d') beg' /\ simple_static beg' fin' y = Some (Some fin', y).
Proof.
  intros E p beg d q x W Et. destruct (C34_static E p beg d q x W Et) as (fin' & y & decl' & R & Ty & [M|(_ & -> & ->)] & L & P & _).
  - destruct M as (a & st & b & Ed & Na & T & _ & _ & ->). exists st, (a ++ b), fin', y. split; [exact R|]. split; [exact Ty|]. split; [rewrite <- L; apply last_default|].
    unfold simple_static. assert (LP : 0 < length (x_toks y)) by (rewrite Ty, !app_length; cbn [length]; lia). destruct (length (x_toks y)) as [|n]; [lia|]. cbn [find_static_token]. rewrite (proj1 (P st)). change (n_type (x_heap x st)) with (tyof x st). rewrite T, ttype_eqb_refl, Nat.eqb_refl. reflexivity.
  - exists beg, d, fin', x. split; [exact R|]. split; [exact Et|]. split; [symmetry; exact L|]. rewrite <- L at 1. exact R.
Qed.
Theorem C74_implicit_int : forall p beg fin q x, NoDup (x_toks x) -> x_toks x = p ++ fin :: q -> (forall t, In t (x_toks x) -> t < x_next x) ->
  exists t y, simple_implicit_int beg fin x = Some (t, y) /\ simple_implicit_int beg t y = Some (t, y).
Proof.
  intros p beg fin q x ND Et Lt. destruct (C34_implicit_int p beg fin q x ND Et Lt) as (t & y & R & [(B & _ & _ & _ & N & _)|(_ & -> & ->)]).
  - exists t, y. split; [exact R|]. unfold simple_implicit_int, is_implicit_int. destruct (Nat.eqb_spec beg t) as [Q|Q]; [|reflexivity]. exfalso. apply N. rewrite <- Q, B, Et. apply in_or_app. right. left. reflexivity.
  - exists fin, x. auto.
Qed.

(** ** The newline of error messages *)
(** Replacing the text of a token does not change what is read. *)
Section Text.
Variables (f : id) (s : bytes).
Definition retext (x : lex) : lex := set_heap (modify (x_heap x) f (set_str s)) x.
Lemma retext_at : forall x i, n_type (x_heap (retext x) i) = n_type (x_heap x i) /\ n_flags (x_heap (retext x) i) = n_flags (x_heap x i) /\ n_pre (x_heap (retext x) i) = n_pre (x_heap x i) /\
  n_pv (x_heap (retext x) i) = n_pv (x_heap x i) /\ n_nx (x_heap (retext x) i) = n_nx (x_heap x i) /\ n_parent (x_heap (retext x) i) = n_parent (x_heap x i) /\ (i <> f -> n_str (x_heap (retext x) i) = n_str (x_heap x i)) /\ n_str (x_heap (retext x) f) = s.
Proof.
  intros x i. unfold retext, modify, upd. cbn [set_heap x_heap]. rewrite Nat.eqb_refl. destruct (Nat.eqb_spec i f) as [->|N]; cbn; repeat split; auto; intros K; congruence.
Qed.
Lemma retext_type : forall x i, tyof (retext x) i = tyof x i. Proof. intros x i. apply (retext_at x i). Qed.
Lemma retext_flag : forall x fl i, flagged fl (retext x) i = flagged fl x i. Proof. intros x fl i. unfold flagged. rewrite (proj1 (proj2 (retext_at x i))). reflexivity. Qed.
Lemma retext_find : forall x l, branch_find1 (x_heap (retext x)) l = branch_find1 (x_heap x) l.
Proof.
  intros x. induction l as [|p l IH]; [reflexivity|]. cbn [branch_find1]. destruct (retext_at x p) as (-> & _ & _ & -> & _ & -> & _). rewrite IH. destruct (negb _); [reflexivity|]. destruct (n_pv (x_heap x p)) as [pv|]; [|reflexivity]. destruct (retext_at x pv) as (_ & _ & _ & _ & _ & -> & _). reflexivity.
Qed.
Lemma retext_last : forall x n p, branch_last (x_heap (retext x)) n p = branch_last (x_heap x) n p.
Proof. intros x. induction n as [|n IH]; intros p; [reflexivity|]. cbn [branch_last]. destruct (retext_at x p) as (_ & _ & _ & _ & -> & -> & _). destruct (n_nx (x_heap x p)); [apply IH|reflexivity]. Qed.
Lemma retext_end : forall x t, end_of_branch (retext x) t = end_of_branch x t.
Proof. intros x t. unfold end_of_branch, branch_find. destruct (retext_at x t) as (_ & _ & -> & _). rewrite retext_find. change (x_next (retext x)) with (x_next x). destruct (branch_find1 _ _); [apply retext_last|reflexivity]. Qed.
Definition both (r : option id * lex) : option id * lex := (fst r, retext (snd r)).
Lemma retext_pop : forall x, lexer_pop (retext x) = both (lexer_pop x).
Proof.
  intros x. unfold lexer_pop. change (x_cur (retext x)) with (x_cur x). change (x_toks (retext x)) with (x_toks x). change (x_peek (retext x)) with (x_peek x). destruct (x_cur x) as [c|]; [|destruct (x_toks x); reflexivity].
  rewrite retext_type, retext_flag. destruct (ttype_eqb (tyof x c) T_EOF); [reflexivity|]. destruct (_ && _); [reflexivity|]. destruct (next_of (x_toks x) c) as [t|]; [|reflexivity]. rewrite retext_flag, retext_end. destruct (flagged F_BRANCH x t); [|reflexivity]. destruct (x_peek x =? 0); [reflexivity|]. destruct (end_of_branch x t); reflexivity.
Qed.
Lemma retext_if : forall ty x, lexer_if ty (retext x) = both (lexer_if ty x).
Proof. intros ty x. unfold lexer_if. rewrite retext_pop. destruct (lexer_pop x) as [[t|] y]; cbn [both fst snd]; [|reflexivity]. rewrite retext_type. destruct (ttype_eqb (tyof y t) ty); reflexivity. Qed.
Lemma retext_skip : forall n x, skip_args n (retext x) = (fst (skip_args n x), retext (snd (skip_args n x))).
Proof.
  induction n as [|n IH]; intros x; [reflexivity|]. cbn [skip_args]. rewrite retext_pop. destruct (lexer_pop x) as [[t|] y]; cbn [both fst snd]; [|reflexivity]. rewrite retext_if. destruct (lexer_if T_COMMA y) as [[u|] z]; cbn [both fst snd]; [apply IH|reflexivity].
Qed.
Lemma retext_strings : forall n fmt x, strings n fmt (retext x) = both (strings n fmt x).
Proof.
  induction n as [|n IH]; intros fmt x; [reflexivity|]. cbn [strings]. rewrite retext_if. destruct (lexer_if T_STRING x) as [[u|] z]; cbn [both fst snd]; [apply IH|reflexivity].
Qed.
Lemma retext_inner : forall n x, find_inner n (retext x) = both (find_inner n x).
Proof.
  intros n x. unfold find_inner. rewrite retext_if. destruct (lexer_if T_IDENT x) as [[u|] z]; cbn [both fst snd]; [|reflexivity]. rewrite retext_if. destruct (lexer_if T_LPAREN z) as [[v|] w]; cbn [both fst snd]; [|reflexivity]. rewrite retext_skip. destruct (skip_args n w) as [[] v']; cbn [fst snd]; [|reflexivity]. apply retext_strings.
Qed.
Lemma retext_argument : forall tk n x, find_format_argument tk n (retext x) = both (find_format_argument tk n x).
Proof.
  intros tk n x. unfold find_format_argument, lexer_peek_enter. change (lexer_seek tk (set_peek (S (x_peek (retext x))) (retext x))) with (retext (lexer_seek tk (set_peek (S (x_peek x)) x))). rewrite retext_inner. destruct (find_inner n _) as [r z]. cbn [both fst snd]. unfold lexer_peek_leave. cbn [fst snd]. change (x_peek (set_err (x_err (retext x)) (set_cur (x_cur (retext x)) (retext z)))) with (x_peek z). change (x_peek (set_err (x_err x) (set_cur (x_cur x) z))) with (x_peek z). destruct (x_peek z); reflexivity.
Qed.
End Text.

Lemma saw_in : forall x, wfs x -> forall ts c, here x c -> saw x c ts -> Forall (fun t => In t (x_toks x)) ts.
Proof.
  intros x W. induction ts as [|t ts IH]; intros c Hc S; [constructor|]. apply saw_inv in S. destruct S as [S1 S2]. destruct (pop_peek x W 0 c Hc) as (t' & _ & S3 & I & _). assert (t' = t) as -> by (eapply sees_fun; eassumption). constructor; [exact I|]. exact (IH _ (here_some _ _ I) S2).
Qed.

(** The bytes of a string literal: no NUL, in quotes. *)
Definition quoted (l : bytes) : Prop := exists b, l = DQ :: b ++ [DQ] /\ ~ In NUL b.
(** Two newlines at the end. *)
Definition two_newlines (l : bytes) : Prop := exists b, l = DQ :: b ++ s2b "\n\n" ++ [DQ].
(** Unless the literal ends with two newlines, the second run changes nothing. *)
Theorem C74_printf_partial : forall x tk, wfs x -> (forall t, In t (x_toks x) -> tyof x t = T_STRING -> quoted (n_str (x_heap x t)) /\ ~ two_newlines (n_str (x_heap x t))) ->
  simple_expr_printf tk (simple_expr_printf tk x) = simple_expr_printf tk x.
Proof.
  intros x tk W Q. destruct (identify_function x tk) as [n|] eqn:EI; [|unfold simple_expr_printf; rewrite EI, EI; reflexivity].
  destruct (C33_argument x tk n W) as (r & EA & H). assert (EX : simple_expr_printf tk x = match r with None => x | Some f => if negb (string_has_line (n_str (x_heap x f))) then x else match sanitize (n_str (x_heap x f)) with None => set_bad x | Some s => retext f s x end end) by (unfold simple_expr_printf; rewrite EI, EA; reflexivity).
  destruct r as [f|]; [|rewrite EX, EX; reflexivity]. destruct (string_has_line (n_str (x_heap x f))) eqn:SL; cbn [negb] in EX; [|rewrite EX, EX; reflexivity].
  destruct (H f eq_refl) as (next & i & lp & args & ss & SW & _ & _ & _ & FS & _).
  assert (TF : tyof x f = T_STRING) by (rewrite Forall_forall in FS; apply FS, in_or_app; right; left; reflexivity).
  assert (IF : In f (x_toks x)). { assert (F := saw_in x W _ _ (seek_here x tk) SW). rewrite Forall_forall in F. apply F. right. right. apply in_or_app. right. apply in_or_app. right. left. reflexivity. }
  destruct (Q f IF TF) as ((b & Eb & NB) & N2). rewrite Eb in *. destruct (has_line_inv _ SL) as (b' & ->).
  rewrite sanitize_lit in EX by (intros K; apply NB, in_or_app; left; exact K). rewrite EX. set (s := DQ :: b' ++ [DQ]).
  unfold simple_expr_printf. assert (NE : tk <> f). { intros ->. unfold identify_function in EI. rewrite TF in EI. discriminate. }
  assert (EI' : identify_function (retext f s x) tk = Some n). { unfold identify_function in *. rewrite retext_type. destruct (retext_at f s x tk) as (_ & _ & _ & _ & _ & _ & K & _). rewrite (K NE). exact EI. }
  rewrite EI', retext_argument, EA. cbn [both fst snd]. destruct (retext_at f s x f) as (_ & _ & _ & _ & _ & _ & _ & ->).
  destruct (string_has_line s) eqn:SL2; [|reflexivity]. exfalso. destruct (has_line_inv _ SL2) as (b2 & ->). apply N2. exists b2. rewrite <- !app_assoc. reflexivity.
Qed.
(** A literal that ends with two newlines loses one in every run. *)
Theorem C74_printf_refuted : exists x tk t, wfs x /\ quoted (n_str (x_heap x t)) /\
  n_str (x_heap x t) = DQ :: s2b "a\n\n" ++ [DQ] /\ n_str (x_heap (simple_expr_printf tk x) t) = DQ :: s2b "a\n" ++ [DQ] /\
  n_str (x_heap (simple_expr_printf tk (simple_expr_printf tk x)) t) = DQ :: s2b "a" ++ [DQ].
Proof.
  exists (call_ex [(T_IDENT, s2b "warnx"); (T_LPAREN, s2b "("); (T_STRING, DQ :: s2b "a\n\n" ++ [DQ]); (T_RPAREN, s2b ")"); (T_SEMI, s2b ";"); (T_EOF, [])]), 0, 2.
  split; [apply wfs_call; exists [T_IDENT; T_LPAREN; T_STRING; T_RPAREN; T_SEMI], T_EOF; split; [reflexivity|]; split; reflexivity|].
  split; [exists (s2b "a\n\n"); split; [reflexivity|]; intros H; vm_compute in H; intuition discriminate|]. split; [reflexivity|]. split; vm_compute; reflexivity.
Qed.


(** ** Examples *)
(** const int static x: the static is moved once; unsigned gets its int once. *)
Example C74_ex_static : match simple_static 1 3 ex_static with Some (Some f, y) => x_toks y = [0;3;1;2;4;5] /\ simple_static 3 f y = Some (Some f, y) | _ => False end.
Proof. vm_compute. auto. Qed.
Definition ex_again_int : lex := ex_decl [(T_UNSIGNED, "unsigned"); (T_IDENT, "x"); (T_EOF, "")]%string.
Example C74_ex_int : NoDup (x_toks ex_again_int) /\ match simple_implicit_int 0 0 ex_again_int with Some (t, y) => x_toks y = [0;3;1;2] /\ t = 3 /\ simple_implicit_int 0 t y = Some (t, y) | None => False end.
Proof. split; [repeat constructor; simpl; intuition lia|]. vm_compute. auto. Qed.
(** errc() with two string literals, the second of which loses its newline. *)
Example C74_ex_printf : wfs ex_errc /\ (forall t, In t (x_toks ex_errc) -> tyof ex_errc t = T_STRING -> quoted (n_str (x_heap ex_errc t)) /\ ~ two_newlines (n_str (x_heap ex_errc t))) /\
  n_str (x_heap (simple_expr_printf 0 ex_errc) 7) <> n_str (x_heap ex_errc 7).
Proof.
  split; [exact ex_errc_wfs|]. split; [|intros Q; vm_compute in Q; discriminate]. assert (TN : forall b, two_newlines (DQ :: b ++ [DQ]) -> exists b', b = b' ++ s2b "\n\n").
  { intros b (b' & E). exists b'. apply (f_equal (@tl _)) in E. cbn [tl] in E. rewrite app_assoc in E. apply app_inj_tail in E. apply E. }
  intros t Ht T. change (x_toks ex_errc) with [0;1;2;3;4;5;6;7;8;9;10] in Ht. repeat (destruct Ht as [<-|Ht]; [try (vm_compute in T; discriminate)|]); [| |destruct Ht].
  - change (n_str (x_heap ex_errc 6)) with (DQ :: s2b "b" ++ [DQ]). split; [exists (s2b "b"); split; [reflexivity|]; intros Q; vm_compute in Q; intuition discriminate|]. intros Q. apply TN in Q. destruct Q as (b' & Q). apply (f_equal (@length _)) in Q. rewrite app_length in Q. cbn in Q. lia.
  - change (n_str (x_heap ex_errc 7)) with (DQ :: s2b "a\n" ++ [DQ]). split; [exists (s2b "a\n"); split; [reflexivity|]; intros Q; vm_compute in Q; intuition discriminate|]. intros Q. apply TN in Q. destruct Q as (b' & Q). apply (f_equal (@length _)) in Q. rewrite app_length in Q. cbn in Q. lia.
Qed.

Print Assumptions C74_static.
Print Assumptions C74_implicit_int.
Print Assumptions C74_printf_partial.
Print Assumptions C74_printf_refuted.
