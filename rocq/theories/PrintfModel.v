(** Model of simple-expr-printf.c: the redundant newline of error messages. *)
From Verif Require Import Base TokenModel StreamModel TokListModel.

(** simple-expr-printf.c:19-50 identify_function.  clang_token_type() of an identifier is
    found by its name (clang.h:13-27, clang_find_identifier). *)
Definition argno_table : list (bytes * nat) :=
  [ (s2b "perror", 0); (s2b "vwarn", 0); (s2b "vwarnx", 0); (s2b "warn", 0); (s2b "warnx", 0);
    (s2b "err", 1); (s2b "errx", 1); (s2b "verr", 1); (s2b "verrx", 1); (s2b "vwarnc", 1); (s2b "warnc", 1);
    (s2b "errc", 2); (s2b "verrc", 2) ].
Definition identify_function (x : lex) (tk : id) : option nat :=
  if negb (ttype_eqb (tyof x tk) T_IDENT) then None
  else match find (fun e => beq (fst e) (n_str (x_heap x tk))) argno_table with Some (_, a) => Some a | None => None end.

(** simple-expr-printf.c:52-71 find_format_argument_inner *)
Fixpoint skip_args (argno : nat) (x : lex) : bool * lex :=
  match argno with
  | 0 => (true, x)
  | S n =>
      match lexer_pop x with
      | (None, x) => (false, x)
      | (Some _, x) => match lexer_if T_COMMA x with (None, x) => (false, x) | (Some _, x) => skip_args n x end
      end
  end.
Fixpoint strings (fuel : nat) (fmt : option id) (x : lex) : option id * lex :=
  match fuel with
  | 0 => (None, set_bad x)
  | S f => match lexer_if T_STRING x with (None, x) => (fmt, x) | (Some t, x) => strings f (Some t) x end
  end.
Definition find_inner (argno : nat) (x : lex) : option id * lex :=
  match lexer_if T_IDENT x with
  | (None, x) => (None, x)
  | (Some _, x) =>
      match lexer_if T_LPAREN x with
      | (None, x) => (None, x)
      | (Some _, x) =>
          match skip_args argno x with
          | (false, x) => (None, x)
          | (true, x) => strings (S (length (x_toks x))) None x
          end
      end
  end.
(** simple-expr-printf.c:73-85 find_format_argument *)
Definition find_format_argument (seek : id) (argno : nat) (x : lex) : option id * lex :=
  let '(s, x) := lexer_peek_enter x in
  let x := lexer_seek seek x in
  let '(fmt, x) := find_inner argno x in
  (fmt, lexer_peek_leave s x).

(** simple-expr-printf.c:87-95 string_has_line; strncmp stops at a NUL, which the suffix
    does not have. *)
Definition string_has_line (s : bytes) : bool := (3 <=? length s) && beq (skipn (length s - 3) s) [BSL; "n"%char; DQ].

(** %.*s with the given precision: stops at a NUL. *)
Fixpoint until_nul (s : bytes) : bytes := match s with [] => [] | c :: r => if c =c NUL then [] else c :: until_nul r end.
(** simple-expr-printf.c:112-115; [tk_len - 4] is computed unsigned, converted to int.  A
    negative precision means none at all: reads past the token. *)
Definition sanitize (s : bytes) : option bytes :=
  if length s <? 4 then None else Some (DQ :: until_nul (firstn (length s - 4) (skipn 1 s)) ++ [DQ]).

(** simple-expr-printf.c:99-116 simple_expr_printf *)
Definition set_str (s : bytes) (n : node) : node :=
  Node (n_type n) (n_flags n) (n_lno n) (n_cno n) s (n_refs n) (n_live n) (n_pre n) (n_suf n) (n_pv n) (n_nx n) (n_parent n).
Definition simple_expr_printf (tk : id) (x : lex) : lex :=
  match identify_function x tk with
  | None => x
  | Some argno =>
      let '(fmt, x) := find_format_argument tk argno x in
      match fmt with
      | None => x
      | Some f =>
          if negb (string_has_line (n_str (x_heap x f))) then x
          else match sanitize (n_str (x_heap x f)) with
               | None => set_bad x
               | Some s => set_heap (modify (x_heap x) f (set_str s)) x
               end
      end
  end.
