(** Model of the parts of parser-braces.c that change tokens: insert_trailing_comma (with -s) and
    the correction of alignment after a designator.

    [None] is a NULL dereference. *)
From Verif Require Import Base TokenModel StreamModel TokListModel.

(** token.c:269-286 token_has_line(tk, 1) *)
Definition has_line1 (h : heap) (t : id) : bool :=
  existsb (fun s => ttype_eqb (n_type (h s)) T_SPACE && negb (has_flag (n_flags (h s)) F_OPTSPACE)) (n_suf (h t)).
(** token.c:319-331 token_has_tabs; the byte read at tk_str[0] of an empty string is NUL. *)
Definition has_tabs (h : heap) (t : id) : bool :=
  existsb (fun s => ttype_eqb (n_type (h s)) T_SPACE && has_flag (n_flags (h s)) F_OPTSPACE && (hd NUL (n_str (h s)) =c TAB)) (n_suf (h t)).

(** clang_keyword_token(TOKEN_COMMA) (clang.c:484-488, token.h). *)
Definition comma_token : node := Node T_COMMA 0 0 0 (s2b ",") 1 true [] [] None None None.

(** parser-braces.c:415-433 insert_trailing_comma; [on]: simple_enter() is not zero (C31). *)
Definition trailing_comma (on : bool) (rbrace : id) (x : lex) : option lex :=
  if negb on then Some x
  else
    do pv <- prev_of (x_toks x) rbrace;
    if ttype_eqb (tyof x pv) T_COMMA || ttype_eqb (tyof x pv) T_RPAREN || negb (has_line1 (x_heap x) pv) then Some x
    else
      do (comma, x) <- insert_after pv comma_token x;
      Some (set_heap (move_suffixes_if pv comma T_SPACE (x_heap x)) x).

(** parser-braces.c:351-354, in parser_braces_field1: [tk] is the identifier behind the
    period. *)
Definition field_align (tk : id) (x : lex) : lex :=
  match lexer_peek_if T_EQUAL x with
  | (Some equal, x) => if has_tabs (x_heap x) equal then set_heap (move_suffixes_if equal tk T_SPACE (x_heap x)) x else x
  | (None, x) => x
  end.
