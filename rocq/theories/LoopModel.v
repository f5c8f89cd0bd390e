(** Model of simple-stmt-empty-loop.c and simple-stmt-switch.c: statements spelled out.

    [None] is a NULL dereference. *)
From Verif Require Import Base TokenModel StreamModel TokListModel StaticModel.

(** clang_keyword_token() of continue, break and a semicolon (clang.c:184-190, 484-488,
    token.h:11, 15). *)
Definition continue_token : node := Node T_CONTINUE 0 0 0 (s2b "continue") 1 true [] [] None None None.
Definition break_token : node := Node T_BREAK 0 0 0 (s2b "break") 1 true [] [] None None None.
Definition semi_token : node := Node T_SEMI 0 0 0 (s2b ";") 1 true [] [] None None None.

(** simple-stmt-empty-loop.c:9-24 sense_empty_loop_braces *)
Definition sense_empty (x : lex) (lb rb : id) : option bool :=
  if negb (is_moveable (x_heap x) lb) || negb (is_moveable (x_heap x) rb) then Some false
  else
    do nx <- next_of (x_toks x) lb;
    if nx =? rb then Some true
    else Some (ttype_eqb (tyof x nx) T_SEMI && is_moveable (x_heap x) nx && match next_of (x_toks x) nx with Some t => t =? rb | None => false end).

(** simple-stmt-empty-loop.c:26-37, 39-54 insert_continue, insert_semi,
    simple_stmt_empty_loop_braces *)
Definition loop_braces (x : lex) : option lex :=
  match lexer_peek_if_pair T_LBRACE T_RBRACE x with
  | (None, x) => Some x
  | (Some (lb, None), x) => None
  | (Some (lb, Some rb), x) =>
      do e <- sense_empty x lb rb;
      if negb e then Some x
      else
        do (after, x) <- insert_after lb continue_token x;
        do nx <- next_of (x_toks x) after;
        if ttype_eqb (tyof x nx) T_SEMI then Some x
        else do (_, x) <- insert_after after semi_token x; Some x
  end.

(** simple-stmt-empty-loop.c:56-66 simple_stmt_empty_loop_no_braces *)
Definition loop_no_braces (x : lex) : option lex :=
  match lexer_peek_if T_SEMI x with
  | (None, x) => Some x
  | (Some _, x) =>
      match lexer_back x with
      | None => Some x
      | Some after => do (_, x) <- insert_after after continue_token x; Some x
      end
  end.

(** parser-stmt.c:416-422, 576-582 *)
Definition empty_loop (x : lex) : option lex :=
  match lexer_peek_if T_LBRACE x with
  | (Some _, x) => loop_braces x
  | (None, x) => loop_no_braces x
  end.

(** simple-stmt-switch.c:9-38 token_move_to_next_line, simple_stmt_switch *)
Definition next_line (t : id) (x : lex) : lex := set_heap (modify (x_heap x) t (fun n => set_pos (S (n_lno n)) (n_cno n) n)) x.
Definition simple_switch (kw : id) (x : lex) : option lex :=
  if negb (ttype_eqb (tyof x kw) T_DEFAULT) then Some x
  else
    let (s, x) := lexer_peek_enter x in
    let x := lexer_seek kw x in
    let (d, x) := lexer_if T_DEFAULT x in
    let (c, x) := match d with None => (None, x) | Some _ => lexer_if T_COLON x end in
    let (e, x) := match c with None => (None, x) | Some _ => lexer_if T_SEMI x end in
    let x := lexer_peek_leave s x in
    match c, e with
    | Some colon, Some _ => do (t, x) <- insert_after colon break_token x; Some (next_line t x)
    | _, _ => Some x
    end.
