(** Model of simple-stmt.c: adding and removing braces around statements. *)
From Verif Require Import Base TokenModel StreamModel TokListModel StaticModel.

(** simple-stmt.c:23-31 struct stmt.  In place of the document, [s_out] is what doc_exec()
    makes of it (DocModel). *)
Record stmt := Stmt { s_out : bytes; s_lbrace : id; s_rbrace : id; s_braces : bool; s_ignore : bool }.
Definition SIMPLE_STMT_MAX := 32.

(** token.c:224-234 token_has_cpp; simple-stmt.c:298-305 is_brace_moveable *)
Definition has_cpp (h : heap) (t : id) : bool := existsb (fun p => has_flag (n_flags (h p)) F_CPP) (n_pre (h t)).
Definition is_brace_moveable (diffparse : bool) (x : lex) (t : id) : bool :=
  if diffparse && negb (flagged F_DIFF x t) then false else negb (has_cpp (x_heap x) t).
(** simple-stmt.c:107-154, 156-173 simple_stmt_braces_enter, simple_stmt_no_braces_enter,
    simple_stmt_no_braces_leave, simple_stmt_alloc.  A statement is added once complete; in
    the source it is added first and completed later. *)
Definition stmt_enter (diffparse : bool) (x : lex) (braces : bool) (out : bytes) (lb rb : id) (ss : list stmt) : list stmt :=
  if SIMPLE_STMT_MAX <=? length ss then ss
  else ss ++ [Stmt out lb rb braces (negb (is_brace_moveable diffparse x lb) || negb (is_brace_moveable diffparse x rb))].

(** simple-stmt.c:177-197 is_stmt_empty; [None]: NULL dereference. *)
Definition opt_eqb (a b : option id) : bool := match a, b with Some a, Some b => a =? b | None, None => true | _, _ => false end.
Definition is_stmt_empty (x : lex) (n : nat) (st : stmt) : option bool :=
  let nx := next_of (x_toks x) (s_lbrace st) in
  if s_braces st then
    if opt_eqb nx (prev_of (x_toks x) (s_rbrace st)) then
      match nx with
      | None => None
      | Some t => Some ((ttype_eqb (tyof x t) T_SEMI && (n =? 1)) || opt_eqb nx (Some (s_rbrace st)))
      end
    else Some (opt_eqb nx (Some (s_rbrace st)))
  else Some (opt_eqb nx (Some (s_rbrace st)) && negb (ttype_eqb (tyof x (s_lbrace st)) T_SEMI)).

(** simple-stmt.c:307-318 strtrim; 290-294 isoneline *)
Fixpoint ltrim (s : bytes) : bytes := match s with c :: r => if isspace c then ltrim r else s | [] => [] end.
Definition strtrim (s : bytes) : bytes := rev (ltrim (rev (ltrim s))).
Definition isoneline (s : bytes) : bool := negb (existsb (fun c => c =c NL) s).

(** simple-stmt.c:199-224 simple_stmt_need_braces *)
Definition stmt_need_braces (x : lex) (n : nat) (st : stmt) : option bool :=
  match is_stmt_empty x n st with
  | None => None
  | Some true => Some true
  | Some false =>
      if isoneline (strtrim (s_out st)) then Some (s_braces st && negb (is_moveable (x_heap x) (s_rbrace st))) else Some true
  end.
(** simple-stmt.c:226-247 need_braces *)
Fixpoint need_braces (x : lex) (n : nat) (ss : list stmt) : option bool :=
  match ss with
  | [] => Some false
  | st :: ss =>
      if s_ignore st then (if s_braces st then Some true else need_braces x n ss)
      else match stmt_need_braces x n st with
           | None => None
           | Some true => Some true
           | Some false => need_braces x n ss
           end
  end.

(** The templates of the tokens { and } (clang.c:484-488, token-defs.h). *)
Definition brace_token (ty : ttype) (s : string) : node := Node ty 0 0 0 (s2b s) 1 true [] [] None None None.
(** simple-stmt.c:249-272 add_braces *)
Definition add_brace (before : id) (def : node) (all : bool) (x : lex) : option lex :=
  do pv <- prev_of (x_toks x) before;
  do (t, x) <- insert_after pv def x;
  if all then do h <- move_suffixes pv t (x_heap x); Some (set_heap h x)
  else Some (set_heap (move_suffixes_if pv t T_SPACE (x_heap x)) x).
Fixpoint add_braces (ss : list stmt) (x : lex) : option lex :=
  match ss with
  | [] => Some x
  | st :: ss =>
      if s_ignore st || s_braces st then add_braces ss x
      else
        do x <- add_brace (s_lbrace st) (brace_token T_LBRACE "{") true x;
        do x <- add_brace (s_rbrace st) (brace_token T_RBRACE "}") false x;
        add_braces ss x
  end.
(** simple-stmt.c:274-288 remove_braces *)
Fixpoint remove_braces (ss : list stmt) (x : lex) : option lex :=
  match ss with
  | [] => Some x
  | st :: ss =>
      if s_ignore st || negb (s_braces st) then remove_braces ss x
      else
        do x <- remove (s_lbrace st) x;
        do x <- remove (s_rbrace st) x;
        remove_braces ss x
  end.

(** simple-stmt.c:77-87 simple_stmt_leave *)
Definition simple_stmt_leave (ss : list stmt) (x : lex) : option lex :=
  match ss with
  | [] => Some x
  | _ => do n <- need_braces x (length ss) ss; if n then add_braces ss x else remove_braces ss x
  end.
