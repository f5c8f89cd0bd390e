(** Model of simple-static.c and simple-implicit-int.c. *)
From Verif Require Import Base TokenModel StreamModel TokListModel.

(** token.c:374-389 token_is_moveable; token_list_find() without flags. *)
Definition is_moveable (h : heap) (t : id) : bool :=
  forallb (fun p => negb (ttype_eqb (n_type (h p)) T_COMMENT || has_flag (n_flags (h p)) F_CPP)) (n_pre (h t)) &&
  negb (existsb (fun s => ttype_eqb (n_type (h s)) T_COMMENT) (n_suf (h t))).

(** simple-static.c:8-21 find_static_token: [None] is running off the list (NULL
    dereference). *)
Fixpoint find_static_token (fuel : nat) (toks : list id) (h : heap) (tk fin : id) : option (option id) :=
  match fuel with
  | 0 => None
  | S f =>
      if ttype_eqb (n_type (h tk)) T_STATIC then Some (Some tk)
      else if tk =? fin then Some None
      else match next_of toks tk with None => None | Some t => find_static_token f toks h t fin end
  end.

(** simple-static.c:23-35 simple_static: the new end and the stream. *)
Definition simple_static (beg fin : id) (x : lex) : option (option id * lex) :=
  match find_static_token (length (x_toks x)) (x_toks x) (x_heap x) beg fin with
  | None => None
  | Some None => Some (Some fin, x)
  | Some (Some tk) =>
      if (tk =? beg) || negb (is_moveable (x_heap x) tk) then Some (Some fin, x)
      else
        let fin' := if tk =? fin then prev_of (x_toks x) fin else Some fin in
        match move_before beg tk x with None => None | Some x => Some (fin', x) end
  end.

(** simple-implicit-int.c:9-25 is_implicit_int, simple_implicit_int; clang_keyword_token()
    gives the template of the keyword int (clang.c:184-190, token-defs.h). *)
Definition int_token : node := Node T_INT F_TYPE 0 0 (s2b "int") 1 true [] [] None None None.
Definition is_implicit_int (x : lex) (beg fin : id) (ty : ttype) : bool :=
  (beg =? fin) && ttype_eqb (tyof x beg) ty && is_moveable (x_heap x) beg.
Definition simple_implicit_int (beg fin : id) (x : lex) : option (id * lex) :=
  if negb (is_implicit_int x beg fin T_UNSIGNED) && negb (is_implicit_int x beg fin T_SIGNED) then Some (fin, x)
  else insert_after fin int_token x.
