(** Model of simple-decl-proto.c: names of arguments in prototypes.

    Vectors are lists (VectorModel covers vector.c).  [None] is a failed assertion or a NULL
    dereference.  Not modelled: allocation failure. *)
From Verif Require Import Base TokenModel StreamModel TokListModel.

(** simple-decl-proto.c:14-24 struct simple_decl_proto, struct argument *)
Record proto : Set := Proto { p_args : list (option id); p_ignore : bool }.
(** simple-decl-proto.c:26-36 simple_decl_proto_enter *)
Definition proto_init : proto := Proto [] false.

(** simple-decl-proto.c:73-78 simple_decl_proto_arg *)
Definition proto_arg (s : proto) : proto := Proto (p_args s ++ [None]) (p_ignore s).

(** simple-decl-proto.c:80-94 simple_decl_proto_arg_ident *)
Definition proto_ident (x : lex) (t : id) (s : proto) : option proto :=
  match p_args s with
  | [] => None
  | _ =>
      do pv <- prev_of (x_toks x) t;
      if ttype_eqb (tyof x pv) T_STAR || flagged F_TYPE x pv || flagged F_QUALIFIER x pv
      then Some (Proto (removelast (p_args s) ++ [Some t]) (p_ignore s))
      else Some (Proto (p_args s) true)
  end.

(** simple-decl-proto.c:38-63 simple_decl_proto_leave *)
Definition unnamed (a : option id) : bool := match a with None => true | Some _ => false end.
Fixpoint remove_names (l : list (option id)) (x : lex) : option lex :=
  match l with
  | [] => Some x
  | None :: l => remove_names l x
  | Some t :: l => do x <- remove t x; remove_names l x
  end.
Definition proto_leave (s : proto) (x : lex) : option lex :=
  if p_ignore s then Some x
  else
    let nargs := length (p_args s) in
    let nunnamed := length (filter unnamed (p_args s)) in
    if (nunnamed =? 0) || (nargs =? nunnamed) then Some x
    else remove_names (p_args s) x.

(** The calls made while a prototype is read (parser-func.c:206-207, 259-263) and
    parser-func.c:146-173: the tokens do not change while it is read. *)
Inductive pcall : Set := CArg | CIdent (t : id).
Definition pstep (x : lex) (c : pcall) (s : proto) : option proto :=
  match c with CArg => Some (proto_arg s) | CIdent t => proto_ident x t s end.
Fixpoint pcollect (x : lex) (cs : list pcall) (s : proto) : option proto :=
  match cs with [] => Some s | c :: cs => do s <- pstep x c s; pcollect x cs s end.
Definition simple_proto (cs : list pcall) (x : lex) : option lex :=
  do s <- pcollect x cs proto_init; proto_leave s x.
