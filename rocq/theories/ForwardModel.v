(** Model of simple-decl-forward.c: sorting of forward declarations.

    qsort(3) is a parameter, the vector of declarations is a list (VectorModel covers vector.c).
    [None] is a NULL dereference, a failed assertion or a loop running off the tokens. *)
From Verif Require Import Base TokenModel StreamModel TokListModel.
From Verif Require IncludeModel.

(** simple-decl-forward.c:22-26 struct decl_forward, 15-20 struct simple_decl_forward. *)
Record decl : Set := Decl { d_beg : id; d_ident : id; d_semi : id }.
Record fwd : Set := Fwd { f_decls : list decl; f_after : option id }.
(** simple-decl-forward.c:28-40 simple_decl_forward_enter, 48-53 simple_decl_forward_reset. *)
Definition fwd_init : fwd := Fwd [] None.

(** simple-decl-forward.c:42-46 decl_forward_cmp; token.c:200-219 token_strcmp. *)
Definition decl_cmp (h : heap) (a b : decl) : Z :=
  IncludeModel.token_strcmp (n_str (h (d_ident a))) (n_str (h (d_ident b))).

(** simple-decl-forward.c:98-109: one declaration is moved, the last token moved is returned. *)
Fixpoint move_decl (fuel : nat) (after tk semi : id) (x : lex) : option (id * lex) :=
  match fuel with
  | 0 => None
  | S f =>
      let nx := next_of (x_toks x) tk in
      do x <- move_after after tk x;
      if tk =? semi then Some (tk, x)
      else do tk' <- nx; move_decl f tk tk' semi x
  end.
(** simple-decl-forward.c:97-110: the loop over the declarations. *)
Fixpoint move_decls (ds : list decl) (after : id) (x : lex) : option lex :=
  match ds with
  | [] => Some x
  | d :: ds => do (after, x) <- move_decl (length (x_toks x)) after (d_beg d) (d_semi d) x; move_decls ds after x
  end.

(** simple-decl-forward.c:124-149 is_forward_decl: [ts] is a row of the table up to TOKEN_NONE. *)
Definition forward_types : list (list ttype) :=
  [[T_TYPEDEF; T_STRUCT; T_IDENT; T_IDENT; T_SEMI]; [T_STRUCT; T_IDENT; T_SEMI]].
Fixpoint match_types (toks : list id) (h : heap) (fin : id) (ts : list ttype) (tk : id) : option bool :=
  match ts with
  | [] => Some false
  | t :: ts =>
      if negb (ttype_eqb (n_type (h tk)) t) then Some false
      else if tk =? fin then Some true
      else match ts, next_of toks tk with
           | [], _ => Some false
           | _, None => None
           | _, Some tk => match_types toks h fin ts tk
           end
  end.
Fixpoint match_any (toks : list id) (h : heap) (fin : id) (l : list (list ttype)) (tk : id) : option bool :=
  match l with
  | [] => Some false
  | ts :: l => do b <- match_types toks h fin ts tk; if b : bool then Some true else match_any toks h fin l tk
  end.
Definition is_forward_decl (x : lex) (beg fin : id) : option bool :=
  match_any (x_toks x) (x_heap x) fin forward_types beg.

(** simple-decl-forward.c:151-159 find_ident; the token read by decl_forward_cmp() is not NULL. *)
Definition find_ident (x : lex) (tk : id) : option id :=
  do tk <- (if ttype_eqb (tyof x tk) T_TYPEDEF then next_of (x_toks x) tk else Some tk);
  if ttype_eqb (tyof x tk) T_STRUCT then next_of (x_toks x) tk else None.

(** simple-decl-forward.c:161-174 is_covered_by_diff. *)
Fixpoint is_covered (fuel : nat) (x : lex) (tk fin : id) : option bool :=
  match fuel with
  | 0 => None
  | S f =>
      if negb (flagged F_DIFF x tk) then Some false
      else if tk =? fin then Some true
      else do tk <- next_of (x_toks x) tk; is_covered f x tk fin
  end.

Section Forward.
Variable qsort : forall A, (A -> A -> Z) -> list A -> list A.

(** simple-decl-forward.c:75-114 simple_decl_forward_leave; the fallback of first_token() and
    last_token() is not reached. *)
Definition leave (f : fwd) (x : lex) : option (fwd * lex) :=
  let ds := f_decls f in
  match ds with
  | d0 :: _ :: _ =>
      let ss := qsort decl (decl_cmp (x_heap x)) ds in
      let fu := d_beg d0 in
      let lu := d_semi (last ds d0) in
      do fs <- hd_error ss;
      let fs := d_beg fs in
      let ls := d_semi (last ss d0) in
      do h <- (if fu =? fs then Some (x_heap x) else move_prefixes fu fs (x_heap x));
      let h := if lu =? ls then h else move_suffixes_if lu ls T_SPACE h in
      do after <- f_after f;
      do x <- move_decls ss after (set_heap h x);
      Some (fwd_init, x)
  | _ => Some (fwd_init, x)
  end.

(** simple-decl-forward.c:170-198 simple_decl_forward. *)
Definition forward (diffparse : bool) (beg semi : id) (f : fwd) (x : lex) : option (fwd * lex) :=
  do b <- is_forward_decl x beg semi;
  if negb b then leave f x
  else
    do c <- (if diffparse then is_covered (length (x_toks x)) x beg semi else Some true);
    if negb c then Some (f, x)
    else
      do i <- find_ident x beg;
      Some (Fwd (f_decls f ++ [Decl beg i semi]) (match f_after f with None => Some semi | a => a end), x).

(** The declarations of a block one after the other, then parser-decl.c:557-558. *)
Fixpoint forwards (diffparse : bool) (cs : list (id * id)) (f : fwd) (x : lex) : option (fwd * lex) :=
  match cs with
  | [] => leave f x
  | (beg, semi) :: cs => do (f, x) <- forward diffparse beg semi f x; forwards diffparse cs f x
  end.
End Forward.
