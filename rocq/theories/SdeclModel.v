(** Model of simple-decl.c: grouping and sorting of local variables.

    qsort(3) is a parameter; vectors are lists (VectorModel covers vector.c) and pointers into
    them positions.  [None] is a NULL dereference, a failed assertion or a loop running off the
    tokens.  Not modelled: tracing, allocation failure. *)
From Verif Require Import Base TokenModel StreamModel TokListModel StaticModel.
From Verif Require IncludeModel.

(** simple-decl.c:24-27 struct token_range *)
Definition range : Set := (id * id)%type.
(** simple-decl.c:29-33 TOKEN_RANGE_FOREACH, the tokens visited if none is added or removed: up
    to the last one of the range or, if that does not come, of the file. *)
Fixpoint range_list (fuel : nat) (toks : list id) (e t : id) : list id :=
  match fuel with
  | 0 => []
  | S f => t :: (if t =? e then [] else match next_of toks t with None => [] | Some u => range_list f toks e u end)
  end.
Definition over (x : lex) (r : range) : list id := range_list (length (x_toks x)) (x_toks x) (snd r) (fst r).
(** simple-decl.c:29-33 TOKEN_RANGE_FOREACH while the list changes: the next token is looked up
    before the body runs.  [A] is what the body yields for the next turn. *)
Fixpoint foreach {A} (fuel : nat) (body : id -> A -> lex -> option (A * lex)) (e t : id) (a : A) (x : lex) : option (A * lex) :=
  match fuel with
  | 0 => None
  | S f =>
      let nx := next_of (x_toks x) t in
      do (a, x) <- body t a x;
      if t =? e then Some (a, x) else match nx with None => Some (a, x) | Some u => foreach f body e u a x end
  end.

(** simple-decl.c:52-56 struct decl_var, once it is complete; [v_range] are the tokens. *)
Record dvar : Set := DVar { v_range : range; v_sort : id; v_delim : option id }.
(** simple-decl.c:73-82 struct decl_type_vars *)
Record slot : Set := Slot { s_vars : list dvar; s_kept : option id; s_fallback : option id }.
(** simple-decl.c:61-65 struct decl_type *)
Record dtype : Set := DType { t_range : range; t_slots : list slot; t_str : bytes }.
(** simple-decl.c:41-48 struct decl *)
Record decl : Set := Decl { d_slots : list nat; d_range : range; d_nkeep : nat }.
(** simple-decl.c:84-104 struct simple_decl.  [c_dt] is dt, [c_dv] are the first token and the
    delimiter of dv, [None] if it is empty (351-355 decl_var_is_empty). *)
Record sd : Set := Sd { c_empty : list decl; c_types : list dtype; c_dt : option nat; c_dv : option (id * option id) }.
(** simple-decl.c:120-135 simple_decl_enter *)
Definition sd_init : sd := Sd [] [] None None.

(** token.c:354-369 token_is_decl *)
Definition is_decl (x : lex) (tk : id) (ty : ttype) : bool :=
  match next_of (x_toks x) tk with
  | None => false
  | Some nx =>
      if negb (ttype_eqb (tyof x nx) T_LBRACE) then false
      else if ttype_eqb (tyof x tk) T_IDENT then
        match prev_of (x_toks x) tk with None => false | Some p => ttype_eqb (tyof x p) ty end
      else ttype_eqb (tyof x tk) ty
  end.
(** simple-decl.c:207-235 is_type_valid *)
Definition is_type_valid (x : lex) (beg fin : id) : bool :=
  if (beg =? fin) && (is_decl x beg T_STRUCT || is_decl x beg T_UNION) then false
  else forallb (fun t => is_moveable (x_heap x) t && negb (ttype_eqb (tyof x t) T_LPAREN) && negb (ttype_eqb (tyof x t) T_LBRACE)) (over x (beg, fin)).

(** simple-decl.c:318-335 token_range_str; the texts have no NUL. *)
Fixpoint joined (l : list bytes) : bytes := match l with [] => [] | [s] => s | s :: l => s ++ SP :: joined l end.
Definition is_star (x : lex) (t : id) : bool := ttype_eqb (tyof x t) T_STAR.
Definition range_str (x : lex) (r : range) : bytes :=
  joined (List.map (fun t => n_str (x_heap x t)) (filter (fun t => negb (is_star x t)) (over x r))).

(** simple-decl.c:406-418 simple_decl_type_find *)
Fixpoint type_find (str : bytes) (l : list dtype) (i : nat) : option nat :=
  match l with
  | [] => None
  | t :: l => if list_eq_dec ascii_dec (t_str t) str then Some i else type_find str l (S i)
  end.
(** simple-decl.c:375-404 simple_decl_type_create *)
Definition type_create (x : lex) (str : bytes) (r : range) (l : list dtype) : option (nat * list dtype) :=
  match type_find str l 0 with
  | Some i => Some (i, l)
  | None =>
      do e <- hd_error (rev (filter (fun t => negb (is_star x t)) (over x r)));
      Some (length l, l ++ [DType (fst r, e) [] str])
  end.
(** simple-decl.c:254-256: the first token before [t] that is no star *)
Fixpoint back_stars (fuel : nat) (x : lex) (t : id) : option id :=
  match fuel with
  | 0 => None
  | S f => if is_star x t then do p <- prev_of (x_toks x) t; back_stars f x p else Some t
  end.
(** simple-decl.c:237-266 simple_decl_type *)
Definition sd_type (x : lex) (beg fin : id) (s : sd) : option sd :=
  if negb (is_type_valid x beg fin) then Some s
  else
    do (i, types) <- type_create x (range_str x (beg, fin)) (beg, fin) (c_types s);
    do e <- back_stars (S (length (x_toks x))) x fin;
    Some (Sd (c_empty s ++ [Decl [] (beg, fin) 0]) types (Some i) (option_map (fun b => (b, None)) (next_of (x_toks x) e))).

(** simple-decl.c:561-614 classify: whether the variable may be moved and its slot. *)
Fixpoint classify_loop (x : lex) (l : list id) (nident nstars nsquares : nat) (error : bool) : bool * nat :=
  let fin nident nstars nsquares error := (negb error && (0 <? nident), if 0 <? nsquares then 4 else nstars) in
  match l with
  | [] => fin nident nstars nsquares error
  | t :: l =>
      let error' := error || negb (is_moveable (x_heap x) t) in
      if ttype_eqb (tyof x t) T_STAR then classify_loop x l nident (S nstars) nsquares error'
      else if ttype_eqb (tyof x t) T_IDENT then classify_loop x l (S nident) nstars nsquares error'
      else if ttype_eqb (tyof x t) T_LSQUARE then classify_loop x l nident nstars (S nsquares) true
      else if ttype_eqb (tyof x t) T_EQUAL then fin nident nstars nsquares true
      else classify_loop x l nident nstars nsquares true
  end.
Definition classify (x : lex) (r : range) : bool * nat := classify_loop x (over x r) 0 0 0 false.

(** simple-decl.c:357-370 decl_type_slot: there are slots up to [n]. *)
Definition grow (n : nat) (l : list slot) : list slot := l ++ repeat (Slot [] None None) (S n - length l).
Definition change {A} (i : nat) (f : A -> A) (l : list A) : list A :=
  match nth_error l i with Some a => firstn i l ++ f a :: skipn (S i) l | None => l end.
(** simple-decl.c:523-559 associate_semi *)
Definition set_kept (semi : id) (s : slot) : slot := Slot (s_vars s) (Some semi) (s_fallback s).
Fixpoint first_kept (l : list slot) : option id :=
  match l with [] => None | s :: l => match s_kept s with Some k => Some k | None => first_kept l end end.
Fixpoint place (semi : id) (l : list slot) : list slot :=
  match l with
  | [] => []
  | s :: l =>
      match s_kept s with
      | Some _ => s
      | None =>
          match first_kept l with
          | Some k => Slot (s_vars s) (Some k) (s_fallback s)
          | None => Slot (s_vars s) None (match s_fallback s with None => Some semi | f => f end)
          end
      end :: place semi l
  end.
Definition associate_semi (ks : list nat) (semi : id) (l : list slot) : list slot :=
  place semi (fold_right (fun k l => change k (set_kept semi) l) l ks).

(** simple-decl.c:458-521 simple_decl_var_end: the slot of the variable unless it stays. *)
Definition var_end (x : lex) (fin : id) (s : sd) : option (option nat * sd) :=
  do dc <- hd_error (rev (c_empty s));
  do (b, delim) <- c_dv s;
  do e <- prev_of (x_toks x) fin;
  do i <- c_dt s;
  do dt <- nth_error (c_types s) i;
  let (ok, n) := classify x (b, e) in
  let keep := negb ok || negb (is_moveable (x_heap x) fin) in
  let slots := grow n (t_slots dt) in
  let ks := if keep then d_slots dc ++ [n] else d_slots dc in
  let semi := ttype_eqb (tyof x fin) T_SEMI in
  let slots := if semi then associate_semi ks fin slots else slots in
  let dc := Decl (if semi then [] else ks) (d_range dc) (if keep then S (d_nkeep dc) else d_nkeep dc) in
  let empty := removelast (c_empty s) ++ [dc] in
  if keep then Some (None, Sd empty (change i (fun t => DType (t_range t) slots (t_str t)) (c_types s)) (c_dt s) (c_dv s))
  else
    do sort <- find (fun t => ttype_eqb (tyof x t) T_IDENT) (over x (b, e));
    let slots := change n (fun sl => Slot (s_vars sl ++ [DVar (b, e) sort delim]) (s_kept sl) (s_fallback sl)) slots in
    Some (Some n, Sd empty (change i (fun t => DType (t_range t) slots (t_str t)) (c_types s)) (c_dt s) (c_dv s)).

(** simple-decl.c:268-291 simple_decl_semi *)
Definition sd_semi (x : lex) (semi : id) (s : sd) : option sd :=
  match c_dv s with
  | None => Some s
  | Some _ =>
      do (_, s) <- var_end x semi s;
      do dc <- hd_error (rev (c_empty s));
      Some (Sd (removelast (c_empty s) ++ (if d_nkeep dc =? 0 then [Decl (d_slots dc) (fst (d_range dc), semi) 0] else [])) (c_types s) None None)
  end.

(** simple-decl.c:293-316 simple_decl_comma; 303-304: the delimiter of the variable that was just
    put last in its slot. *)
Definition last_delim (comma : id) (l : list dvar) : list dvar :=
  removelast l ++ match rev l with v :: _ => [DVar (v_range v) (v_sort v) (Some comma)] | [] => [] end.
Definition sd_comma (x : lex) (comma : id) (s : sd) : option sd :=
  match c_dv s with
  | None => Some s
  | Some (_, d) =>
      do (r, s) <- var_end x comma s;
      let (types, delim) :=
        match r, d, c_dt s with
        | Some n, None, Some i =>
            (change i (fun t => DType (t_range t) (change n (fun sl => Slot (last_delim comma (s_vars sl)) (s_kept sl) (s_fallback sl)) (t_slots t)) (t_str t)) (c_types s), None)
        | _, _, _ => (c_types s, if is_moveable (x_heap x) comma then Some comma else None)
        end in
      Some (Sd (c_empty s) types (c_dt s) (option_map (fun b => (b, delim)) (next_of (x_toks x) comma)))
  end.

(** clang_keyword_token() of a comma and of a semicolon (clang.c:484-488, token-defs.h). *)
Definition comma_token : node := Node T_COMMA 0 0 0 (s2b ",") 1 true [] [] None None None.
Definition semi_token : node := Node T_SEMI 0 0 0 (s2b ";") 1 true [] [] None None None.

(** simple-decl.c:429-447, the loops of simple_decl_move_vars: copy the type, move the variables.
    The last token put in place and the stream. *)
Definition copy_type (r : range) (after : id) (x : lex) : option (id * lex) :=
  foreach (length (x_toks x)) (fun t after x => copy_after after t x) (snd r) (fst r) after x.
Definition move_ident (r : range) (after : id) (x : lex) : option (id * lex) :=
  foreach (length (x_toks x)) (fun t after x => do x <- move_after after t x; Some (t, x)) (snd r) (fst r) after x.
Fixpoint move_idents (first : bool) (vs : list dvar) (after : id) (x : lex) : option (id * lex) :=
  match vs with
  | [] => Some (after, x)
  | v :: vs =>
      do x <- match v_delim v with Some d => remove d x | None => Some x end;
      do (after, x) <- (if first then Some (after, x) else insert_after after comma_token x);
      do (after, x) <- move_ident (v_range v) after x;
      move_idents false vs after x
  end.
(** simple-decl.c:420-449 simple_decl_move_vars *)
Definition move_vars (t : dtype) (vs : list dvar) (after : id) (x : lex) : option (id * lex) :=
  do (after, x) <- copy_type (t_range t) after x;
  do (after, x) <- move_idents true vs after x;
  insert_after after semi_token x.

(** simple-decl.c:345-349 decl_var_cmp *)
Definition var_cmp (h : heap) (a b : dvar) : Z := IncludeModel.token_strcmp (n_str (h (v_sort a))) (n_str (h (v_sort b))).

Section Leave.
Variable qsort : forall A, (A -> A -> Z) -> list A -> list A.

(** simple-decl.c:149-167: one slot *)
Definition leave_slot (t : dtype) (sl : slot) (x : lex) : option lex :=
  match s_vars sl with
  | [] => Some x
  | _ =>
      do semi <- match s_kept sl with Some k => Some k | None => s_fallback sl end;
      if negb (ttype_eqb (tyof x semi) T_SEMI) then None
      else
        do (after, x) <- move_vars t (qsort dvar (var_cmp (x_heap x)) (s_vars sl)) semi x;
        Some (set_heap (move_suffixes_if semi after T_SPACE (x_heap x)) x)
  end.
Fixpoint leave_slots (t : dtype) (l : list slot) (x : lex) : option lex :=
  match l with [] => Some x | sl :: l => do x <- leave_slot t sl x; leave_slots t l x end.
Fixpoint leave_types (l : list dtype) (x : lex) : option lex :=
  match l with [] => Some x | t :: l => do x <- leave_slots t (t_slots t) x; leave_types l x end.
(** simple-decl.c:171-176: declarations left empty *)
Fixpoint remove_empty (l : list decl) (x : lex) : option lex :=
  match l with
  | [] => Some x
  | d :: l =>
      do (_, x) <- foreach (length (x_toks x)) (fun t (_ : unit) x => do x <- remove t x; Some (tt, x)) (snd (d_range d)) (fst (d_range d)) tt x;
      remove_empty l x
  end.
(** simple-decl.c:137-177 simple_decl_leave *)
Definition sd_leave (s : sd) (x : lex) : option lex :=
  do x <- leave_types (c_types s) x; remove_empty (c_empty s) x.

(** The calls made while a block of declarations is read (parser-decl.c:198-199, 263-264,
    304-305) and parser-decl.c:525-526. *)
Inductive call : Set := CType (beg fin : id) | CComma (t : id) | CSemi (t : id).
Definition step (x : lex) (c : call) (s : sd) : option sd :=
  match c with CType b e => sd_type x b e s | CComma t => sd_comma x t s | CSemi t => sd_semi x t s end.
Fixpoint collect (x : lex) (cs : list call) (s : sd) : option sd :=
  match cs with [] => Some s | c :: cs => do s <- step x c s; collect x cs s end.
Definition simple_decl (cs : list call) (x : lex) : option lex :=
  do s <- collect x cs sd_init; sd_leave s x.
End Leave.
