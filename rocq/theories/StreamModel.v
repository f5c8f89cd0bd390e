(** Model of the token store (token.h, token.c, clang.c) and of the token stream with
    look-ahead (lexer.c).

    Tokens live in a heap indexed by identifiers.  The intrusive lists of list.h are lists
    of identifiers here; QueueModel covers the pointer level.  Undefined behaviour, failed
    assertions and exhausted loop fuel set the sticky flag [x_bad]. *)
From Verif Require Import Base TokenModel.

Notation id := nat.

(** struct token (token.h) and struct clang_token (clang.c:38-47).  Not modelled: the
    private size, tk_off and the identifier class.  [n_live] is cleared by arena_poison. *)
Record node : Set := Node {
  n_type : ttype; n_flags : N; n_lno : nat; n_cno : nat; n_str : bytes;
  n_refs : nat; n_live : bool;
  n_pre : list id; n_suf : list id;
  n_pv : option id; n_nx : option id; n_parent : option id
}.
Definition set_type x n := Node x (n_flags n) (n_lno n) (n_cno n) (n_str n) (n_refs n) (n_live n) (n_pre n) (n_suf n) (n_pv n) (n_nx n) (n_parent n).
Definition set_flags x n := Node (n_type n) x (n_lno n) (n_cno n) (n_str n) (n_refs n) (n_live n) (n_pre n) (n_suf n) (n_pv n) (n_nx n) (n_parent n).
Definition set_pos l c n := Node (n_type n) (n_flags n) l c (n_str n) (n_refs n) (n_live n) (n_pre n) (n_suf n) (n_pv n) (n_nx n) (n_parent n).
Definition set_refs x n := Node (n_type n) (n_flags n) (n_lno n) (n_cno n) (n_str n) x (n_live n) (n_pre n) (n_suf n) (n_pv n) (n_nx n) (n_parent n).
Definition set_live x n := Node (n_type n) (n_flags n) (n_lno n) (n_cno n) (n_str n) (n_refs n) x (n_pre n) (n_suf n) (n_pv n) (n_nx n) (n_parent n).
Definition set_pre x n := Node (n_type n) (n_flags n) (n_lno n) (n_cno n) (n_str n) (n_refs n) (n_live n) x (n_suf n) (n_pv n) (n_nx n) (n_parent n).
Definition set_suf x n := Node (n_type n) (n_flags n) (n_lno n) (n_cno n) (n_str n) (n_refs n) (n_live n) (n_pre n) x (n_pv n) (n_nx n) (n_parent n).
Definition set_pv x n := Node (n_type n) (n_flags n) (n_lno n) (n_cno n) (n_str n) (n_refs n) (n_live n) (n_pre n) (n_suf n) x (n_nx n) (n_parent n).
Definition set_nx x n := Node (n_type n) (n_flags n) (n_lno n) (n_cno n) (n_str n) (n_refs n) (n_live n) (n_pre n) (n_suf n) (n_pv n) x (n_parent n).
Definition set_parent x n := Node (n_type n) (n_flags n) (n_lno n) (n_cno n) (n_str n) (n_refs n) (n_live n) (n_pre n) (n_suf n) (n_pv n) (n_nx n) x.

Definition heap := id -> node.
Definition upd (h : heap) (i : id) (n : node) : heap := fun j => if j =? i then n else h j.

(** struct lexer (lexer.c:29-54): the list of tokens, the state (st_tk and the error flag),
    the peek depth and the messages given to error.c ([x_log], newest first).  [x_next] is
    the next unused identifier. *)
Record lex : Type := Lex {
  x_heap : heap; x_next : id; x_toks : list id;
  x_cur : option id; x_err : bool; x_peek : nat; x_log : list id; x_bad : bool
}.
Definition set_heap a x := Lex a (x_next x) (x_toks x) (x_cur x) (x_err x) (x_peek x) (x_log x) (x_bad x).
Definition set_next a x := Lex (x_heap x) a (x_toks x) (x_cur x) (x_err x) (x_peek x) (x_log x) (x_bad x).
Definition set_toks a x := Lex (x_heap x) (x_next x) a (x_cur x) (x_err x) (x_peek x) (x_log x) (x_bad x).
Definition set_cur a x := Lex (x_heap x) (x_next x) (x_toks x) a (x_err x) (x_peek x) (x_log x) (x_bad x).
Definition set_err a x := Lex (x_heap x) (x_next x) (x_toks x) (x_cur x) a (x_peek x) (x_log x) (x_bad x).
Definition set_peek a x := Lex (x_heap x) (x_next x) (x_toks x) (x_cur x) (x_err x) a (x_log x) (x_bad x).
Definition set_log a x := Lex (x_heap x) (x_next x) (x_toks x) (x_cur x) (x_err x) (x_peek x) a (x_bad x).
Definition set_bad x := Lex (x_heap x) (x_next x) (x_toks x) (x_cur x) (x_err x) (x_peek x) (x_log x) true.

Definition tyof (x : lex) (i : id) : ttype := n_type (x_heap x i).
Definition flagged (f : N) (x : lex) (i : id) : bool := has_flag (n_flags (x_heap x i)) f.

(** list.h: neighbours of an element in a list. *)
Fixpoint next_of (l : list id) (i : id) : option id :=
  match l with
  | [] => None
  | a :: r => if a =? i then hd_error r else next_of r i
  end.
Fixpoint prev_from (p : option id) (l : list id) (i : id) : option id :=
  match l with
  | [] => None
  | a :: r => if a =? i then p else prev_from (Some a) r i
  end.
Definition prev_of (l : list id) (i : id) : option id := prev_from None l i.

(** clang.c:1390-1412 token_branch_find. *)
Fixpoint branch_find1 (h : heap) (l : list id) : option id :=
  match l with
  | [] => None
  | p :: r =>
      if negb (ttype_eqb (type_normalize (n_type (h p))) T_CPP_ELSE) then branch_find1 h r
      else match n_pv (h p) with
           | None => branch_find1 h r
           | Some pv =>
               if match n_parent (h p), n_parent (h pv) with
                  | Some a, Some b => a =? b
                  | None, None => true
                  | _, _ => false
                  end
               then branch_find1 h r else Some pv
           end
  end.
Definition branch_find (h : heap) (tk : id) : option id := branch_find1 h (n_pre (h tk)).

(** clang.c:734-752 clang_end_of_branch: follow the branch to its end.  [None] is undefined
    behaviour (no branch, no parent) or a cyclic branch. *)
Fixpoint branch_last (h : heap) (fuel : nat) (p : id) : option id :=
  match fuel with
  | 0 => None
  | S f => match n_nx (h p) with None => n_parent (h p) | Some q => branch_last h f q end
  end.
Definition end_of_branch (x : lex) (tk : id) : option id :=
  match branch_find (x_heap x) tk with
  | None => None
  | Some p => branch_last (x_heap x) (S (x_next x)) p
  end.

(** lexer.c:390-408 lexer_seek, lexer_seek_after. *)
Definition lexer_seek (tk : id) (x : lex) : lex := set_cur (prev_of (x_toks x) tk) x.
Definition lexer_seek_after (tk : id) (x : lex) : bool * lex :=
  match next_of (x_toks x) tk with
  | None => (false, x)
  | Some nx => (true, lexer_seek nx x)
  end.

(** lexer.c:410-445 lexer_pop.  [None] is a zero return value.  An empty list of tokens and
    a last token other than EOF are undefined behaviour here. *)
Definition lexer_pop (x : lex) : option id * lex :=
  match x_cur x with
  | None =>
      match x_toks x with
      | [] => (None, set_bad x)
      | t :: _ => (Some t, set_cur (Some t) x)
      end
  | Some c =>
      if ttype_eqb (tyof x c) T_EOF then (Some c, x)
      else if (x_peek x =? 0) && flagged F_BRANCH x c then (None, x)
      else match next_of (x_toks x) c with
           | None => (None, set_bad x)
           | Some t =>
               if flagged F_BRANCH x t then
                 if x_peek x =? 0 then (None, set_cur (Some t) x)
                 else match end_of_branch x t with
                      | None => (None, set_bad x)
                      | Some e => (Some e, set_cur (Some e) x)
                      end
               else (Some t, set_cur (Some t) x)
           end
  end.

(** lexer.c:450-469 lexer_back, lexer_back_if. *)
Definition lexer_back (x : lex) : option id := x_cur x.
Definition lexer_back_if (ty : ttype) (x : lex) : option id :=
  match lexer_back x with
  | Some t => if ttype_eqb (tyof x t) ty then Some t else None
  | None => None
  end.

(** lexer.c:566-580 lexer_peek_enter, lexer_peek_leave. *)
Definition lexer_peek_enter (x : lex) : (option id * bool) * lex :=
  ((x_cur x, x_err x), set_peek (S (x_peek x)) x).
Definition lexer_peek_leave (s : option id * bool) (x : lex) : lex :=
  let x1 := set_err (snd s) (set_cur (fst s) x) in
  match x_peek x1 with 0 => set_bad x1 | S n => set_peek n x1 end.

(** lexer.c:586-601 lexer_peek. *)
Definition lexer_peek (x : lex) : option id * lex :=
  let '(s, x1) := lexer_peek_enter x in
  let '(r, x2) := lexer_pop x1 in
  (r, lexer_peek_leave s x2).

(** lexer.c:607-617 lexer_peek_if. *)
Definition lexer_peek_if (ty : ttype) (x : lex) : option id * lex :=
  let '(r, x1) := lexer_peek x in
  match r with
  | Some t => (if ttype_eqb (tyof x1 t) ty then Some t else None, x1)
  | None => (None, x1)
  end.

(** lexer.c:623-640 lexer_if.  The state restored on a mismatch includes the error flag. *)
Definition lexer_if (ty : ttype) (x : lex) : option id * lex :=
  let '(r, x1) := lexer_pop x in
  match r with
  | None => (None, x1)
  | Some t =>
      if ttype_eqb (tyof x1 t) ty then (Some t, x1)
      else (None, set_err (x_err x) (set_cur (x_cur x) x1))
  end.

(** lexer.c:646-672 lexer_peek_if_flags, lexer_if_flags. *)
Definition lexer_peek_if_flags (f : N) (x : lex) : option id * lex :=
  let '(r, x1) := lexer_peek x in
  match r with
  | Some t => (if flagged f x1 t then Some t else None, x1)
  | None => (None, x1)
  end.
Definition lexer_if_flags (f : N) (x : lex) : option id * lex :=
  let '(r, x1) := lexer_peek_if_flags f x in
  match r with None => (None, x1) | Some _ => lexer_pop x1 end.

(** lexer.c:678-708 lexer_peek_if_pair.  The loop runs at most once per token. *)
Fixpoint pair_loop (fuel : nat) (lt rt : ttype) (np : Z) (x : lex) : option id * Z * lex :=
  match fuel with
  | 0 => (None, np, set_bad x)
  | S f =>
      let '(r, x1) := lexer_pop x in
      match r with
      | None => (None, np, x1)
      | Some t =>
          if ttype_eqb (tyof x1 t) T_EOF then (Some t, np, x1)
          else
            let p1 := (if ttype_eqb (tyof x1 t) lt then np + 1 else np)%Z in
            let p2 := (if ttype_eqb (tyof x1 t) rt then p1 - 1 else p1)%Z in
            if (p2 =? 0)%Z then (Some t, p2, x1) else pair_loop f lt rt p2 x1
      end
  end.
Definition lexer_peek_if_pair (lt rt : ttype) (x : lex) : option (id * option id) * lex :=
  let '(r, x0) := lexer_peek_if lt x in
  match r with
  | None => (None, x0)
  | Some lhs =>
      let '(s, x1) := lexer_peek_enter x0 in
      let '(t, np, x2) := pair_loop (S (length (x_toks x))) lt rt 0 x1 in
      let x3 := lexer_peek_leave s x2 in
      if (0 <? np)%Z then (None, x3) else (Some (lhs, t), x3)
  end.

(** lexer.c:714-727 lexer_if_pair. *)
Definition lexer_if_pair (lt rt : ttype) (x : lex) : option (id * option id) * lex :=
  let '(r, x1) := lexer_peek_if_pair lt rt x in
  match r with
  | None => (None, x1)
  | Some (lhs, e) => (Some (lhs, e), set_cur e x1)
  end.

(** lexer.c:733-753 lexer_peek_if_prefix_flags. *)
Definition lexer_peek_if_prefix_flags (f : N) (x : lex) : option id * lex :=
  match lexer_back x with
  | None => (None, x)
  | Some t =>
      match next_of (x_toks x) t with
      | None => (None, x)
      | Some n => (find (fun p => flagged f x p) (n_pre (x_heap x n)), x)
      end
  end.

(** lexer.c:819-833 lexer_until. *)
Fixpoint until_loop (fuel : nat) (ty : ttype) (x : lex) : option id * lex :=
  match fuel with
  | 0 => (None, set_bad x)
  | S f =>
      let '(r, x1) := lexer_pop x in
      match r with
      | None => (None, x1)
      | Some t =>
          if ttype_eqb (tyof x1 t) T_EOF then (None, x1)
          else if ttype_eqb (tyof x1 t) ty then (Some t, x1) else until_loop f ty x1
      end
  end.
Definition lexer_until (ty : ttype) (x : lex) : option id * lex :=
  until_loop (S (length (x_toks x))) ty x.

(** lexer.c:759-769 lexer_peek_until. *)
Definition lexer_peek_until (ty : ttype) (x : lex) : option id * lex :=
  let '(s, x1) := lexer_peek_enter x in
  let '(r, x2) := lexer_until ty x1 in
  (r, lexer_peek_leave s x2).

(** lexer.c:779-813 lexer_peek_until_not_nested, lexer_peek_until_comma.  The second
    component of the result is what *tk is set to. *)
Fixpoint not_nested_loop (fuel : nat) (ty : ttype) (stop : option id) (nest : Z) (x : lex) : option id * lex :=
  match fuel with
  | 0 => (None, set_bad x)
  | S f =>
      let '(r, x1) := lexer_pop x in
      match r with
      | None => (None, x1)
      | Some t =>
          if match stop with Some s => t =? s | None => false end || ttype_eqb (tyof x1 t) T_EOF then (None, x1)
          else
            let n1 := (if ttype_eqb (tyof x1 t) T_LPAREN || ttype_eqb (tyof x1 t) T_LBRACE then nest + 1
                       else if ttype_eqb (tyof x1 t) T_RPAREN || ttype_eqb (tyof x1 t) T_RBRACE then nest - 1
                       else nest)%Z in
            if ttype_eqb (tyof x1 t) ty && (n1 =? 0)%Z then (Some t, x1) else not_nested_loop f ty stop n1 x1
      end
  end.
Definition lexer_peek_until_not_nested (ty : ttype) (stop : option id) (x : lex) : (bool * option id) * lex :=
  let '(s, x1) := lexer_peek_enter x in
  let '(r, x2) := not_nested_loop (S (length (x_toks x))) ty stop 0 x1 in
  let x3 := lexer_peek_leave s x2 in
  match r with Some t => ((true, Some t), x3) | None => ((false, stop), x3) end.
Definition lexer_peek_until_comma (stop : option id) (x : lex) := lexer_peek_until_not_nested T_COMMA stop x.

(** lexer.c:835-847 lexer_peek_first, lexer_peek_last. *)
Definition lexer_peek_first (x : lex) : option id := hd_error (x_toks x).
Definition lexer_peek_last (x : lex) : option id := hd_error (rev (x_toks x)).

(** lexer.c:290-334 lexer_error: the message itself is not modelled, only the token it is
    about. *)
Definition lexer_error (ctx : id) (x : lex) : lex :=
  let x1 := set_err true x in
  if 0 <? x_peek x1 then x1 else set_log (ctx :: x_log x1) x1.

(** lexer.c:1017-1038 lexer_expect_error and lexer.c:550-565 lexer_expect_impl.  A failed
    peek leaves t NULL, which lexer_error dereferences. *)
Definition lexer_expect_error (t : option id) (x : lex) : lex :=
  if match lexer_back x with Some c => flagged F_BRANCH x c | None => false end then x
  else if x_err x then x
  else match t with Some c => lexer_error c x | None => set_bad x end.
Definition lexer_expect (ty : ttype) (x : lex) : option id * lex :=
  let '(r, x1) := lexer_if ty x in
  match r with
  | Some t => (Some t, x1)
  | None => let '(t, x2) := lexer_peek x1 in (None, lexer_expect_error t x2)
  end.

(** Parser code between lexer_peek_enter and lexer_peek_leave: any sequence of stream
    operations, nested look-aheads included.  [Cond] stands for control flow depending on
    what an operation returned. *)
Inductive prog : Type :=
| PSkip
| PPop | PIf (ty : ttype) | PIfFlags (f : N) | PIfPair (lt rt : ttype) | PUntil (ty : ttype)
| PExpect (ty : ttype) | PError (ctx : id) | PSeek (tk : id) | PSeekAfter (tk : id)
| PPeek | PPeekIf (ty : ttype) | PPeekIfFlags (f : N) | PPeekIfPair (lt rt : ttype)
| PPeekPrefix (f : N) | PPeekUntil (ty : ttype) | PPeekComma (stop : option id)
| PSeq (a b : prog)
| PCond (c : lex -> bool) (a b : prog)
| PLook (a : prog).

Fixpoint run (p : prog) (x : lex) : lex :=
  match p with
  | PSkip => x
  | PPop => snd (lexer_pop x)
  | PIf ty => snd (lexer_if ty x)
  | PIfFlags f => snd (lexer_if_flags f x)
  | PIfPair l r => snd (lexer_if_pair l r x)
  | PUntil ty => snd (lexer_until ty x)
  | PExpect ty => snd (lexer_expect ty x)
  | PError c => lexer_error c x
  | PSeek t => lexer_seek t x
  | PSeekAfter t => snd (lexer_seek_after t x)
  | PPeek => snd (lexer_peek x)
  | PPeekIf ty => snd (lexer_peek_if ty x)
  | PPeekIfFlags f => snd (lexer_peek_if_flags f x)
  | PPeekIfPair l r => snd (lexer_peek_if_pair l r x)
  | PPeekPrefix f => snd (lexer_peek_if_prefix_flags f x)
  | PPeekUntil ty => snd (lexer_peek_until ty x)
  | PPeekComma st => snd (lexer_peek_until_comma st x)
  | PSeq a b => run b (run a x)
  | PCond c a b => if c x then run a x else run b x
  | PLook a => let '(s, x1) := lexer_peek_enter x in lexer_peek_leave s (run a x1)
  end.
