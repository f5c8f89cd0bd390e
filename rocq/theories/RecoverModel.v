(** Model of how clang.c goes on after a syntax error or at the end of the first branch of a
    conditional: taking the next branch (clang_branch), and recovering by turning a branch
    into a prefix (clang_recover).

    [None] is undefined behaviour, a failed assertion or a loop that does not end.  The
    references that clang_branch, clang_recover and clang_branch_fold take on tokens at their
    start and release at their end are not modelled: in the model the fields of a token that
    is no longer referenced can still be read.  Offsets (tk_off) are a function besides the
    heap; the text of a directive is read from the input at its offset. *)
From Verif Require Import Base TokenModel StreamModel TokListModel BranchModel.

(** token.c:406-410 token_is_dangling. *)
Definition is_dangling (x : lex) (t : id) : bool := negb (existsb (Nat.eqb t) (x_toks x)).

(** clang.c:754-766 clang_last_stamped; the last stamp is first in the list. *)
Definition last_stamped (x : lex) (stamps : list id) : option id :=
  find (fun t => negb (is_dangling x t)) stamps.

(** clang.c:319-328 and 401-408: to the given stamp, or to the first token. *)
Definition rewind (seek : option id) (x : lex) : bool * lex :=
  match seek with
  | Some t => lexer_seek_after t x
  | None => match lexer_peek_first x with
            | Some t => (true, lexer_seek t x)
            | None => (false, x)
            end
  end.

(** clang.c:300-311 the loop of clang_branch. *)
Fixpoint remove_until (fuel : nat) (rm dst : id) (x : lex) : option lex :=
  match fuel with
  | 0 => None
  | S f =>
      do nx <- next_of (x_toks x) rm;
      do x <- remove_token rm x;
      if nx =? dst then Some x else remove_until f nx dst x
  end.

(** clang.c:273-336 clang_branch: the result, the token to unmute at if set, the stream. *)
Definition take_branch (x : lex) (stamps : list id) : option (bool * option id * lex) :=
  match lexer_back x with
  | None => Some (false, None, x)
  | Some back =>
      match branch_find (x_heap x) back with
      | None => Some (false, None, x)
      | Some cpp_src =>
          do src <- n_parent (x_heap x cpp_src);
          do cpp_dst <- n_nx (x_heap x cpp_src);
          do dst <- n_parent (x_heap x cpp_dst);
          do h <- branch_unlink cpp_src (x_heap x);
          do x <- remove_until (length (x_toks x)) src dst (set_heap h x);
          let (ok, x) := rewind (last_stamped x stamps) x in
          Some (ok, Some dst, x)
      end
  end.

Definition ideqb (a b : option id) : bool :=
  match a, b with
  | Some a, Some b => a =? b
  | None, None => true
  | _, _ => false
  end.

(** clang.c:779-801 the inner loop of clang_recover_find_branch, on the prefixes from the
    last to the first. *)
Fixpoint find_prefix (h : heap) (l : list id) : option (option id) :=
  match l with
  | [] => Some None
  | p :: l =>
      let try br :=
        do nx <- n_nx (h br);
        if ideqb (n_parent (h br)) (n_parent (h nx)) then find_prefix h l else Some (Some br) in
      match norm h p with
      | T_CPP_IF | T_CPP_ELSE => try p
      | T_CPP_ENDIF => do br <- n_pv (h p); try br
      | _ => find_prefix h l
      end
  end.

(** clang.c:768-812 clang_recover_find_branch. *)
Fixpoint find_branch (fuel : nat) (tk : id) (threshold : option id) (forward : bool) (x : lex) : option (option id) :=
  match fuel with
  | 0 => None
  | S f =>
      do r <- find_prefix (x_heap x) (rev (n_pre (x_heap x tk)));
      match r with
      | Some br => Some (Some br)
      | None =>
          match (if forward then next_of (x_toks x) tk else prev_of (x_toks x) tk) with
          | None => Some None
          | Some tk => if ideqb (Some tk) threshold then Some None else find_branch f tk threshold forward x
          end
      end
  end.

(** clang.c:847-861 the first loop of clang_branch_fold: prefixes up to and including
    [last]. *)
Fixpoint drop_through (fuel : nat) (tk last : id) (h : heap) : option heap :=
  match n_pre (h tk) with
  | [] => Some h
  | p :: _ =>
      match fuel with
      | 0 => None
      | S f =>
          do h <- branch_unlink p h;
          do h <- drop_prefix tk p h;
          if p =? last then Some h else drop_through f tk last h
      end
  end.

(** clang.c:868-880: prefixes before the directive, the last one first. *)
Fixpoint keep_before (fuel : nat) (pv : option id) (src dst : id) (h : heap) : option heap :=
  match pv with
  | None => Some h
  | Some p =>
      match fuel with
      | 0 => None
      | S f =>
          let tmp := prev_of (n_pre (h src)) p in
          do h <- move_prefix p src dst h;
          keep_before f tmp src dst h
      end
  end.

(** clang.c:887-898: tokens up to the destination; stops behind a dangling token. *)
Fixpoint remove_covered (fuel : nat) (rm dst : id) (x : lex) : option lex :=
  if rm =? dst then Some x
  else match fuel with
  | 0 => None
  | S f =>
      let dangling := is_dangling x rm in
      let nx := next_of (x_toks x) rm in
      do x <- remove_token rm x;
      if dangling then Some x else do nx <- nx; remove_covered f nx dst x
  end.

(** The part of the input from [off] of length [len]. *)
Definition piece (buf : bytes) (off len : nat) : bytes := firstn len (skipn off buf).

(** clang.c:816-909 clang_branch_fold, lexer.c:252-271 lexer_emit_template.  The column and
    the flag of lines in a diff are not modelled.  The new offsets are returned. *)
Definition branch_fold (buf : bytes) (off : id -> nat) (cpp_src : id) (x : lex) : option (lex * (id -> nat) * id) :=
  let h := x_heap x in
  do src <- n_parent (h cpp_src);
  do cpp_dst <- n_nx (h cpp_src);
  do dst <- n_parent (h cpp_dst);
  let len := off cpp_dst + length (n_str (h cpp_dst)) - off cpp_src in
  let (prefix, x) := token_alloc (Node T_CPP F_CPP (n_lno (h cpp_src)) (n_cno (h cpp_src)) (piece buf (off cpp_src) len)
                                    1 true [] [] None None None) x in
  let off := fun i => if i =? prefix then off cpp_src else off i in
  do h <- drop_through (length (n_pre (x_heap x dst))) dst cpp_dst (x_heap x);
  let h := modify h dst (fun n => set_pre (prefix :: n_pre n) n) in
  do h <- keep_before (length (n_pre (h src))) (prev_of (n_pre (h src)) cpp_src) src dst h;
  do x <- remove_covered (length (x_toks x)) src dst (set_heap h x);
  Some (x, off, dst).

(** clang.c:376-381 and 392-399: stamps from the last one to the first one in front of the
    branch.  token.c:189-198 token_cmp compares lines. *)
Definition in_front (x : lex) (line : nat) (t : id) : bool := negb (is_dangling x t) && (n_lno (x_heap x t) <? line).
Fixpoint count_behind (x : lex) (line : nat) (stamps : list id) : nat :=
  match stamps with
  | [] => 0
  | t :: l => if in_front x line t then 0 else S (count_behind x line l)
  end.

(** clang.c:338-412 clang_recover: the number of documents to remove (0 if it failed), the
    token to unmute at if set, the stream and the offsets. *)
Definition recover (buf : bytes) (off : id -> nat) (x : lex) (stamps : list id) : option (nat * option id * lex * (id -> nat)) :=
  match (match lexer_back x with Some t => Some t | None => lexer_peek_first x end) with
  | None => Some (0, None, x, off)
  | Some back =>
      let stamp := last_stamped x stamps in
      let fuel := S (length (x_toks x)) in
      do r <- find_branch fuel back stamp false x;
      do r <- match r with None => find_branch fuel back stamp true x | Some _ => Some r end;
      match r with
      | None => Some (0, None, x, off)
      | Some cpp_src =>
          let line := n_lno (x_heap x cpp_src) in
          let ndocs := 1 + count_behind x line stamps in
          do (x, off, dst) <- branch_fold buf off cpp_src x;
          let (ok, x) := rewind (find (in_front x line) stamps) x in
          Some (if ok then ndocs else 0, Some dst, x, off)
      end
  end.

(** parser.c:137-170 the loop of parser_exec, for one declaration each.  The parser itself
    is not modelled here: [t] is the token it stopped at.  A document is represented by the
    last token it was made from; the last document is first in the list. *)
Record loop := Loop { l_lex : lex; l_stamps : list id; l_off : id -> nat; l_docs : list id }.
(** parser.c:150-154: a declaration was parsed. *)
Definition loop_good (t : id) (l : loop) : loop :=
  let (x, s) := stamp (set_cur (Some t) (l_lex l)) (l_stamps l) in
  Loop x s (l_off l) (t :: l_docs l).
(** parser.c:159-169 and doc.c:407-418 doc_remove_tail: a syntax error.  Without recovery the
    loop ends (second component false). *)
Definition loop_fail (buf : bytes) (t : id) (l : loop) : option (bool * loop) :=
  do (r, _, x, off) <- recover buf (l_off l) (set_cur (Some t) (l_lex l)) (l_stamps l);
  Some (0 <? r, Loop x (l_stamps l) off (skipn r (t :: l_docs l))).
