(** Model of the operations that edit the list of tokens and the prefixes and suffixes of
    tokens (token.c, lexer.c) and of the links between preprocessor branches (clang.c).

    Operations on the heap return [None] for a failed assertion, a NULL dereference or a
    token released more often than referenced. *)
From Verif Require Import Base TokenModel UtilModel StreamModel.

Definition modify (h : heap) (i : id) (f : node -> node) : heap := upd h i (f (h i)).

Notation "'do' x <- a ; b" := (match a with Some x => b | None => None end)
  (at level 200, x pattern, a at level 100, b at level 200).

(** list.h LIST_REMOVE, LIST_INSERT_AFTER, LIST_INSERT_BEFORE; the anchors are in the list. *)
Fixpoint del (t : id) (l : list id) : list id :=
  match l with
  | [] => []
  | a :: r => if a =? t then r else a :: del t r
  end.
Fixpoint ins_after (a t : id) (l : list id) : list id :=
  match l with
  | [] => []
  | b :: r => if b =? a then b :: t :: r else b :: ins_after a t r
  end.
Fixpoint ins_before (a t : id) (l : list id) : list id :=
  match l with
  | [] => []
  | b :: r => if b =? a then t :: b :: r else b :: ins_before a t r
  end.

(** token.c:34-55 token_ref, token_rele.  Releasing the last reference releases the
    prefixes and suffixes; [fuel] bounds the depth. *)
Definition token_ref (t : id) (h : heap) : heap := modify h t (fun n => set_refs (S (n_refs n)) n).
Fixpoint token_rele (fuel : nat) (t : id) (h : heap) : option heap :=
  match fuel with
  | 0 => None
  | S fuel =>
      match n_refs (h t) with
      | 0 => None
      | S (S k) => Some (modify h t (set_refs (S k)))
      | 1 =>
          let release := fix release l h := match l with
            | [] => Some h
            | p :: r => do h <- token_rele fuel p h; release r h
            end in
          let h := modify h t (set_refs 0) in
          do h <- release (n_pre (h t)) h;
          do h <- release (n_suf (h t)) h;
          Some (modify h t (fun n => set_live false (set_pre [] (set_suf [] n))))
      end
  end.
(** Prefixes and suffixes have no prefixes and suffixes themselves. *)
Definition rele (t : id) (h : heap) : option heap := token_rele 2 t h.

(** clang.c:1432-1439 token_branch_parent_update_flags. *)
Definition update_flags (t : id) (h : heap) : heap :=
  modify h t (fun n => set_flags (match branch_find h t with
                                  | Some _ => N.lor (n_flags n) F_BRANCH
                                  | None => N.ldiff (n_flags n) F_BRANCH
                                  end) n).

(** clang.c:1421-1430 token_branch_parent. *)
Definition branch_parent (cpp parent : id) (h : heap) : option heap :=
  do h <- match n_parent (h cpp) with Some o => rele o h | None => Some h end;
  Some (modify (token_ref parent h) cpp (set_parent (Some parent))).

(** The test of clang.c:1367-1369. *)
Definition isdir (t : ttype) : bool :=
  match type_normalize t with T_CPP_IF | T_CPP_ELSE | T_CPP_ENDIF => true | _ => false end.

(** clang.c:1358-1374 token_move_prefix. *)
Definition move_prefix (p src dst : id) (h : heap) : option heap :=
  let h := modify h src (fun n => set_pre (del p (n_pre n)) n) in
  let h := modify h dst (fun n => set_pre (p :: n_pre n) n) in
  if isdir (n_type (h p)) then
    do h <- branch_parent p dst h;
    Some (update_flags src (update_flags dst h))
  else Some h.

(** clang.c:414-423 clang_token_move_prefixes: the last prefix first. *)
Fixpoint move_prefixes_loop (fuel : nat) (src dst : id) (h : heap) : option heap :=
  match rev (n_pre (h src)) with
  | [] => Some h
  | p :: _ => match fuel with 0 => None | S f => do h <- move_prefix p src dst h; move_prefixes_loop f src dst h end
  end.
Definition move_prefixes (src dst : id) (h : heap) : option heap :=
  move_prefixes_loop (length (n_pre (h src))) src dst h.

(** token.c:507-517 token_move_suffixes. *)
Fixpoint move_suffixes_loop (fuel : nat) (src dst : id) (h : heap) : option heap :=
  match n_suf (h src) with
  | [] => Some h
  | s :: _ =>
      match fuel with
      | 0 => None
      | S f =>
          let h := modify h src (fun n => set_suf (del s (n_suf n)) n) in
          move_suffixes_loop f src dst (modify h dst (fun n => set_suf (n_suf n ++ [s]) n))
      end
  end.
Definition move_suffixes (src dst : id) (h : heap) : option heap :=
  move_suffixes_loop (length (n_suf (h src))) src dst h.

(** token.c:519-531 token_move_suffixes_if: [it] is what the iterator still visits. *)
Fixpoint move_suffixes_if_loop (it : list id) (src dst : id) (ty : ttype) (h : heap) : heap :=
  match it with
  | [] => h
  | s :: it =>
      if ttype_eqb (n_type (h s)) ty then
        let h := modify h src (fun n => set_suf (del s (n_suf n)) n) in
        move_suffixes_if_loop it src dst ty (modify h dst (fun n => set_suf (n_suf n ++ [s]) n))
      else move_suffixes_if_loop it src dst ty h
  end.
Definition move_suffixes_if (src dst : id) (ty : ttype) (h : heap) : heap :=
  move_suffixes_if_loop (n_suf (h src)) src dst ty h.

(** token.c:449-486 token_list_swap on two lists.  The first loop visits as many tokens as
    there are but always works on the first one of what is left. *)
Fixpoint swap_src (kept : id -> bool) (it : list id) (src tmp : list id) (before : option id) : option (list id * list id * option id) :=
  match it with
  | [] => Some (src, tmp, before)
  | _ :: it =>
      match src with
      | [] => None
      | tk :: _ =>
          if kept tk then swap_src kept it src tmp (match before with None => Some tk | Some b => Some b end)
          else swap_src kept it (del tk src) (tmp ++ [tk]) before
      end
  end.
Fixpoint swap_dst (kept : id -> bool) (it : list id) (src dst : list id) (before : option id) : list id * list id :=
  match it with
  | [] => (src, dst)
  | tk :: it =>
      if kept tk then swap_dst kept it src dst before
      else swap_dst kept it (match before with Some b => ins_before b tk src | None => src ++ [tk] end) (del tk dst) before
  end.
Definition swap_lists (kept_src kept_dst : id -> bool) (src dst : list id) : option (list id * list id) :=
  do (src, tmp, before) <- swap_src kept_src src src [] None;
  let (src, dst) := swap_dst kept_dst dst src dst before in
  Some (src, dst ++ tmp).
Definition kept (f : N) (h : heap) (t : id) : bool := negb (N.land (n_flags (h t)) f =? 0)%N.
Definition swap_suffixes (a : id) (fa : N) (b : id) (fb : N) (h : heap) : option heap :=
  do (la, lb) <- swap_lists (kept fa h) (kept fb h) (n_suf (h a)) (n_suf (h b));
  Some (modify (modify h a (set_suf la)) b (set_suf lb)).

(** token.c:147-187 token_position_after. *)
Fixpoint first_column (fuel : nat) (l : list id) (h : heap) (lno : nat) (pv : id) : option nat :=
  match fuel with
  | 0 => None
  | S f =>
      match prev_of l pv with
      | None => Some (n_cno (h pv))
      | Some t => if n_lno (h t) =? lno then first_column f l h lno t else Some (n_cno (h pv))
      end
  end.
Fixpoint position_suffixes (l : list id) (lno cno : nat) (h : heap) : heap :=
  match l with
  | [] => h
  | s :: r => position_suffixes r lno (colwidth (n_str (h s)) cno) (modify h s (set_pos lno cno))
  end.
Definition position_after (toks : list id) (after tk : id) (h : heap) : option heap :=
  let lno := n_lno (h after) in
  let last := last (n_suf (h after)) after in
  let cno := colwidth (n_str (h last)) (n_cno (h last)) in
  do cno <- (if cno =? 1 then first_column (S (length toks)) toks h lno after else Some cno);
  let h := modify h tk (set_pos lno cno) in
  Some (position_suffixes (n_suf (h tk)) lno (colwidth (n_str (h tk)) cno) h).

(** token.c:19-32 token_alloc: a copy of a token without prefixes and suffixes; the private
    part (branches) is cleared. *)
Definition token_alloc (def : node) (x : lex) : id * lex :=
  (x_next x, set_next (S (x_next x)) (set_heap (upd (x_heap x) (x_next x)
     (Node (n_type def) (n_flags def) (n_lno def) (n_cno def) (n_str def) 1 true [] [] None None None)) x)).

(** lexer.c:1040-1052 lexer_copy_token_list. *)
Fixpoint copy_list (l : list id) (x : lex) : list id * lex :=
  match l with
  | [] => ([], x)
  | p :: r =>
      let (c, x) := token_alloc (x_heap x p) x in
      let (cs, x) := copy_list r x in
      (c :: cs, x)
  end.

(** lexer.c:471-482 lexer_copy_after. *)
Definition copy_after (after src : id) (x : lex) : option (id * lex) :=
  let (tk, x) := token_alloc (x_heap x src) x in
  let (pre, x) := copy_list (n_pre (x_heap x src)) x in
  let (suf, x) := copy_list (n_suf (x_heap x src)) x in
  let h := modify (x_heap x) tk (fun n => set_suf suf (set_pre pre n)) in
  do h <- position_after (x_toks x) after tk h;
  Some (tk, set_toks (ins_after after tk (x_toks x)) (set_heap h x)).

(** lexer.c:484-495 lexer_insert_after; token.c:533-537 token_flags_inherit. *)
Definition insert_after (after : id) (def : node) (x : lex) : option (id * lex) :=
  let (tk, x) := token_alloc def x in
  let h := modify (x_heap x) tk (fun n => set_flags (N.lor (n_flags n) (N.land (n_flags (x_heap x after)) F_DIFF)) n) in
  do h <- position_after (x_toks x) after tk h;
  Some (tk, set_toks (ins_after after tk (x_toks x)) (set_heap h x)).

(** lexer.c:497-504 lexer_move_after. *)
Definition move_after (after tk : id) (x : lex) : option lex :=
  let x := set_toks (del tk (x_toks x)) x in
  do h <- position_after (x_toks x) after tk (x_heap x);
  Some (set_toks (ins_after after tk (x_toks x)) (set_heap h x)).

(** token.c:394-401 token_is_first. *)
Definition is_first (toks : list id) (h : heap) (t : id) : bool :=
  match prev_of toks t with
  | None => true
  | Some pv => negb (n_lno (h pv) =? n_lno (h t))
  end.

(** lexer.c:506-523 lexer_move_before. *)
Definition move_before (before mv : id) (x : lex) : option lex :=
  let fl := if is_first (x_toks x) (x_heap x) mv then F_OPTSPACE else 0%N in
  let x := set_toks (ins_before before mv (del mv (x_toks x))) x in
  let h := modify (x_heap x) mv (fun n => set_pos (n_lno (x_heap x before)) (n_cno n) n) in
  do h <- move_prefixes before mv h;
  do h <- swap_suffixes before F_OPTLINE mv fl h;
  Some (set_heap h x).

(** token.c:438-444 token_list_remove applied to the list of tokens, and lexer.c:525-548
    lexer_remove. *)
Definition remove (tk : id) (x : lex) : option lex :=
  if ttype_eqb (tyof x tk) T_EOF then None else
  do nx <- next_of (x_toks x) tk;
  do h <- move_prefixes tk nx (x_heap x);
  let pv := match prev_of (x_toks x) tk with Some pv => pv | None => nx end in
  do h <- move_suffixes tk pv h;
  let cur := match x_cur x with
             | Some c => if c =? tk then prev_of (x_toks x) tk else Some c
             | None => None
             end in
  do h <- rele tk h;
  Some (set_cur cur (set_toks (del tk (x_toks x)) (set_heap h x))).
