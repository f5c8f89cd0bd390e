(** Model of the preprocessor branches of clang.c: linking #if, #else and #endif while
    reading, unlinking them when tokens are removed, and dropping all branches at the end.
    Taking the next branch, and recovering by folding one are in RecoverModel.  Links, parents
    and flags live in the tokens of StreamModel;
    [None] is undefined behaviour or a failed assertion as in TokListModel. *)
From Verif Require Import Base TokenModel StreamModel TokListModel.

Notation "'do' x <- a ; b" := (match a with Some x => b | None => None end)
  (at level 200, x pattern, a at level 100, b at level 200).

(** clang.c:1441-1453 token_branch_revert. *)
Definition branch_revert (d : id) (h : heap) : option heap :=
  let h := modify h d (set_type T_CPP) in
  do h <- match n_parent (h d) with
          | Some p => rele p (update_flags p h)
          | None => Some h
          end;
  Some (modify h d (fun n => set_pv None (set_nx None (set_parent None n)))).

(** clang.c:930-942 clang_branch_enter.  The vector of pending branches is a list here, the
    last element first. *)
Definition branch_enter (d t : id) (h : heap) (st : list id) : option (heap * list id) :=
  do h <- branch_parent d t h;
  Some (h, d :: st).

(** clang.c:944-965 clang_branch_link, 1414-1419 token_branch_link. *)
Definition branch_link (d t : id) (h : heap) (st : list id) : option (heap * list id) :=
  match st with
  | [] => do h <- branch_revert d h; Some (h, [])
  | br :: st =>
      do h <- branch_parent d t h;
      let h := modify h br (set_nx (Some d)) in
      let h := modify h d (set_pv (Some br)) in
      Some (h, d :: st)
  end.

(** clang.c:967-987 clang_branch_leave. *)
Fixpoint leave_flags (fuel : nat) (br : option id) (h : heap) : option heap :=
  match br with
  | None => Some h
  | Some br =>
      match fuel with
      | 0 => None
      | S f =>
          match n_parent (h br) with
          | None => None
          | Some p => leave_flags f (n_pv (h br)) (update_flags p h)
          end
      end
  end.
Definition branch_leave (fuel : nat) (d t : id) (h : heap) (st : list id) : option (heap * list id) :=
  do (h, st) <- branch_link d t h st;
  do h <- leave_flags fuel (hd_error st) h;
  Some (h, tl st).

(** clang.c:990-1014 clang_branch_purge. *)
Fixpoint purge_chain (fuel : nat) (d : id) (h : heap) : option heap :=
  match fuel with
  | 0 => None
  | S f =>
      let pv := n_pv (h d) in
      do h <- branch_revert d h;
      match pv with None => Some h | Some p => purge_chain f p h end
  end.
Fixpoint branch_purge (fuel : nat) (st : list id) (h : heap) : option heap :=
  match st with
  | [] => Some h
  | d :: st => do h <- purge_chain fuel d h; branch_purge fuel st h
  end.

(** clang.c:656-671, the end of clang_read: establish links between branches for the
    prefixes of the token just read. *)
Fixpoint read_prefixes (fuel : nat) (l : list id) (t : id) (h : heap) (st : list id) : option (heap * list id) :=
  match l with
  | [] => Some (h, st)
  | d :: l =>
      do (h, st) <- match type_normalize (n_type (h d)) with
                    | T_CPP_IF => branch_enter d t h st
                    | T_CPP_ELSE => branch_link d t h st
                    | T_CPP_ENDIF => branch_leave fuel d t h st
                    | _ => Some (h, st)
                    end;
      read_prefixes fuel l t h st
  end.
(** lexer.c:104-121: one token after the other. *)
Fixpoint read_tokens (fuel : nat) (toks : list id) (h : heap) (st : list id) : option (heap * list id) :=
  match toks with
  | [] => Some (h, st)
  | t :: toks =>
      do (h, st) <- read_prefixes fuel (n_pre (h t)) t h st;
      read_tokens fuel toks h st
  end.
(** lexer.c:104-132 without the removal of discarded tokens, and clang.c:497-502. *)
Definition tokenize_branches (x : lex) : option lex :=
  do (h, st) <- read_tokens (S (x_next x)) (x_toks x) (x_heap x) [];
  do h <- branch_purge (S (x_next x)) st h;
  Some (set_heap h x).

(** clang.c:1376-1388 token_branch_exhaust. *)
Definition branch_exhaust (d : id) (h : heap) : option heap :=
  let h := modify h d (fun n => set_pv None (set_nx None (set_type T_CPP n))) in
  do p <- n_parent (h d);
  do h <- rele p (update_flags p h);
  Some (modify h d (set_parent None)).

Definition norm (h : heap) (d : id) : ttype := type_normalize (n_type (h d)).
Definition update_parent_flags (d : id) (h : heap) : option heap :=
  do p <- n_parent (h d); Some (update_flags p h).

(** clang.c:437-482 clang_token_branch_unlink. *)
Definition branch_unlink (d : id) (h : heap) : option heap :=
  let pv := n_pv (h d) in
  let nx := n_nx (h d) in
  match norm h d with
  | T_CPP_IF =>
      match pv, nx with
      | None, Some nx =>
          do h <- match norm h nx with
                  | T_CPP_ENDIF => branch_exhaust nx h
                  | T_CPP_ELSE => update_parent_flags nx (modify h nx (fun n => set_type T_CPP_IF (set_pv None n)))
                  | _ => None
                  end;
          branch_exhaust d h
      | _, _ => None
      end
  | T_CPP_ELSE =>
      match pv, nx with
      | Some pv, Some nx =>
          let h := modify h pv (set_nx (Some nx)) in
          let h := modify h nx (set_pv (Some pv)) in
          do h <- update_parent_flags pv h;
          do h <- update_parent_flags nx h;
          branch_exhaust d h
      | _, _ => None
      end
  | T_CPP_ENDIF =>
      match pv, nx with
      | Some pv, None =>
          do h <- match norm h pv with
                  | T_CPP_IF => branch_exhaust pv h
                  | T_CPP_ELSE => update_parent_flags pv (modify h pv (fun n => set_type T_CPP_ENDIF (set_nx None n)))
                  | _ => None
                  end;
          branch_exhaust d h
      | _, _ => None
      end
  | _ => Some h
  end.

(** clang.c:254-272 clang_stamp; the vector of stamps is a list, the last one first. *)
Definition stamp (x : lex) (stamps : list id) : lex * list id :=
  match x_cur x with
  | None => (x, stamps)
  | Some back => (set_heap (token_ref back (x_heap x)) x, back :: stamps)
  end.

(** clang.c:507-529 clang_before_free. *)
Fixpoint unlink_all (l : list id) (h : heap) : option heap :=
  match l with
  | [] => Some h
  | d :: l => do h <- branch_unlink d h; unlink_all l h
  end.
Fixpoint unlink_tokens (toks : list id) (h : heap) : option heap :=
  match toks with
  | [] => Some h
  | t :: toks => do h <- unlink_all (n_pre (h t)) h; unlink_tokens toks h
  end.
Fixpoint rele_all (l : list id) (h : heap) : option heap :=
  match l with
  | [] => Some h
  | t :: l => do h <- rele t h; rele_all l h
  end.
Definition before_free (x : lex) (stamps : list id) : option heap :=
  do h <- unlink_tokens (x_toks x) (x_heap x);
  rele_all stamps h.
(** lexer.c:146-161 lexer_free: the assertion. *)
Fixpoint free_tokens (toks : list id) (h : heap) : option heap :=
  match toks with
  | [] => Some h
  | t :: toks => if n_refs (h t) =? 1 then do h <- rele t h; free_tokens toks h else None
  end.
Definition lexer_free (x : lex) (stamps : list id) : option heap :=
  do h <- before_free x stamps;
  free_tokens (x_toks x) h.

(** token.c token_list_remove on the prefixes or suffixes of a token, as clang.c:916-927 and
    852-861 call it. *)
Definition drop_prefix (tk p : id) (h : heap) : option heap := rele p (modify h tk (fun n => set_pre (del p (n_pre n)) n)).
Definition drop_suffix (tk p : id) (h : heap) : option heap := rele p (modify h tk (fun n => set_suf (del p (n_suf n)) n)).
(** clang.c:911-928 remove_token. *)
Fixpoint remove_prefixes (l : list id) (tk : id) (h : heap) : option heap :=
  match l with
  | [] => Some h
  | p :: l => do h <- branch_unlink p h; do h <- drop_prefix tk p h; remove_prefixes l tk h
  end.
Fixpoint remove_suffixes (l : list id) (tk : id) (h : heap) : option heap :=
  match l with
  | [] => Some h
  | p :: l => do h <- drop_suffix tk p h; remove_suffixes l tk h
  end.
Definition remove_token (tk : id) (x : lex) : option lex :=
  do h <- remove_prefixes (n_pre (x_heap x tk)) tk (x_heap x);
  do h <- remove_suffixes (n_suf (h tk)) tk h;
  remove tk (set_heap h x).
