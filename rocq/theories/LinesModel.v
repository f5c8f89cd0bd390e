(** Model of lexer_get_lines (lexer.c:365-388) over the line table that reading fills in
    (LexModel). *)
From Verif Require Import Base LexModel.

(** What a call does: read outside of the table or yield a length that does not fit, return
    0, or point [str] at offset [o] with length [n]. *)
Inductive lines_res := LOut | LNone | LSlice (o n : nat).

(** lexer.c:369-388 lexer_get_lines.  Line numbers are unsigned, so that [beg - 1] of 0 is
    outside of any table. *)
Definition get_lines (inp : bytes) (lx : lexer) (beg ende : nat) : lines_res :=
  if (length (l_lines lx) <? beg) || (length (l_lines lx) <? ende) then LNone
  else
    match beg with
    | 0 => LOut
    | S b =>
        match nth_error (l_lines lx) b, (match ende with 0 => Some (length inp) | S e => nth_error (l_lines lx) e end) with
        | Some bo, Some eo => if bo <=? eo then LSlice bo (eo - bo) else LOut
        | _, _ => LOut
        end
    end.
