(** C23: comment trimming only touches blanks. *)
From Verif Require Import Base StrModel UtilModel UtilProofs CommentModel CommentProofs.

(** Trimming never reads outside the text; it declines (NULL) exactly the texts not
    ending in a newline. *)
Theorem C23_defined : forall usetabs b,
  (exists r, comment_trim usetabs b = Some r) /\
  (comment_trim usetabs b = Some None <-> ~ exists p, b = p ++ [NL]).
Proof. intros. split; [apply comment_trim_defined|apply comment_trim_null]. Qed.

(** Line by line: same number of lines; each line keeps its text up to blanks at its
    end and the blanks before a leading '*' or '/', which keep their width; every line
    ends like the last line of the input. *)
Theorem C23_lines : forall usetabs b b', comment_trim usetabs b = Some (Some b') ->
  exists ls ls' eol, b = join_lines [NL] ls /\ Forall (fun l => ~ In NL l) ls /\
    b' = join_lines eol ls' /\ Forall (fun l => ~ In NL l) ls' /\
    Forall2 line_rel ls ls' /\ Forall no_trail ls' /\
    eol = (if ends_crlf b then [CR; NL] else [NL]).
Proof. exact comment_trim_result. Qed.

(** Every non-blank byte is kept, in order. *)
Theorem C23_nonblank : forall usetabs b b', comment_trim usetabs b = Some (Some b') ->
  filter (fun c => negb (isspace c)) b' = filter (fun c => negb (isspace c)) b.
Proof. exact comment_trim_nonblank. Qed.

(** Applying it again changes nothing. *)
Theorem C23_idempotent : forall usetabs b b', comment_trim usetabs b = Some (Some b') ->
  comment_trim usetabs b' = Some (Some b').
Proof. exact comment_trim_idem. Qed.

Example C23_ex : comment_trim true (s2b "/* a  " ++ [NL] ++ s2b "         * b" ++ [CR; NL; NL] ++ s2b " x */ " ++ [CR; NL])
  = Some (Some (s2b "/* a" ++ [CR; NL; TAB] ++ s2b " * b" ++ [CR; NL; CR; NL] ++ s2b " x */" ++ [CR; NL])).
Proof. reflexivity. Qed.

Print Assumptions C23_defined.
Print Assumptions C23_lines.
Print Assumptions C23_nonblank.
Print Assumptions C23_idempotent.
