(** Model of error.c and of lexer_error (lexer.c:273-347): messages are put together in a
    buffer and printed when wanted. *)
From Verif Require Import Base UtilModel TokenModel LexModel LinesModel.

(** What the printf family makes of a string: bytes up to the first NUL. *)
Fixpoint cstr (s : bytes) : bytes := match s with [] => [] | c :: r => if c =c NUL then [] else c :: cstr r end.
(** %u of an unsigned int. *)
Fixpoint dec_loop (fuel n : nat) : bytes :=
  match fuel with
  | 0 => []
  | S f => (if n / 10 =? 0 then [] else dec_loop f (n / 10)) ++ [ascii_of_nat (48 + n mod 10)]
  end.
Definition dec (n : nat) : bytes := dec_loop (S n) n.
Definition INT_MAX : Z := 2 ^ 31 - 1.

(** struct error (error.c:11-14), stderr, the peek depth of the lexer with the error flags
    saved by lexer_peek_enter, and the error flag (lexer.h:29-37).  [e_bad] is set by calls
    without defined behaviour. *)
Record errs := Errs { e_buf : bytes; e_flush : bool; e_out : bytes; e_peek : list bool; e_err : bool; e_bad : bool }.

(** error.c:39-43 error_reset. *)
Definition error_reset (e : errs) : errs := Errs [] (e_flush e) (e_out e) (e_peek e) (e_err e) (e_bad e).
(** error.c:45-57 error_flush.  A precision that does not fit in an int is negative and hence
    ignored, and the buffer is not terminated. *)
Definition error_flush (e : errs) (force : bool) : errs :=
  if negb force && negb (e_flush e) then e
  else
    let e1 := match e_buf e with
              | [] => e
              | _ => if (INT_MAX <? Z.of_nat (length (e_buf e)))%Z then Errs (e_buf e) (e_flush e) (e_out e) (e_peek e) (e_err e) true
                     else Errs (e_buf e) (e_flush e) (e_out e ++ cstr (e_buf e)) (e_peek e) (e_err e) (e_bad e)
              end in
    error_reset e1.
(** error.c:33-37 error_end. *)
Definition error_end (e : errs) : errs := error_flush e false.

Section Message.
Variable inp : bytes.
(** lexer.c:305-331: what lexer_error puts in the buffer for the token [t]; [text] is the
    formatted message and [trace] the source location in trace mode.  [None] is undefined. *)
Definition has_line (s : bytes) : bool := existsb (fun c => c =c NL) s.
Definition message (lx : lexer) (path text trace : bytes) (t : tok) : option bytes :=
  let hd := cstr path ++ s2b ":" ++ dec (t_lno t) ++ s2b ": " ++ cstr text ++ cstr trace ++ [NL] in
  match get_lines inp lx (t_lno t) (S (t_lno t)) with
  | LOut => None
  | LNone => Some hd
  | LSlice o n =>
      if has_line (text_bytes inp (t_str t)) then Some hd
      else
        let w := colwidth (text_bytes inp (t_str t)) (t_cno t) - t_cno t in
        Some (hd ++ cstr (slice inp o (o + n)) ++ repeat SP (t_cno t - 1) ++ repeat "^"%char w ++ [NL])
  end.
(** lexer.c:290-334 lexer_error. *)
Definition lexer_error (lx : lexer) (path text trace : bytes) (t : tok) (e : errs) : errs :=
  let e1 := Errs (e_buf e) (e_flush e) (e_out e) (e_peek e) true (e_bad e) in
  match e_peek e1 with
  | _ :: _ => e1
  | [] =>
      match message lx path text trace t with
      | None => Errs (e_buf e1) (e_flush e1) (e_out e1) [] true true
      | Some m => error_end (Errs (e_buf e1 ++ m) (e_flush e1) (e_out e1) [] true (e_bad e1))
      end
  end.
End Message.
(** lexer.c:336-347 lexer_error_flush, lexer_error_reset. *)
Definition lexer_error_flush (e : errs) : errs := error_flush e true.
Definition lexer_error_reset (e : errs) : errs := let e := error_reset e in Errs (e_buf e) (e_flush e) (e_out e) (e_peek e) false (e_bad e).
(** lexer.c:567-580 lexer_peek_enter, lexer_peek_leave, as far as errors are concerned. *)
Definition peek_enter (e : errs) : errs := Errs (e_buf e) (e_flush e) (e_out e) (e_err e :: e_peek e) (e_err e) (e_bad e).
Definition peek_leave (e : errs) : errs :=
  match e_peek e with
  | [] => Errs (e_buf e) (e_flush e) (e_out e) [] (e_err e) true
  | s :: r => Errs (e_buf e) (e_flush e) (e_out e) r s (e_bad e)
  end.
