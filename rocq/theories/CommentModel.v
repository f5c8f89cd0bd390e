(** Model of comment.c. *)
From Verif Require Import Base StrModel UtilModel.

(** comment.c:63-72 nextline: offset after the first newline. *)
Fixpoint nextline (str : bytes) : option nat :=
  match str with
  | [] => None
  | c :: r => if c =c NL then Some 1
              else match nextline r with Some n => Some (S n) | None => None end
  end.

(** comment.c:74-84 skipws: number of leading blanks, [None] (NULL) if none.  The
    returned pointer may be one past the end. *)
Definition skipws (str : bytes) : option nat :=
  match span_len (fun c => (c =c SP) || (c =c TAB)) str with
  | 0 => None
  | n => Some n
  end.

(** comment.c:89-95 rskipws. *)
Fixpoint rskipws (str : bytes) (len : nat) : nat :=
  match len with
  | 0 => 0
  | S n => match nth_error str n with
           | Some c => if isspace c then rskipws str n else len
           | None => len
           end
  end.

(** comment.c:34-48: the bytes emitted for the leading blanks and the rest of the
    string.  [None]: the byte after the blanks is outside the string. *)
Definition trim_lead (usetabs : bool) (sp : bytes) : option (bytes * bytes) :=
  match skipws sp with
  | None => Some ([], sp)
  | Some n =>
      match nth_error sp n with
      | None => None
      | Some c =>
          if (c =c "*") || (c =c "/") then
            Some (fst (strindent (strwidth (firstn n sp) 0) usetabs 0), skipn n sp)
          else Some ([], sp)
      end
  end.

(** comment.c:34-59, loop of comment_trim: the bytes appended; [None] is undefined
    behaviour or exhausted fuel. *)
Fixpoint trim_loop (fuel : nat) (usetabs iscrlf : bool) (sp : bytes) : option bytes :=
  match fuel with
  | 0 => None
  | S f =>
    match trim_lead usetabs sp with
    | None => None
    | Some (ind, sp1) =>
      match nextline sp1 with
      | None => Some ind
      | Some commlen =>
        match trim_loop f usetabs iscrlf (skipn commlen sp1) with
        | None => None
        | Some out =>
            Some (ind ++ firstn (rskipws sp1 commlen) sp1 ++ (if iscrlf then [CR] else []) ++ [NL] ++ out)
        end
      end
    end
  end.

(** comment.c:19-61 comment_trim; [usetabs] is style_use_tabs(st).  [Some None] is
    the result NULL, [None] undefined behaviour. *)
Definition comment_trim (usetabs : bool) (str : bytes) : option (option bytes) :=
  let len := length str in
  if len =? 0 then Some None
  else
    match nth_error str (len - 1) with
    | None => None
    | Some c =>
      if negb (c =c NL) then Some None
      else
        let iscrlf := (2 <=? len) && match nth_error str (len - 2) with Some c => c =c CR | None => false end in
        match trim_loop (S len) usetabs iscrlf str with
        | None => None
        | Some b => Some (Some b)
        end
    end.
