(** Model of cpp-align.c: aligning line continuations, on top of the models of ruler.c and
    doc.c.  Not modelled: tracing, allocation failure. *)
From Verif Require Import Base StrModel UtilModel DocModel RulerModel.

(** doc_literal() takes a string up to the first NUL (doc.c:555 strlen). *)
Fixpoint cstr (s : bytes) : bytes := match s with [] => [] | c :: r => if c =c NUL then [] else c :: cstr r end.

(** memchr(3): offset of the first occurrence. *)
Fixpoint memchr (s : bytes) (c : byte) : option nat :=
  match s with [] => None | x :: r => if x =c c then Some 0 else match memchr r c with Some n => Some (S n) | None => None end end.
(** cpp-align.c:51-64 nextline: the offsets of the end of the line and of the next line. *)
Definition nextline (s : bytes) : option (nat * nat) :=
  match memchr s NL with
  | None | Some 0 => None
  | Some (S q) =>
      if nth q s NUL =c BSL then Some (q - span_len isspace (rev (firstn q s)), S (S q)) else None
  end.

(** cpp-align.c:22-26 enum indent_type, 28-35 struct alignment; the text from the end of the line on
    stands for [indent]. *)
Inductive itype := INone | ISpaces | ITabs.
Inductive amode := DontAlign | Left | Right | OtherMode.
Record aline := ALine { l_indent : bytes; l_type : itype; l_width : nat }.
Record alignment := Alignment { g_mode : amode; g_width : nat; g_tabs : bool; g_skip : bool }.
(** cpp-align.c:37-45 classify_indent *)
Definition classify (s : bytes) : itype := match s with c :: _ => if c =c TAB then ITabs else if c =c SP then ISpaces else INone | [] => INone end.
(** cpp-align.c:66-70 is_not_aligned *)
Definition not_aligned (l : aline) : bool := starts_with [SP; BSL] (l_indent l).
(** cpp-align.c:72-88 all_identical *)
Definition same_type (a b : itype) : bool := match a, b with INone, _ | _, INone => true | ISpaces, ISpaces | ITabs, ITabs => true | _, _ => false end.
Fixpoint all_identical (l : list aline) : bool :=
  match l with
  | a :: ((b :: _) as r) => (l_width a =? l_width b) && same_type (l_type a) (l_type b) && all_identical r
  | _ => true
  end.
(** cpp-align.c:102-113 all_tabs *)
Definition all_tabs (l : list aline) : bool := forallb (fun a => match l_type a with ISpaces => false | _ => true end) l.

(** cpp-align.c:114-143, the loop over the first [n] lines; [None] where it returns 0. *)
Fixpoint sense_lines (maxcol n : nat) (s : bytes) : option (list aline) :=
  match n with
  | 0 => Some []
  | S n =>
      match nextline s with
      | None => Some []
      | Some (e, nx) =>
          if nx <? 2 then None
          else
            let col := colwidth (firstn (nx - 1) s) 1 in
            if maxcol <? col then None
            else match sense_lines maxcol n (skipn nx s) with
                 | None => None
                 | Some r => Some (ALine (skipn e s) (classify (skipn e s)) (col - 2) :: r)
                 end
      end
  end.
(** cpp-align.c:115-164 sense_alignment *)
Definition sense_alignment (maxcol : nat) (s : bytes) : option alignment :=
  match sense_lines maxcol 3 s with
  | None => None
  | Some l =>
      if forallb not_aligned l then Some (Alignment DontAlign 0 false false)
      else if (3 <=? length l) && all_identical (tl l) then
        Some (Alignment Right (match last (List.map Some l) None with Some a => l_width a | None => 0 end) (all_tabs l)
               (match l with a :: _ => not_aligned a | [] => false end))
      else None
  end.

Section Align.
(** The style: AlignEscapedNewlines, ColumnLimit, IndentWidth, style_use_tabs(). *)
Variable mode : amode.
Variable limit indentw : nat.
Variable usetabs : bool.
(** The token itself, of which the ruler keeps a reference. *)
Variable tk : rtok.

(** cpp-align.c:171-175: the width is computed in 32 bits. *)
Definition width0 : nat := if indentw <=? limit then limit - indentw else N.to_nat (2 ^ 32 + N.of_nat limit - N.of_nat indentw).
Definition alignment_of (s : bytes) : alignment :=
  match sense_alignment limit s with Some a => a | None => Alignment mode width0 usetabs false end.

(** cpp-align.c:221-262, the loop: the lines in front of the continuations, the rest. *)
Fixpoint bodies (fuel : nat) (s : bytes) : list bytes * bytes :=
  match fuel with
  | 0 => ([], s)
  | S f =>
      match nextline s with
      | None => ([], s)
      | Some (e, nx) => let '(l, r) := bodies f (skipn nx s) in (firstn e s :: l, r)
      end
  end.
Definition body_docs (s : bytes) : list doc := match s with [] => [] | _ :: _ => [Literal (cstr s)] end.
(** Width of a line as measured by doc_width(), 236-243. *)
Definition body_width (s : bytes) : nat := doc_width limit usetabs (Concat (body_docs s)) [].
(** The ruler of 197-212. *)
Definition ruler_for (a : alignment) : option ruler :=
  match g_mode a with
  | DontAlign => Some (ruler_init 1 (RFlags false false true false false))
  | Left => Some (ruler_init 0 (if g_tabs a then RFlags false false false true false else RFlags true false false false false))
  | Right => Some (ruler_init (g_width a) (RFlags false true false (g_tabs a) false))
  | OtherMode => None
  end.
Fixpoint insert_all (ls : list bytes) (rl : ruler) : option ruler :=
  match ls with
  | [] => Some rl
  | s :: r => match ruler_insert rl tk 1 (body_width s) 0 with Some rl => insert_all r rl | None => None end
  end.
Definition pad_doc (a : align) : doc := Align (a_indent a) (a_spaces a) (a_tabs a).
Fixpoint line_docs (ls : list bytes) (pads : list doc) : list doc :=
  match ls, pads with
  | s :: r, p :: ps => Concat (body_docs s ++ [p; Literal [BSL]; Hardline]) :: line_docs r ps
  | _, _ => []
  end.
(** cpp-align.c:164-282 cpp_align. *)
Inductive cres := CNull | CBad | COut (out : bytes).
Definition cpp_align (s : bytes) : cres :=
  match nextline s with
  | None => CNull
  | Some _ =>
      let a := alignment_of s in
      match ruler_for a with
      | None => CNull
      | Some rl =>
          let '(ls, rest) := bodies (length s) s in
          let skip := if g_skip a then 1 else 0 in
          match insert_all (skipn skip ls) rl with
          | None => CBad
          | Some rl =>
              if length ls <=? 1 then CNull
              else
                match ruler_exec rl with
                | Some ([as_], []) =>
                    let pads := repeat (Literal [SP]) skip ++ List.map pad_doc as_ in
                    let '(out, bad) := doc_exec limit usetabs (Concat (line_docs ls pads ++ [Concat []] ++ match rest with [] => [] | _ => [Literal (cstr rest)] end)) false [] in
                    if bad then CBad else COut out
                | _ => CBad
                end
          end
      end
  end.
End Align.
