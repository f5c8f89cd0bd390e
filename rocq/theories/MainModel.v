(** Model of the options of the command line: knfmt.c (main, filelist), options.c, trace-types.h.

    Simplified: getopt(3) is not modelled; its results in order, each a letter with its argument
    (empty if it takes none), and the arguments it leaves behind are inputs.  A letter that is not
    among those of the option string stands for what getopt reports as '?'. *)
From Coq Require Import NArith.
From Verif Require Import Base FileModel.

(** FOR_TRACE_TYPES, trace-types.h:4-15: the letters in the order of enum trace_type. *)
Definition TRACE_LETTERS : bytes := s2b "acCdDflpsSt".
(** unsigned int *)
Definition UINT : N := 2 ^ 32.
(** struct options, options.h:6-12 *)
Record options := mkopts { o_trace : list N; o_diff : bool; o_diffparse : bool; o_inplace : bool; o_simple : bool }.
(** options_init, options.c:11-15 *)
Definition options_init : options := mkopts (repeat 0%N (length TRACE_LETTERS)) false false false false.

(** ctotrace, options.c:39-48 *)
Fixpoint index_of (c : byte) (l : bytes) : option nat :=
  match l with [] => None | x :: r => if x =c c then Some O else match index_of c r with Some n => Some (S n) | None => None end end.
Definition ctotrace (c : byte) : option nat := index_of c TRACE_LETTERS.
Fixpoint bump (i : nat) (l : list N) : list N :=
  match i, l with _, [] => [] | O, x :: r => ((x + 1) mod UINT)%N :: r | S i, x :: r => x :: bump i r end.
(** options_trace_parse, options.c:17-37; None if a letter is unknown. *)
Fixpoint trace_parse (flags : bytes) (t : list N) : option (list N) :=
  match flags with
  | [] => Some t
  | c :: r =>
      match ctotrace c with
      | None => None
      | Some O => trace_parse r (List.map (fun _ => (UINT - 1)%N) t)
      | Some i => trace_parse r (bump i t)
      end
  end.
(** options_trace_level, options.h:17-21 *)
Definition trace_level (o : options) (i : nat) : N := nth i (o_trace o) 0%N.

(** What main goes on with. *)
Inductive outcome := Usage | TraceError | Go (o : options) (clang_format : option bytes) (args : list bytes).
Definition set_diff (o : options) := mkopts (o_trace o) true (o_diffparse o) (o_inplace o) (o_simple o).
Definition set_diffparse (o : options) := mkopts (o_trace o) (o_diff o) true (o_inplace o) (o_simple o).
Definition set_inplace (o : options) := mkopts (o_trace o) (o_diff o) (o_diffparse o) true (o_simple o).
Definition set_simple (o : options) := mkopts (o_trace o) (o_diff o) (o_diffparse o) (o_inplace o) true.
Definition set_trace (t : list N) (o : options) := mkopts t (o_diff o) (o_diffparse o) (o_inplace o) (o_simple o).
(** main, knfmt.c:68-99 *)
Fixpoint parse_options (evs : list (byte * bytes)) (o : options) (cf : option bytes) (args : list bytes) : outcome :=
  match evs with
  | [] =>
      let none := match args with [] => true | _ => false end in
      if (o_diffparse o && negb none) || (negb (o_diffparse o) && o_inplace o && none) then Usage else Go o cf args
  | (c, arg) :: r =>
      if c =c "c"%char then parse_options r o (Some arg) args
      else if c =c "D"%char then parse_options r (set_diffparse o) cf args
      else if c =c "d"%char then parse_options r (set_diff o) cf args
      else if c =c "i"%char then parse_options r (set_inplace o) cf args
      else if c =c "s"%char then parse_options r (set_simple o) cf args
      else if c =c "t"%char then match trace_parse arg (o_trace o) with None => TraceError | Some t => parse_options r (set_trace t o) cf args end
      else Usage
  end.
Definition command (evs : list (byte * bytes)) (args : list bytes) : outcome := parse_options evs options_init None args.

(** filelist, knfmt.c:177-194; [diffed]: what diff_parse found (C28). *)
Definition filelist (o : options) (diffed : list bytes) (args : list bytes) : list bytes :=
  if o_diffparse o then diffed else match args with [] => [s2b "/dev/stdin"] | _ => args end.
(** fileformat, knfmt.c:240-244 *)
Definition mode_of (o : options) : mode := if o_diff o then MDiff else if o_inplace o then MInplace else MPrint.
(** pledge(2) in main, knfmt.c:123-132 *)
Inductive promise := Stdio | Rpath | Wpath | Cpath | Fattr | Chownp | Proc | Exec.
Definition promises (o : options) : list promise :=
  if o_diff o then [Stdio; Rpath; Wpath; Cpath; Proc; Exec] else if o_inplace o then [Stdio; Rpath; Wpath; Cpath; Fattr; Chownp] else [Stdio; Rpath].
