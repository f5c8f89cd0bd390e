(** Model of diff.c: which lines of which files does a diff add.
    Lines are strings without NUL and newline, as arena_buffer_getline delivers them (see
    BufferModel).  The two regular expressions are modelled by what regexec(3) has to find
    according to POSIX: the longest match and, in it, the longest text for each part from
    left to right.  Not modelled: reading standard input, tracing. *)
From Coq Require Import NArith.
From Verif Require Import Base.

Definition AT : byte := "@"%char.
Definition PLUS : byte := "+"%char.
Definition SLASH : byte := "/"%char.

(** struct diffchunk (diff.h:6-9) and struct file (file.h:8-12). *)
Record chunk := Chunk { du_beg : N; du_end : N }.
Record file := File { fe_path : bytes; fe_diff : list chunk }.

(** diff.c:146-158 diff_get_chunk: the index of the chunk. *)
Fixpoint get_chunk_from (i : nat) (cs : list chunk) (lno : N) : option nat :=
  match cs with
  | [] => None
  | du :: r => if (N.leb (du_beg du) lno && N.leb lno (du_end du))%bool then Some i else get_chunk_from (S i) r lno
  end.
Definition get_chunk (cs : list chunk) (lno : N) : option nat := get_chunk_from 0 cs lno.

(** diff.c:160-168 diff_end. *)
Fixpoint diff_end (cs : list chunk) (lno : N) : list chunk :=
  match cs with
  | [] => []
  | [du] => if N.eqb (du_end du) 0 then [Chunk (du_beg du) lno] else [du]
  | du :: r => du :: diff_end r lno
  end.

(** diff.c:241-261 matchline: the chunks and if the line counts. *)
Definition matchline (str : bytes) (lno : N) (cs : list chunk) : bool * list chunk :=
  let c := hd NUL str in
  if c =c "-"%char then (false, cs)
  else if c =c PLUS then
    (true, match last (List.map Some cs) None with
           | None => cs ++ [Chunk lno 0]
           | Some du => if (N.ltb 0 (du_beg du) && N.ltb 0 (du_end du))%bool then cs ++ [Chunk lno 0] else cs
           end)
  else (true, diff_end cs (N.modulo (lno + (2 ^ 32 - 1)) (2 ^ 32))%N).

(** diff.c:263-273 trimprefix. *)
Fixpoint after_slash (s : bytes) : option bytes := match s with [] => None | c :: r => if c =c SLASH then Some r else after_slash r end.
Definition trimprefix (s : bytes) : bytes := match after_slash s with Some r => r | None => s end.
Fixpoint trimprefixes (n : nat) (s : bytes) : bytes := match n with 0 => s | S n => trimprefixes n (trimprefix s) end.

(** The pattern of [repath], diff.c:51: ^\+\+\+[[:space:]]+([^[:space:]]+) *)
Definition repath (s : bytes) : option bytes :=
  if starts_with (s2b "+++") s then
    let r := skipn 3 s in
    let n := span_len isspace r in
    let m := span_len (fun c => negb (isspace c)) (skipn n r) in
    if (n =? 0) || (m =? 0) then None else Some (firstn m (skipn n r))
  else None.

Section Diff.
(** The number of directories below the root of the repository ([git_ndirs]) and if
    stat(2) tells that there is no such file. *)
Variable ndirs : nat.
Variable missing : bytes -> bool.

(** diff.c:170-201 matchpath. *)
Definition matchpath (str : bytes) : option bytes :=
  match repath str with
  | None => None
  | Some buf =>
      let buf := if starts_with (s2b "b/") buf then trimprefix buf else buf in
      if (0 <? ndirs) && negb (hd NUL buf =c SLASH) && missing buf then Some (trimprefixes ndirs buf) else Some buf
  end.

(** diff.c:203-213 strtou of a string of digits and what follows it. *)
Definition digit (c : byte) : N := (N_of_ascii c - 48)%N.
Definition val (ds : bytes) : N := fold_left (fun a c => (10 * a + digit c)%N) ds 0%N.
Definition strtou (s : bytes) : N :=
  let n := val (firstn (span_len isdigit s) s) in
  if (N.ltb (2 ^ 32 - 1) n)%bool then 0%N else n.

(** The pattern of [rechunk], diff.c:50: ^@@.+\+([[:digit:]]+)(,([[:digit:]]+))?.+@@
    that ends at [e] and has its plus sign at [p]: where the groups 1 and 3 start. *)
Definition chunk_at (s : bytes) (e p : nat) : option (nat * option nat) :=
  let dig i := match nth_error s i with Some c => isdigit c | None => false end in
  let is i c := match nth_error s i with Some d => d =c c | None => false end in
  if is p PLUS && dig (S p) && (p + 3 <=? e - 2) then
    let run := span_len isdigit (skipn (S p) s) in
    let c := S p + run in
    if is c ","%char && dig (S c) && (c + 3 <=? e - 2) then Some (S p, Some (S c)) else Some (S p, None)
  else None.
(** The largest number below [n] for which there is a result. *)
Fixpoint find_down {A} (f : nat -> option A) (n : nat) : option A :=
  match n with 0 => None | S n => match f n with Some r => Some r | None => find_down f n end end.
Definition rechunk (s : bytes) : option (nat * option nat) :=
  if starts_with (s2b "@@") s then
    find_down (fun e => if (2 <=? e) && starts_with (s2b "@@") (skipn (e - 2) s) then find_down (fun p => if 3 <=? p then chunk_at s e p else None) e else None) (S (length s))
  else None.

(** diff.c:215-239 matchchunk. *)
Definition matchchunk (str : bytes) : option (N * N) :=
  match rechunk str with
  | None => None
  | Some (o1, o3) =>
      let sl := strtou (skipn o1 str) in
      if N.eqb sl 0 then None
      else match o3 with
           | None => Some (sl, sl)
           | Some o3 =>
               let n := strtou (skipn o3 str) in
               if N.eqb n 0 then None else Some (sl, N.modulo (sl + n + (2 ^ 32 - 1)) (2 ^ 32))%N
           end
  end.

(** Where diff_parse is: between chunks or in the inner loop at line [sl] of [el]. *)
Inductive pstate := Outer | Inner (sl el : N).
Definition upd_last (f : list chunk -> list chunk) (fs : list file) : list file :=
  match rev fs with [] => [] | fe :: r => rev r ++ [File (fe_path fe) (f (fe_diff fe))] end.

(** diff.c:83-142 diff_parse, a line at a time.  The current file [fe] is the last one. *)
Definition enter_loop (sl el : N) (fs : list file) : list file * pstate :=
  if N.leb sl el then (fs, Inner sl el) else (upd_last (fun cs => diff_end cs el) fs, Outer).
Fixpoint diff_parse (lines : list bytes) (fs : list file) (st : pstate) : bool * list file :=
  match lines, st with
  | [], Outer => (false, fs)
  | [], Inner _ _ => (true, fs)
  | line :: r, Outer =>
      match matchpath line with
      | Some path => diff_parse r (fs ++ [File path []]) Outer
      | None =>
          match matchchunk line with
          | None => diff_parse r fs Outer
          | Some (sl, el) =>
              match fs with
              | [] => (true, fs)
              | _ => let '(fs, st) := enter_loop sl el fs in diff_parse r fs st
              end
          end
      end
  | line :: r, Inner sl el =>
      let cs := match rev fs with fe :: _ => fe_diff fe | [] => [] end in
      let '(m, cs) := matchline line sl cs in
      let fs := upd_last (fun _ => cs) fs in
      let sl := if m then N.modulo (sl + 1) (2 ^ 32) else sl in
      let '(fs, st) := enter_loop sl el fs in
      diff_parse r fs st
  end.
End Diff.
