(** Model of util.c. *)
From Verif Require Import Base StrModel.

(** The range string "\t\t\n\n" of util.c:19,48. *)
Definition tab_nl_ranges : bytes := [TAB; TAB; NL; NL].

(** util.c:24-33, inner loop of colwidth. [(cno + 8 - 1) & ~0x7u] clears the three
    low bits.  Simplified: columns are unbounded (no wrap at 2^32). *)
Fixpoint colwidth_inner (cno : nat) (str : bytes) : nat * bytes :=
  match str with
  | [] => (cno, [])
  | c :: r =>
      if c =c TAB then colwidth_inner (((cno + 8 - 1) - (cno + 8 - 1) mod 8) + 1) r
      else if c =c NL then colwidth_inner 1 r
      else (cno, str)
  end.

(** util.c:13-37 colwidth; [None] = out of fuel. *)
Fixpoint colwidth_loop (fuel : nat) (str : bytes) (cno : nat) : option nat :=
  match str with
  | [] => Some cno
  | _ =>
    match fuel with
    | 0 => None
    | S f =>
        let n := KS_str_match_until_default str tab_nl_ranges in
        let '(cno', str') := colwidth_inner (cno + n) (skipn n str) in
        colwidth_loop f str' cno'
    end
  end.
Definition colwidth (str : bytes) (cno : nat) : nat :=
  match colwidth_loop (length str) str cno with Some w => w | None => 0 end.

(** util.c:52-62, inner loop of strwidth. *)
Fixpoint strwidth_inner (pos : nat) (str : bytes) : nat * bytes :=
  match str with
  | [] => (pos, [])
  | c :: r =>
      if c =c TAB then strwidth_inner (pos + (8 - pos mod 8)) r
      else if c =c NL then strwidth_inner 0 r
      else (pos, str)
  end.

(** util.c:42-66 strwidth. *)
Fixpoint strwidth_loop (fuel : nat) (str : bytes) (pos : nat) : option nat :=
  match str with
  | [] => Some pos
  | _ =>
    match fuel with
    | 0 => None
    | S f =>
        let n := KS_str_match_until_default str tab_nl_ranges in
        let '(pos', str') := strwidth_inner (pos + n) (skipn n str) in
        strwidth_loop f str' pos'
    end
  end.
Definition strwidth (str : bytes) (pos : nat) : nat :=
  match strwidth_loop (length str) str pos with Some w => w | None => 0 end.

(** util.c:83-87, the loop appending the wanted components to [bf]. *)
Definition path_join (bf : bytes) (component : bytes) : bytes :=
  (if 0 <? length bf then bf ++ ["/"%char] else bf) ++ component.

(** util.c:68-89 path_slice. [None] = splitting out of fuel. *)
Definition path_slice (path : bytes) (ncomponents : nat) : option bytes :=
  match KS_str_split path ["/"%char] with
  | None => None
  | Some components =>
      let n := length components in
      if n <? ncomponents then Some path
      else Some (fold_left path_join (skipn (n - ncomponents) components) [])
  end.

(** strrchr(3): the suffix starting at the last occurrence of [c]. *)
Fixpoint strrchr (s : bytes) (c : byte) : option bytes :=
  match s with
  | [] => None
  | x :: r => match strrchr r c with
              | Some d => Some d
              | None => if x =c c then Some s else None
              end
  end.

(** util.c:91-101 is_path_header. *)
Definition is_path_header (path : bytes) : bool :=
  match strrchr path "."%char with
  | None => false
  | Some dot => beq dot (s2b ".h")
  end.

(** util.c:108-113, tab part of strindent_buffer: emitted bytes, [i] and [pos]. *)
Fixpoint strindent_tabs (fuel i indent pos : nat) : bytes * nat * nat :=
  match fuel with
  | 0 => ([], i, pos)
  | S f =>
      if i + 8 <=? indent then
        let '(o, i', p') := strindent_tabs f (i + 8) indent (pos + (8 - pos mod 8)) in
        (TAB :: o, i', p')
      else ([], i, pos)
  end.

(** util.c:103-119 strindent_buffer: bytes appended and the returned position. *)
Definition strindent (indent : nat) (usetabs : bool) (pos : nat) : bytes * nat :=
  let '(o, i, p) := if usetabs then strindent_tabs indent 0 indent pos else ([], 0, pos) in
  (o ++ repeat SP (indent - i), p + (indent - i)).

(** printf("%02x"). *)
Definition hexdigit (n : N) : byte :=
  if (n <? 10)%N then ascii_of_N (48 + n) else ascii_of_N (87 + n).

(** util.c:131-154 strnice_buffer, one byte. *)
Definition strnice1 (c : byte) : bytes :=
  if c =c NL then s2b "\n"
  else if c =c FF then s2b "\f"
  else if c =c TAB then s2b "\t"
  else if c =c CR then s2b "\r"
  else if c =c DQ then [BSL; DQ]
  else if isprint c then [c]
  else s2b "\x" ++ [hexdigit (code c / 16); hexdigit (code c mod 16)]%N.
Definition strnice (str : bytes) : bytes := flat_map strnice1 str.
