(** Model of libks/string.c and libks/string-x86_64.S: span matching against a
    set of byte ranges, scalar and SSE4.2 versions, and string splitting. *)
From Verif Require Import Base.

(** Plain [char] is signed on the platforms having the assembly version. *)
Definition schar (c : byte) : Z :=
  let z := Z.of_N (code c) in if (z <? 128)%Z then z else (z - 256)%Z.

(** libks/string.c:35-40 (and 56-59): inner loop over [ranges], a string of
    (low, high) pairs ended by NUL.  Simplified: the string is the list of bytes
    before the NUL; a trailing unpaired byte (which in C reads past the
    terminator) ends the loop. *)
Fixpoint in_ranges (c : byte) (ranges : bytes) : bool :=
  match ranges with
  | lo :: hi :: r =>
      if ((schar lo <=? schar c)%Z && (schar c <=? schar hi)%Z)%bool then true
      else in_ranges c r
  | _ => false
  end.

(** libks/string.c:26-46 KS_str_match_default. [str] is the [len] bytes at [str]. *)
Fixpoint match_default_from (i : nat) (str ranges : bytes) : nat :=
  match str with
  | [] => i
  | c :: r => if in_ranges c ranges then match_default_from (S i) r ranges else i
  end.
Definition KS_str_match_default (str ranges : bytes) : nat := match_default_from 0 str ranges.

(** libks/string.c:48-63 KS_str_match_until_default. *)
Fixpoint match_until_from (i : nat) (str ranges : bytes) : nat :=
  match str with
  | [] => i
  | c :: r => if in_ranges c ranges then i else match_until_from (S i) r ranges
  end.
Definition KS_str_match_until_default (str ranges : bytes) : nat := match_until_from 0 str ranges.

(** The PCMPISTRM/PCMPISTRI instructions with the control byte of
    libks/string-x86_64.S:47-51 and 86-91: unsigned bytes, "ranges" aggregation.
    An operand byte is valid if no NUL occurs at or before it (implicit length). *)
Fixpoint valid_prefix (l : bytes) : bytes :=
  match l with
  | [] => []
  | c :: r => if c =c NUL then [] else c :: valid_prefix r
  end.

(** One destination byte against the valid range pairs of the first operand. *)
Fixpoint pcmp_ranges (c : byte) (xmm1 : bytes) : bool :=
  match xmm1 with
  | lo :: hi :: r => inrange lo hi c || pcmp_ranges c r
  | _ => false
  end.

(** IntRes1: one boolean for each of the 16 bytes of the second operand; bytes
    that are not valid compare false. *)
Definition intres1 (xmm1 block : bytes) : list bool :=
  let n := length (valid_prefix block) in
  map (fun c => pcmp_ranges c (valid_prefix xmm1)) (firstn n block) ++ repeat false (length block - n).

(** Negative polarity (CTRL_POLARITY_NEGATIVE) negates all bits. *)
Definition intres2_neg (xmm1 block : bytes) : list bool := map negb (intres1 xmm1 block).

(** Trailing zero count / least significant set bit index of a bit list. *)
Definition tzcnt (l : list bool) : nat := span_len negb l.
(** Carry flag: IntRes2 is not zero.  Zero flag: the block has a NUL byte. *)
Definition flag_c (l : list bool) : bool := existsb (fun b => b) l.
Definition flag_z (block : bytes) : bool := existsb (fun c => c =c NUL) block.

(** The 16 bytes loaded from the address of the range string (string-x86_64.S:56,
    95): its terminator and whatever follows it in memory are loaded too. *)
Definition load_ranges (ranges garbage : bytes) : bytes := firstn 16 (ranges ++ NUL :: garbage).

(** Tail block: fewer than 16 bytes copied to a zeroed 16 byte buffer
    (string-x86_64.S:75-83, 112-121). *)
Definition tail_block (str : bytes) : bytes := str ++ repeat NUL (16 - length str).

(** string-x86_64.S:46-83 KS_str_match_native.  [fuel] bounds the number of
    blocks; running out gives [None]. *)
Fixpoint match_native_from (fuel rax : nat) (str xmm1 : bytes) : option nat :=
  match fuel with
  | 0 => None
  | S f =>
    if length str <? 16 then Some (rax + tzcnt (intres2_neg xmm1 (tail_block str)))
    else
      let block := firstn 16 str in
      let m := intres2_neg xmm1 block in
      if flag_c m || flag_z block then Some (rax + tzcnt m)
      else match_native_from f (rax + 16) (skipn 16 str) xmm1
  end.
Definition KS_str_match_native (str ranges garbage : bytes) : option nat :=
  match_native_from (S (length str)) 0 str (load_ranges ranges garbage).

(** string-x86_64.S:85-124 KS_str_match_until_native. *)
Fixpoint match_until_native_from (fuel rax : nat) (str xmm1 : bytes) : option nat :=
  match fuel with
  | 0 => None
  | S f =>
    if length str <? 16 then
      let m := intres1 xmm1 (tail_block str) in
      if flag_c m then Some (rax + tzcnt m) else Some (rax + length str)
    else
      let m := intres1 xmm1 (firstn 16 str) in
      if flag_c m then Some (rax + tzcnt m)
      else match_until_native_from f (rax + 16) (skipn 16 str) xmm1
  end.
Definition KS_str_match_until_native (str ranges garbage : bytes) : option nat :=
  match_until_native_from (S (length str)) 0 str (load_ranges ranges garbage).

(** libks/string.c:65-92 KS_str_split.  [strstr] on NUL-free byte lists: bytes
    before the first occurrence of [delim] and bytes after it. *)
Fixpoint strstr_split (str delim : bytes) : option (bytes * bytes) :=
  if starts_with delim str then Some ([], skipn (length delim) str)
  else match str with
       | [] => None
       | c :: r => match strstr_split r delim with
                   | Some (a, b) => Some (c :: a, b)
                   | None => None
                   end
       end.

(** Fuel bounds the number of parts; an empty delimiter loops forever in C and
    exhausts any fuel here. *)
Fixpoint split_from (fuel : nat) (str delim : bytes) : option (list bytes) :=
  match fuel with
  | 0 => None
  | S f =>
    match strstr_split str delim with
    | Some (a, b) => match split_from f b delim with
                     | Some ps => Some (a :: ps)
                     | None => None
                     end
    | None => Some [str]
    end
  end.
Definition KS_str_split (str delim : bytes) : option (list bytes) :=
  split_from (S (length str)) str delim.
