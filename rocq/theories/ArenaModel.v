(** Model of libks/arena.c: allocation in frames that are freed by scope.
    Addresses are numbers; memory is a function from addresses to bytes.  The struct at the
    start of each frame (libks/arena.c:61-66) is kept beside memory; that nothing writes to
    the 32 bytes it takes is part of what is proved.  Statistics, source locations of scopes
    and the cleanup list are not modelled. *)
From Coq Require Import NArith.
From Verif Require Import Base.
Open Scope N_scope.

Definition SIZE_LIMIT : N := 2 ^ 64.
(** sizeof(struct arena_frame): two pointers and two size_t, libks/arena.c:61-66. *)
Definition FRAME : N := 32.

(** struct arena_frame, libks/arena.c:61-66; [next] is the order of the list. *)
Record frame := mkframe { f_ptr : N; f_size : N; f_len : N }.
(** struct arena_scope, libks/arena.h:26-36. *)
Record scope := mkscope { s_frame : N; s_len : N; s_id : nat }.
(** struct arena, libks/arena.c:68-78.  [a_frames] starts with the current frame;
    [a_poison] is the number of poison bytes, 0 unless built with a sanitizer. *)
Record arena := mkarena { a_frames : list frame; a_fsize : N; a_poison : N; a_refs : nat; a_mem : N -> byte }.

(** What malloc delivers: an address and what happens to be there, or NULL. *)
Definition sys := option (N * (N -> byte)).
(** The result of a call: err(3), a trap, or back to the caller. *)
Inductive res (A : Type) := Exit | Trap | Ret (x : A).
Arguments Exit {A}. Arguments Trap {A}. Arguments Ret {A}.

(** align_address, libks/arena.c:102-113. *)
Definition align_address (poison x : N) : N :=
  let y := N.ldiff ((x + 7) mod SIZE_LIMIT) 7 in
  if (0 <? poison) && ((y + SIZE_LIMIT - x) mod SIZE_LIMIT <? poison) then (if poison + y <? SIZE_LIMIT then poison + y else y) else y.

(** arena_push, libks/arena.c:165-191. *)
Definition push (poison : N) (f : frame) (size : N) : option (N * frame) :=
  let newlen := f_len f + size in
  if SIZE_LIMIT <=? newlen then None else
  if f_size f <? newlen then None else
  let len := align_address poison newlen in
  Some (f_ptr f + f_len f, mkframe (f_ptr f) (f_size f) (if f_size f <? len then f_size f else len)).

(** arena_frame_alloc, libks/arena.c:193-216. *)
Definition frame_alloc (m : sys) (size : N) (a : arena) : option arena :=
  match m with
  | None => None
  | Some (p, junk) =>
      match push (a_poison a) (mkframe p size 0) FRAME with
      | None => None
      | Some (_, f) => Some (mkarena (f :: a_frames a) (a_fsize a) (a_poison a) (a_refs a) (fun x => if (p <=? x) && (x <? p + size) then junk x else a_mem a x))
      end
  end.

(** arena_alloc, libks/arena.c:218-238. *)
Definition alloc (page poison : N) (mem : N -> byte) (m : sys) : res arena :=
  match frame_alloc m (16 * page) (mkarena [] (16 * page) poison 1 mem) with Some a => Ret a | None => Exit end.

(** The loop of arena_malloc that doubles the frame size, libks/arena.c:381-387. *)
Fixpoint fit (fuel : nat) (size total : N) : option N :=
  if size <? total then
    match fuel with O => None | S f => if SIZE_LIMIT <=? 2 * size then None else fit f (2 * size) total end
  else Some size.

(** arena_scope_validate, libks/arena.c:328-357. *)
Definition validate (a : arena) (s : scope) : bool := Nat.eqb (s_id s) (a_refs a).

Definition set_frames (fs : list frame) (a : arena) : arena := mkarena fs (a_fsize a) (a_poison a) (a_refs a) (a_mem a).
Definition push_top (a : arena) (size : N) : option (N * arena) :=
  match a_frames a with
  | [] => None
  | f :: r => match push (a_poison a) f size with Some (p, f) => Some (p, set_frames (f :: r) a) | None => None end
  end.
(** arena_malloc, libks/arena.c:359-396. *)
Definition malloc (s : scope) (size : N) (m : sys) (a : arena) : res (N * arena) :=
  if negb (validate a s) then Trap else
  match push_top a size with
  | Some r => Ret r
  | None =>
      if (SIZE_LIMIT <=? size + FRAME) || (SIZE_LIMIT <=? a_poison a + (size + FRAME)) then Exit else
      match fit 64 (a_fsize a) (a_poison a + (size + FRAME)) with
      | None => Exit
      | Some fs =>
          match frame_alloc m fs a with
          | None => Exit
          | Some a => match push_top a size with Some r => Ret r | None => Exit end
          end
      end
  end.

(** memset and memcpy. *)
Definition blit (p : N) (d : bytes) (mem : N -> byte) : N -> byte := fun x => if p <=? x then nth (N.to_nat (x - p)) d (mem x) else mem x.
Definition readn (mem : N -> byte) (p : N) (n : nat) : bytes := List.map (fun i => mem (p + N.of_nat i)) (seq 0 n).
Definition set_mem (mem : N -> byte) (a : arena) : arena := mkarena (a_frames a) (a_fsize a) (a_poison a) (a_refs a) mem.

(** arena_calloc, libks/arena.c:398-410. *)
Definition calloc (s : scope) (nmemb size : N) (m : sys) (a : arena) : res (N * arena) :=
  if SIZE_LIMIT <=? nmemb * size then Exit else
  match malloc s (nmemb * size) m a with
  | Ret (p, a) => Ret (p, set_mem (blit p (repeat NUL (N.to_nat (nmemb * size))) (a_mem a)) a)
  | Exit => Exit | Trap => Trap
  end.

(** arena_realloc_fast, libks/arena.c:412-441. *)
Definition realloc_fast (ptr old new : N) (a : arena) : option arena :=
  if new <=? old then Some a else
  match a_frames a with
  | [] => None
  | f :: r =>
      if negb (align_address (a_poison a) ((ptr + old) mod SIZE_LIMIT) =? f_ptr f + f_len f) then None else
      match push (a_poison a) (mkframe (f_ptr f) (f_size f) ((ptr + SIZE_LIMIT - f_ptr f) mod SIZE_LIMIT)) new with
      | Some (_, f) => Some (set_frames (f :: r) a)
      | None => None
      end
  end.
(** arena_realloc, libks/arena.c:443-472, of a pointer that is not NULL; [None] is NULL. *)
Definition realloc (s : scope) (ptr old new : N) (m : sys) (a : arena) : res (option N * arena) :=
  if negb (N.land ptr 7 =? 0) then Ret (None, a) else
  match realloc_fast ptr old new a with
  | Some a => Ret (Some ptr, a)
  | None =>
      match malloc s new m a with
      | Ret (p, a) => Ret (Some p, set_mem (blit p (readn (a_mem a) ptr (N.to_nat old)) (a_mem a)) a)
      | Exit => Exit | Trap => Trap
      end
  end.

(** arena_scope_enter_impl, libks/arena.c:300-326. *)
Definition enter (a : arena) : option (scope * arena) :=
  match a_frames a with
  | [] => None
  | f :: _ => Some (mkscope (f_ptr f) (f_len f) (S (a_refs a)), mkarena (a_frames a) (a_fsize a) (a_poison a) (S (a_refs a)) (a_mem a))
  end.
(** The loop of arena_scope_leave and what follows it, libks/arena.c:273-290. *)
Fixpoint pop_frames (last : option N) (fs : list frame) : list frame :=
  match fs with
  | [] => []
  | f :: r => match last with Some p => if f_ptr f =? p then fs else pop_frames last r | None => pop_frames last r end
  end.
Definition rewind (len : N) (fs : list frame) : list frame :=
  match fs with [] => [] | f :: r => mkframe (f_ptr f) (f_size f) (if len <=? f_len f then len else 0) :: r end.
(** arena_scope_leave, libks/arena.c:254-298. *)
Definition leave (s : scope) (a : arena) : arena :=
  let last := if Nat.eqb (a_refs a) 1 then None else Some (s_frame s) in
  mkarena (rewind (s_len s) (pop_frames last (a_frames a))) (a_fsize a) (a_poison a) (pred (a_refs a)) (a_mem a).
(** arena_free, libks/arena.c:240-252. *)
Definition free (a : arena) : arena :=
  if Nat.ltb 1 (a_refs a) then mkarena (a_frames a) (a_fsize a) (a_poison a) (pred (a_refs a)) (a_mem a)
  else leave (mkscope 0 0 0) a.
