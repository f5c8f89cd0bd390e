(** Model of the rest of libks/arena.c: functions to be called when a scope is left, and copies of
    strings.  Builds on [ArenaModel].

    A pointer is a number below 2^64, stored least significant byte first.  Simplified: the
    functions called do not themselves change memory of the arena; vsnprintf(3) is a parameter,
    the text it produces or None if it fails. *)
From Coq Require Import NArith.
From Verif Require Import Base ArenaModel.
Open Scope N_scope.

(** A number in [k] bytes. *)
Fixpoint store (k : nat) (n : N) : bytes := match k with O => [] | S k => ascii_of_N (n mod 256) :: store k (n / 256) end.
Fixpoint load (d : bytes) : N := match d with [] => 0 | b :: r => N_of_ascii b + 256 * load r end.

(** struct arena_cleanup, libks/arena.c:56-60. *)
Definition RECORD : N := 24.
Definition record (ptr fn next : N) : bytes := store 8 ptr ++ store 8 fn ++ store 8 next.
(** A scope with its list of records (s->cleanup), NULL being 0. *)
Definition cscope := (scope * N)%type.

(** arena_cleanup, libks/arena.c:525-537; the statistics are left out. *)
Definition cleanup (s : cscope) (fn ptr : N) (m : sys) (a : arena) : res (cscope * arena) :=
  match malloc (fst s) RECORD m a with
  | Ret (ac, a) =>
      let mem := blit ac (store 8 ptr) (a_mem a) in
      let mem := blit (ac + 8) (store 8 fn) mem in
      let mem := blit (ac + 16) (store 8 (snd s)) mem in
      Ret ((fst s, ac), set_mem mem a)
  | Exit => Exit | Trap => Trap
  end.

(** The loop in arena_scope_leave, libks/arena.c:265-266: the functions called and their
    arguments; None if it goes on for more than [fuel] records. *)
Fixpoint run_cleanups (fuel : nat) (mem : N -> byte) (ac : N) : option (list (N * N)) :=
  if ac =? 0 then Some []
  else match fuel with
       | O => None
       | S f =>
           let ptr := load (readn mem ac 8) in
           let fn := load (readn mem (ac + 8) 8) in
           match run_cleanups f mem (load (readn mem (ac + 16) 8)) with Some l => Some ((fn, ptr) :: l) | None => None end
       end.
(** arena_scope_leave, libks/arena.c:254-298. *)
Definition leave_scope (fuel : nat) (s : cscope) (a : arena) : option (list (N * N) * arena) :=
  match run_cleanups fuel (a_mem a) (snd s) with Some l => Some (l, leave (fst s) a) | None => None end.

(** arena_strndup, libks/arena.c:510-523; [src]: the bytes at src, of which there must be
    [length src]. *)
Definition strndup (s : scope) (src : bytes) (m : sys) (a : arena) : res (N * arena) :=
  let len := N.of_nat (length src) in
  if SIZE_LIMIT <=? len + 1 then Exit
  else match malloc s (len + 1) m a with
       | Ret (dst, a) => Ret (dst, set_mem (blit (dst + len) [NUL] (blit dst src (a_mem a))) a)
       | Exit => Exit | Trap => Trap
       end.
(** arena_strdup, libks/arena.c:504-508; [src] goes up to the first NUL. *)
Definition strdup (s : scope) (src : bytes) (m : sys) (a : arena) : res (N * arena) := strndup s src m a.
(** arena_sprintf, libks/arena.c:474-502: the first call is for the length, the second one
    stores the text and a NUL. *)
Definition sprintf (s : scope) (text : option bytes) (m : sys) (a : arena) : res (N * arena) :=
  match text with
  | None => Exit
  | Some t =>
      let len := N.of_nat (length t) + 1 in
      match malloc s len m a with
      | Ret (str, a) => Ret (str, set_mem (blit str (t ++ [NUL]) (a_mem a)) a)
      | Exit => Exit | Trap => Trap
      end
  end.
