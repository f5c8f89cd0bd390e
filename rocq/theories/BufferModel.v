(** Model of libks/buffer.c: growable byte buffers, reading descriptors, iterating lines. *)
From Coq Require Import NArith.
From Verif Require Import Base.
Open Scope N_scope.

(** size_t and unsigned long have 64 bits and wrap around. *)
Definition ULONG_MAX : N := 2 ^ 64 - 1.
Definition wrap (n : N) : N := n mod 2 ^ 64.
Definition lenN (s : bytes) : N := N.of_nat (length s).
Definition INT_MAX : N := 2 ^ 31 - 1.

(** struct buffer, libks/buffer.c:30-35.  [b_mem] is the storage behind bf_ptr, empty for NULL. *)
Record buf := mkbuf { b_mem : bytes; b_siz : N; b_len : N }.

(** Storing bytes at an offset; outside of the storage is undefined. *)
Definition write (off : N) (src m : bytes) : option bytes :=
  if off + lenN src <=? lenN m then Some (firstn (N.to_nat off) m ++ src ++ skipn (N.to_nat (off + lenN src)) m) else None.
(** The realloc callback, libks/buffer.c:343-348: keeps what fits, the rest is arbitrary. *)
Definition realloc (junk : nat -> byte) (m : bytes) (n : N) : bytes :=
  firstn (N.to_nat n) (m ++ map junk (seq (length m) (N.to_nat n - length m))).

(** The loop in buffer_reserve, libks/buffer.c:319-323.  [None]: out of fuel; [Some None]: overflow. *)
Fixpoint grow (fuel : nat) (newsiz newlen : N) : option (option N) :=
  match fuel with
  | O => None
  | S f => if newsiz <? newlen then if ULONG_MAX / 2 <? newsiz then Some None else grow f (wrap (newsiz * 2)) newlen else Some (Some newsiz)
  end.
(** buffer_reserve, libks/buffer.c:306-335.  [ok] says whether the allocator delivers; the
    result is the return value (true = 1) and the buffer. *)
Definition reserve (ok : bool) (junk : nat -> byte) (b : buf) (len : N) : option (bool * buf) :=
  if ULONG_MAX - b_len b <? len then Some (true, b) else
  let newlen := wrap (b_len b + len) in
  if (0 <? b_siz b) && (newlen <=? b_siz b) then Some (false, b) else
  match grow 65 (if b_siz b =? 0 then 16 else b_siz b) newlen with
  | None => None
  | Some None => Some (true, b)
  | Some (Some n) => if ok then Some (false, mkbuf (realloc junk (b_mem b) n) n (b_len b)) else Some (true, b)
  end.
(** buffer_alloc_impl, libks/buffer.c:53-68; [None] inside: NULL. *)
Definition alloc (ok : bool) (junk : nat -> byte) (init : N) : option (option buf) :=
  match reserve ok junk (mkbuf [] 0 0) init with
  | None => None
  | Some (true, _) => Some None
  | Some (false, b) => Some (Some b)
  end.

Section Ops.
Variables (ok : bool) (junk : nat -> byte).
(** buffer_puts, libks/buffer.c:141-151. *)
Definition puts (src : option bytes) (b : buf) : option (bool * buf) :=
  match src with
  | None | Some [] => Some (false, b)
  | Some s =>
      match reserve ok junk b (lenN s) with
      | None => None
      | Some (true, b1) => Some (true, b1)
      | Some (false, b1) =>
          match write (b_len b1) s (b_mem b1) with
          | None => None
          | Some m => Some (false, mkbuf m (b_siz b1) (wrap (b_len b1 + lenN s)))
          end
      end
  end.
(** buffer_putc, libks/buffer.c:153-157. *)
Definition putc (c : byte) (b : buf) : option (bool * buf) := puts (Some [c]) b.
(** buffer_vprintf, libks/buffer.c:171-195.  [r] is the formatted text, [None] if vsnprintf
    fails; more than INT_MAX bytes is such a failure. *)
Definition printf (r : option bytes) (b : buf) : option (bool * buf) :=
  match r with
  | None => Some (true, b)
  | Some s =>
      if INT_MAX <? lenN s then Some (true, b) else
      match reserve ok junk b (lenN s + 1) with
      | None => None
      | Some (true, b1) => Some (true, b1)
      | Some (false, b1) =>
          let len := b_siz b1 - b_len b1 in
          (* vsnprintf stores at most len bytes including the terminator *)
          let out := if len =? 0 then [] else firstn (N.to_nat (len - 1)) s ++ [NUL] in
          match write (b_len b1) out (b_mem b1) with
          | None => None
          | Some m => if len <=? lenN s then Some (true, mkbuf m (b_siz b1) (b_len b1)) else Some (false, mkbuf m (b_siz b1) (wrap (b_len b1 + lenN s)))
          end
      end
  end.
(** buffer_release, libks/buffer.c:197-207: the storage is handed out. *)
Definition release (b : buf) : bytes * buf := (firstn (N.to_nat (b_len b)) (b_mem b), mkbuf [] 0 0).
(** buffer_str, libks/buffer.c:209-217; [None] as string: NULL. *)
Definition str (b : buf) : option (option bytes * buf) :=
  let last := if b_len b =? 0 then Some None else match nth_error (b_mem b) (N.to_nat (b_len b - 1)) with Some c => Some (Some c) | None => None end in
  match last with
  | None => None
  | Some l =>
      let put := match l with None => true | Some c => negb (c =c NUL) end in
      if put then
        match putc NUL b with
        | None => None
        | Some (true, b1) => Some (None, b1)
        | Some (false, b1) => let (s, b2) := release b1 in Some (Some s, b2)
        end
      else let (s, b2) := release b in Some (Some s, b2)
  end.
(** buffer_reset, libks/buffer.c:219-223. *)
Definition reset (b : buf) : buf := mkbuf (b_mem b) (b_siz b) 0.
(** buffer_pop, libks/buffer.c:225-232. *)
Definition pop (n : N) (b : buf) : N * buf :=
  let n := if b_len b <? n then b_len b else n in (n, mkbuf (b_mem b) (b_siz b) (b_len b - n)).
End Ops.
(** buffer_cmp, libks/buffer.c:234-242: true stands for a nonzero result; memcmp is nonzero
    iff the first bytes differ. *)
Definition cmp (a b : buf) : bool :=
  if negb (b_len a =? b_len b) then true else if b_len a =? 0 then false
  else negb (if list_eq_dec ascii_dec (firstn (N.to_nat (b_len a)) (b_mem a)) (firstn (N.to_nat (b_len a)) (b_mem b)) then true else false).

(** The public operations as data, with the environment of each. *)
Inductive bop : Set := BPuts (s : option bytes) | BPutc (c : byte) | BPrintf (r : option bytes) | BStr | BRelease | BReset | BPop (n : N).
Inductive bres : Set := Ret (error : bool) | Str (s : option bytes) | Count (n : N).
Definition bexec (ok : bool) (junk : nat -> byte) (o : bop) (b : buf) : option (bres * buf) :=
  let ret r := match r with Some (e, b) => Some (Ret e, b) | None => None end in
  match o with
  | BPuts s => ret (puts ok junk s b)
  | BPutc c => ret (putc ok junk c b)
  | BPrintf r => ret (printf ok junk r b)
  | BStr => match str ok junk b with Some (s, b) => Some (Str s, b) | None => None end
  | BRelease => let (s, b) := release b in Some (Str (Some s), b)
  | BReset => Some (Ret false, reset b)
  | BPop n => let (k, b) := pop n b in Some (Count k, b)
  end.

(** ** Reading *)
(** One call of read(2) and the allocator at that time: [None] is an error, [Some k] delivers
    at most k + 1 bytes. *)
Record step := { r_read : option N; r_ok : bool }.
Definition calm : step := {| r_read := Some (2 ^ 63); r_ok := true |}.
(** buffer_read_fd_impl, libks/buffer.c:113-130.  [src] is what the descriptor still has, [pat]
    the behaviour of the coming calls; after it reads are complete. *)
Fixpoint read_fd (fuel : nat) (junk : nat -> byte) (pat : list step) (src : bytes) (b : buf) : option (bool * buf) :=
  match fuel with
  | O => None
  | S f =>
      let st := hd calm pat in
      match r_read st with
      | None => Some (true, b)
      | Some k =>
          let got := firstn (N.to_nat (N.min (b_siz b - b_len b) (k + 1))) src in
          match got with
          | [] => Some (false, b)
          | _ =>
              match write (b_len b) got (b_mem b) with
              | None => None
              | Some m =>
                  match reserve (r_ok st) junk (mkbuf m (b_siz b) (wrap (b_len b + lenN got))) (b_siz b / 2) with
                  | None => None
                  | Some (true, b1) => Some (true, b1)
                  | Some (false, b1) => read_fd f junk (tl pat) (skipn (length got) src) b1
                  end
              end
          end
      end
  end.

(** ** Lines *)
(** struct buffer_getline; [g_buf = None] is NULL. *)
Record getline := { g_buf : option buf; g_off : N }.
Definition g0 : getline := {| g_buf := None; g_off := 0 |}.
(** memchr: index of the first newline. *)
Fixpoint memchr (s : bytes) : option nat :=
  match s with
  | [] => None
  | c :: s => if c =c NL then Some 0%nat else match memchr s with Some i => Some (S i) | None => None end
  end.
(** buffer_getline with buffer_getline_impl, libks/buffer.c:262-304: the content of the line
    buffer whose address is returned, [None] for NULL.  [ok] as above; results of buffer_puts and
    buffer_putc are ignored as in the code. *)
Definition getline_next (ok : bool) (junk : nat -> byte) (bf : buf) (g : getline) : option (option bytes * getline) :=
  let gb := match g_buf g with Some b => Some (Some b) | None => alloc ok junk 1024 end in
  match gb with
  | None => None
  | Some None => Some (None, g)
  | Some (Some gb) =>
      if b_len bf <=? g_off g then Some (None, g0) else
      let line := skipn (N.to_nat (g_off g)) (firstn (N.to_nat (b_len bf)) (b_mem bf)) in
      let linelen := match memchr line with Some i => N.of_nat i | None => b_len bf - g_off g end in
      match puts ok junk (Some (firstn (N.to_nat linelen) line)) (reset gb) with
      | None => None
      | Some (_, gb) =>
          match putc ok junk NUL gb with
          | None => None
          | Some (_, gb) => Some (Some (firstn (N.to_nat (b_len gb)) (b_mem gb)), {| g_buf := Some gb; g_off := wrap (g_off g + linelen + 1) |})
          end
      end
  end.
(** The usual loop over all lines. *)
Fixpoint getlines (fuel : nat) (junk : nat -> byte) (bf : buf) (g : getline) : option (list bytes * getline) :=
  match fuel with
  | O => None
  | S f =>
      match getline_next true junk bf g with
      | None => None
      | Some (None, g) => Some ([], g)
      | Some (Some l, g) => match getlines f junk bf g with Some (ls, g) => Some (l :: ls, g) | None => None end
      end
  end.
