(** Model of libks/vector.c: growable vectors. *)
From Coq Require Import NArith.
From Verif Require Import Base BufferModel.
Open Scope N_scope.

(** sizeof(struct vector): libks/vector.c:32-38 and libks/vector.h:27-32 with 64 bit pointers. *)
Definition HDR : N := 56.
(** struct vector; [v_mem] is the memory after it (element storage). *)
Record vec := mkvec { v_mem : bytes; v_siz : N; v_stride : N; v_len : N }.

(** vector_init_impl, libks/vector.c:73-86: calloc of the header only. *)
Definition vinit (ok : bool) (stride : N) : option vec := if ok then Some (mkvec [] 0 stride 0) else None.
(** The realloc callback keeps [oldlen] bytes; the element part of it. *)
Definition vrealloc (junk : nat -> byte) (m : bytes) (oldlen totlen : N) : bytes :=
  let keep := firstn (N.to_nat (oldlen - HDR)) m in
  firstn (N.to_nat (totlen - HDR)) (keep ++ map junk (seq (length keep) (N.to_nat (totlen - HDR) - length keep))).
(** vector_reserve1, libks/vector.c:191-230; the loop is the one of buffer_reserve.  The result
    is true for VECTOR_ERROR.  [None]: division by zero (stride 0) or out of fuel. *)
Definition vreserve (ok : bool) (junk : nat -> byte) (len : N) (v : vec) : option (bool * vec) :=
  if ULONG_MAX - len <? v_len v then Some (true, v) else
  if wrap (v_len v + len) <=? v_siz v then Some (false, v) else
  let oldlen := wrap (HDR + v_len v * v_stride v) in
  match grow 65 (if v_siz v =? 0 then 16 else v_siz v) (wrap (v_len v + len)) with
  | None => None
  | Some None => Some (true, v)
  | Some (Some newsiz) =>
      if v_stride v =? 0 then None else
      if ULONG_MAX / v_stride v <? newsiz then Some (true, v) else
      let totlen := wrap (newsiz * v_stride v) in
      if ULONG_MAX - HDR <? totlen then Some (true, v) else
      let totlen := wrap (totlen + HDR) in
      if ok then Some (false, mkvec (vrealloc junk (v_mem v) oldlen totlen) newsiz (v_stride v) (v_len v)) else Some (true, v)
  end.
(** vector_alloc, libks/vector.c:118-142; the index, [None] for ULONG_MAX. *)
Definition valloc (ok : bool) (junk : nat -> byte) (zero : bool) (v : vec) : option (option N * vec) :=
  match vreserve ok junk 1 v with
  | None => None
  | Some (true, v) => Some (None, v)
  | Some (false, v) =>
      let m := if zero then write (wrap (v_stride v * v_len v)) (repeat NUL (N.to_nat (v_stride v))) (v_mem v) else Some (v_mem v) in
      match m with
      | None => None
      | Some m => Some (Some (v_len v), mkvec m (v_siz v) (v_stride v) (wrap (v_len v + 1)))
      end
  end.
(** vector_pop, libks/vector.c:144-152. *)
Definition vpop (v : vec) : option N * vec :=
  if v_len v =? 0 then (None, v) else (Some (v_len v - 1), mkvec (v_mem v) (v_siz v) (v_stride v) (v_len v - 1)).
(** vector_clear, libks/vector.c:154-160. *)
Definition vclear (v : vec) : vec := mkvec (v_mem v) (v_siz v) (v_stride v) 0.
(** vector_first, vector_last, libks/vector.c:171-189. *)
Definition vfirst (v : vec) : option N := if v_len v =? 0 then None else Some 0.
Definition vlast (v : vec) : option N := if v_len v =? 0 then None else Some (v_len v - 1).
(** vector_sort, libks/vector.c:162-169.  qsort is not modelled: [sorted] is the memory of the
    elements after it. *)
Definition vsort (sorted : bytes) (v : vec) : option vec :=
  if v_len v =? 0 then Some v else
  match write 0 sorted (v_mem v) with Some m => Some (mkvec m (v_siz v) (v_stride v) (v_len v)) | None => None end.
(** Storing an element through a pointer from one of the macros in libks/vector.h. *)
Definition vset (i : N) (d : bytes) (v : vec) : option vec :=
  match write (i * v_stride v) d (v_mem v) with Some m => Some (mkvec m (v_siz v) (v_stride v) (v_len v)) | None => None end.
(** Reading one. *)
Definition vget (i : N) (v : vec) : bytes := firstn (N.to_nat (v_stride v)) (skipn (N.to_nat (i * v_stride v)) (v_mem v)).

Inductive vop : Set := VReserve (n : N) | VAlloc (zero : bool) | VSet (i : N) (d : bytes) | VPop | VClear | VFirst | VLast | VSort (sorted : list bytes).
Inductive vres : Set := VRet (error : bool) | VIdx (i : option N).
Definition vexec (ok : bool) (junk : nat -> byte) (o : vop) (v : vec) : option (vres * vec) :=
  match o with
  | VReserve n => match vreserve ok junk n v with Some (e, v) => Some (VRet e, v) | None => None end
  | VAlloc zero => match valloc ok junk zero v with Some (i, v) => Some (VIdx i, v) | None => None end
  | VSet i d => match vset i d v with Some v => Some (VRet false, v) | None => None end
  | VPop => let (i, v) := vpop v in Some (VIdx i, v)
  | VClear => Some (VRet false, vclear v)
  | VFirst => Some (VIdx (vfirst v), v)
  | VLast => Some (VIdx (vlast v), v)
  | VSort p => match vsort (concat p) v with Some v => Some (VRet false, v) | None => None end
  end.
