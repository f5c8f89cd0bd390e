(** Model of libks/arithmetic.c: overflow-checked arithmetic.  Covered are the portable
    functions KS_*_overflow0; where the compiler has the builtins libks/arithmetic.h:49-197 uses
    those instead, which is outside the model. *)
From Coq Require Import ZArith Bool.
Open Scope Z_scope.

(** Outcome of one of the functions: [Ovf] is return value 1 with [*c] untouched, [Val v] is
    return value 0 with [*c] set to [v], [Undef] is undefined behaviour in one of the
    subexpressions. *)
Inductive res : Set := Ovf | Val (v : Z) | Undef.

(** Evaluation of a subexpression in a signed type: outside the range is undefined. *)
Definition chk (lo hi v : Z) (k : Z -> res) : res := if (lo <=? v) && (v <=? hi) then k v else Undef.
(** Division in C truncates; by zero is undefined. *)
Definition cdiv (lo hi a b : Z) (k : Z -> res) : res := if b =? 0 then Undef else chk lo hi (Z.quot a b) k.
(** Short-circuit conjunction with a guarded right-hand side, as in [x && y]. *)
Definition andthen (g : bool) (e : (bool -> res) -> res) (k : bool -> res) : res := if g then e k else k false.

(** libks/arithmetic.c:21-27 *)
Definition signed_add (lo hi a b : Z) : res :=
  andthen (0 <? b) (fun k => chk lo hi (hi - b) (fun m => k (m <? a))) (fun c1 =>
  if c1 then Ovf else
  andthen (b <? 0) (fun k => chk lo hi (lo - b) (fun m => k (a <? m))) (fun c2 =>
  if c2 then Ovf else chk lo hi (a + b) Val)).
(** libks/arithmetic.c:29-35 *)
Definition signed_sub (lo hi a b : Z) : res :=
  andthen (0 <? b) (fun k => chk lo hi (lo + b) (fun m => k (a <? m))) (fun c1 =>
  if c1 then Ovf else
  andthen (b <? 0) (fun k => chk lo hi (hi + b) (fun m => k (m <? a))) (fun c2 =>
  if c2 then Ovf else chk lo hi (a - b) Val)).
(** libks/arithmetic.c:37-48 *)
Definition signed_mul (lo hi a b : Z) : res :=
  andthen ((0 <? a) && (0 <? b)) (fun k => cdiv lo hi hi b (fun m => k (m <? a))) (fun c1 => if c1 then Ovf else
  andthen ((0 <? a) && (b <? 0)) (fun k => cdiv lo hi lo a (fun m => k (b <? m))) (fun c2 => if c2 then Ovf else
  andthen ((a <? 0) && (0 <? b)) (fun k => cdiv lo hi lo b (fun m => k (a <? m))) (fun c3 => if c3 then Ovf else
  andthen ((a <? 0) && (b <? 0)) (fun k => cdiv lo hi hi a (fun m => k (b <? m))) (fun c4 => if c4 then Ovf else
  chk lo hi (a * b) Val)))).

(** Unsigned types wrap around: values modulo [hi + 1]. *)
Definition wrap (hi v : Z) : Z := v mod (hi + 1).
(** libks/arithmetic.c:50-55 *)
Definition unsigned_add (hi a b : Z) : res := if wrap hi (hi - b) <? a then Ovf else Val (wrap hi (a + b)).
(** libks/arithmetic.c:57-62 *)
Definition unsigned_sub (hi a b : Z) : res := if a <? b then Ovf else Val (wrap hi (a - b)).
(** libks/arithmetic.c:64-69 *)
Definition unsigned_mul (hi a b : Z) : res :=
  if b =? 0 then Undef else if hi / b <? a then Ovf else Val (wrap hi (a * b)).

(** Limits of the types; size_t has 64 bits. *)
Definition INT32_MIN := - 2 ^ 31. Definition INT32_MAX := 2 ^ 31 - 1.
Definition INT64_MIN := - 2 ^ 63. Definition INT64_MAX := 2 ^ 63 - 1.
Definition UINT32_MAX := 2 ^ 32 - 1. Definition UINT64_MAX := 2 ^ 64 - 1. Definition SIZE_MAX := 2 ^ 64 - 1.

(** libks/arithmetic.c:71-159.  In the 32 bit unsigned case the operands are not promoted
    because [unsigned int] has 32 bits. *)
Definition i32_add_overflow0 := signed_add INT32_MIN INT32_MAX.
Definition i32_sub_overflow0 := signed_sub INT32_MIN INT32_MAX.
Definition i32_mul_overflow0 := signed_mul INT32_MIN INT32_MAX.
Definition i64_add_overflow0 := signed_add INT64_MIN INT64_MAX.
Definition i64_sub_overflow0 := signed_sub INT64_MIN INT64_MAX.
Definition i64_mul_overflow0 := signed_mul INT64_MIN INT64_MAX.
Definition u32_add_overflow0 := unsigned_add UINT32_MAX.
Definition u32_sub_overflow0 := unsigned_sub UINT32_MAX.
Definition u32_mul_overflow0 := unsigned_mul UINT32_MAX.
Definition u64_add_overflow0 := unsigned_add UINT64_MAX.
Definition u64_sub_overflow0 := unsigned_sub UINT64_MAX.
Definition u64_mul_overflow0 := unsigned_mul UINT64_MAX.
Definition size_add_overflow0 := unsigned_add SIZE_MAX.
Definition size_sub_overflow0 := unsigned_sub SIZE_MAX.
Definition size_mul_overflow0 := unsigned_mul SIZE_MAX.
