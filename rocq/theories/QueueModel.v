(** Model of libks/list.h: the intrusive list macros, at the level of pointers. *)
From Verif Require Import Base.

(** Address of a pointer to an element: tqh_first of a list head or tqe_next of an element
    (libks/list.h:51-64).  Elements and heads are numbers. *)
Inductive slot : Set := SHead (h : nat) | SElem (e : nat).
Definition slot_eqb (a b : slot) : bool :=
  match a, b with SHead x, SHead y | SElem x, SElem y => Nat.eqb x y | _, _ => false end.
(** Memory.  [q_val s] is the pointer stored at [s]; [q_bck s] the word after it: tqh_last of a
    head or tqe_prev of an element, both addresses of such pointers.  [None] is NULL. *)
Record mem := mkmem { q_val : slot -> option nat; q_bck : slot -> option slot }.
Definition setv (s : slot) (x : option nat) (m : mem) : mem := mkmem (fun t => if slot_eqb t s then x else q_val m t) (q_bck m).
Definition setb (s : slot) (x : option slot) (m : mem) : mem := mkmem (q_val m) (fun t => if slot_eqb t s then x else q_bck m t).
(** Dereferencing NULL is [None]. *)
Definition bind {A B : Type} (x : option A) (f : A -> option B) : option B := match x with Some a => f a | None => None end.

(** LIST_FIRST, LIST_NEXT, LIST_EMPTY, LIST_LINKED: libks/list.h:68, 83-91. *)
Definition first (h : nat) (m : mem) : option nat := q_val m (SHead h).
Definition next (e : nat) (m : mem) : option nat := q_val m (SElem e).
Definition empty (h : nat) (m : mem) : bool := match first h m with None => true | Some _ => false end.
Definition linked (e : nat) (m : mem) : bool := match q_val m (SElem e), q_bck m (SElem e) with None, None => false | _, _ => true end.
(** LIST_LAST, LIST_PREV: libks/list.h:70-81.  The address in tqh_last or tqe_prev is taken for
    that of a head, whose tqh_last is the word after the pointer. *)
Definition last (h : nat) (m : mem) : option (option nat) :=
  bind (q_bck m (SHead h)) (fun s => bind (q_bck m s) (fun t => Some (q_val m t))).
Definition prev (e : nat) (m : mem) : option (option nat) :=
  bind (q_bck m (SElem e)) (fun s => bind (q_bck m s) (fun t => Some (q_val m t))).
(** LIST_FOREACH and LIST_FOREACH_REVERSE: libks/list.h:93-113; the elements visited.
    [None]: out of fuel or NULL dereferenced. *)
Fixpoint walk (fuel : nat) (step : nat -> option (option nat)) (e : option nat) : option (list nat) :=
  match e with
  | None => Some []
  | Some e =>
      match fuel with
      | O => None
      | S f => bind (step e) (fun n => bind (walk f step n) (fun l => Some (e :: l)))
      end
  end.
Definition foreach (fuel h : nat) (m : mem) : option (list nat) := walk fuel (fun e => Some (next e m)) (first h m).
Definition foreach_reverse (fuel h : nat) (m : mem) : option (list nat) := bind (last h m) (fun l => walk fuel (fun e => prev e m) l).

(** LIST_INIT: libks/list.h:115-118. *)
Definition init (h : nat) (m : mem) : option mem := Some (setb (SHead h) (Some (SHead h)) (setv (SHead h) None m)).
(** LIST_INSERT_HEAD: libks/list.h:120-129. *)
Definition insert_head (h e : nat) (m : mem) : option mem :=
  let m := setv (SElem e) (q_val m (SHead h)) m in
  let m := match q_val m (SElem e), q_val m (SHead h) with
    | Some _, Some f => Some (setb (SElem f) (Some (SElem e)) m)
    | Some _, None => None
    | None, _ => Some (setb (SHead h) (Some (SElem e)) m) end in
  bind m (fun m =>
  let m := setv (SHead h) (Some e) m in
  Some (setb (SElem e) (Some (SHead h)) m)).
(** LIST_INSERT_TAIL: libks/list.h:131-136. *)
Definition insert_tail (h e : nat) (m : mem) : option mem :=
  let m := setv (SElem e) None m in
  let m := setb (SElem e) (q_bck m (SHead h)) m in
  bind (q_bck m (SHead h)) (fun s =>
  let m := setv s (Some e) m in
  Some (setb (SHead h) (Some (SElem e)) m)).
(** LIST_INSERT_AFTER: libks/list.h:138-147. *)
Definition insert_after (h le e : nat) (m : mem) : option mem :=
  let m := setv (SElem e) (q_val m (SElem le)) m in
  let m := match q_val m (SElem e) with
    | Some n => setb (SElem n) (Some (SElem e)) m
    | None => setb (SHead h) (Some (SElem e)) m end in
  let m := setv (SElem le) (Some e) m in
  Some (setb (SElem e) (Some (SElem le)) m).
(** LIST_INSERT_BEFORE: libks/list.h:149-154. *)
Definition insert_before (le e : nat) (m : mem) : option mem :=
  let m := setb (SElem e) (q_bck m (SElem le)) m in
  let m := setv (SElem e) (Some le) m in
  bind (q_bck m (SElem le)) (fun s =>
  let m := setv s (Some e) m in
  Some (setb (SElem le) (Some (SElem e)) m)).
(** LIST_REMOVE: libks/list.h:156-165. *)
Definition remove (h e : nat) (m : mem) : option mem :=
  let m := match q_val m (SElem e) with
    | Some n => setb (SElem n) (q_bck m (SElem e)) m
    | None => setb (SHead h) (q_bck m (SElem e)) m end in
  bind (q_bck m (SElem e)) (fun s =>
  let m := setv s (q_val m (SElem e)) m in
  let m := setb (SElem e) None m in
  Some (setv (SElem e) None m)).
(** LIST_CONCAT: libks/list.h:167-174. *)
Definition concat (h1 h2 : nat) (m : mem) : option mem :=
  if empty h2 m then Some m else
  bind (q_bck m (SHead h1)) (fun s =>
  let m := setv s (q_val m (SHead h2)) m in
  bind (q_val m (SHead h2)) (fun f =>
  let m := setb (SElem f) (q_bck m (SHead h1)) m in
  let m := setb (SHead h1) (q_bck m (SHead h2)) m in
  init h2 m)).
