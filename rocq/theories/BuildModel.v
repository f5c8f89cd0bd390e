(** Model of how documents are built: doc.c:374-600.  A document under construction is the
    path from its root to the place where something was added last; a place that can be added
    to is given by its depth on that path.  In C a pointer to any CONCAT may be added to:
    adding to one that is no longer on the path (something was added behind it further up)
    is the outcome [None] here, shown not to occur. *)
From Verif Require Import Base DocModel.
Local Close Scope Q_scope.
Local Open Scope nat_scope.

(** The documents with one child, each of which holds a CONCAT. *)
Inductive kind : Type := KGroup | KIndent (v : Z) | KNoIndent | KOptional | KMinimize (id : nat) (ms : list (Z * bool)) | KScope | KMaxlines (n : nat).
Definition wrap1 (k : kind) (d : doc) : doc :=
  match k with
  | KGroup => Group d
  | KIndent v => Indent v d
  | KNoIndent => NoIndent d
  | KOptional => Optional d
  | KMinimize id ms => Minimize id ms d
  | KScope => Scope d
  | KMaxlines n => Maxlines n d
  end.

(** A CONCAT that can be added to: the documents around it, its children (last first) and
    the highest weight (dc_int) of a SOFTLINE in it. *)
Record frame : Type := Frame { f_kinds : list kind; f_kids : list doc; f_max : nat }.
Record bs : Type := Bs { b_path : list frame; b_id : nat }.
Definition point : Type := nat.

Definition fdoc (f : frame) : doc := fold_right wrap1 (Concat (rev (f_kids f))) (f_kinds f).
Definition add (d : doc) (w : nat) (f : frame) : frame := Frame (f_kinds f) (d :: f_kids f) (max w (f_max f)).
(** Everything below a frame. *)
Fixpoint whole (f : frame) (r : list frame) : frame :=
  match r with [] => f | g :: r => let g' := whole g r in add (fdoc g') (f_max g') f end.
Fixpoint change (p : point) (u : frame -> list frame) (fs : list frame) : option (list frame) :=
  match fs, p with
  | [], _ => None
  | f :: r, 0 => Some (u (whole f r))
  | f :: r, S p => match change p u r with Some r' => Some (f :: r') | None => None end
  end.

(** * Computations *)
Definition M (A : Type) : Type := bs -> option (A * bs).
Definition ret {A} (a : A) : M A := fun s => Some (a, s).
Definition bnd {A B} (m : M A) (f : A -> M B) : M B := fun s => match m s with Some (a, s) => f a s | None => None end.
Definition fail {A} : M A := fun _ => None.
Declare Scope build_scope.
Notation "'let*' x ':=' m 'in' k" := (bnd m (fun x => k)) (at level 200, x name, m at level 100, k at level 200, right associativity) : build_scope.
Notation "m ;; k" := (bnd m (fun _ => k)) (at level 190, right associativity) : build_scope.
Open Scope build_scope.

(** doc.c:438-447 doc_append, 478-493 doc_alloc of something without children. *)
Definition leaf_weight (d : doc) (w : nat) (p : point) : M unit :=
  fun s => match change p (fun f => [add d w f]) (b_path s) with Some fs => Some (tt, Bs fs (b_id s)) | None => None end.
Definition leaf (d : doc) (p : point) : M unit := leaf_weight d 0 p.
(** doc_literal *)
Definition literal (t : string) (p : point) : M unit := leaf (Literal (s2b t)) p.
(** doc_alloc(DOC_CONCAT, doc_alloc(type, dc)), doc_indent, doc_dedent. *)
Definition alloc (ks : list kind) (p : point) : M point :=
  fun s => match change p (fun f => [f; Frame ks [] 0]) (b_path s) with Some fs => Some (S p, Bs fs (b_id s)) | None => None end.
(** doc.c:523-545 doc_minimize; every DOC_MINIMIZE has a vector of its own. *)
Definition minimize (ms : list (Z * bool)) (p : point) : M point :=
  fun s => alloc [KMinimize (b_id s) ms] p (Bs (b_path s) (S (b_id s))).
(** doc.c:587-600 doc_max *)
Definition max_weight (p : point) : M nat :=
  fun s => match skipn p (b_path s) with f :: r => Some (f_max (whole f r), s) | [] => None end.
(** doc.c:400-405 doc_remove of a SOFTLINE that was the first to be added at [p], with a
    place below that was allocated next. *)
Fixpoint unsoft (p : point) (fs : list frame) : option (list frame) :=
  match fs, p with
  | [], _ => None
  | f :: r, 0 => match f_kids f with [Softline] => Some (Frame (f_kinds f) [] 0 :: r) | _ => None end
  | f :: r, S p => match unsoft p r with Some r' => Some (f :: r') | None => None end
  end.
Definition remove_soft (p : point) : M unit :=
  fun s => match unsoft p (b_path s) with Some fs => Some (tt, Bs fs (b_id s)) | None => None end.

(** doc.c:400-405 doc_remove of a document with [k] documents before it at [p]; nothing is
    added below it later on. *)
Definition cut {A} (k : nat) (l : list A) : list A := firstn (length l - S k) l ++ skipn (length l - k) l.
Definition mark (p : point) : M nat :=
  fun s => match skipn p (b_path s) with f :: r => Some (length (f_kids (whole f r)), s) | [] => None end.
Definition remove_at (p : point) (k : nat) : M unit :=
  fun s => match change p (fun f => [Frame (f_kinds f) (cut k (f_kids f)) (f_max f)]) (b_path s) with Some fs => Some (tt, Bs fs (b_id s)) | None => None end.

(** The document built so far. *)
Definition built (s : bs) : doc := match b_path s with f :: r => fdoc (whole f r) | [] => Concat [] end.
Definition root : bs := Bs [Frame [] [] 0] 0.
