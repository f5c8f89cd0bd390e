(** C68, specification: what formatting only the lines of a diff is to leave alone. *)
From Verif Require Import Base DocModel DdocModel.
From Verif Require DiffModel.
Open Scope nat_scope.

(** The tokens of a document from left to right, verbatims marked. *)
Fixpoint toks (d : ddoc) : list (bool * dtok) :=
  match d with
  | DConcat l => flat_map toks l
  | DGroup d | DIndent _ d | DNoIndent d | DOptional d | DMinimize _ _ d | DScope d | DMaxlines _ d => toks d
  | DLiteral (Some tk) _ => [(false, tk)]
  | DVerbatim tk => [(true, tk)]
  | _ => []
  end.
(** Its groups and the limits it puts on consecutive new lines. *)
Fixpoint groups (d : ddoc) : list ddoc :=
  match d with
  | DConcat l => flat_map groups l
  | DGroup d' => d :: groups d'
  | DIndent _ d | DNoIndent d | DOptional d | DMinimize _ _ d | DScope d | DMaxlines _ d => groups d
  | _ => []
  end.
Fixpoint limits (d : ddoc) : list nat :=
  match d with
  | DConcat l => flat_map limits l
  | DMaxlines n d => n :: limits d
  | DGroup d | DIndent _ d | DNoIndent d | DOptional d | DMinimize _ _ d | DScope d => limits d
  | _ => []
  end.

Definition lno (x : bool * dtok) : nat := k_lno (snd x).
(** The number of lines a text takes that ends with a new line. *)
Definition height (s : bytes) : nat := match rev s with c :: _ => if c =c NL then count_occ_b NL s else 0 | [] => 0 end.
(** The line on which a following token starts at the earliest. *)
Definition after (x : bool * dtok) : nat := lno x + (if fst x then height (k_str (snd x)) else 0).

Definition in_chunk (chunks : list DiffModel.chunk) (l : nat) : Prop :=
  exists c, In c chunks /\ (DiffModel.du_beg c <= N.of_nat l <= DiffModel.du_end c)%N.

(** A document made from a source with the lines [ls]: the tokens of a group come in the
    order of the source, a token is flagged iff its line is in the diff, and some new lines
    are always allowed. *)
Record made_from (ls : list bytes) (chunks : list DiffModel.chunk) (d : ddoc) : Prop := {
  mf_line : forall g t, In g (groups d) -> In t (toks g) -> 1 <= lno t <= length ls;
  mf_flag : forall g t, In g (groups d) -> In t (toks g) -> k_diff (snd t) = true <-> in_chunk chunks (lno t);
  mf_order : forall g, In g (groups d) -> ForallOrdPairs (fun x y => after x <= lno y) (toks g);
  mf_limits : Forall (fun n => 1 <= n) (limits d)
}.

(** The lines that formatting may touch: those of the diff, those of a group with a token
    of the diff and the other lines of a verbatim with such a line. *)
Inductive touched (chunks : list DiffModel.chunk) (d : ddoc) : nat -> Prop :=
| to_chunk : forall l, in_chunk chunks l -> touched chunks d l
| to_group : forall g f a b l, In g (groups d) -> In f (toks g) -> k_diff (snd f) = true ->
    In a (toks g) -> In b (toks g) -> lno a <= l <= lno b -> touched chunks d l
| to_verbatim : forall v l l', In (true, v) (toks d) -> touched chunks d l' ->
    k_lno v <= l' < k_lno v + height (k_str v) -> k_lno v <= l < k_lno v + height (k_str v) -> touched chunks d l.

(** [merged ls T n out]: in [out] the lines before line [n] are as they were, in order and
    with nothing in between, but for runs of lines in [T] replaced by some text. *)
Inductive merged (ls : list bytes) (T : nat -> Prop) : nat -> bytes -> Prop :=
| mg_start : merged ls T 1 []
| mg_line : forall n out l, merged ls T n out -> nth_error ls (n - 1) = Some l -> merged ls T (S n) (out ++ l)
| mg_block : forall n m out text, merged ls T n out -> n < m -> (forall i, n <= i < m -> T i) -> merged ls T m (out ++ text).

(** A group in which no verbatim outside of the diff comes before a token of the diff, one
    whose tokens of the diff all are in the same chunk, and tokens told apart. *)
Definition plain (g : ddoc) : Prop :=
  forall p v q t, toks g = p ++ (true, v) :: q -> k_diff v = false -> In t q -> k_diff (snd t) = false.
Definition single (chunks : list DiffModel.chunk) (g : ddoc) : Prop :=
  forall t u c, In t (toks g) -> In u (toks g) -> k_diff (snd t) = true -> k_diff (snd u) = true -> In c chunks ->
    (DiffModel.du_beg c <= N.of_nat (lno t) <= DiffModel.du_end c)%N -> (N.of_nat (lno u) <= DiffModel.du_end c)%N.
Definition distinct (d : ddoc) : Prop :=
  forall v w, In (true, v) (toks d) -> In (true, w) (toks d) -> k_id v = k_id w -> v = w.
