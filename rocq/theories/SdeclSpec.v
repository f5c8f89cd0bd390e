(** Specification of the grouping of local variables, in terms of declarations. *)
From Coq Require Import Permutation Sorted.
From Verif Require Import Base TokenModel StreamModel TokListModel StaticModel SdeclModel.
From Verif Require ForwardProps.

(** A declared variable: its tokens, with the stars in front of it, and the comma or semicolon
    behind it. *)
Record var : Set := Var { w_toks : list id; w_delim : id }.
(** The tokens of a block: declarations and anything else.  In front of the first variable of a
    declaration there are [n] stars that were taken for part of the type.  What is not a
    declaration of variables may nevertheless report commas, semicolons and types. *)
Inductive piece : Set :=
| Other (l : list id) (cs : list call)
| Declares (ty : list id) (n : nat) (vs : list var).
Definition vtoks (v : var) : list id := w_toks v ++ [w_delim v].
Definition ptoks (p : piece) : list id := match p with Other l _ => l | Declares ty _ vs => ty ++ flat_map vtoks vs end.

Section Spec.
Variable x : lex.
Notation is ty t := (ttype_eqb (tyof x t) ty).
Definition delim_call (v : var) : call := if is T_SEMI (w_delim v) then CSemi (w_delim v) else CComma (w_delim v).
Definition reported (ty : list id) (n : nat) (vs : list var) : list id := ty ++ firstn n (flat_map vtoks vs).
Definition pcalls (p : piece) : list call :=
  match p with Other _ cs => cs | Declares ty n vs => CType (hd 0 ty) (last (reported ty n vs) 0) :: map delim_call vs end.
Definition ignored (c : call) : Prop := match c with CType b e => is_type_valid x b e = false | _ => True end.
(** What the reader of declarations guarantees about its calls. *)
Definition called (p : piece) : Prop :=
  match p with
  | Other _ cs => Forall ignored cs
  | Declares ty n vs =>
      ty <> [] /\ tyof x (last ty 0) <> T_STAR /\ Forall (fun t => tyof x t <> T_SEMI /\ tyof x t <> T_EOF) ty /\
      Forall (fun t => tyof x t = T_STAR) (firstn n (flat_map vtoks vs)) /\ tyof x (hd 0 (flat_map vtoks vs)) <> T_LBRACE /\
      exists us v, vs = us ++ [v] /\ tyof x (w_delim v) = T_SEMI /\ Forall (fun u => tyof x (w_delim u) = T_COMMA) us /\ (us = [] \/ Forall (fun u => w_toks u <> []) vs)
  end.

(** Nothing is attached to the token: no comment, no directive. *)
Definition clear (t : id) : bool :=
  match n_pre (x_heap x t) with [] => true | _ => false end && forallb (fun s => negb (ttype_eqb (n_type (x_heap x s)) T_COMMENT)) (n_suf (x_heap x t)).
(** Variables that are moved: a name and stars. *)
Definition moves (v : var) : bool :=
  forallb (fun t => (is T_STAR t || is T_IDENT t) && clear t) (w_toks v) && existsb (fun t => is T_IDENT t) (w_toks v) && clear (w_delim v).
(** Types of which variables are moved. *)
Definition valid (ty : list id) (n : nat) (vs : list var) : bool :=
  forallb (fun t => clear t && negb (is T_LPAREN t) && negb (is T_LBRACE t)) (reported ty n vs).
Definition key (ty : list id) : bytes := joined (map (fun t => n_str (x_heap x t)) (filter (fun t => negb (is T_STAR t)) ty)).
Definition stars (v : var) : nat := length (filter (fun t => is T_STAR t) (w_toks v)).
Definition name (v : var) : id := hd 0 (filter (fun t => is T_IDENT t) (w_toks v)).
(** The commas that go along with the variables moved. *)
Fixpoint claims (pend : option id) (vs : list var) : list (var * option id) :=
  match vs with
  | [] => []
  | [v] => if moves v then [(v, pend)] else []
  | v :: vs =>
      if moves v then match pend with
                      | None => (v, Some (w_delim v)) :: claims None vs
                      | Some c => (v, Some c) :: claims (Some (w_delim v)) vs
                      end
      else claims (if clear (w_delim v) then Some (w_delim v) else None) vs
  end.
Definition pclaims (p : piece) : list (bytes * (var * option id)) :=
  match p with Other _ _ => [] | Declares ty n vs => if valid ty n vs then map (pair (key ty)) (claims None vs) else [] end.
Definition emptied (p : piece) : bool := match p with Other _ _ => false | Declares ty n vs => valid ty n vs && forallb moves vs end.
Definition semi_of (p : piece) : id := match p with Other _ _ => 0 | Declares _ _ vs => w_delim (last vs (Var [] 0)) end.
Definition semi_for (ps : list piece) (k : bytes) (a : id) : Prop :=
  exists ty n vs, In (Declares ty n vs) ps /\ valid ty n vs = true /\ key ty = k /\ a = semi_of (Declares ty n vs).

(** The variables moved, each with the text of its type. *)
Definition moved (ps : list piece) : list (bytes * (var * option id)) := flat_map pclaims ps.
Definition class (c : bytes * (var * option id)) : bytes * nat := (fst c, stars (fst (snd c))).
Definition class_dec : forall a b : bytes * nat, {a = b} + {a <> b}.
Proof. decide equality; [apply Nat.eq_dec|apply list_eq_dec, ascii_dec]. Defined.
Definition from (k : bytes * nat) (c : bytes * (var * option id)) : bool := if class_dec (class c) k then true else false.
(** The tokens taken from their place. *)
Definition ceat (c : var * option id) : list id := w_toks (fst c) ++ match snd c with Some d => [d] | None => [] end.
Definition eaten (ps : list piece) : list id := flat_map (fun c => ceat (snd c)) (moved ps).
(** What is left of a declaration. *)
Definition rest (ps : list piece) (p : piece) : list id := if emptied p then [] else filter (fun t => negb (existsb (Nat.eqb t) (eaten ps))) (ptoks p).
(** A comma in front of the variables at the end of a declaration is free if all of these are
    moved and the one before is not. *)
Fixpoint settled (vs : list var) : bool :=
  match vs with
  | v :: vs => (moves v || match vs with [] => true | _ => clear (w_delim v) || negb (forallb moves vs) end) && settled vs
  | [] => true
  end.
Definition psettled (p : piece) : bool := match p with Other _ _ => true | Declares ty n vs => negb (valid ty n vs) || settled vs end.
(** A declaration that is added. *)
Record group : Set := Group { g_class : bytes * nat; g_after : id; g_type : list id; g_vars : list var }.
Definition gdecl (g : group) : piece := Declares (g_type g) 0 (g_vars g).
Definition closes (p : piece) (a : id) : bool := match p with Other _ _ => false | Declares _ _ _ => a =? semi_of p end.
(** Variables in a row: commas between them, a semicolon behind the last one. *)
Fixpoint row (vs : list var) : Prop :=
  match vs with [] => False | [v] => tyof x (w_delim v) = T_SEMI | v :: vs => tyof x (w_delim v) = T_COMMA /\ row vs end.
(** What is left is the declaration of the variables that stay. *)
Definition remains (p q : piece) : Prop :=
  match p with
  | Other _ _ => q = p
  | Declares ty n vs =>
      if negb (valid ty n vs) then q = p else if forallb moves vs then q = Other [] []
      else exists ks, q = Declares ty 0 ks /\ map w_toks ks = map w_toks (filter (fun v => negb (moves v)) vs) /\ row ks
  end.
(** The text of tokens and the variables declared, each with its type. *)
Definition texts (l : list id) : list bytes := map (fun t => n_str (x_heap x t)) l.
Definition declared (p : piece) : list (list bytes * list bytes) :=
  match p with Other _ _ => [] | Declares ty _ vs => map (fun v => (texts ty, texts (w_toks v))) vs end.
(** Types of the same class have the same text. *)
Definition matches (ps : list piece) : Prop := forall ty n vs ty' n' vs', In (Declares ty n vs) ps -> In (Declares ty' n' vs') ps ->
  valid ty n vs = true -> valid ty' n' vs' = true -> key ty = key ty' -> texts ty = texts ty'.
(** The words of a type that are not stars. *)
Definition starless (ty : list id) : list bytes := texts (filter (fun t => negb (is T_STAR t)) ty).
(** Types with the same words apart from stars have the same stars; no word is empty or has a blank in it. *)
Definition agree (ps : list piece) : Prop := forall ty n vs, In (Declares ty n vs) ps -> Forall (fun w => w <> [] /\ ~ In SP w) (starless ty) /\
  forall ty' n' vs', In (Declares ty' n' vs') ps -> starless ty = starless ty' -> texts ty = texts ty'.
End Spec.

Section Result.
Variables x y : lex.
(** A token that is new: its type and text, nothing attached. *)
Definition fresh (ty : ttype) (s : bytes) (t : id) : Prop := x_next x <= t /\ tyof y t = ty /\ n_str (x_heap y t) = s /\ clear y t = true.
(** A group: the type of one of the declarations with that text, the variables moved of the same
    kind in order, new commas and a new semicolon, all behind the semicolon of a declaration with
    that text. *)
Record stands (ps : list piece) (g : group) : Prop := {
  st_after : semi_for x ps (fst (g_class g)) (g_after g);
  st_type : exists ty n vs, In (Declares ty n vs) ps /\ valid x ty n vs = true /\ key x ty = fst (g_class g) /\ Forall2 (fun a b => fresh (tyof x a) (n_str (x_heap x a)) b) ty (g_type g);
  st_vars : exists vs, vs <> [] /\ Permutation (map (fun c => fst (snd c)) (filter (from x (g_class g)) (moved x ps))) vs /\
    StronglySorted (fun a b => ForwardProps.text_le (n_str (x_heap x (name x a))) (n_str (x_heap x (name x b)))) vs /\ map w_toks (g_vars g) = map w_toks vs;
  st_delims : exists us v, g_vars g = us ++ [v] /\ Forall (fun u => fresh T_COMMA (s2b ",") (w_delim u)) us /\ fresh T_SEMI (s2b ";") (w_delim v)
}.
End Result.
