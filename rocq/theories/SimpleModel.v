(** Model of simple.c: which simplification passes are active. *)
From Verif Require Import Base.

(** simple.h:9-25 enum simple_pass *)
Inductive pass :=
| SIMPLE_BRACES | SIMPLE_CPP_SORT_INCLUDES | SIMPLE_DECL | SIMPLE_DECL_FORWARD | SIMPLE_DECL_PROTO | SIMPLE_EXPR_PARENS
| SIMPLE_EXPR_PRINTF | SIMPLE_EXPR_SIZEOF | SIMPLE_IMPLICIT_INT | SIMPLE_STATIC | SIMPLE_STMT | SIMPLE_STMT_EMPTY_LOOP | SIMPLE_STMT_SWITCH.
Definition passes : list pass :=
  [SIMPLE_BRACES; SIMPLE_CPP_SORT_INCLUDES; SIMPLE_DECL; SIMPLE_DECL_FORWARD; SIMPLE_DECL_PROTO; SIMPLE_EXPR_PARENS;
   SIMPLE_EXPR_PRINTF; SIMPLE_EXPR_SIZEOF; SIMPLE_IMPLICIT_INT; SIMPLE_STATIC; SIMPLE_STMT; SIMPLE_STMT_EMPTY_LOOP; SIMPLE_STMT_SWITCH].
Definition pass_eq_dec : forall a b : pass, {a = b} + {a <> b}.
Proof. decide equality. Defined.
Definition pass_eqb (a b : pass) : bool := if pass_eq_dec a b then true else false.
(** simple.c:9-14 enum simple_state *)
Inductive sstate := Nop | Disable | Enable | Ignore.
Definition sstate_eqb (a b : sstate) : bool := match a, b with Nop, Nop | Disable, Disable | Enable, Enable | Ignore, Ignore => true | _, _ => false end.
(** simple.h:4-7 the flags *)
Record sflags := Flags { f_force : bool; f_ignore : bool }.
(** simple.c:16-22 struct simple *)
Record simple := Simple { si_state : pass -> sstate; si_flags : pass -> sflags; si_enable : bool }.
(** simple.h:27-31 struct simple_cookie; [None]: a zeroed cookie. *)
Record cookie := Cookie { ck_pass : pass; ck_state : sstate }.

(** simple.c:27-35 simple_alloc *)
Definition simple_alloc (opt : bool) : simple := Simple (fun _ => Disable) (fun _ => Flags false false) opt.
Definition set_state (si : simple) (p : pass) (s : sstate) : simple :=
  Simple (fun q => if pass_eqb q p then s else si_state si q) (si_flags si) (si_enable si).
Definition set_flags (si : simple) (p : pass) (f : sflags) : simple :=
  Simple (si_state si) (fun q => if pass_eqb q p then f else si_flags si q) (si_enable si).

(** simple.c:117-158 is_pass_mutually_exclusive *)
Definition exceptions : list (pass * pass) :=
  [ (SIMPLE_DECL, SIMPLE_BRACES); (SIMPLE_DECL, SIMPLE_DECL_PROTO); (SIMPLE_DECL, SIMPLE_IMPLICIT_INT); (SIMPLE_DECL, SIMPLE_STATIC);
    (SIMPLE_DECL, SIMPLE_DECL_FORWARD); (SIMPLE_EXPR_PARENS, SIMPLE_EXPR_SIZEOF);
    (SIMPLE_STMT, SIMPLE_STMT_EMPTY_LOOP); (SIMPLE_STMT_EMPTY_LOOP, SIMPLE_STMT) ].
Definition is_pass_mutually_exclusive (si : simple) (p : pass) : bool :=
  negb (existsb (fun i =>
    if negb (sstate_eqb (si_state si i) Enable) && negb (sstate_eqb (si_state si i) Ignore) then false
    else existsb (fun '(parent, nested) => pass_eqb parent i && pass_eqb nested p) exceptions) passes).

(** simple.c:37-73 simple_enter *)
Definition simple_enter (si : simple) (p : pass) (f : sflags) : bool * simple * option cookie :=
  let ck := Some (Cookie p (si_state si p)) in
  if negb (si_enable si) && negb (f_force f) then (false, set_state si p Ignore, ck)
  else if is_pass_mutually_exclusive si p && existsb (fun i => negb (pass_eqb i p) && negb (sstate_eqb (si_state si i) Disable)) passes
  then (false, set_state si p Disable, ck)
  else if f_ignore f || negb (sstate_eqb (si_state si p) Disable) then (false, set_state si p Ignore, ck)
  else (true, set_flags (set_state si p Enable) p f, ck).

(** simple.c:75-89 simple_leave *)
Definition simple_leave (si : simple) (ck : option cookie) : simple * option cookie :=
  match ck with
  | None => (si, None)
  | Some c => if sstate_eqb (ck_state c) Nop then (si, None) else (set_state si (ck_pass c) (ck_state c), None)
  end.

(** simple.c:91-96 is_simple_enabled, 99-112 simple_disable, simple_enable *)
Definition is_simple_enabled (si : simple) (p : pass) : bool := (si_enable si || f_force (si_flags si p)) && sstate_eqb (si_state si p) Enable.
Definition set_enable (si : simple) (b : bool) : simple := Simple (si_state si) (si_flags si) b.
Definition simple_disable (si : simple) : bool * simple := (si_enable si, set_enable si false).

(** Callers: a pass is entered and left again around other requests (simple_cookie() runs
    simple_leave() at the end of the scope), a part is done with simplification disabled. *)
Inductive op := Within (p : pass) (f : sflags) (body : list op) | Without (body : list op).
(** The state after the requests and all the states in between, latest first. *)
Fixpoint exec (o : op) (si : simple) (seen : list simple) : simple * list simple :=
  let fix execs (os : list op) (si : simple) (seen : list simple) : simple * list simple :=
    match os with
    | [] => (si, seen)
    | o :: os => let '(si, seen) := exec o si seen in execs os si seen
    end in
  match o with
  | Within p f body =>
      let '(_, s1, ck) := simple_enter si p f in
      let '(s2, seen) := execs body s1 (s1 :: seen) in
      let s3 := fst (simple_leave s2 ck) in (s3, s3 :: seen)
  | Without body =>
      let '(restore, s1) := simple_disable si in
      let '(s2, seen) := execs body s1 (s1 :: seen) in
      let s3 := set_enable s2 restore in (s3, s3 :: seen)
  end.
Fixpoint execs (os : list op) (si : simple) (seen : list simple) : simple * list simple :=
  match os with
  | [] => (si, seen)
  | o :: os => let '(si, seen) := exec o si seen in execs os si seen
  end.
