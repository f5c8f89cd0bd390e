(** Model of cpp-include.c: sorting of includes while prefixes are read.  The list of prefixes
    is a list of tokens with identities, vectors and maps are lists (C39-C42), regexec(3) and
    qsort(3) are parameters.  Not modelled: reference counts (C16), allocation failure. *)
From Verif Require Import Base StrModel.
Open Scope Z_scope.

(** token.h:18-60 struct token of a prefix: its identity, whether it is a TOKEN_CPP_INCLUDE, has
    TOKEN_FLAG_DIFF, its text. *)
Record ptok := PTok { p_id : nat; p_inc : bool; p_diff : bool; p_str : bytes }.

(** token.c:292-305 token_has_verbatim_line *)
Fixpoint verbatim_rev (r : bytes) (nlines : nat) : bool :=
  match nlines with
  | O => true
  | S n => match r with c :: r' => if c =c NL then verbatim_rev r' n else false | [] => false end
  end.
Definition has_verbatim_line (t : ptok) (nlines : nat) : bool := verbatim_rev (rev (p_str t)) nlines.
(** cpp-include.c:361-366 token_trim_verbatim_line *)
Definition trim_line (t : ptok) : ptok := if has_verbatim_line t 2 then PTok (p_id t) (p_inc t) (p_diff t) (removelast (p_str t)) else t.

(** strncmp(3) on [n] bytes of both; then the lengths: token.c:206-219 token_memcmp, 200-204 token_strcmp. *)
Fixpoint strncmp (n : nat) (a b : bytes) : Z :=
  match n with
  | O => 0
  | S n =>
      match a, b with
      | x :: a, y :: b => if x =c y then (if x =c NUL then 0 else strncmp n a b) else Z.of_nat (nat_of_ascii x) - Z.of_nat (nat_of_ascii y)
      | _, _ => 0
      end
  end.
Definition token_strcmp (a b : bytes) : Z :=
  let c := strncmp (Nat.min (length a) (length b)) a b in
  if negb (c =? 0) then c
  else (if (length a <? length b)%nat then -1 else 0) + (if (length b <? length a)%nat then 1 else 0).

(** style.h:112-115 struct include_priority, cpp-include.c:33-36 struct include *)
Record priority := Prio { pr_group : Z; pr_sort : Z }.
Record include := Inc { i_tk : ptok; i_prio : priority }.
(** cpp-include.c:172-183 include_cmp *)
Definition include_cmp (a b : include) : Z :=
  if pr_sort (i_prio a) <? pr_sort (i_prio b) then -1
  else if pr_sort (i_prio b) <? pr_sort (i_prio a) then 1
  else token_strcmp (p_str (i_tk a)) (p_str (i_tk b)).
(** style.c:455-466 priority_cmp *)
Definition priority_cmp (a b : Z) : Z := if a <? b then -1 else if b <? a then 1 else 0.

(** cpp-include.c:342-359 findpath: [mem] is the memory from the directive on, [len] the length of
    the directive.  The path and the number of bytes looked at; a byte behind [mem] reads as absent. *)
Fixpoint memchr (s : bytes) (c : byte) (n : nat) : option nat :=
  match n, s with
  | S n, x :: r => if x =c c then Some O else match memchr r c n with Some k => Some (S k) | None => None end
  | _, _ => None
  end.
Definition seen (r : option nat) (n : nat) : nat := match r with Some k => S k | None => n end.
Definition findpath (mem : bytes) (len : nat) : option bytes * nat :=
  let q := memchr mem DQ len in
  let so := match q with Some k => Some k | None => memchr mem "<"%char len end in
  let n0 := Nat.max (seen q len) (match q with Some _ => O | None => seen so len end) in
  match so with
  | None => (None, n0)
  | Some k =>
      let c := if nth k mem NUL =c DQ then DQ else ">"%char in
      let n := (len - k)%nat in
      let eo := memchr (skipn (S k) mem) c n in
      let n1 := Nat.max n0 (S k + seen eo n)%nat in
      match eo with
      | None => (None, n1)
      | Some e => (Some (firstn (S (S e)) (skipn k mem)), n1)
      end
  end.

(** cpp-include.c:185-217 is_main_include; [None] where splitting runs out of fuel. *)
Definition first_part (s : bytes) (d : byte) : bytes := match KS_str_split s [d] with Some (p :: _) => p | _ => [] end.
Definition last_part (s : bytes) (d : byte) : bytes := match KS_str_split s [d] with Some ps => last ps [] | None => [] end.
Definition header (base : bytes) : bytes := [DQ] ++ base ++ s2b ".h" ++ [DQ].
Definition is_main_include (include_path path : bytes) : bool :=
  beq include_path (header (first_part path "."%char)) ||
  beq include_path (header (first_part (last_part path "/"%char) "."%char)).

Section Include.
(** regexec(3) of a category on a path; qsort(3). *)
Variable category : Type.
Variable matches : category -> bytes -> bool.
Variable qsort : forall A, (A -> A -> Z) -> list A -> list A.
(** struct style: the include categories in order with their priorities, IncludeBlocks = Regroup;
    the path of the file; whether a diff is considered; SIMPLE_CPP_SORT_INCLUDES is enabled.
    [after t] is the memory behind the token [t]. *)
Variable categories : list (category * priority).
Variable regroup : bool.
Variable path : bytes.
Variable diffparse : bool.
Variable enabled : bool.
Variable behind : ptok -> bytes.

Definition INT_MAX : Z := 2147483647.
(** style.c:468-499 style_include_priorities *)
Definition priorities : list Z := qsort Z priority_cmp ([0; INT_MAX] ++ List.map (fun c => pr_group (snd c)) categories).
(** style.c:501-517 style_include_priority *)
Fixpoint style_priority (cs : list (category * priority)) (p : bytes) : priority :=
  match cs with
  | [] => Prio INT_MAX INT_MAX
  | (c, pr) :: r => if matches c p then pr else style_priority r p
  end.
(** cpp-include.c:76-88: the groups in order of insertion. *)
Definition groups := list (Z * list include).
Definition add_group (g : groups) (k : Z) : groups := if existsb (fun e => fst e =? k) g then g else g ++ [(k, [])].
Definition init_groups : groups := fold_left add_group priorities [].

(** cpp-include.c:19-31 struct cpp_include, the list of prefixes and the next identity. *)
Record state := State { s_prefixes : list ptok; s_next : nat; s_includes : list ptok; s_after : option nat; s_ignore : bool; s_bad : bool }.

(** token_list_remove, token_list_append_after, token_list_prepend; a token that is not there: [s_bad]. *)
Fixpoint remove (i : nat) (l : list ptok) : list ptok := match l with [] => [] | t :: r => if (p_id t =? i)%nat then r else t :: remove i r end.
Fixpoint append_after (i : nat) (t : ptok) (l : list ptok) : list ptok := match l with [] => [] | x :: r => if (p_id x =? i)%nat then x :: t :: r else x :: append_after i t r end.
Definition mem_id (i : nat) (l : list ptok) : bool := existsb (fun t => (p_id t =? i)%nat) l.
Definition insert (after : option nat) (t : ptok) (l : list ptok) : list ptok := match after with Some i => append_after i t l | None => t :: l end.
Definition insert_bad (after : option nat) (l : list ptok) : bool := match after with Some i => negb (mem_id i l) | None => false end.

(** cpp-include.c:159-170 add_to_include_group; [None] if there is no such group. *)
Fixpoint add_to_group (i : include) (g : groups) : option groups :=
  match g with
  | [] => None
  | (k, l) :: r => if k =? pr_group (i_prio i) then Some ((k, l ++ [i]) :: r) else match add_to_group i r with Some r => Some ((k, l) :: r) | None => None end
  end.
(** cpp-include.c:239-272, the loop over includes.  [Stop]: it returns. *)
Inductive lres := Stop | Bad | Go (g : groups).
Definition count (b : bool) (n : nat) : nat := if b then S n else n.
Fixpoint prioritize (first : bool) (l : list ptok) (nbr nq ns : nat) (g : groups) : lres :=
  match l with
  | [] => Go g
  | t :: r =>
      match fst (findpath (p_str t ++ behind t) (length (p_str t))) with
      | None => Stop
      | Some ip =>
          if regroup then
            let pr := if is_main_include ip path then Prio 0 0 else style_priority categories ip in
            match add_to_group (Inc t pr) g with None => Bad | Some g => prioritize false r nbr nq ns g end
          else
            let nbr := count (hd NUL ip =c "<"%char) nbr in
            let nq := count (hd NUL ip =c DQ) nq in
            let ns := count (existsb (fun c => c =c "/"%char) ip) ns in
            if ((0 <? nbr)%nat && (0 <? nq)%nat) || ((0 <? nbr)%nat && (0 <? ns)%nat) then Stop
            else
              let pr := if first && is_main_include ip path then Prio 0 (-1) else Prio 0 0 in
              match add_to_group (Inc t pr) g with None => Bad | Some g => prioritize false r nbr nq ns g end
      end
  end.

(** cpp-include.c:288-302, the loop over the sorted includes of a group. *)
Fixpoint place (l : list include) (st : state) (after : option nat) : state * option nat :=
  match l with
  | [] => (st, after)
  | i :: r =>
      let t := trim_line (i_tk i) in
      let pre := remove (p_id t) (s_prefixes st) in
      place r (State (insert after t pre) (s_next st) (s_includes st) (s_after st) (s_ignore st)
                     (s_bad st || negb (mem_id (p_id t) (s_prefixes st)) || insert_bad after pre)) (Some (p_id t))
  end.
(** cpp-include.c:328-340 add_line *)
Definition line_token (id : nat) : ptok := PTok id false false [NL].
Definition add_line (st : state) (after : option nat) : state * option nat :=
  (State (insert after (line_token (s_next st)) (s_prefixes st)) (S (s_next st)) (s_includes st) (s_after st) (s_ignore st)
         (s_bad st || match after with None => true | Some i => negb (mem_id i (s_prefixes st)) end), Some (s_next st)).
(** cpp-include.c:274-305, the loop over the groups. *)
Fixpoint emit (g : groups) (st : state) (after : option nat) : state :=
  match g with
  | [] => st
  | (_, l) :: r =>
      match l with
      | [] => emit r st after
      | x :: _ =>
          let doline := regroup || has_verbatim_line (i_tk (last l x)) 2 in
          let '(st, after) := place (qsort include include_cmp l) st after in
          let '(st, after) := if doline then add_line st after else (st, after) in
          emit r st after
      end
  end.
Definition set_bad (st : state) : state := State (s_prefixes st) (s_next st) (s_includes st) (s_after st) (s_ignore st) true.
(** cpp-include.c:221-306 cpp_include_exec *)
Definition exec (st : state) : state :=
  if s_ignore st then st
  else if (length (s_includes st) <? 2)%nat then st
  else
    match prioritize true (s_includes st) 0 0 0 init_groups with
    | Stop => st
    | Bad => set_bad st
    | Go g => emit g st (s_after st)
    end.
(** cpp-include.c:308-323 cpp_include_reset *)
Definition reset (st : state) : state := State (s_prefixes st) (s_next st) [] None false (s_bad st).
(** cpp-include.c:121-129 cpp_include_leave *)
Definition leave (st : state) : state := if enabled then reset (exec st) else st.
(** token_prev() of the token just appended. *)
Fixpoint prev_of (i : nat) (pv : option nat) (l : list ptok) : option nat :=
  match l with [] => None | t :: r => if (p_id t =? i)%nat then pv else prev_of i (Some (p_id t)) r end.
(** cpp-include.c:131-157 cpp_include_add *)
Definition add (st : state) (t : ptok) : state :=
  if negb enabled then st
  else if p_inc t then
    let st := State (s_prefixes st) (s_next st) (s_includes st ++ [t])
                    (match s_includes st with [] => prev_of (p_id t) None (s_prefixes st) | _ :: _ => s_after st end)
                    (s_ignore st || (diffparse && negb (p_diff t))) (s_bad st) in
    if regroup || negb (has_verbatim_line t 2) then st else reset (exec st)
  else reset (exec st).
(** clang.c:551-559: prefixes are read one at a time and appended to the list. *)
Definition read1 (st : state) (t : ptok) : state :=
  add (State (s_prefixes st ++ [t]) (s_next st) (s_includes st) (s_after st) (s_ignore st) (s_bad st)) t.
Definition read_all (ts : list ptok) (next : nat) : state := leave (fold_left read1 ts (State [] next [] None false false)).
End Include.
