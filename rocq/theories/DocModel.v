(** Model of doc.c: the layout document and its printer.  Everything is modelled but
    diff mode (DOC_EXEC_DIFF, the doc_diff functions: DdocModel) and tracing: without them the
    doc_diff functions do nothing (doc.c:1307, 1448, 1472, 1480, 1497, 1523, 1556, 1644) and
    doc_is_mute(st) is st->st_mute != 0.  Simplified: unsigned counters other than
    nexceeds do not wrap; allocation does not fail. *)
From Coq Require Export QArith.
From Verif Require Import Base StrModel UtilModel.
Open Scope nat_scope.

(** doc.c:46-74 struct doc, doc.h:8-27.  A node carries what its type uses
    (doc_descriptions).  [id] names the minimizer vector of a DOC_MINIMIZE, whose flags
    the printer changes; [ms] are the indent and the initial FORCE flag of each. *)
Inductive doc :=
| Concat (l : list doc)
| Group (d : doc)
| Indent (v : Z) (d : doc)
| NoIndent (d : doc)
| Align (indent spaces : nat) (tabalign : bool)
| Literal (str : bytes)
| Verbatim (str : bytes)
| Line
| Softline
| Hardline
| Optline
| Mute (v : Z)
| Unmute (v : Z)
| Optional (d : doc)
| Minimize (id : nat) (ms : list (Z * bool)) (d : doc)
| Scope (d : doc)
| Maxlines (n : nat) (d : doc).

Inductive dmode := BREAK | MUNGE.

(** doc.c:82-133 struct doc_state.  [o_rev] is the buffer in reverse.  [o_force] are the
    DOC_MINIMIZE_FORCE flags set so far: they live in the document and not in the
    state, so they survive a restored snapshot.  [o_bad] records undefined behaviour
    and failed assertions. *)
Record dstate := DSt {
  o_rev : bytes;
  o_mode : dmode;
  o_cur : nat;
  o_pre : nat;
  o_idx : option nat;
  o_mforce : option nat;
  o_slines : nat;
  o_sexceeds : Z;
  o_col : nat;
  o_refit : bool;
  o_parens : nat;
  o_maxlines : nat;
  o_nlines : nat;
  o_newline : bool;
  o_muteline : bool;
  o_optline : nat;
  o_mute : Z;
  o_force : nat -> nat -> bool;
  o_bad : bool
}.

Definition set_rev x st := DSt x (o_mode st) (o_cur st) (o_pre st) (o_idx st) (o_mforce st) (o_slines st) (o_sexceeds st) (o_col st) (o_refit st) (o_parens st) (o_maxlines st) (o_nlines st) (o_newline st) (o_muteline st) (o_optline st) (o_mute st) (o_force st) (o_bad st).
Definition set_mode x st := DSt (o_rev st) x (o_cur st) (o_pre st) (o_idx st) (o_mforce st) (o_slines st) (o_sexceeds st) (o_col st) (o_refit st) (o_parens st) (o_maxlines st) (o_nlines st) (o_newline st) (o_muteline st) (o_optline st) (o_mute st) (o_force st) (o_bad st).
Definition set_cur x st := DSt (o_rev st) (o_mode st) x (o_pre st) (o_idx st) (o_mforce st) (o_slines st) (o_sexceeds st) (o_col st) (o_refit st) (o_parens st) (o_maxlines st) (o_nlines st) (o_newline st) (o_muteline st) (o_optline st) (o_mute st) (o_force st) (o_bad st).
Definition set_pre x st := DSt (o_rev st) (o_mode st) (o_cur st) x (o_idx st) (o_mforce st) (o_slines st) (o_sexceeds st) (o_col st) (o_refit st) (o_parens st) (o_maxlines st) (o_nlines st) (o_newline st) (o_muteline st) (o_optline st) (o_mute st) (o_force st) (o_bad st).
Definition set_idx x st := DSt (o_rev st) (o_mode st) (o_cur st) (o_pre st) x (o_mforce st) (o_slines st) (o_sexceeds st) (o_col st) (o_refit st) (o_parens st) (o_maxlines st) (o_nlines st) (o_newline st) (o_muteline st) (o_optline st) (o_mute st) (o_force st) (o_bad st).
Definition set_mforce x st := DSt (o_rev st) (o_mode st) (o_cur st) (o_pre st) (o_idx st) x (o_slines st) (o_sexceeds st) (o_col st) (o_refit st) (o_parens st) (o_maxlines st) (o_nlines st) (o_newline st) (o_muteline st) (o_optline st) (o_mute st) (o_force st) (o_bad st).
Definition set_slines x st := DSt (o_rev st) (o_mode st) (o_cur st) (o_pre st) (o_idx st) (o_mforce st) x (o_sexceeds st) (o_col st) (o_refit st) (o_parens st) (o_maxlines st) (o_nlines st) (o_newline st) (o_muteline st) (o_optline st) (o_mute st) (o_force st) (o_bad st).
Definition set_sexceeds x st := DSt (o_rev st) (o_mode st) (o_cur st) (o_pre st) (o_idx st) (o_mforce st) (o_slines st) x (o_col st) (o_refit st) (o_parens st) (o_maxlines st) (o_nlines st) (o_newline st) (o_muteline st) (o_optline st) (o_mute st) (o_force st) (o_bad st).
Definition set_col x st := DSt (o_rev st) (o_mode st) (o_cur st) (o_pre st) (o_idx st) (o_mforce st) (o_slines st) (o_sexceeds st) x (o_refit st) (o_parens st) (o_maxlines st) (o_nlines st) (o_newline st) (o_muteline st) (o_optline st) (o_mute st) (o_force st) (o_bad st).
Definition set_refit x st := DSt (o_rev st) (o_mode st) (o_cur st) (o_pre st) (o_idx st) (o_mforce st) (o_slines st) (o_sexceeds st) (o_col st) x (o_parens st) (o_maxlines st) (o_nlines st) (o_newline st) (o_muteline st) (o_optline st) (o_mute st) (o_force st) (o_bad st).
Definition set_parens x st := DSt (o_rev st) (o_mode st) (o_cur st) (o_pre st) (o_idx st) (o_mforce st) (o_slines st) (o_sexceeds st) (o_col st) (o_refit st) x (o_maxlines st) (o_nlines st) (o_newline st) (o_muteline st) (o_optline st) (o_mute st) (o_force st) (o_bad st).
Definition set_maxlines x st := DSt (o_rev st) (o_mode st) (o_cur st) (o_pre st) (o_idx st) (o_mforce st) (o_slines st) (o_sexceeds st) (o_col st) (o_refit st) (o_parens st) x (o_nlines st) (o_newline st) (o_muteline st) (o_optline st) (o_mute st) (o_force st) (o_bad st).
Definition set_nlines x st := DSt (o_rev st) (o_mode st) (o_cur st) (o_pre st) (o_idx st) (o_mforce st) (o_slines st) (o_sexceeds st) (o_col st) (o_refit st) (o_parens st) (o_maxlines st) x (o_newline st) (o_muteline st) (o_optline st) (o_mute st) (o_force st) (o_bad st).
Definition set_newline x st := DSt (o_rev st) (o_mode st) (o_cur st) (o_pre st) (o_idx st) (o_mforce st) (o_slines st) (o_sexceeds st) (o_col st) (o_refit st) (o_parens st) (o_maxlines st) (o_nlines st) x (o_muteline st) (o_optline st) (o_mute st) (o_force st) (o_bad st).
Definition set_muteline x st := DSt (o_rev st) (o_mode st) (o_cur st) (o_pre st) (o_idx st) (o_mforce st) (o_slines st) (o_sexceeds st) (o_col st) (o_refit st) (o_parens st) (o_maxlines st) (o_nlines st) (o_newline st) x (o_optline st) (o_mute st) (o_force st) (o_bad st).
Definition set_optline x st := DSt (o_rev st) (o_mode st) (o_cur st) (o_pre st) (o_idx st) (o_mforce st) (o_slines st) (o_sexceeds st) (o_col st) (o_refit st) (o_parens st) (o_maxlines st) (o_nlines st) (o_newline st) (o_muteline st) x (o_mute st) (o_force st) (o_bad st).
Definition set_mute x st := DSt (o_rev st) (o_mode st) (o_cur st) (o_pre st) (o_idx st) (o_mforce st) (o_slines st) (o_sexceeds st) (o_col st) (o_refit st) (o_parens st) (o_maxlines st) (o_nlines st) (o_newline st) (o_muteline st) (o_optline st) x (o_force st) (o_bad st).
Definition set_force x st := DSt (o_rev st) (o_mode st) (o_cur st) (o_pre st) (o_idx st) (o_mforce st) (o_slines st) (o_sexceeds st) (o_col st) (o_refit st) (o_parens st) (o_maxlines st) (o_nlines st) (o_newline st) (o_muteline st) (o_optline st) (o_mute st) x (o_bad st).
Definition set_dbad x st := DSt (o_rev st) (o_mode st) (o_cur st) (o_pre st) (o_idx st) (o_mforce st) (o_slines st) (o_sexceeds st) (o_col st) (o_refit st) (o_parens st) (o_maxlines st) (o_nlines st) (o_newline st) (o_muteline st) (o_optline st) (o_mute st) (o_force st) x.

(** doc.h:100-113, the sentinels of DOC_INDENT. *)
Definition INDENT_PARENS : Z := 1073741824.
Definition INDENT_FORCE : Z := 536870912.
Definition INDENT_NEWLINE : Z := 268435456.
Definition INDENT_WIDTH : Z := 134217728.
(** doc.c:28-35 IS_DOC_INDENT_*. *)
Definition is_indent (f v : Z) : bool := (0 <? v)%Z && negb (Z.land v f =? 0)%Z.

Section Printer.
(** style(st->st_st, ColumnLimit) and style_use_tabs(st->st_st). *)
Variable limit : nat.
Variable usetabs : bool.

(** doc.c:1679-1683 doc_is_mute without diff mode. *)
Definition is_mute (st : dstate) : bool := negb (o_mute st =? 0)%Z.

(** buffer_puts *)
Definition put (s : bytes) (st : dstate) : dstate := set_rev (rev_append s (o_rev st)) st.

(** doc.c:1724-1739 doc_column: the exceeding characters are counted modulo 2^32. *)
Definition column_exceeds (oldcol col : nat) : Z :=
  if limit <? col then
    if oldcol <? limit then Z.of_nat (col - limit) else (Z.of_nat col - Z.of_nat oldcol)%Z
  else 0%Z.
Definition doc_column (s : bytes) (st : dstate) : dstate :=
  let col := strwidth s (o_col st) in
  set_sexceeds ((o_sexceeds st + column_exceeds (o_col st) col) mod 4294967296)%Z (set_col col st).

(** doc.c:1177-1185 doc_print_indent1; the result is the new column. *)
Definition print_indent1 (indent : nat) (tabs : bool) (st : dstate) : dstate :=
  let '(s, col) := strindent indent tabs (o_col st) in set_col col (put s st).

(** doc.c:1164-1175 doc_print_indent. *)
Definition print_indent (indent : nat) (st : dstate) : dstate :=
  if 0 <? o_parens st then print_indent1 (o_pre st + o_parens st) usetabs st
  else print_indent1 indent usetabs (set_pre indent st).

(** doc.c:1255-1277 doc_trim_spaces. *)
Fixpoint trim_loop (r : bytes) (col : nat) : bytes * nat :=
  match r with
  | [] => ([], col)
  | c :: r' =>
      if (c =c SP) || (c =c TAB) then
        let w := if c =c TAB then 8 - col mod 8 else 1 in
        trim_loop r' (col - (if w <? col then w else col))
      else (r, col)
  end.
Definition trim_spaces (st : dstate) : dstate :=
  let '(r, col) := trim_loop (o_rev st) (o_col st) in set_col col (set_rev r st).

(** doc.c:1187-1253 doc_print.  [indent] is the flag DOC_PRINT_INDENT, [pending]
    DOC_PRINT_NEWLINE.  Not modelled: DOC_PRINT_FORCE, only used in diff mode.
    [print_now] is the part after the pending new line (1212-1252). *)
Definition is_newline (s : bytes) : bool := beq s [NL].
Definition print_now (s : bytes) (indent pending ismute : bool) (st : dstate) : dstate :=
  let put_text (st : dstate) := doc_column s (if ismute then st else put s st) in
  if is_newline s then
    if o_maxlines st <=? o_nlines st then st
    else
      let st1 := set_slines (S (o_slines st)) (set_nlines (S (o_nlines st)) st) in
      let st2 := if negb pending && (0 <? o_optline st1) then set_optline 0 st1 else st1 in
      let st3 := trim_spaces st2 in
      let st4 := match o_mforce st3 with Some _ => set_idx None st3 | None => st3 end in
      let st5 := put_text st4 in
      if indent then print_indent (o_cur st5) st5 else st5
  else put_text (set_nlines 0 st).

(** Returns the state and doc_print's return value. *)
Definition doc_print (s : bytes) (indent : bool) (st : dstate) : dstate * bool :=
  let ismute := is_mute st in
  let st1 := if is_newline s && ismute then set_muteline true st else st in
  if o_newline st1 then
    if beq s [SP] then (st1, false)
    else
      let st2 := set_newline false (set_refit true st1) in
      (* the nested call doc_print(dc, st, "\n", 1, flags | DOC_PRINT_NEWLINE) *)
      let st3 := print_now [NL] indent true ismute (if ismute then set_muteline true st2 else st2) in
      if is_newline s then (st3, true)
      else (print_now s indent false ismute st3, true)
  else (print_now s indent false ismute st1, true).

(** doc.c:1694-1712 doc_parens_align. *)
Fixpoint line_blank (r : bytes) : bool :=
  match r with
  | [] => true
  | c :: r' => if c =c NL then true else if (c =c SP) || (c =c TAB) then line_blank r' else false
  end.
Definition parens_align (st : dstate) : bool :=
  let n := span_len (fun c => c =c "(") (o_rev st) in
  let r := skipn n (o_rev st) in
  if (n =? 0) || (length r =? 0) then false else line_blank r.

(** doc.c:1016-1060 doc_walk: a stack of documents; [cb] returns [true] to break.  The
    number of steps is bounded by the size of the documents on the stack. *)
Fixpoint doc_size (d : doc) : nat :=
  match d with
  | Concat l => S (fold_right (fun d n => doc_size d + n) 0 l)
  | Group d | Indent _ d | NoIndent d | Optional d | Minimize _ _ d | Scope d | Maxlines _ d => S (doc_size d)
  | _ => 1
  end.
Definition children (d : doc) : list doc :=
  match d with
  | Concat l => l
  | Group d | Indent _ d | NoIndent d | Optional d | Minimize _ _ d | Scope d | Maxlines _ d => [d]
  | _ => []
  end.
Fixpoint doc_walk {A} (fuel : nat) (cb : doc -> A -> bool * A) (stack : list doc) (a : A) : A :=
  match fuel, stack with
  | S f, d :: rest =>
      match cb d a with
      | (true, a') => a'
      | (false, a') => doc_walk f cb (children d ++ rest) a'
      end
  | _, _ => a
  end.

(** The loop over tabs of doc.c:1104-1111: columns moved by
    advancing to tab stops until [indent] columns are covered. *)
Fixpoint tab_loop (fuel indent col : nat) : nat :=
  match fuel, indent with
  | S f, S _ => tab_loop f (indent - (8 - col mod 8)) (col + (8 - col mod 8))
  | _, _ => col
  end.

(** doc.c:1089-1162 doc_fits1 on the column, the number of enclosing DOC_OPTIONALs,
    the answer and undefined behaviour. *)
Record fit := Fit { f_col : nat; f_optline : nat; f_fits : bool; f_bad : bool }.
Definition fits_end (f : fit) : bool * fit :=
  if limit <? f_col f then (true, Fit (f_col f) (f_optline f) false (f_bad f)) else (false, f).
Definition doc_fits1 (newline : bool) (d : doc) (f : fit) : bool * fit :=
  if newline then (true, Fit (f_col f) (f_optline f) (f_col f <=? limit) (f_bad f))
  else
    let at_col c := Fit c (f_optline f) (f_fits f) (f_bad f) in
    match d with
    | Align indent spaces tabalign =>
        fits_end (at_col (if tabalign then tab_loop indent indent (f_col f) + spaces
                          else f_col f + (indent + spaces)))
    | Literal s => fits_end (at_col (strwidth s (f_col f)))
    | Verbatim s =>
        match rev s with
        | [] => (true, Fit (f_col f) (f_optline f) (f_fits f) true)
        | c :: _ => fits_end (if c =c NL then f else at_col (strwidth s (f_col f)))
        end
    | Line => fits_end (at_col (S (f_col f)))
    | Optline => if 0 <? f_optline f then (true, f) else fits_end f
    | Optional _ => fits_end (Fit (f_col f) (S (f_optline f)) (f_fits f) (f_bad f))
    | _ => fits_end f
    end.

(** doc.c:1062-1087 doc_fits.  Reading the byte before an empty verbatim is undefined. *)
Definition doc_fits (d : doc) (st : dstate) : fit :=
  doc_walk (doc_size d) (doc_fits1 (o_newline st)) [d] (Fit (o_col st) (o_optline st) true false).

(** doc.c:783-800 doc_exec_align. *)
Fixpoint align_tabs (fuel indent : nat) (st : dstate) : dstate :=
  match fuel, indent with
  | S f, S _ =>
      let st' := print_indent1 8 true st in
      align_tabs f (indent - (o_col st' - o_col st)) st'
  | _, _ => st
  end.
Definition exec_align (indent spaces : nat) (tabalign : bool) (st : dstate) : dstate :=
  if tabalign then print_indent1 spaces false (align_tabs indent indent st)
  else print_indent1 (indent + spaces) false st.

(** doc.c:802-857 doc_exec_verbatim. *)
Definition exec_verbatim (s : bytes) (st : dstate) : dstate :=
  if is_mute st then st
  else
    let isblock := (1 <? length s) && match rev s with c :: _ => c =c NL | [] => false end in
    let st1 := trim_spaces st in
    let oldcol := o_col st1 in
    let st2 := if isblock && (0 <? oldcol) then set_newline true st1 else st1 in
    let st3 := fst (doc_print s false st2) in
    if isblock || is_newline s then print_indent (if 0 <? oldcol then o_cur st3 else o_pre st3) st3
    else st3.

(** doc.c:746-781 doc_exec_indent; [k] executes the child. *)
Definition exec_indent (v : Z) (k : dstate -> dstate) (st : dstate) : dstate :=
  if is_indent INDENT_PARENS v then
    let st1 := k (if parens_align st then set_parens (S (o_parens st)) st else st) in
    set_parens (o_parens st) st1
  else if is_indent INDENT_FORCE v then k (print_indent (o_cur st) st)
  else
    let st1 :=
      if is_indent INDENT_NEWLINE v then
        if 0 <? o_slines st then set_cur (o_cur st + Z.to_nat (Z.land v (Z.lnot INDENT_NEWLINE))) st else st
      else if is_indent INDENT_WIDTH v then
        if negb (o_newline st) then set_cur (o_col st) st else st
      else if (0 <? v)%Z then set_cur (o_cur st + Z.to_nat v) st
      else set_cur (o_cur st - Z.to_nat (- v)) st in
    set_cur (o_cur st) (k st1).

(** doc.c:1788-1794 doc_state_reset_lines. *)
Definition reset_lines (st : dstate) : dstate := set_muteline false (set_newline false (set_nlines 0 st)).

(** doc.c:971-997 doc_exec_mute; [ismute] tells DOC_MUTE from DOC_UNMUTE. *)
Definition exec_mute (v : Z) (ismute : bool) (st : dstate) : dstate :=
  let st1 := if (0 <? v)%Z || (- v <=? o_mute st)%Z then set_mute (o_mute st + v)%Z st else st in
  if (o_mute st1 =? 0)%Z then
    let st2 := reset_lines st1 in
    if ismute then set_newline (o_muteline st1) st2 else st2
  else st1.

(** doc.c:958-969 doc_exec_minimize_indent1 with the flags of the document. *)
Definition forced (id : nat) (ms : list (Z * bool)) (i : nat) (st : dstate) : bool :=
  match nth_error ms i with Some (_, b) => b || o_force st id i | None => false end.
Definition minimize1 (id : nat) (ms : list (Z * bool)) (k : dstate -> dstate) (i : nat) (st : dstate) : dstate :=
  match nth_error ms i with
  | None => set_dbad true st
  | Some (v, _) => exec_indent v k (if forced id ms i st then set_mforce (Some i) st else st)
  end.

(** doc.c:890-911: try each candidate from the same state; the penalties and the flags
    set meanwhile (and undefined behaviour met) remain.  [sn] is the snapshot. *)
Definition set_flag (id i : nat) (f : nat -> nat -> bool) : nat -> nat -> bool :=
  fun id' i' => ((id =? id') && (i =? i')) || f id' i'.
Fixpoint try_all (id : nat) (ms : list (Z * bool)) (k : dstate -> dstate) (sn : dstate)
    (is : list nat) (st : dstate) : list (nat * Z) * dstate :=
  match is with
  | [] => ([], st)
  | i :: r =>
      let st0 := set_idx (Some i) (set_mforce None (set_sexceeds 0%Z (set_slines 0 st))) in
      let st1 := minimize1 id ms k i st0 in
      let flags := match o_mforce st1 with Some _ => set_flag id i (o_force st1) | None => o_force st1 end in
      let '(ps, st2) := try_all id ms k sn r (set_dbad (o_bad st1) (set_force flags sn)) in
      ((o_slines st1, o_sexceeds st1) :: ps, st2)
  end.

(** doc.c:914-934: the penalty of a candidate relative to the largest ones.  Simplified:
    exact rationals instead of doubles. *)
Definition penalty (nlines : nat) (nexceeds : Z) (p : nat * Z) : Q :=
  let a := if 0 <? nlines then (Z.of_nat (fst p) # Pos.of_nat nlines)%Q else 0%Q in
  let b := if (0 <? nexceeds)%Z then (snd p # Z.to_pos nexceeds)%Q else 0%Q in
  ((a + b) / (2 # 1))%Q.
Fixpoint pick (force : nat -> bool) (i : nat) (ps : list Q) (best : option (nat * Q)) : option nat :=
  match ps with
  | [] => match best with Some (b, _) => Some b | None => None end
  | p :: r =>
      if force i then Some i
      else if match best with Some (_, m) => negb (Qle_bool m p) | None => true end
           then pick force (S i) r (Some (i, p))
           else pick force (S i) r best
  end.
Definition best_of (force : nat -> bool) (ps : list (nat * Z)) : option nat :=
  let nl := fold_right Nat.max 0 (map fst ps) in
  let nx := fold_right Z.max 0%Z (map snd ps) in
  pick force 0 (map (penalty nl nx) ps) None.

(** doc.c:859-956 doc_exec_minimize, doc_exec_minimize_indent. *)
Definition exec_minimize (id : nat) (ms : list (Z * bool)) (k : dstate -> dstate) (st : dstate) : dstate :=
  match o_idx st with
  | Some i => minimize1 id ms k i st
  | None =>
      let '(ps, st1) := try_all id ms k st (seq 0 (length ms)) st in
      match best_of (fun i => forced id ms i st1) ps with
      | None => set_dbad true st1
      | Some best => set_idx None (minimize1 id ms k best (set_idx (Some best) st1))
      end
  end.

(** doc.c:608-744 doc_exec1. *)
Fixpoint doc_exec1 (d : doc) (st : dstate) : dstate :=
  match d with
  | Concat l => fold_left (fun st d => doc_exec1 d st) l st
  | Group d' =>
      if match o_mode st with MUNGE => negb (o_refit st) | BREAK => false end then doc_exec1 d' st
      else
        let st1 := set_refit false st in
        let f := doc_fits d st1 in
        let st2 := set_mode (if f_fits f then MUNGE else BREAK) (set_dbad (o_bad st1 || f_bad f) st1) in
        set_mode (o_mode st) (doc_exec1 d' st2)
  | Indent v d' => exec_indent v (doc_exec1 d') st
  | NoIndent d' =>
      let st1 := trim_spaces st in
      let st2 := doc_exec1 d' (set_pre 0 (set_cur 0 st1)) in
      set_pre (o_pre st1) (set_cur (o_cur st1) st2)
  | Align indent spaces tabalign => exec_align indent spaces tabalign st
  | Literal s => fst (doc_print s true st)
  | Verbatim s => exec_verbatim s st
  | Line =>
      match o_mode st with
      | BREAK => fst (doc_print [NL] true st)
      | MUNGE => match doc_print [SP] true st with
                 | (st1, true) => set_refit true st1
                 | (st1, false) => st1
                 end
      end
  | Softline =>
      match o_mode st with
      | BREAK => fst (doc_print [NL] true st)
      | MUNGE => st
      end
  | Hardline => fst (doc_print [NL] true st)
  | Optline => if 0 <? o_optline st then set_newline true st else st
  | Mute v => exec_mute v true st
  | Unmute v => exec_mute v false st
  | Optional d' =>
      let st1 := doc_exec1 d' (set_optline (S (o_optline st)) st) in
      if o_optline st <=? o_optline st1 then set_optline (o_optline st) st1 else st1
  | Minimize id ms d' => exec_minimize id ms (doc_exec1 d') st
  | Scope d' => doc_exec1 d' (set_slines 0 st)
  | Maxlines n d' => set_maxlines (o_maxlines st) (doc_exec1 d' (set_maxlines n st))
  end.

(** doc.c:1757-1777 doc_state_init; [buf] is the buffer given. *)
Definition doc_state_init (buf : bytes) (mode : dmode) : dstate :=
  DSt (rev buf) mode 0 0 None None 0 0%Z 0 false 0 2 0 false false 0 0%Z (fun _ _ => false) false.

(** doc.c:1284-1298 doc_trim_lines. *)
Fixpoint trim_lines (r : bytes) : bytes :=
  match r with
  | a :: ((b :: _) as r') => if (a =c NL) && (b =c NL) then trim_lines r' else r
  | _ => r
  end.

(** doc.c:374-387 doc_exec, [trim] is the flag DOC_EXEC_TRIM; the buffer afterwards. *)
Definition doc_exec (d : doc) (trim : bool) (buf : bytes) : bytes * bool :=
  let st := doc_exec1 d (doc_state_init buf BREAK) in
  (rev (if trim then trim_lines (o_rev st) else o_rev st), o_bad st).

(** doc.c:389-398 doc_width. *)
Definition doc_width (d : doc) (buf : bytes) : nat := o_col (doc_exec1 d (doc_state_init buf MUNGE)).
End Printer.
