(** Model of doc.c in diff mode (DOC_EXEC_DIFF): only what is covered by a diff chunk is
    formatted, every other line is copied from the source.  The printer of DocModel is
    repeated here with the calls of the doc_diff functions in place; what only concerns
    layout is taken from there.  Simplified: line numbers do not wrap around; tracing is
    left out. *)
From Verif Require Import Base StrModel UtilModel LexModel LinesModel.
From Verif Require DiffModel.
From Verif Require Export DocModel.
Open Scope nat_scope.

(** What the printer looks at in a token (token.h): [k_id] stands for its address, then
    tk_lno, TOKEN_FLAG_DIFF and tk_str. *)
Record dtok := DTok { k_id : nat; k_lno : nat; k_diff : bool; k_str : bytes }.

(** doc.c:46-74 struct doc as in DocModel, with dc_tk: a literal may have no token
    (doc_literal_impl, doc.c:547-557), a verbatim always has one (doc_token, doc.c:567-582). *)
Inductive ddoc :=
| DConcat (l : list ddoc)
| DGroup (d : ddoc)
| DIndent (v : Z) (d : ddoc)
| DNoIndent (d : ddoc)
| DAlign (indent spaces : nat) (tabalign : bool)
| DLiteral (tk : option dtok) (str : bytes)
| DVerbatim (tk : dtok)
| DLine
| DSoftline
| DHardline
| DOptline
| DMute (v : Z)
| DUnmute (v : Z)
| DOptional (d : ddoc)
| DMinimize (id : nat) (ms : list (Z * bool)) (d : ddoc)
| DScope (d : ddoc)
| DMaxlines (n : nat) (d : ddoc).

(** The document without tokens. *)
Fixpoint erase (d : ddoc) : doc :=
  match d with
  | DConcat l => Concat (List.map erase l)
  | DGroup d => Group (erase d)
  | DIndent v d => Indent v (erase d)
  | DNoIndent d => NoIndent (erase d)
  | DAlign i s t => Align i s t
  | DLiteral _ s => Literal s
  | DVerbatim tk => Verbatim (k_str tk)
  | DLine => Line
  | DSoftline => Softline
  | DHardline => Hardline
  | DOptline => Optline
  | DMute v => Mute v
  | DUnmute v => Unmute v
  | DOptional d => Optional (erase d)
  | DMinimize id ms d => Minimize id ms (erase d)
  | DScope d => Scope (erase d)
  | DMaxlines n d => Maxlines n (erase d)
  end.

(** doc.c:82-133 struct doc_state: [x_st] what DocModel has, then st_diff: verbatim, group,
    group_has_many_chunks, mute, beg, end and muteline.  [x_bad] records failed assertions
    and undefined behaviour of the doc_diff functions. *)
Record xstate := X {
  x_st : dstate;
  x_verb : option nat;
  x_group : option ddoc;
  x_many : bool;
  x_mute : Z;
  x_beg : nat;
  x_end : nat;
  x_mline : bool;
  x_bad : bool
}.
Definition on (f : dstate -> dstate) xs := X (f (x_st xs)) (x_verb xs) (x_group xs) (x_many xs) (x_mute xs) (x_beg xs) (x_end xs) (x_mline xs) (x_bad xs).
Definition set_verb x xs := X (x_st xs) x (x_group xs) (x_many xs) (x_mute xs) (x_beg xs) (x_end xs) (x_mline xs) (x_bad xs).
Definition set_group x xs := X (x_st xs) (x_verb xs) x (x_many xs) (x_mute xs) (x_beg xs) (x_end xs) (x_mline xs) (x_bad xs).
Definition set_many x xs := X (x_st xs) (x_verb xs) (x_group xs) x (x_mute xs) (x_beg xs) (x_end xs) (x_mline xs) (x_bad xs).
Definition set_xmute x xs := X (x_st xs) (x_verb xs) (x_group xs) (x_many xs) x (x_beg xs) (x_end xs) (x_mline xs) (x_bad xs).
Definition set_beg x xs := X (x_st xs) (x_verb xs) (x_group xs) (x_many xs) (x_mute xs) x (x_end xs) (x_mline xs) (x_bad xs).
Definition set_end x xs := X (x_st xs) (x_verb xs) (x_group xs) (x_many xs) (x_mute xs) (x_beg xs) x (x_mline xs) (x_bad xs).
Definition set_mline x xs := X (x_st xs) (x_verb xs) (x_group xs) (x_many xs) (x_mute xs) (x_beg xs) (x_end xs) x (x_bad xs).
Definition set_xbad x xs := X (x_st xs) (x_verb xs) (x_group xs) (x_many xs) (x_mute xs) (x_beg xs) (x_end xs) (x_mline xs) x.

Definition is_some {A} (o : option A) : bool := match o with Some _ => true | None => false end.

(** doc.c:2006-2028 countlines of the printer: only of texts that end with a new line. *)
Definition dlines (s : bytes) : nat :=
  match rev s with c :: _ => if c =c NL then length (filter (fun c => c =c NL) s) else 0 | [] => 0 end.

(** doc.c:1016-1060 doc_walk over documents with tokens. *)
Fixpoint ddoc_size (d : ddoc) : nat :=
  match d with
  | DConcat l => S (fold_right (fun d n => ddoc_size d + n) 0 l)
  | DGroup d | DIndent _ d | DNoIndent d | DOptional d | DMinimize _ _ d | DScope d | DMaxlines _ d => S (ddoc_size d)
  | _ => 1
  end.
Definition dchildren (d : ddoc) : list ddoc :=
  match d with
  | DConcat l => l
  | DGroup d | DIndent _ d | DNoIndent d | DOptional d | DMinimize _ _ d | DScope d | DMaxlines _ d => [d]
  | _ => []
  end.
Fixpoint ddoc_walk {A} (fuel : nat) (cb : ddoc -> A -> bool * A) (stack : list ddoc) (a : A) : A :=
  match fuel, stack with
  | S f, d :: rest =>
      match cb d a with
      | (true, a') => a'
      | (false, a') => ddoc_walk f cb (dchildren d ++ rest) a'
      end
  | _, _ => a
  end.

(** doc.c:147-162 struct doc_diff, doc.c:37-41 enum doc_diff_group. *)
Inductive dcov := NOT_COVERED | COVERED | IGNORE.
Record ddiff := DD { dd_verb : option dtok; dd_first : nat; dd_chunk : nat; dd_cov : dcov }.

(** doc.c:1599-1635 doc_diff_covers; [below] is [true] if dd_below_threshold is
    DOC_WALK_BREAK.  The first component tells to break. *)
Definition diff_token (threshold : nat) (below : bool) (tk : dtok) (dd : ddiff) : bool * ddiff :=
  if k_lno tk <? threshold then (below, dd)
  else
    let first := if dd_first dd =? 0 then k_lno tk else dd_first dd in
    if k_diff tk then (true, DD (dd_verb dd) first (k_lno tk) COVERED)
    else (false, DD (dd_verb dd) first (dd_chunk dd) (dd_cov dd)).
Definition diff_covers (threshold : nat) (below : bool) (d : ddoc) (dd : ddiff) : bool * ddiff :=
  match d with
  | DVerbatim tk =>
      diff_token threshold below tk (if k_diff tk then dd else DD (Some tk) (dd_first dd) (dd_chunk dd) (dd_cov dd))
  | DLiteral (Some tk) _ => diff_token threshold below tk dd
  | DHardline => (true, DD (dd_verb dd) (dd_first dd) (dd_chunk dd) IGNORE)
  | _ => (false, dd)
  end.
Definition covers (threshold : nat) (below : bool) (d : ddoc) : ddiff :=
  ddoc_walk (ddoc_size d) (diff_covers threshold below) [d] (DD None 0 0 NOT_COVERED).

Section Printer.
(** style(st->st_st, ColumnLimit), style_use_tabs(st->st_st) and DOC_DIFF(st). *)
Variable limit : nat.
Variable usetabs : bool.
Variable diff : bool.
(** The source, what reading it left in the lexer and the chunks of the diff. *)
Variable inp : bytes.
Variable lx : lexer.
Variable chunks : list DiffModel.chunk.

(** doc.c:1637-1646 doc_diff_is_mute, doc.c:1679-1683 doc_is_mute. *)
Definition diff_is_mute (xs : xstate) : bool := diff && ((x_end xs =? 0) || is_some (x_verb xs)).
Definition x_is_mute (xs : xstate) : bool := is_mute (x_st xs) || diff_is_mute xs.

(** doc.c:1187-1253 doc_print, with DOC_PRINT_FORCE ([force]) and the result of
    doc_is_mute given ([ismute]); forced new lines are not counted (1218-1225). *)
Definition print_at (s : bytes) (indent pending force ismute : bool) (st : dstate) : dstate :=
  let st' := print_now limit usetabs s indent pending ismute st in
  if force then set_slines (o_slines st) st' else st'.
Definition print_with (s : bytes) (indent force ismute : bool) (st : dstate) : dstate * bool :=
  let ismute := ismute && negb force in
  let st1 := if is_newline s && ismute then set_muteline true st else st in
  if o_newline st1 then
    if beq s [SP] then (st1, false)
    else
      let st2 := set_newline false (set_refit true st1) in
      let st3 := print_at [NL] indent true force ismute (if ismute then set_muteline true st2 else st2) in
      if is_newline s then (st3, true)
      else (print_at s indent false force ismute st3, true)
  else (print_at s indent false force ismute st1, true).
Definition x_print (s : bytes) (indent force : bool) (xs : xstate) : xstate :=
  on (fun st => fst (print_with s indent force (x_is_mute xs) st)) xs.

(** doc.c:1571-1593 doc_diff_emit. *)
Definition diff_emit (beg ende : nat) (xs : xstate) : xstate :=
  match get_lines inp lx beg ende with
  | LNone => xs
  | LOut => set_xbad true xs
  | LSlice o n =>
      let xs1 := on (fun st => trim_spaces (reset_lines st)) xs in
      let xs2 := x_print (slice inp o (o + n)) false true xs1 in
      on (fun st => print_indent usetabs (o_cur st) st) xs2
  end.

(** diff.c:146-158 diff_get_chunk: the last line of the chunk found. *)
Definition chunk_end (lno : nat) : option nat :=
  match DiffModel.get_chunk chunks (N.of_nat lno) with
  | Some i => match nth_error chunks i with Some du => Some (N.to_nat (DiffModel.du_end du)) | None => None end
  | None => None
  end.

(** doc.c:1300-1442 doc_diff_group_enter and doc.c:1455-1467
    doc_diff_group_has_many_chunks; [leave] is doc_diff_leave(dc, st, 1). *)
Definition has_many (d : ddoc) (threshold : nat) : bool :=
  match dd_cov (covers threshold false d) with COVERED => true | _ => false end.
Definition group_enter (leave : xstate -> xstate) (nested : bool) (d : ddoc) (xs : xstate) : xstate * bool :=
  if negb diff then (xs, false)
  else if is_some (x_group xs) && negb nested then (xs, false)
  else
    let dd := covers (x_beg xs) (negb nested) d in
    match dd_cov dd with
    | IGNORE => (xs, false)
    | NOT_COVERED => (set_group (Some d) (if 0 <? x_end xs then leave xs else xs), true)
    | COVERED =>
        let xs1 := if (0 <? x_end xs) && (x_end xs <? dd_first dd) then leave xs else xs in
        let xs2 := set_group (Some d) xs1 in
        if 0 <? x_end xs2 then (xs2, true)
        else
          match chunk_end (dd_chunk dd) with
          | None => (xs2, true)
          | Some e =>
              let xs3 := if has_many d (S e) then set_many true xs2 else xs2 in
              let xs4 := on (set_mute 0%Z) (set_xmute (o_mute (x_st xs3)) (set_end e xs3)) in
              match dd_verb dd with
              | Some tk => (diff_emit (x_beg xs4) (k_lno tk + dlines (k_str tk)) (set_verb (Some (k_id tk)) xs4), true)
              | None => (diff_emit (x_beg xs4) (dd_first dd) xs4, true)
              end
          end
    end.

(** doc.c:1648-1677 doc_diff_leave_impl.  The nested call of doc_diff_group_enter cannot
    call it again as st_diff.end is 0 (1342, 1351). *)
Definition diff_leave (e : nat) (xs : xstate) : xstate :=
  if e =? 0 then xs
  else
    let xs0 := if (x_end xs =? 0) || is_some (x_verb xs) then set_xbad true xs else xs in
    let xs1 := on (set_mute (x_mute xs0)) (set_end 0 (set_beg (x_end xs0 + e) xs0)) in
    let xs2 := set_xmute 0%Z xs1 in
    let xs3 := if o_newline (x_st xs2) then x_print [NL] false true xs2 else xs2 in
    if x_many xs3 then
      match x_group xs3 with
      | Some g => fst (group_enter (set_xbad true) true g xs3)
      | None => set_xbad true xs3
      end
    else xs3.

(** doc.c:1444-1453 doc_diff_group_leave. *)
Definition group_leave (entered : bool) (xs : xstate) : xstate :=
  if negb entered || negb diff then xs
  else set_many false (set_group None (if is_some (x_group xs) then xs else set_xbad true xs)).

(** doc.c:1469-1475 doc_diff_mute_enter, doc.c:1477-1490 doc_diff_mute_leave. *)
Definition mute_enter (xs : xstate) : xstate := if diff_is_mute xs then xs else set_mline true xs.
Definition mute_leave (xs : xstate) : xstate :=
  if negb diff then xs
  else
    set_mline false
      (if x_mline xs && o_muteline (x_st xs) then x_print [NL] false true (on reset_lines xs) else xs).

(** doc.c:1492-1516 doc_diff_literal. *)
Definition diff_literal (tk : option dtok) (xs : xstate) : xstate :=
  match tk with
  | Some tk =>
      if negb diff || (x_end xs =? 0) then xs
      else if x_end xs <? k_lno tk then
        if is_some (x_group xs) then set_end (k_lno tk) xs else diff_leave 1 xs
      else xs
  | None => xs
  end.

(** doc.c:1518-1551 doc_diff_verbatim. *)
Definition diff_verbatim (tk : dtok) (xs : xstate) : nat * xstate :=
  if negb diff || (k_lno tk =? 0) || (x_end xs =? 0) then (0, xs)
  else if x_end xs <? k_lno tk then (0, diff_leave 1 xs)
  else
    let n := dlines (k_str tk) in
    if (0 <? n) && (x_end xs <? k_lno tk + n) then (k_lno tk + n - x_end xs, xs) else (0, xs).

(** doc.c:802-857 doc_exec_verbatim. *)
Definition own_verb (tk : dtok) (xs : xstate) : bool :=
  diff && match x_verb xs with Some i => i =? k_id tk | None => false end.
Definition x_verbatim (tk : dtok) (xs : xstate) : xstate :=
  if x_is_mute xs && negb (own_verb tk xs) then xs
  else
    let s := k_str tk in
    let '(n, xs0) := diff_verbatim tk xs in
    let isblock := (1 <? length s) && match rev s with c :: _ => c =c NL | [] => false end in
    let xs1 := on trim_spaces xs0 in
    let oldcol := o_col (x_st xs1) in
    let xs2 := if isblock && (0 <? oldcol) then on (set_newline true) xs1 else xs1 in
    let xs3 := x_print s false false xs2 in
    let xs4 := if own_verb tk xs3 then set_verb None xs3 else xs3 in
    let xs5 :=
      if isblock || is_newline s then
        on (fun st => print_indent usetabs (if 0 <? oldcol then o_cur st else o_pre st) st) xs4
      else xs4 in
    diff_leave n xs5.

(** doc.c:746-781 doc_exec_indent: what is done before the child is executed, with and
    without restoring afterwards. *)
Definition indent_start (v : Z) (st : dstate) : dstate :=
  if is_indent INDENT_NEWLINE v then
    if 0 <? o_slines st then set_cur (o_cur st + Z.to_nat (Z.land v (Z.lnot INDENT_NEWLINE))) st else st
  else if is_indent INDENT_WIDTH v then
    if negb (o_newline st) then set_cur (o_col st) st else st
  else if (0 <? v)%Z then set_cur (o_cur st + Z.to_nat v) st
  else set_cur (o_cur st - Z.to_nat (- v)) st.
Definition x_indent (v : Z) (k : xstate -> xstate) (xs : xstate) : xstate :=
  if is_indent INDENT_PARENS v then
    on (set_parens (o_parens (x_st xs))) (k (on (fun st => if parens_align st then set_parens (S (o_parens st)) st else st) xs))
  else if is_indent INDENT_FORCE v then k (on (fun st => print_indent usetabs (o_cur st) st) xs)
  else on (set_cur (o_cur (x_st xs))) (k (on (indent_start v) xs)).

(** doc.c:971-997 doc_exec_mute. *)
Definition x_domute (v : Z) (ismute : bool) (xs : xstate) : xstate :=
  let xs0 := if (o_mute (x_st xs) =? 0)%Z && (0 <? v)%Z then mute_enter xs else xs in
  let xs1 := if (0 <? v)%Z || (- v <=? o_mute (x_st xs0))%Z then on (fun st => set_mute (o_mute st + v)%Z st) xs0 else xs0 in
  if (o_mute (x_st xs1) =? 0)%Z then
    let xs2 := mute_leave xs1 in
    on (fun st => let st2 := reset_lines st in if ismute then set_newline (o_muteline st) st2 else st2) xs2
  else xs1.

(** doc.c:859-969 doc_exec_minimize and what it calls.  A snapshot (doc.c:1796-1819) holds
    st_diff as well. *)
Definition x_minimize1 (id : nat) (ms : list (Z * bool)) (k : xstate -> xstate) (i : nat) (xs : xstate) : xstate :=
  match nth_error ms i with
  | None => on (set_dbad true) xs
  | Some (v, _) => x_indent v k (on (fun st => if forced id ms i st then set_mforce (Some i) st else st) xs)
  end.
Fixpoint x_try_all (id : nat) (ms : list (Z * bool)) (k : xstate -> xstate) (sn : xstate)
    (is : list nat) (xs : xstate) : list (nat * Z) * xstate :=
  match is with
  | [] => ([], xs)
  | i :: r =>
      let xs0 := on (fun st => set_idx (Some i) (set_mforce None (set_sexceeds 0%Z (set_slines 0 st)))) xs in
      let xs1 := x_minimize1 id ms k i xs0 in
      let st1 := x_st xs1 in
      let flags := match o_mforce st1 with Some _ => set_flag id i (o_force st1) | None => o_force st1 end in
      let '(ps, xs2) := x_try_all id ms k sn r (set_xbad (x_bad xs1) (on (fun st => set_dbad (o_bad st1) (set_force flags st)) sn)) in
      ((o_slines st1, o_sexceeds st1) :: ps, xs2)
  end.
Definition x_minimize (id : nat) (ms : list (Z * bool)) (k : xstate -> xstate) (xs : xstate) : xstate :=
  match o_idx (x_st xs) with
  | Some i => x_minimize1 id ms k i xs
  | None =>
      let '(ps, xs1) := x_try_all id ms k xs (seq 0 (length ms)) xs in
      match best_of (fun i => forced id ms i (x_st xs1)) ps with
      | None => on (set_dbad true) xs1
      | Some best => on (set_idx None) (x_minimize1 id ms k best (on (set_idx (Some best)) xs1))
      end
  end.

(** doc.c:608-744 doc_exec1. *)
Fixpoint x_exec1 (d : ddoc) (xs : xstate) : xstate :=
  match d with
  | DConcat l => fold_left (fun xs d => x_exec1 d xs) l xs
  | DGroup d' =>
      let '(xs0, entered) := group_enter (diff_leave 1) false d xs in
      group_leave entered
        (if match o_mode (x_st xs0) with MUNGE => negb (o_refit (x_st xs0)) | BREAK => false end then x_exec1 d' xs0
         else
           let f := doc_fits limit (erase d) (set_refit false (x_st xs0)) in
           let xs1 := on (fun st => set_mode (if f_fits f then MUNGE else BREAK) (set_dbad (o_bad st || f_bad f) (set_refit false st))) xs0 in
           on (set_mode (o_mode (x_st xs0))) (x_exec1 d' xs1))
  | DIndent v d' => x_indent v (x_exec1 d') xs
  | DNoIndent d' =>
      let xs1 := on trim_spaces xs in
      let xs2 := x_exec1 d' (on (fun st => set_pre 0 (set_cur 0 st)) xs1) in
      on (fun st => set_pre (o_pre (x_st xs1)) (set_cur (o_cur (x_st xs1)) st)) xs2
  | DAlign indent spaces tabalign => on (exec_align indent spaces tabalign) xs
  | DLiteral tk s => x_print s true false (diff_literal tk xs)
  | DVerbatim tk => x_verbatim tk xs
  | DLine =>
      match o_mode (x_st xs) with
      | BREAK => x_print [NL] true false xs
      | MUNGE =>
          on (fun st => match print_with [SP] true false (x_is_mute xs) st with
                        | (st1, true) => set_refit true st1
                        | (st1, false) => st1
                        end) xs
      end
  | DSoftline => match o_mode (x_st xs) with BREAK => x_print [NL] true false xs | MUNGE => xs end
  | DHardline => x_print [NL] true false xs
  | DOptline => on (fun st => if 0 <? o_optline st then set_newline true st else st) xs
  | DMute v => x_domute v true xs
  | DUnmute v => x_domute v false xs
  | DOptional d' =>
      let old := o_optline (x_st xs) in
      on (fun st => if old <=? o_optline st then set_optline old st else st)
        (x_exec1 d' (on (fun st => set_optline (S (o_optline st)) st) xs))
  | DMinimize id ms d' => x_minimize id ms (x_exec1 d') xs
  | DScope d' => x_exec1 d' (on (set_slines 0) xs)
  | DMaxlines n d' => on (set_maxlines (o_maxlines (x_st xs))) (x_exec1 d' (on (set_maxlines n) xs))
  end.

(** doc.c:1757-1777 doc_state_init. *)
Definition x_init (buf : bytes) : xstate := X (doc_state_init buf BREAK) None None false 0%Z 1 0 false false.

(** doc.c:1553-1566 doc_diff_exit. *)
Definition diff_exit (xs : xstate) : xstate :=
  if negb diff then xs
  else
    let xs1 := if 0 <? x_end xs then diff_leave 1 xs else xs in
    diff_emit (x_beg xs1) 0 xs1.

(** doc.c:374-387 doc_exec: the buffer afterwards, undefined behaviour of the printer and
    undefined behaviour or a failed assertion in the doc_diff functions. *)
Definition x_exec (d : ddoc) (trim : bool) (buf : bytes) : bytes * bool * bool :=
  let xs := x_exec1 d (x_init buf) in
  let xs1 := diff_exit (if trim then on (fun st => set_rev (trim_lines (o_rev st)) st) xs else xs) in
  (rev (o_rev (x_st xs1)), o_bad (x_st xs1), x_bad xs1).
End Printer.
