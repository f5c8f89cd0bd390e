(** Model of ruler.c: aligning columns.  Vectors are lists (C39, C40), a DOC_ALIGN is its
    value, tokens are what the ruler looks at.  Simplified: unsigned numbers do not wrap;
    where a difference would be negative the outcome is [None], as for a failed assertion. *)
From Verif Require Import Base StrModel UtilModel.

(** token.h:18-60 struct token, the fields used here: a suffix is its type, the flag
    TOKEN_FLAG_OPTSPACE and its text, [t_next] the position of token_next(). *)
Inductive stype := SSpace | SComment | SElse.
Record suffix := Suf { u_type : stype; u_opt : bool; u_str : bytes }.
Record rtok := RTok { t_str : bytes; t_lno : nat; t_cno : nat; t_suf : list suffix; t_next : option (nat * nat) }.
Definition is_space (u : suffix) : bool := match u_type u with SSpace => u_opt u | _ => false end.
(** token.c:319-331 token_has_tabs *)
Definition has_tabs (t : rtok) : bool := existsb (fun u => is_space u && (hd NUL (u_str u) =c TAB)) (t_suf t).
(** token.c:500-505 token_find_suffix_spaces *)
Definition find_spaces (t : rtok) : option suffix := find is_space (t_suf t).
(** token_has_suffix(tk, TOKEN_COMMENT), token.c:259-263 *)
Definition has_comment (t : rtok) : bool := existsb (fun u => match u_type u with SComment => true | _ => false end) (t_suf t).

(** ruler.c:29-34 struct ruler_datum, 16-21 struct ruler_column, 23-27 struct ruler_indent,
    ruler.h:4-35 struct ruler. *)
Record datum := Datum { rd_tk : rtok; rd_len : nat; rd_nspaces : nat }.
Record column := Column { rc_datums : list datum; rc_len : nat; rc_nspaces : nat; rc_ntabs : nat }.
Record rindent := RIndent { ri_rd : nat; ri_sign : bool }.
Record rflags := RFlags { f_min : bool; f_max : bool; f_fixed : bool; f_tabs : bool; f_sense : bool }.
Record ruler := Ruler { rl_columns : list column; rl_indent : option (list rindent); rl_align : nat; rl_flags : rflags }.
(** doc.h:62-66 struct doc_align *)
Record align := AlignV { a_indent : nat; a_spaces : nat; a_tabs : bool }.

(** ruler.c:51-59 ruler_init *)
Definition ruler_init (al : nat) (fl : rflags) : ruler := Ruler [] None al fl.

(** ruler.c:83-115 ruler_insert_impl; [None] for column 0, rl_columns[-1]. *)
Definition col_insert (tk : rtok) (len nspaces : nat) (rc : column) : column :=
  Column (rc_datums rc ++ [Datum tk len nspaces])
         (if rc_len rc <? len then len else rc_len rc)
         (if rc_nspaces rc <? nspaces then nspaces else rc_nspaces rc)
         (if has_tabs tk then S (rc_ntabs rc) else rc_ntabs rc).
Definition column0 : column := Column [] 0 0 0.
Fixpoint upd {A} (l : list A) (i : nat) (f : A -> A) : list A :=
  match l, i with [], _ => [] | x :: r, 0 => f x :: r | x :: r, S i => x :: upd r i f end.
Definition ruler_insert (rl : ruler) (tk : rtok) (col len nspaces : nat) : option ruler :=
  if col =? 0 then None
  else
    let cols := rl_columns rl ++ repeat column0 (col - length (rl_columns rl)) in
    Some (Ruler (upd cols (col - 1) (col_insert tk len nspaces)) (rl_indent rl) (rl_align rl) (rl_flags rl)).

(** ruler.c:130-159 ruler_indent_impl; [sign] is [true] for ruler_indent. *)
Definition ruler_indent (rl : ruler) (sign : bool) : ruler :=
  match rl_columns rl with
  | [] => rl
  | rc :: _ =>
      match rc_datums rc with
      | [] => rl
      | _ :: _ => Ruler (rl_columns rl) (Some (match rl_indent rl with Some l => l | None => [] end ++ [RIndent (length (rc_datums rc) - 1) sign])) (rl_align rl) (rl_flags rl)
      end
  end.
(** ruler.c:161-167 ruler_indent_remove with a cookie. *)
Definition ruler_indent_remove (rl : ruler) : ruler := Ruler (rl_columns rl) (match rl_indent rl with Some l => Some (removelast l) | None => None end) (rl_align rl) (rl_flags rl).

(** ruler.c:371-384 countspaces *)
Definition countspaces (s : bytes) : option nat :=
  let r := skipn (span_len (fun c => c =c TAB) s) s in
  let n := span_len (fun c => c =c SP) r in
  if n =? length r then Some n else None.

(** ruler.c:278-293, the loop looking for redundant spaces; [None] is noalign. *)
Fixpoint redundant (ds : list datum) (nspaces : nat) : option nat :=
  match ds with
  | [] => Some nspaces
  | rd :: r =>
      if negb (has_tabs (rd_tk rd)) then redundant r nspaces
      else
        match find_spaces (rd_tk rd) with
        | None => redundant r nspaces
        | Some u => match countspaces (u_str u) with None => None | Some n => redundant r (if nspaces <? n then n else nspaces) end
        end
  end.
(** ruler.c:298-323, the loop over all datums: [cno], [tk]. *)
Inductive sense := NoAlign | Sensed (cno : nat) (tk : option rtok).
Fixpoint sense_loop (nsp len : nat) (ds : list datum) (cno : nat) (tk : option rtok) : sense :=
  match ds with
  | [] => Sensed cno tk
  | rd :: r =>
      match t_next (rd_tk rd) with
      | None => NoAlign
      | Some (nlno, ncno) =>
          if has_comment (rd_tk rd) || negb (t_lno (rd_tk rd) =? nlno) then NoAlign
          else
            let nspaces := nsp - rd_nspaces rd in
            if ncno <? nspaces then NoAlign
            else
              let w := ncno - nspaces in
              if w <=? colwidth (t_str (rd_tk rd)) (t_cno (rd_tk rd)) then NoAlign
              else if negb (cno =? 0) && negb (cno =? w) then NoAlign
              else sense_loop nsp len r w (if rd_len rd =? len then Some (rd_tk rd) else tk)
      end
  end.
(** ruler.c:260-334 ruler_column_alignment: the length, 0 for noalign, and the column;
    [None]: a failed assertion, or the length would be negative. *)
Definition column_alignment (rc : column) : option (nat * column) :=
  match rc_datums rc with
  | [] => None
  | _ :: _ =>
      match (if (0 <? rc_ntabs rc) && (rc_nspaces rc =? 0) then redundant (rc_datums rc) 0 else Some (rc_nspaces rc)) with
      | None => Some (0, rc)
      | Some nsp =>
          match sense_loop nsp (rc_len rc) (rc_datums rc) 0 None with
          | NoAlign => Some (0, rc)
          | Sensed _ None => None
          | Sensed cno (Some tk) =>
              let w := strwidth (t_str tk) (t_cno tk) in
              if rc_len rc + cno <? w then None
              else Some (rc_len rc + cno - w, Column (rc_datums rc) (rc_len rc) nsp (rc_ntabs rc))
          end
      end
  end.

(** ruler.c:386-415 minimize; [None] is UINT_MAX. *)
Fixpoint minspaces (rc : column) (ds : list datum) (m : option nat) : option nat :=
  match ds with
  | [] => m
  | rd :: r =>
      if rd_len rd <? rc_len rc then minspaces rc r m
      else
        let n := rc_nspaces rc - rd_nspaces rd in
        minspaces rc r (match m with None => Some n | Some k => if n <? k then Some n else m end)
  end.
Definition minimize (rc : column) : bool :=
  if (length (rc_datums rc) <? 2) || (rc_nspaces rc =? 0) || (0 <? rc_len rc mod 8) then false
  else match minspaces rc (rc_datums rc) None with None => true | Some k => rc_nspaces rc <=? k end.

(** ruler.c:336-369 ruler_column_length: [Some (None, _)] where it returns 1, otherwise
    max and tabalign; and the column. *)
Definition column_tabs (rc : column) : nat * bool := ((if minimize rc then rc_len rc else S (rc_len rc)), true).
Definition column_length (rl : ruler) (rc : column) : option (option (nat * bool) * column) :=
  let f := rl_flags rl in
  if f_min f then Some (Some (S (rc_len rc), f_tabs f), rc)
  else if f_max f || f_fixed f then Some (Some (rl_align rl, f_tabs f), rc)
  else if f_sense f then
    match column_alignment rc with
    | None => None
    | Some (0, rc) =>
        if (0 <? rc_ntabs rc) && (length (rc_datums rc) / 4 <=? rc_ntabs rc) then Some (Some (column_tabs rc), rc)
        else Some (None, rc)
    | Some (maxlen, rc) => Some (Some (maxlen, 0 <? rc_ntabs rc), rc)
    end
  else if f_tabs f then Some (Some (column_tabs rc), rc)
  else Some (Some (0, false), rc).

(** ruler.c:181-199, a datum; its document is allocated as [AlignV 1 0 false] (98). *)
Definition align_datum (f : rflags) (max : nat) (tabs : bool) (rc : column) (rd : datum) : option align :=
  if f_fixed f then Some (AlignV max 0 false)
  else if max <? rd_len rd then (if f_max f then Some (AlignV 0 0 false) else None)
  else Some (AlignV (max - rd_len rd) (rc_nspaces rc - rd_nspaces rd) tabs).
Fixpoint opt_map {A B} (f : A -> option B) (l : list A) : option (list B) :=
  match l with
  | [] => Some []
  | x :: r => match f x, opt_map f r with Some y, Some ys => Some (y :: ys) | _, _ => None end
  end.
Definition exec_column (rl : ruler) (rc : column) : option (list align * column) :=
  match column_length rl rc with
  | None => None
  | Some (None, rc) => Some (List.map (fun _ => AlignV 1 0 false) (rc_datums rc), rc)
  | Some (Some (max, tabs), rc) =>
      match opt_map (align_datum (rl_flags rl) max tabs rc) (rc_datums rc) with
      | None => None
      | Some l => Some (l, rc)
      end
  end.
(** ruler.c:214-244 ruler_exec_indent: the value given to every indent. *)
Definition indent_value (rc : column) (max : nat) (ri : rindent) : option Z :=
  match nth_error (rc_datums rc) (ri_rd ri) with
  | None => None
  | Some rd =>
      let n := if 0 <? max then max + (rc_nspaces rc - rd_nspaces rd) else S (rd_len rd) in
      Some (if ri_sign ri then Z.of_nat n else - Z.of_nat n)%Z
  end.
Definition exec_indent (rl : ruler) (cols : list column) : option (list Z) :=
  match rl_indent rl with
  | None => Some []
  | Some l =>
      match cols with
      | [rc] =>
          match column_length rl rc with
          | None => None
          | Some (None, rc) => opt_map (indent_value rc 0) l
          | Some (Some (max, tabs), rc) =>
              let max := if tabs then (max + 7) - (max + 7) mod 8 else max in
              opt_map (indent_value rc max) l
          end
      | _ => None
      end
  end.
(** ruler.c:169-210 ruler_exec *)
Definition ruler_exec (rl : ruler) : option (list (list align) * list Z) :=
  match opt_map (exec_column rl) (rl_columns rl) with
  | None => None
  | Some l =>
      match exec_indent rl (List.map snd l) with
      | None => None
      | Some is => Some (List.map fst l, is)
      end
  end.
