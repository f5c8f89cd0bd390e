(** Model of the byte reader (lexer.c) and of the tokenizer for C (clang.c).

    The model keeps the C structure: a mutable read state (offset, line number,
    EOF flag), a line table that only grows, explicit saving and restoring of the
    state, and one function per C function.

    Undefined behaviour, failed assertions and exhausted loop fuel are recorded in
    the sticky flag [l_bad]; restoring a saved state does not clear it. *)
From Verif Require Import Base StrModel UtilModel TokenModel.

(** struct lexer_state (lexer.h:29-37).  Not modelled here: st_tk (only used
    after reading, see StreamModel) and the error flag (never set while reading). *)
Record lstate : Set := St { s_off : nat; s_lno : nat; s_eof : bool }.

(** struct lexer (lexer.c:29-54), the part used while reading. *)
Record lexer : Set := Lx {
  l_st : lstate;
  l_lines : list nat;   (* lx_lines *)
  l_bad : bool          (* model only: undefined behaviour happened *)
}.

(** tk_str/tk_len: either a span of the input buffer or a private buffer. *)
Inductive text : Set := Src (o l : nat) | Own (b : bytes).

(** struct token (token.h) without list links.  [t_end] is model only: the read
    offset when the token was emitted, i.e. the end of its source span. *)
Record tok : Set := Tok {
  t_type : ttype; t_flags : N; t_str : text;
  t_off : nat; t_end : nat; t_lno : nat; t_cno : nat
}.

(** A token with its prefixes and suffixes. *)
Record token : Set := Token { k_tok : tok; k_pre : list tok; k_suf : list tok }.

Definition set_flags (t : tok) (f : N) : tok :=
  Tok (t_type t) f (t_str t) (t_off t) (t_end t) (t_lno t) (t_cno t).
Definition set_str (t : tok) (s : text) : tok :=
  Tok (t_type t) (t_flags t) s (t_off t) (t_end t) (t_lno t) (t_cno t).

Section Lexer.
(** The input buffer (lx_input). *)
Variable inp : bytes.
(** lexer_get_diffchunk(lx, lno) != NULL (lexer.c:849-855), see DiffModel. *)
Variable in_diff : nat -> bool.
(** comment_trim and cpp_align for the configured style: [None] is NULL; see
    CommentModel and AlignModel. *)
Variable trim : bytes -> option bytes.
Variable align : bytes -> option bytes.

Definition text_bytes (t : text) : bytes :=
  match t with Src o l => slice inp o (o + l) | Own b => b end.
Definition text_len (t : text) : nat :=
  match t with Src _ l => l | Own b => length b end.

Definition bad (lx : lexer) : lexer := Lx (l_st lx) (l_lines lx) true.

(** lexer.c:163-173 lexer_get_state, lexer_set_state. *)
Definition get_state (lx : lexer) : lstate := l_st lx.
Definition set_state (lx : lexer) (st : lstate) : lexer := Lx st (l_lines lx) (l_bad lx).

Definition off (lx : lexer) : nat := s_off (l_st lx).

(** lexer.c:969-973 lexer_eof. *)
Definition lexer_eof (lx : lexer) : bool := off lx =? length inp.

(** lexer.c:975-988 lexer_line_alloc. *)
Definition line_alloc (lx : lexer) (lno : nat) : lexer :=
  if lno - 1 <? length (l_lines lx) then lx
  else Lx (l_st lx) (l_lines lx ++ [off lx]) (l_bad lx).

(** lexer.c:187-214 lexer_getc: [None] is a nonzero return value. Reading past the
    end of the buffer is undefined. *)
Definition getc (lx : lexer) : option byte * lexer :=
  let st := l_st lx in
  if lexer_eof lx then
    if s_eof st then (None, lx)
    else (Some NUL, set_state lx (St (s_off st) (s_lno st) true))
  else
    match nth_error inp (s_off st) with
    | None => (None, bad lx)
    | Some c =>
        if c =c NL then
          let lx1 := set_state lx (St (S (s_off st)) (S (s_lno st)) (s_eof st)) in
          (Some c, line_alloc lx1 (S (s_lno st)))
        else (Some c, set_state lx (St (S (s_off st)) (s_lno st) (s_eof st)))
    end.

(** lexer.c:216-231 lexer_ungetc. *)
Definition ungetc (lx : lexer) : lexer :=
  let st := l_st lx in
  if s_eof st then lx
  else match s_off st with
       | 0 => bad lx
       | S o =>
           match nth_error inp o with
           | None => bad lx
           | Some c =>
               set_state lx (St o (if c =c NL then s_lno st - 1 else s_lno st) (s_eof st))
           end
       end.

(** lexer.c:233-242 lexer_match. *)
Definition lexer_match (lx : lexer) (ranges : bytes) : nat * lexer :=
  let st := l_st lx in
  let len := KS_str_match_default (skipn (s_off st) inp) ranges in
  (len, set_state lx (St (s_off st + len) (s_lno st) (s_eof st))).

(** lexer.c:990-998 lexer_column.  Missing line table entries or a line starting
    after the state are undefined. *)
Definition column (lx : lexer) (st : lstate) : option nat :=
  match s_lno st with
  | 0 => None
  | S n =>
      match nth_error (l_lines lx) n with
      | None => None
      | Some lo => if lo <=? s_off st then Some (colwidth (slice inp lo (s_off st)) 1) else None
      end
  end.

(** lexer.c:252-271 lexer_emit_template; [str = None] is a template without text. *)
Definition emit (lx : lexer) (st : lstate) (type : ttype) (flags : N) (str : option bytes)
  : tok * lexer :=
  let fl := if in_diff (s_lno st) then N.lor flags F_DIFF else flags in
  let s := match str with
           | Some b => Own b
           | None => Src (s_off st) (off lx - s_off st)
           end in
  match column lx st with
  | Some cno => (Tok type fl s (s_off st) (off lx) (s_lno st) cno, lx)
  | None => (Tok type fl s (s_off st) (off lx) (s_lno st) 0, bad lx)
  end.

(** Enough fuel for any loop: every iteration reads a byte, reads the one soft
    NUL at the end of the buffer, or stops. *)
Definition FUEL : nat := S (S (length inp)).

(** lexer.c:926-939, loop of lexer_eat_lines. *)
Fixpoint eat_lines_loop (fuel : nat) (lx : lexer) (oldst : lstate) (nlines threshold : nat)
  : lexer * lstate * nat :=
  match fuel with
  | 0 => (bad lx, oldst, nlines)
  | S f =>
    match getc lx with
    | (None, lx1) => (lx1, oldst, nlines)
    | (Some ch, lx1) =>
        if ch =c CR then eat_lines_loop f lx1 oldst nlines threshold
        else if ch =c NL then
          if S nlines =? threshold then (lx1, l_st lx1, S nlines)
          else eat_lines_loop f lx1 (l_st lx1) (S nlines) threshold
        else if negb (ch =c SP) && negb (ch =c TAB) then (ungetc lx1, oldst, nlines)
        else eat_lines_loop f lx1 oldst nlines threshold
    end
  end.

(** lexer.c:917-951 lexer_eat_lines without the optional token. *)
Definition eat_lines (lx : lexer) (threshold : nat) : nat * lexer :=
  let '(lx1, oldst, nlines) := eat_lines_loop FUEL lx (l_st lx) 0 threshold in
  let lx2 := set_state lx1 oldst in
  if (nlines =? 0) || (nlines <? threshold) then (0, lx2) else (nlines, lx2).

(** lexer.c:943-949, the token emitted by lexer_eat_lines. *)
Definition eat_lines_tok (lx : lexer) (threshold : nat) : nat * option tok * lexer :=
  let st := l_st lx in
  let '(n, lx1) := eat_lines lx threshold in
  if n =? 0 then (0, None, lx1)
  else let '(t, lx2) := emit lx1 st T_SPACE 0%N (Some [NL]) in (n, Some t, lx2).

(** lexer.c:953-967 lexer_eat_spaces without the optional token. *)
Definition space_ranges : bytes := [SP; SP; FF; FF; TAB; TAB].
Definition eat_spaces (lx : lexer) : bool * lexer :=
  let '(n, lx1) := lexer_match lx space_ranges in
  if n =? 0 then (false, lx) else (true, lx1).
Definition eat_spaces_tok (lx : lexer) : option tok * lexer :=
  let st := l_st lx in
  match eat_spaces lx with
  | (false, lx1) => (None, lx1)
  | (true, lx1) => let '(t, lx2) := emit lx1 st T_SPACE 0%N None in (Some t, lx2)
  end.

(** lexer.c:891-915 lexer_eat_lines_and_spaces. *)
Fixpoint eat_lines_and_spaces_loop (fuel : nat) (lx : lexer) (st : lstate) (gotspaces : bool)
  : lexer * lstate :=
  match fuel with
  | 0 => (bad lx, st)
  | S f =>
    let '(n, lx1) := eat_lines lx 0 in
    if (n =? 0) && gotspaces then (lx1, st)
    else
      let st1 := if n =? 0 then st else l_st lx1 in
      match eat_spaces lx1 with
      | (true, lx2) => eat_lines_and_spaces_loop f lx2 st1 true
      | (false, lx2) => (lx2, st1)
      end
  end.
Definition eat_lines_and_spaces (lx : lexer) (st : lstate) : lexer * lstate :=
  eat_lines_and_spaces_loop FUEL lx st false.

(** lexer.c:1000-1008 lexer_buffer_slice, [None] if empty. *)
Definition buffer_slice (lx : lexer) (st : lstate) : option bytes :=
  if off lx - s_off st =? 0 then None else Some (slice inp (s_off st) (off lx)).

(** The keyword map filled by clang.c:148-169.  "__attribute__" is inserted both as
    a keyword and as an alias; both entries are equal. *)
Definition aliases : list keyword :=
  flat_map (fun '(t, s) =>
    match find (fun k => ttype_eqb (kw_type k) t) keywords with
    | Some k => [mkKw t (s2b s) (kw_flags k)]
    | None => []
    end) alias_names.
Definition clang_tokens : list keyword := keywords ++ aliases.

(** clang.c:1329-1338 clang_find_keyword1. *)
Definition find_keyword1 (key : bytes) : option keyword :=
  find (fun k => beq (kw_str k) key) clang_tokens.

(** clang.c:1317-1327 clang_find_keyword. *)
Definition find_keyword (lx : lexer) (st : lstate) : option keyword :=
  match buffer_slice lx st with
  | None => None
  | Some key => find_keyword1 key
  end.

(** clang.c:1243-1258 clang_find_cpp with fallback TOKEN_CPP. *)
Definition find_cpp (lx : lexer) (st : lstate) : ttype :=
  match buffer_slice lx st with
  | None => T_CPP
  | Some key =>
      match find (fun '(_, s) => beq (s2b s) key) cpp_names with
      | Some (t, _) => t
      | None => T_CPP
      end
  end.

(** clang.c:1340-1356 clang_ellipsis. *)
Definition ellipsis (lx : lexer) (st : lstate) : option keyword * lexer :=
  let oldst := l_st lx in
  match getc lx with
  | (Some c1, lx1) =>
      if c1 =c "." then
        match getc lx1 with
        | (Some c2, lx2) =>
            if c2 =c "." then (find_keyword lx2 st, lx2) else (None, set_state lx2 oldst)
        | (None, lx2) => (None, set_state lx2 oldst)
        end
      else (None, set_state lx1 oldst)
  | (None, lx1) => (None, set_state lx1 oldst)
  end.

(** clang.c:1273-1308, loop of clang_keyword: the value of [tk] and the lexer when
    the loop is left. *)
Fixpoint keyword_loop (fuel : nat) (lx : lexer) (st : lstate) (pv : option keyword)
  : option keyword * lexer :=
  match fuel with
  | 0 => (None, bad lx)
  | S f =>
    match find_keyword lx st with
    | None => (pv, ungetc lx)
    | Some tmp =>
      if negb (has_flag (kw_flags tmp) F_AMBIGUOUS) then (Some tmp, lx)
      else
        let continue (lx : lexer) :=
          match getc lx with
          | (None, lx1) => (Some tmp, lx1)
          | (Some _, lx1) => keyword_loop f lx1 st (Some tmp)
          end in
        if ttype_eqb (kw_type tmp) T_PERIOD then
          match getc lx with
          | (None, lx1) => (None, lx1)
          | (Some peek, lx1) =>
              if isdigit peek then (None, lx1)
              else
                match ellipsis (ungetc lx1) st with
                | (Some e, lx2) => (Some e, lx2)
                | (None, lx2) => continue lx2
                end
          end
        else continue lx
    end
  end.

(** clang.c:1260-1315 clang_keyword. *)
Definition clang_keyword (lx : lexer) : option tok * lexer :=
  let '(lx0, _) := eat_lines_and_spaces lx (l_st lx) in
  let st := l_st lx0 in
  match getc lx0 with
  | (None, lx1) => (None, lx1)
  | (Some _, lx1) =>
      match keyword_loop FUEL lx1 st None with
      | (None, lx2) => (None, set_state lx2 st)
      | (Some k, lx2) =>
          let '(t, lx3) := emit lx2 st (kw_type k) (kw_flags k) (Some (kw_str k)) in
          (Some t, lx3)
      end
  end.

(** clang.c:1042-1056 peek_c99_comment. *)
Definition peek_c99_comment (lx : lexer) : bool * lexer :=
  let st := l_st lx in
  let '(_, lx0) := eat_spaces lx in
  match getc lx0 with
  | (Some c1, lx1) =>
      if c1 =c "/" then
        match getc lx1 with
        | (Some c2, lx2) => (c2 =c "/", set_state lx2 st)
        | (None, lx2) => (false, set_state lx2 st)
        end
      else (false, set_state lx1 st)
  | (None, lx1) => (false, set_state lx1 st)
  end.

(** clang.c:1058-1086 sense_clang_format_comment: flags to add. *)
Definition sense_clang_format (str : bytes) : N :=
  let str := skipn (span_len isspace str) str in
  if length str <? 2 then 0%N
  else
    let str := skipn 2 str in
    let needle := s2b " clang-format " in
    if negb (starts_with needle str) then 0%N
    else
      let str := skipn (length needle) str in
      if starts_with (s2b "off") str then F_COMMENT_CLANG_FORMAT_OFF
      else if starts_with (s2b "on") str then F_COMMENT_CLANG_FORMAT_ON
      else 0%N.

(** clang.c:1115-1126, // comment: [true] if the loop jumps to [again]. *)
Fixpoint c99_loop (fuel : nat) (lx : lexer) : bool * lexer :=
  match fuel with
  | 0 => (false, bad lx)
  | S f =>
    match getc lx with
    | (None, lx1) => (false, lx1)
    | (Some ch, lx1) =>
        if ch =c NL then
          match peek_c99_comment lx1 with
          | (true, lx2) => (true, lx2)
          | (false, lx2) => (false, ungetc lx2)
          end
        else c99_loop f lx1
    end
  end.

(** clang.c:1128-1139, block comment; [ch] is the previous byte.  Returns [oneline]. *)
Fixpoint block_loop (fuel : nat) (lx : lexer) (ch : byte) (oneline : bool) : bool * lexer :=
  match fuel with
  | 0 => (oneline, bad lx)
  | S f =>
    match getc lx with
    | (None, lx1) => (oneline, lx1)
    | (Some peek, lx1) =>
        if (ch =c "*") && (peek =c "/") then (oneline, lx1)
        else block_loop f lx1 peek (if ch =c NL then false else oneline)
    end
  end.

(** clang.c:1099-1140: from [again:] to the end of the comment.  [None] if there is
    no comment; otherwise the start state, [oneline] and [c99]. *)
Fixpoint comment_again (fuel : nat) (lx : lexer) (block : bool) (st : lstate) (oneline : bool)
  : option (lstate * bool * bool) * lexer :=
  match fuel with
  | 0 => (None, bad lx)
  | S f =>
    let '(lx1, st1) := if block then eat_lines_and_spaces lx st
                       else (snd (eat_spaces lx), st) in
    match getc lx1 with
    | (None, lx2) => (None, lx2)
    | (Some c1, lx2) =>
      if negb (c1 =c "/") then (None, lx2)
      else match getc lx2 with
      | (None, lx3) => (None, lx3)
      | (Some c2, lx3) =>
        if c2 =c "/" then
          match c99_loop FUEL lx3 with
          | (true, lx4) => comment_again f lx4 block st1 false
          | (false, lx4) => (Some (st1, oneline, true), lx4)
          end
        else if c2 =c "*" then
          let '(ol, lx4) := block_loop FUEL lx3 NUL oneline in
          (Some (st1, ol, false), lx4)
        else (None, lx3)
      end
    end
  end.

(** clang.c:1088-1168 clang_read_comment. *)
Definition read_comment (lx : lexer) (block : bool) : option tok * lexer :=
  let oldst := l_st lx in
  match comment_again FUEL lx block oldst true with
  | (None, lx1) => (None, set_state lx1 oldst)
  | (Some (st, oneline, c99), lx1) =>
      let lx2 := if block then snd (eat_lines (snd (eat_spaces lx1)) 2) else lx1 in
      let '(t, lx3) := emit lx2 st T_COMMENT (if c99 then F_COMMENT_C99 else 0%N) None in
      let raw := text_bytes (t_str t) in
      let t1 := if oneline then set_flags t (N.lor (t_flags t) (sense_clang_format raw)) else t in
      let t2 := match trim raw with Some b => set_str t1 (Own b) | None => t1 end in
      let lx4 := if block then snd (eat_lines lx3 0) else lx3 in
      (Some t2, lx4)
  end.

(** clang.c:1193-1213, loop of clang_read_cpp. *)
Fixpoint cpp_loop (fuel : nat) (lx : lexer) (ch : byte) (comment : bool) : lexer :=
  match fuel with
  | 0 => bad lx
  | S f =>
    match getc lx with
    | (None, lx1) => lx1
    | (Some peek, lx1) =>
        if (ch =c "/") && (peek =c "*") then cpp_loop f lx1 peek true
        else if comment && ((ch =c "*") && (peek =c "/")) then cpp_loop f lx1 peek false
        else if negb comment && (negb (ch =c BSL) && (peek =c NL)) then ungetc lx1
        else cpp_loop f lx1 peek comment
    end
  end.

(** clang.c:1170-1241 clang_read_cpp. *)
Definition read_cpp (lx : lexer) : option tok * lexer :=
  let oldst := l_st lx in
  let '(lx1, st) := eat_lines_and_spaces lx oldst in
  match getc lx1 with
  | (None, lx2) => (None, set_state lx2 oldst)
  | (Some ch, lx2) =>
    if negb (ch =c "#") then (None, set_state lx2 oldst)
    else
      let '(_, lx3) := eat_spaces lx2 in
      let kwst := l_st lx3 in
      let '(_, lx4) := lexer_match lx3 (s2b "az") in
      let type := find_cpp lx4 kwst in
      let lx5 := cpp_loop FUEL lx4 NUL false in
      let lx6 := snd (eat_lines lx5 2) in
      let '(t, lx7) := emit lx6 st type F_CPP None in
      let t1 := if ttype_eqb type T_CPP_DEFINE then
                  match align (text_bytes (t_str t)) with
                  | Some b => set_str t (Own b)
                  | None => t
                  end
                else t in
      let lx8 := snd (eat_lines lx7 0) in
      (Some t1, lx8)
  end.

(** clang.c:1455-1466 token_prolong; growing a private buffer or a failed
    assertion is undefined. *)
Definition prolong (dst src : tok) : option tok :=
  if ttype_eqb (t_type src) (t_type dst) && (t_off dst + text_len (t_str dst) <=? t_off src) then
    match t_str dst with
    | Src o l =>
        Some (Tok (t_type dst) (t_flags dst) (Src o (l + text_len (t_str src)))
                  (t_off dst) (t_end src) (t_lno dst) (t_cno dst))
    | Own _ => None
    end
  else None.

(** clang.c:1013-1040 clang_read_prefix on cl->prefixes; [None] if there is none.
    Not modelled: cpp_include_add/leave, which reorder the list (IncludeModel). *)
Definition read_prefix (lx : lexer) (prefixes : list tok) : option (list tok) * lexer :=
  match read_comment lx true with
  | (Some comment, lx1) =>
      match rev prefixes with
      | pv :: before =>
          if ttype_eqb (t_type pv) T_COMMENT && (t_lno comment =? t_lno pv) then
            match prolong pv comment with
            | Some pv' => (Some (rev before ++ [pv']), lx1)
            | None => (Some (prefixes ++ [comment]), bad lx1)
            end
          else (Some (prefixes ++ [comment]), lx1)
      | [] => (Some [comment], lx1)
      end
  | (None, lx1) =>
      match read_cpp lx1 with
      | (Some cpp, lx2) => (Some (prefixes ++ [cpp]), lx2)
      | (None, lx2) => (None, lx2)
      end
  end.

(** clang.c:553-559, loop over prefixes. *)
Fixpoint read_prefixes (fuel : nat) (lx : lexer) (prefixes : list tok) : list tok * lexer :=
  match fuel with
  | 0 => (prefixes, bad lx)
  | S f =>
    match read_prefix lx prefixes with
    | (None, lx1) => (prefixes, lx1)
    | (Some ps, lx1) => read_prefixes f lx1 ps
    end
  end.

(** clang.c:582-590, loop of string and character literals; [false] is goto eof. *)
Fixpoint quote_loop (fuel : nat) (lx : lexer) (delim pch : byte) : bool * lexer :=
  match fuel with
  | 0 => (false, bad lx)
  | S f =>
    match getc lx with
    | (None, lx1) => (false, lx1)
    | (Some ch, lx1) =>
        if (pch =c BSL) && (ch =c BSL) then quote_loop f lx1 delim NUL
        else if negb (pch =c BSL) && (ch =c delim) then (true, lx1)
        else quote_loop f lx1 delim ch
    end
  end.

(** clang.c:1468-1474 isnum. *)
Definition isnum (c : byte) : bool :=
  let ch := if isupper c then tolower c else c in
  isdigit ch || isxdigit ch || (ch =c "l") || (ch =c "x") || (ch =c "u") || (ch =c ".").

(** clang.c:594-597, loop of numbers; [false] is goto eof. *)
Fixpoint num_loop (fuel : nat) (lx : lexer) : bool * lexer :=
  match fuel with
  | 0 => (false, bad lx)
  | S f =>
    match getc lx with
    | (None, lx1) => (false, lx1)
    | (Some ch, lx1) => if isnum ch then num_loop f lx1 else (true, ungetc lx1)
    end
  end.

Definition ident_ranges : bytes := s2b "AZaz09__".

(** clang.c:565-621: the token itself when it is not an operator.  Not modelled:
    the identifier class (clang_find_identifier). *)
Definition read_other (lx : lexer) : tok * lexer :=
  let st := l_st lx in
  let eof (lx : lexer) := emit lx st T_EOF 0%N None in
  match getc lx with
  | (None, lx1) => eof lx1
  | (Some ch0, lx1) =>
    let '(ch, lx2) :=
      if ch0 =c "L" then
        match getc lx1 with
        | (Some peek, lx1') =>
            if (peek =c DQ) || (peek =c SQ) then (peek, lx1') else (ch0, ungetc lx1')
        | (None, lx1') => (ch0, ungetc lx1')
        end
      else (ch0, lx1) in
    if (ch =c DQ) || (ch =c SQ) then
      match quote_loop FUEL lx2 ch ch with
      | (false, lx3) => eof lx3
      | (true, lx3) => emit lx3 st (if ch =c DQ then T_STRING else T_LITERAL) 0%N None
      end
    else if isdigit ch || (ch =c ".") then
      match num_loop FUEL lx2 with
      | (false, lx3) => eof lx3
      | (true, lx3) => emit lx3 st T_LITERAL 0%N None
      end
    else if isalpha ch || (ch =c "_") then
      let '(_, lx3) := lexer_match lx2 ident_ranges in
      match find_keyword lx3 st with
      | Some k => emit lx3 st (kw_type k) (kw_flags k) (Some (kw_str k))
      | None => emit lx3 st T_IDENT 0%N None
      end
    else if lexer_eof lx2 then eof lx2
    else emit lx2 st T_NONE 0%N None
  end.

(** clang.c:632-642, trailing comments. *)
Fixpoint read_suffix_comments (fuel : nat) (lx : lexer) (suf : list tok) : list tok * lexer :=
  match fuel with
  | 0 => (suf, bad lx)
  | S f =>
    match read_comment lx false with
    | (None, lx1) => (suf, lx1)
    | (Some c, lx1) => read_suffix_comments f lx1 (suf ++ [c])
    end
  end.

(** clang.c:542-675 clang_read.  Not modelled: cpp_include_add/leave
    (IncludeModel) and the branch links (BranchModel). *)
Definition clang_read (lx : lexer) : token * lexer :=
  let '(prefixes, lx1) := read_prefixes FUEL lx [] in
  let '(tk, lx2) :=
    match clang_keyword lx1 with
    | (Some t, lx2) => (t, lx2)
    | (None, lx2) => read_other lx2
    end in
  let '(suf1, lx3) :=
    if has_flag (t_flags tk) F_DISCARD then ([], lx2)
    else read_suffix_comments FUEL lx2 [] in
  let '(suf2, lx4) :=
    if length suf1 =? 0 then
      match eat_spaces_tok lx3 with
      | (Some t, lx4) => ([set_flags t (N.lor (t_flags t) (N.lor F_OPTSPACE F_DISCARD))], lx4)
      | (None, lx4) => ([], lx4)
      end
    else (suf1, lx3) in
  let '(suf3, lx5) :=
    match eat_lines_tok lx4 0 with
    | (n, Some t, lx5) =>
        (suf2 ++ [if n =? 1 then set_flags t (N.lor (t_flags t) F_OPTLINE) else t], lx5)
    | (_, None, lx5) => (suf2, lx5)
    end in
  (Token tk prefixes suf3, lx5).

(** lexer.c:95-99, initial state. *)
Definition lexer_init : lexer := line_alloc (Lx (St 0 1 false) [] false) 1.

Definition is_eof (t : token) : bool := ttype_eqb (t_type (k_tok t)) T_EOF.

(** lexer.c:104-121, loop of lexer_tokenize: the tokens in reading order. *)
Fixpoint read_all (fuel : nat) (lx : lexer) : list token * lexer :=
  match fuel with
  | 0 => ([], bad lx)
  | S f =>
    let '(tk, lx1) := clang_read lx in
    if is_eof tk then ([tk], lx1)
    else let '(r, lx2) := read_all f lx1 in (tk :: r, lx2)
  end.

(** lexer.c:525-548 lexer_remove of the [i]-th token: prefixes go to the front of
    the next token, suffixes to the end of the previous one (or of the next one if
    there is no previous one).  [None] if the assertions fail. *)
Fixpoint remove_at (i : nat) (l : list token) : option (list token) :=
  match i, l with
  | 0, tk :: nx :: r =>
      if is_eof tk then None
      else Some (Token (k_tok nx) (k_pre tk ++ k_pre nx) (k_suf nx ++ k_suf tk) :: r)
  | 1, pv :: tk :: nx :: r =>
      if is_eof tk then None
      else Some (Token (k_tok pv) (k_pre pv) (k_suf pv ++ k_suf tk) ::
                 Token (k_tok nx) (k_pre tk ++ k_pre nx) (k_suf nx) :: r)
  | S i', x :: r => match remove_at i' r with Some r' => Some (x :: r') | None => None end
  | _, _ => None
  end.

Definition is_discard (t : token) : bool := has_flag (t_flags (k_tok t)) F_DISCARD.

(** Indices of the tokens collected in [discarded] (lexer.c:111-118). *)
Fixpoint discard_indices (i : nat) (l : list token) : list nat :=
  match l with
  | [] => []
  | t :: r => (if is_discard t then [i] else []) ++ discard_indices (S i) r
  end.

(** lexer.c:123-128: removed from the last to the first. *)
Fixpoint remove_all (idx : list nat) (l : list token) : option (list token) :=
  match idx with
  | [] => Some l
  | i :: r => match remove_at i l with Some l' => remove_all r l' | None => None end
  end.

(** lexer.c:77-144 lexer_tokenize.  Not modelled: the after_read callback. *)
Definition tokenize : option (list token) * lexer :=
  let '(l, lx) := read_all FUEL lexer_init in
  (remove_all (rev (discard_indices 0 l)) l, lx).
End Lexer.
