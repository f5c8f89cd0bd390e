(** Model of the part of parser.c that turns tokens into documents: disabled regions
    (clang-format off and on), branches, and the documents of a token with its prefixes and
    suffixes.  The grammar (parser-*.c, expr.c) is not modelled here: it decides in which
    documents the ones made here are nested and which layout documents are put in between. *)
From Verif Require Import Base StrModel UtilModel TokenModel LexModel LinesModel DocModel.

(** struct parser, pr_token (parser-priv.h).  [p_unmute] stands for a pointer to a token, here
    its offset.  [p_bad] records that lexer_get_lines read outside of its table. *)
Record pstate := PSt { p_off : option tok; p_unmute : option nat; p_bad : bool }.
Definition parser_init : pstate := PSt None None false.

Section Parser.
Variable inp : bytes.
Variable lx : lexer.
(** lexer_get_peek *)
Variable peek : bool.

Notation bytes_of t := (text_bytes inp (t_str t)).

(** parser.c:24-42 countlines; each step looks for the next newline, so that at most
    [length s] steps are made. *)
Fixpoint countlines (fuel : nat) (s : bytes) : nat :=
  match fuel with
  | 0 => 0
  | S f =>
      let linelen := span_len (fun c => negb (c =c NL)) s in
      if length s <=? linelen then 0 else S (countlines f (skipn (S linelen) s))
  end.

(** parser.c:44-72 clang_format_verbatim: the documents appended. *)
Definition format_verbatim (ende : nat) (s : pstate) : list doc * pstate :=
  match p_off s with
  | None => ([], s)
  | Some off =>
      let beg := t_lno off + countlines (length (bytes_of off)) (bytes_of off) in
      match get_lines inp lx beg ende with
      | LOut => ([Unmute (-1)], PSt None (p_unmute s) true)
      | LNone => ([Unmute (-1)], PSt None (p_unmute s) (p_bad s))
      | LSlice o n => ([Unmute (-1); Verbatim (slice inp o (o + n))], PSt None (p_unmute s) (p_bad s))
      end
  end.

Definition unmuting (s : pstate) : bool := match p_unmute s with Some _ => true | None => false end.

(** parser.c:74-84 clang_format_on. *)
Definition format_on (comment : tok) (s : pstate) : list doc * pstate :=
  if peek || unmuting s then ([], s) else format_verbatim (t_lno comment) s.

(** parser.c:86-102 clang_format_off. *)
Definition format_off (comment : tok) (s : pstate) : list doc * pstate :=
  if peek || unmuting s then ([], s) else ([Mute 1], PSt (Some comment) (p_unmute s) (p_bad s)).

(** parser.c:336-344, the loop over prefixes. *)
Fixpoint doc_prefixes (l : list tok) (s : pstate) : list doc * pstate :=
  match l with
  | [] => ([], s)
  | t :: r =>
      let '(d1, s1) := if has_flag (t_flags t) F_COMMENT_CLANG_FORMAT_ON then format_on t s else ([], s) in
      let '(d2, s2) := if has_flag (t_flags t) F_COMMENT_CLANG_FORMAT_OFF then format_off t s1 else ([], s1) in
      let '(d3, s3) := doc_prefixes r s2 in
      (d1 ++ [Verbatim (bytes_of t)] ++ d2 ++ d3, s3)
  end.

(** parser.c:348-355, the loop over suffixes. *)
Definition doc_suffix (t : tok) : list doc :=
  if has_flag (t_flags t) F_DISCARD then []
  else if has_flag (t_flags t) F_OPTLINE then [Optline]
  else [Verbatim (bytes_of t)].

(** parser.c:323-363 parser_doc_token_impl; [nx] is token_next(tk).  The documents are
    appended to [dc] in this order. *)
Definition doc_token (tk : token) (nx : option token) (s : pstate) : list doc * pstate :=
  let unmute := match p_unmute s with Some o => o =? t_off (k_tok tk) | None => false end in
  let s1 := if unmute && negb peek then PSt (p_off s) None (p_bad s) else s in
  let '(d1, s2) := doc_prefixes (k_pre tk) s1 in
  let branch := match nx with Some n => has_flag (t_flags (k_tok n)) F_BRANCH | None => false end in
  ((if unmute then [Mute (-1)] else []) ++ d1 ++ [Literal (bytes_of (k_tok tk))] ++
   flat_map doc_suffix (k_suf tk) ++ (if branch then [Mute 1] else []), s2).

(** parser.c:307-321 parser_reset; [nx] is the next token (lexer_peek) and token_cmp compares
    lines (token.c:189-198). *)
Definition parser_reset (nx : option tok) (s : pstate) : pstate :=
  match p_off s, nx with
  | Some off, Some n => if t_lno n <? t_lno off then PSt None (p_unmute s) (p_bad s) else s
  | _, _ => s
  end.
End Parser.

(** The documents of tokens emitted one after the other without peeking. *)
Fixpoint doc_tokens (inp : bytes) (lx : lexer) (l : list token) (s : pstate) : list doc * pstate :=
  match l with
  | [] => ([], s)
  | k :: r =>
      let '(d1, s1) := doc_token inp lx false k (match r with [] => None | n :: _ => Some n end) s in
      let '(d2, s2) := doc_tokens inp lx r s1 in
      (d1 ++ d2, s2)
  end.

(** parser.c:138-148: the end of the input is only emitted if it has prefixes. *)
Definition emitted (l : list token) : list token :=
  filter (fun k => negb (is_eof k) || negb (length (k_pre k) =? 0)) l.

(** parser.c:123-175 parser_exec of an input that parses without branches and errors: the
    documents made out of tokens, in order. *)
Definition parser_docs (inp : bytes) (lx : lexer) (l : list token) : list doc * pstate :=
  let '(d1, s1) := doc_tokens inp lx (emitted l) parser_init in
  let '(d2, s2) := format_verbatim inp lx 0 s1 in
  (d1 ++ d2, s2).
