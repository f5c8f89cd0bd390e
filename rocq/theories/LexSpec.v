(** Specification of tokenization, independent of the reader: which spans of the input
    are which tokens.  Only the records and the keyword tables of the model are used. *)
From Verif Require Import Base UtilProofs TokenModel LexModel.

(** Spaces, line white-space and their union. *)
Definition sp (c : byte) : Prop := c = SP \/ c = FF \/ c = TAB.
Definition lw (c : byte) : Prop := c = SP \/ c = TAB \/ c = CR \/ c = NL.
Definition bl (c : byte) : Prop := c = SP \/ c = TAB \/ c = FF \/ c = CR \/ c = NL.

(** Identifier bytes. *)
Definition ident_first (c : byte) : bool := isalpha c || (c =c "_").
Definition ident_byte (c : byte) : bool := isalpha c || isdigit c || (c =c "_").
(** Bytes a number may be continued with. *)
Definition num_byte (c : byte) : Prop := In c (s2b "0123456789abcdefABCDEFlLuUxX.").

(** The text between the delimiters of a literal: no unescaped delimiter [d]. *)
Inductive lit_body (d : byte) : bytes -> Prop :=
| lb_nil : lit_body d []
| lb_char : forall c l, c <> d -> c <> BSL -> lit_body d l -> lit_body d (c :: l)
| lb_esc : forall c l, lit_body d l -> lit_body d (BSL :: c :: l).
(** A literal cut off by the end of the input. *)
Definition lit_open (d : byte) (l : bytes) : Prop :=
  lit_body d l \/ exists l', l = l' ++ [BSL] /\ lit_body d l'.
Definition quote (c : byte) : Prop := c = DQ \/ c = SQ.
Definition wide (l : bytes) : Prop := l = [] \/ l = s2b "L".

Section Spec.
Variable inp : bytes.
Notation L := (length inp).

(** The text [s] occurs at offset [o]. *)
Definition occurs (s : bytes) (o : nat) : Prop := exists r, skipn o inp = s ++ r.

(** A maximal run of identifier bytes. *)
Definition word (o e : nat) : Prop :=
  o < e <= L /\ (exists c, nth_error inp o = Some c /\ ident_first c = true) /\
  Forall (fun c => ident_byte c = true) (slice inp o e) /\
  (forall c, nth_error inp e = Some c -> ident_byte c = false).

(** The table entry [k] occurs at [o] and no longer one does. *)
Definition longest (k : keyword) (o : nat) : Prop :=
  In k clang_tokens /\ occurs (kw_str k) o /\
  (forall k', In k' clang_tokens -> occurs (kw_str k') o -> length (kw_str k') <= length (kw_str k)).

Definition number (o e : nat) : Prop :=
  o < e <= L /\
  (exists c, nth_error inp o = Some c /\
     (isdigit c = true \/ c = "."%char /\ exists c', nth_error inp (S o) = Some c' /\ isdigit c' = true)) /\
  Forall num_byte (slice inp (S o) e) /\
  (forall c, nth_error inp e = Some c -> ~ num_byte c).

(** No token starts with the byte at [o]. *)
Definition unknown (o : nat) : Prop :=
  exists c, nth_error inp o = Some c /\ ident_byte c = false /\ c <> DQ /\ c <> SQ /\ c <> "."%char /\
  (forall k, In k clang_tokens -> ~ occurs (kw_str k) o).

(** [main_span ty fl o e]: the input from [o] to [e] is a token of type [ty] with the
    static flags [fl]. *)
Inductive main_span : ttype -> N -> nat -> nat -> Prop :=
| MS_op : forall k o c, nth_error inp o = Some c -> ident_byte c = false -> longest k o ->
    (kw_str k = s2b "." -> forall c', nth_error inp (S o) = Some c' -> isdigit c' = false) ->
    main_span (kw_type k) (kw_flags k) o (o + length (kw_str k))
| MS_keyword : forall k o e, word o e -> In k clang_tokens -> kw_str k = slice inp o e ->
    main_span (kw_type k) (kw_flags k) o e
| MS_ident : forall o e, word o e -> (forall k, In k clang_tokens -> kw_str k <> slice inp o e) ->
    (slice inp o e = s2b "L" -> forall q, nth_error inp e = Some q -> ~ quote q) ->
    main_span T_IDENT 0 o e
| MS_string : forall w body o e, o < e <= L -> wide w -> lit_body DQ body ->
    slice inp o e = w ++ [DQ] ++ body ++ [DQ] -> main_span T_STRING 0 o e
| MS_char : forall w body o e, o < e <= L -> wide w -> lit_body SQ body ->
    slice inp o e = w ++ [SQ] ++ body ++ [SQ] -> main_span T_LITERAL 0 o e
| MS_num : forall o e, number o e -> main_span T_LITERAL 0 o e
| MS_none : forall o, S o < L -> unknown o -> main_span T_NONE 0 o (S o)
| MS_eof : main_span T_EOF 0 L L
| MS_eof_literal : forall w q body o, o < L -> wide w -> quote q -> lit_open q body ->
    slice inp o L = w ++ [q] ++ body -> main_span T_EOF 0 o L
| MS_eof_unknown : forall o, S o = L -> unknown o -> main_span T_EOF 0 o L.

(** ** Comments *)
(** The line after the newline at [n] is a // comment. *)
Definition next_line_comment (n m : nat) : Prop :=
  nth_error inp n = Some NL /\ S n <= m /\ Forall sp (slice inp (S n) m) /\ occurs (s2b "//") m.

Inductive c99_span : nat -> nat -> Prop :=
| c99_last : forall m n, occurs (s2b "//") m -> m + 2 <= n <= L -> ~ In NL (slice inp (m + 2) n) ->
    n = L \/ nth_error inp n = Some NL -> (forall m', ~ next_line_comment n m') -> c99_span m n
| c99_more : forall m n m' e, occurs (s2b "//") m -> m + 2 <= n -> ~ In NL (slice inp (m + 2) n) ->
    next_line_comment n m' -> c99_span m' e -> c99_span m e.

Definition block_span (m e : nat) : Prop :=
  occurs (s2b "/*") m /\
  ((exists k, m + 2 <= k /\ e = k + 2 /\ occurs (s2b "*/") k /\
      forall j, m + 2 <= j < k -> ~ occurs (s2b "*/") j) \/
   (e = L /\ forall j, m + 2 <= j -> ~ occurs (s2b "*/") j)).

Definition comment_span (m e : nat) : Prop := block_span m e \/ c99_span m e.

(** A comment with the spaces before it and blanks after it. *)
Definition comment_text (o e : nat) : Prop :=
  exists m n, o <= m /\ n <= e <= L /\ Forall sp (slice inp o m) /\ comment_span m n /\ Forall bl (slice inp n e).

(** One comment, or several adjacent ones starting on the same line. *)
Inductive comment_run : nat -> nat -> Prop :=
| cr_one : forall o e, comment_text o e -> comment_run o e
| cr_more : forall o n e, comment_run o n -> comment_text n e ->
    count_occ_b NL (slice inp o n) = 0 -> comment_run o e.

(** ** Directives *)
(** Scanning a directive: the previous byte and whether a block comment is open. *)
Definition dir_step (st : byte * bool) (c : byte) : byte * bool :=
  let '(p, com) := st in
  (c, if (p =c "/") && (c =c "*") then true
      else if (p =c "*") && (c =c "/") then false
      else com).
Definition dir_state (w n : nat) : byte * bool := fold_left dir_step (slice inp w n) (NUL, false).
(** The newline at [n] ends a directive whose name ends at [w]. *)
Definition dir_stop (w n : nat) : Prop :=
  nth_error inp n = Some NL /\ fst (dir_state w n) <> BSL /\ snd (dir_state w n) = false.

Definition lower_run (o e : nat) : Prop :=
  o <= e <= L /\ Forall (fun c => islower c = true) (slice inp o e) /\
  (forall c, nth_error inp e = Some c -> islower c = false).
Definition cpp_type (name : bytes) (ty : ttype) : Prop :=
  (exists s, In (ty, s) cpp_names /\ name = s2b s) \/
  (ty = T_CPP /\ forall ty' s, In (ty', s) cpp_names -> name <> s2b s).

Definition directive (ty : ttype) (m e : nat) : Prop :=
  exists k w, nth_error inp m = Some "#"%char /\ S m <= k /\ Forall sp (slice inp (S m) k) /\
    (forall c, nth_error inp k = Some c -> ~ sp c) /\
    lower_run k w /\ cpp_type (slice inp k w) ty /\ w <= e <= L /\
    (e = L \/ dir_stop w e) /\ (forall n, w <= n < e -> ~ dir_stop w n).

Definition cpp_text (ty : ttype) (o e : nat) : Prop :=
  exists m n, o <= m /\ n <= e <= L /\ Forall sp (slice inp o m) /\ directive ty m n /\ Forall lw (slice inp n e).

(** ** Tokens *)
Variable in_diff : nat -> bool.
Variable trim : bytes -> option bytes.
Variable align : bytes -> option bytes.

(** Line and column of the first byte. *)
Definition pos_ok (t : tok) : Prop :=
  t_off t <= t_end t <= L /\
  t_lno t = S (count_occ_b NL (firstn (t_off t) inp)) /\
  t_cno t = S (display_col (firstn (t_off t) inp) 0).

Definition src (t : tok) : bytes := slice inp (t_off t) (t_end t).
Definition verbatim (t : tok) : Prop := text_bytes inp (t_str t) = src t.
Definition flags_ok (t : tok) (fl : N) : Prop :=
  t_flags t = if in_diff (t_lno t) then N.lor fl F_DIFF else fl.

Definition main_ok (t : tok) : Prop :=
  pos_ok t /\ verbatim t /\ exists fl, flags_ok t fl /\ main_span (t_type t) fl (t_off t) (t_end t).

(** A comment token: its source is one comment and its text the trimmed source, or it
    is a run of comments on one line.  The text of a run is the source, cut off at the
    length of the trimmed last comment: see C09. *)
Definition trimmed (b : bytes) : bytes := match trim b with Some b' => b' | None => b end.
Definition single (t : tok) : Prop :=
  comment_text (t_off t) (t_end t) /\ text_bytes inp (t_str t) = trimmed (src t).
Definition merged (t : tok) : Prop :=
  exists n, comment_run (t_off t) n /\ n <= t_end t /\
    comment_text n (t_end t) /\ count_occ_b NL (slice inp (t_off t) n) = 0 /\
    text_bytes inp (t_str t) = slice inp (t_off t) (n + length (trimmed (slice inp n (t_end t)))).
Definition comment_ok (t : tok) : Prop :=
  t_type t = T_COMMENT /\ pos_ok t /\ t_off t < t_end t /\ (single t \/ merged t).

Definition cpp_ok (t : tok) : Prop :=
  pos_ok t /\ t_off t < t_end t /\ flags_ok t F_CPP /\ cpp_text (t_type t) (t_off t) (t_end t) /\
  (t_type t = T_CPP_DEFINE /\ align (src t) = Some (text_bytes inp (t_str t)) \/
   (t_type t = T_CPP_DEFINE -> align (src t) = None) /\ verbatim t).

Definition prefix_ok (t : tok) : Prop := comment_ok t \/ cpp_ok t.

Definition space_ok (t : tok) : Prop :=
  t_type t = T_SPACE /\ pos_ok t /\ t_off t < t_end t /\
  (Forall sp (src t) /\ verbatim t \/
   Forall lw (src t) /\ 1 <= count_occ_b NL (src t) /\ text_bytes inp (t_str t) = [NL]).
Definition suffix_ok (t : tok) : Prop := comment_ok t \/ space_ok t.

(** No comment and no directive starts at [o]. *)
Definition not_prefix (o : nat) : Prop :=
  ~ occurs (s2b "//") o /\ ~ occurs (s2b "/*") o /\ nth_error inp o <> Some "#"%char.

Definition token_ok (k : token) : Prop :=
  Forall prefix_ok (k_pre k) /\ main_ok (k_tok k) /\ not_prefix (t_off (k_tok k)) /\
  Forall suffix_ok (k_suf k).

(** ** Tiling *)
(** The spans of the tokens in order cover [a, b) up to blanks. *)
Inductive tiles : nat -> list tok -> nat -> Prop :=
| tiles_nil : forall a b, a <= b -> Forall bl (slice inp a b) -> tiles a [] b
| tiles_cons : forall a t ts b, a <= t_off t -> Forall bl (slice inp a (t_off t)) ->
    t_off t <= t_end t -> tiles (t_end t) ts b -> tiles a (t :: ts) b.

Definition token_toks (k : token) : list tok := k_pre k ++ k_tok k :: k_suf k.
Definition all_toks (l : list token) : list tok := flat_map token_toks l.
End Spec.
