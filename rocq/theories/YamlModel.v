(** Reading the configuration file .clang-format (style.c).

    The bytes are read with the primitives of lexer.c (LexModel).  Not modelled: error
    messages (they are only printed when tracing), style_dump, style_include_priority. *)
From Coq Require Import ZArith.
From Verif Require Export Base.
From Verif Require Import StrModel UtilModel TokenModel LexModel.

(** style.c:45-59 and style.h:9-108: a keyword is given by its name. *)
Inductive ytype := Kw (s : string) | DocumentBegin | DocumentEnd | Colon | Sequence | YString | Integer | Unknown | YEof.
Definition ytype_eqb (a b : ytype) : bool :=
  match a, b with
  | Kw s, Kw t => String.eqb s t
  | DocumentBegin, DocumentBegin | DocumentEnd, DocumentEnd | Colon, Colon | Sequence, Sequence
  | YString, YString | Integer, Integer | Unknown, Unknown | YEof, YEof => true
  | _, _ => false
  end.

(** so_parse *)
Inductive pfun := PEnum | PBool | PInteger | PNested | PAlignOperands | PBasedOnStyle | PColumnLimit | PIncludeCategories | PIncludeGuards | PPriority | PRegex.
(** style.c:85-93 struct style_option *)
Record sopt := SOpt { so_scope : option string; so_key : string; so_type : ytype; so_parse : option pfun; so_val : list string }.

Local Open Scope string_scope.
(** style.c:159-309, in order. *)
Definition topopt (k : string) (f : pfun) (v : list string) : sopt := SOpt None k (Kw k) (Some f) v.
Definition nested (s k : string) (f : pfun) (v : list string) : sopt := SOpt (Some s) k (Kw k) (Some f) v.
Definition enumv (k : string) : sopt := SOpt None k (Kw k) None [].
Definition prim (t : ytype) (k : string) : sopt := SOpt None k t None [].
Definition sopts : list sopt :=
  [ topopt "AlignAfterOpenBracket" PEnum ["Align"; "DontAlign"; "AlwaysBreak"; "BlockIndent"];
    topopt "AlignEscapedNewlines" PEnum ["DontAlign"; "Left"; "Right"];
    topopt "AlignOperands" PAlignOperands ["Align"; "DontAlign"; "AlignAfterOperator"; "True"; "False"];
    topopt "AlwaysBreakAfterReturnType" PEnum ["None"; "All"; "TopLevel"; "AllDefinitions"; "TopLevelDefinitions"];
    topopt "BitFieldColonSpacing" PEnum ["Both"; "None"; "Before"; "After"];
    topopt "BasedOnStyle" PBasedOnStyle ["LLVM"; "Google"; "Chromium"; "Mozilla"; "WebKit"; "Microsoft"; "GNU"; "InheritParentConfig"; "OpenBSD"];
    topopt "BraceWrapping" PNested [];
    nested "BraceWrapping" "AfterCaseLabel" PBool [];
    nested "BraceWrapping" "AfterClass" PBool [];
    nested "BraceWrapping" "AfterControlStatement" PEnum ["Never"; "MultiLine"; "Always"; "True"; "False"];
    nested "BraceWrapping" "AfterEnum" PBool [];
    nested "BraceWrapping" "AfterExternBlock" PBool [];
    nested "BraceWrapping" "AfterFunction" PBool [];
    nested "BraceWrapping" "AfterNamespace" PBool [];
    nested "BraceWrapping" "AfterObjCDeclaration" PBool [];
    nested "BraceWrapping" "AfterStruct" PBool [];
    nested "BraceWrapping" "AfterUnion" PBool [];
    nested "BraceWrapping" "BeforeCatch" PBool [];
    nested "BraceWrapping" "BeforeElse" PBool [];
    nested "BraceWrapping" "BeforeLambdaBody" PBool [];
    nested "BraceWrapping" "BeforeWhile" PBool [];
    nested "BraceWrapping" "IndentBraces" PBool [];
    nested "BraceWrapping" "SplitEmptyFunction" PBool [];
    nested "BraceWrapping" "SplitEmptyNamespace" PBool [];
    nested "BraceWrapping" "SplitEmptyRecord" PBool [];
    topopt "BreakBeforeBinaryOperators" PEnum ["None"; "NonAssignment"; "All"];
    topopt "BreakBeforeBraces" PEnum ["Attach"; "Linux"; "Mozilla"; "Stroustrup"; "Allman"; "Whitesmiths"; "GNU"; "WebKit"; "Custom"];
    topopt "BreakBeforeTernaryOperators" PBool [];
    topopt "ColumnLimit" PColumnLimit [];
    topopt "ContinuationIndentWidth" PInteger [];
    topopt "IncludeBlocks" PEnum ["Merge"; "Preserve"; "Regroup"];
    topopt "IncludeCategories" PIncludeCategories [];
    nested "IncludeCategories" "CaseSensitive" PBool [];
    nested "IncludeCategories" "Priority" PPriority [];
    nested "IncludeCategories" "Regex" PRegex [];
    nested "IncludeCategories" "SortPriority" PPriority [];
    topopt "IncludeGuards" PIncludeGuards [];
    topopt "IndentWidth" PInteger [];
    topopt "Language" PEnum ["Cpp"; "CSharp"; "Java"; "JavaScript"; "Json"; "ObjC"; "Proto"; "TableGen"; "TextProto"; "Verilog"];
    topopt "SortIncludes" PEnum ["Never"; "CaseSensitive"; "CaseInsensitive"];
    topopt "UseTab" PEnum ["Never"; "ForIndentation"; "ForContinuationAndIndentation"; "AlignWithSpaces"; "Always"] ] ++
  map enumv ["After"; "Align"; "AlignAfterOperator"; "AlignWithSpaces"; "All"; "AllDefinitions"; "Allman"; "Always"; "AlwaysBreak"; "Attach"; "Before"; "BlockIndent"; "Both";
    "CSharp"; "Chromium"; "Cpp"; "Custom"; "DontAlign"; "ForContinuationAndIndentation"; "ForIndentation"; "GNU"; "Google"; "InheritParentConfig"; "Java"; "JavaScript"; "Json"; "LLVM"; "Left"; "Linux";
    "Merge"; "Microsoft"; "Mozilla"; "MultiLine"; "Never"; "NonAssignment"; "None"; "ObjC"; "OpenBSD"; "Preserve"; "Proto"; "Regroup"; "Right"; "Stroustrup"; "TableGen"; "TextProto"; "TopLevel";
    "TopLevelDefinitions"; "Verilog"; "WebKit"; "Whitesmiths"] ++
  [ prim Colon ":"; prim DocumentBegin "---"; prim DocumentEnd "..."; prim (Kw "False") "false"; prim Integer "Integer"; prim Sequence "-"; prim (Kw "True") "true" ].
Local Close Scope string_scope.

(** style.c:957-973 yaml_find_keyword.  The table is split by first byte, in order; a name has at
    least one byte. *)
Definition find_sopt (s : bytes) : option sopt := find (fun o => beq (s2b (so_key o)) s) sopts.

(** A token with its private part (style.c:95-101); [y_so] is set for options only
    (style.c:949-950), [y_int] is 0 but for integers. *)
Record ytok := YTok { y_type : ytype; y_so : option sopt; y_int : Z; y_str : bytes }.

(** KS_i32_mul_overflow and KS_i32_add_overflow (libks/arithmetic.h): whether they overflow
    and what is stored then, which depends on the compiler. *)
Record arith := Arith { a_mul : Z -> Z -> bool * Z; a_add : Z -> Z -> bool * Z }.

Definition digit (c : byte) : Z := Z.of_nat (nat_of_ascii c - 48).

Section Yaml.
Variable ar : arith.
Variable inp : bytes.
Notation getc := (getc inp).
Notation ungetc := (ungetc inp).
Notation slice_from := (fun lx st => slice inp (s_off st) (off lx)).

(** style.c:874-883: the digits; [None] if the input ended twice. *)
Fixpoint int_loop (fuel : nat) (lx : lexer) (ch : byte) (n : Z) (ovf : bool) : option (Z * bool) * lexer :=
  match fuel with
  | 0 => (None, bad lx)
  | S f =>
    if isdigit ch then
      let '(o1, n1) := a_mul ar n 10 in
      let '(o, n2) := if o1 then (true, n1) else a_add ar n1 (digit ch) in
      match getc lx with
      | (None, lx1) => (None, lx1)
      | (Some ch1, lx1) => int_loop f lx1 ch1 n2 (ovf || o)
      end
    else (Some (n, ovf), lx)
  end.
(** style.c:838-897 yaml_read_integer: the token and whether it was reported as too large. *)
Definition read_integer (lx : lexer) : option (ytok * bool) * lexer :=
  let st := l_st lx in
  match getc lx with
  | (None, lx) => (None, lx)
  | (Some ch0, lx) =>
    match (if ch0 =c "'"%char then match getc lx with (None, lx) => (None, lx) | (Some c, lx) => (Some (c, true), lx) end else (Some (ch0, false), lx)) with
    | (None, lx) => (None, lx)
    | (Some (ch, str), lx) =>
      let '(peek, sign, ch, lx) :=
        if isdigit ch then (true, 1%Z, ch, lx)
        else if ch =c "-"%char then
          match getc lx with
          | (None, lx) => (false, 1%Z, ch, lx)
          | (Some c, lx) => if isdigit c then (true, (-1)%Z, c, lx) else (false, (-1)%Z, c, ungetc lx)
          end
        else (false, 1%Z, ch, lx) in
      if negb peek then (None, let lx := ungetc lx in if str then ungetc lx else lx)
      else
        match int_loop (FUEL inp) lx ch 0 false with
        | (None, lx) => (None, lx)
        | (Some (n, ovf), lx) =>
            let lx := if str then lx else ungetc lx in
            let '(o, v) := a_mul ar n sign in
            (Some (YTok Integer None v (slice_from lx st), ovf || o), lx)
        end
    end
  end.

(** style.c:933-955 yaml_keyword *)
Definition yaml_keyword (lx : lexer) (st : lstate) : ytok :=
  match buffer_slice inp lx st with
  | None => YTok Unknown None 0 (slice_from lx st)
  | Some s => match find_sopt s with
              | None => YTok Unknown None 0 s
              | Some o => YTok (so_type o) (match so_parse o with None => None | Some _ => Some o end) 0 s
              end
  end.
(** style.c:779-784: the rest of a comment; [false] at the end of the input. *)
Fixpoint comment_loop (fuel : nat) (lx : lexer) : bool * lexer :=
  match fuel with
  | 0 => (false, bad lx)
  | S f => match getc lx with
           | (None, lx) => (false, lx)
           | (Some c, lx) => if c =c NL then (true, lx) else comment_loop f lx
           end
  end.
(** style.c:789-793: the rest of a word. *)
Fixpoint word_loop (fuel : nat) (lx : lexer) : lexer :=
  match fuel with
  | 0 => bad lx
  | S f => match getc lx with
           | (None, lx) => lx
           | (Some c, lx) => if negb (isspace c) && negb (c =c ":"%char) then word_loop f lx else lx
           end
  end.
(** style.c:800-804: the same byte again; [false] at the end of the input. *)
Fixpoint same_loop (fuel : nat) (needle : byte) (lx : lexer) : bool * lexer :=
  match fuel with
  | 0 => (false, bad lx)
  | S f => match getc lx with
           | (None, lx) => (false, lx)
           | (Some c, lx) => if c =c needle then same_loop f needle lx else (true, lx)
           end
  end.
(** style.c:810-815: up to the next quote; [false] at the end of the input. *)
Fixpoint str_loop (fuel : nat) (lx : lexer) : bool * lexer :=
  match fuel with
  | 0 => (false, bad lx)
  | S f => match getc lx with
           | (None, lx) => (false, lx)
           | (Some c, lx) => if c =c "'"%char then (true, lx) else str_loop f lx
           end
  end.
Definition eof_tok : ytok := YTok YEof None 0 [].

(** style.c:760-836 yaml_read, no value is NULL; the fuel is for comments. *)
Fixpoint yaml_read (fuel : nat) (lx : lexer) : option ytok * lexer :=
  match fuel with
  | 0 => (None, bad lx)
  | S f =>
    let '(lx, _) := eat_lines_and_spaces inp lx (l_st lx) in
    match read_integer lx with
    | (Some (tk, _), lx) => (Some tk, lx)
    | (None, lx) =>
      let st := l_st lx in
      match getc lx with
      | (None, lx) => (Some eof_tok, lx)
      | (Some ch, lx) =>
        if ch =c "#"%char then
          match comment_loop (FUEL inp) lx with
          | (false, lx) => (Some eof_tok, lx)
          | (true, lx) => yaml_read f lx
          end
        else if isalpha ch || (ch =c "_"%char) then
          let lx := ungetc (word_loop (FUEL inp) lx) in (Some (yaml_keyword lx st), lx)
        else if (ch =c "-"%char) || (ch =c "."%char) || (ch =c ":"%char) then
          match same_loop (FUEL inp) ch lx with
          | (false, lx) => (Some eof_tok, lx)
          | (true, lx) => let lx := ungetc lx in (Some (yaml_keyword lx st), lx)
          end
        else if ch =c "'"%char then
          let st := l_st lx in
          match str_loop (FUEL inp) lx with
          | (false, lx) => (Some eof_tok, lx)
          | (true, lx) =>
              let lx := ungetc lx in
              let tk := yaml_keyword lx st in
              let tk := match y_type tk with Unknown => YTok YString None 0 (y_str tk) | _ => tk end in
              let '(_, lx) := getc lx in
              (Some tk, lx)
          end
        else (None, lx)
      end
    end
  end.

(** lexer.c:77-144 lexer_tokenize with these callbacks: no value is NULL. *)
Fixpoint yaml_tokens (fuel : nat) (lx : lexer) : option (list ytok) * lexer :=
  match fuel with
  | 0 => (None, bad lx)
  | S f =>
    match yaml_read (FUEL inp) lx with
    | (None, lx) => (None, lx)
    | (Some tk, lx) =>
        if ytype_eqb (y_type tk) YEof then (Some [tk], lx)
        else match yaml_tokens f lx with
             | (None, lx) => (None, lx)
             | (Some l, lx) => (Some (tk :: l), lx)
             end
    end
  end.
End Yaml.
Definition yaml_tokenize (ar : arith) (inp : bytes) : option (list ytok) * lexer := yaml_tokens ar inp (FUEL inp) (lexer_init).

(** ** The options *)
(** An option holds an integer or a keyword; in C both are unsigned int. *)
Inductive sval := VInt (n : Z) | VKw (s : string).
(** style.c:79-83 struct include_category; [ic_ok]: the pattern compiles. *)
Record category := Category { ic_pattern : bytes; ic_ok : bool; ic_group : Z; ic_sort : Z }.
(** style.c:61-77 struct style: the values, which options were set, the scope and the categories
    of includes.  The depth is given by the function [based] below. *)
Record style := Style { st_val : string -> sval; st_set : string -> bool; st_scope : option string; st_cats : list category }.
(** style.c:548-554 style_set *)
Definition style_set (k : string) (v : sval) (st : style) : style :=
  Style (fun o => if String.eqb o k then v else st_val st o) (fun o => String.eqb o k || st_set st o) (st_scope st) (st_cats st).
Definition set_scope (s : option string) (st : style) : style := Style (st_val st) (st_set st) s (st_cats st).
Definition set_cats (c : list category) (st : style) : style := Style (st_val st) (st_set st) (st_scope st) c.

Local Open Scope string_scope.
(** style.c:519-546 style_defaults: all other options are 0. *)
Definition defaults : list (string * sval) :=
  [("AlignAfterOpenBracket", VKw "DontAlign"); ("AlignEscapedNewlines", VKw "Right"); ("AlignOperands", VKw "DontAlign");
   ("AlwaysBreakAfterReturnType", VKw "AllDefinitions"); ("BitFieldColonSpacing", VKw "None"); ("BreakBeforeBinaryOperators", VKw "None");
   ("BreakBeforeBraces", VKw "Linux"); ("BreakBeforeTernaryOperators", VKw "False"); ("ColumnLimit", VInt 80); ("ContinuationIndentWidth", VInt 4);
   ("IncludeBlocks", VKw "Preserve"); ("IndentWidth", VInt 8); ("SortIncludes", VKw "Never"); ("UseTab", VKw "Always")].
Definition default_val (k : string) : sval := match find (fun d => String.eqb (fst d) k) defaults with Some d => snd d | None => VInt 0 end.
Definition style_defaults : style := Style default_val (fun _ => false) None [].

(** The lexer while parsing: the tokens left.  The last of them is the end of file, which is never
    taken off (lexer.c:411-448).  lexer_back is only used for the token just taken. *)
Record pstate := PState { p_rest : list ytok; p_style : style }.
Definition with_style (st : style) (p : pstate) : pstate := PState (p_rest p) st.
Definition pop (p : pstate) : ytok * pstate :=
  match p_rest p with
  | [] => (eof_tok, p)
  | t :: r => (t, PState (if ytype_eqb (y_type t) YEof then p_rest p else r) (p_style p))
  end.
(** lexer.c:623-640 lexer_if *)
Definition lexer_if (t : ytype) (p : pstate) : option (ytok * pstate) :=
  let '(tk, p') := pop p in if ytype_eqb (y_type tk) t then Some (tk, p') else None.
Definition peek_if (t : ytype) (p : pstate) : bool := match lexer_if t p with Some _ => true | None => false end.

(** The return values, style.c:40-43. *)
Inductive perr := NONE | GOOD | SKIP | FAIL.
(** The integer read as unsigned (style.c:97-100). *)
Definition u32 (n : Z) : Z := (n mod 2 ^ 32)%Z.

(** style.c:975-993 parse_bool, 1000-1022 parse_enum *)
Fixpoint if_any (l : list string) (p : pstate) : option (ytok * pstate) :=
  match l with
  | [] => None
  | v :: l => match lexer_if (Kw v) p with Some r => Some r | None => if_any l p end
  end.
Definition kw_val (t : ytok) : sval := match y_type t with Kw s => VKw s | _ => VInt 0 end.
Definition parse_values (vals : list string) (key : string) (p : pstate) : perr * pstate :=
  match lexer_if (Kw key) p with
  | None => (NONE, p)
  | Some (_, p) =>
    match lexer_if Colon p with
    | None => (FAIL, p)
    | Some (_, p) =>
      match if_any vals p with
      | Some (v, p) => (GOOD, with_style (style_set key (kw_val v) (p_style p)) p)
      | None => (SKIP, snd (pop p))
      end
    end
  end.
Definition parse_bool := parse_values ["True"; "False"].
Definition parse_enum (so : sopt) := parse_values (so_val so) (so_key so).
(** style.c:1035-1051 parse_integer_impl *)
Definition parse_integer_impl (key : string) (p : pstate) : perr * Z * pstate :=
  match lexer_if (Kw key) p with
  | None => (NONE, 0%Z, p)
  | Some (_, p) =>
    match lexer_if Colon p with
    | None => (FAIL, 0%Z, p)
    | Some (_, p) =>
      match lexer_if Integer p with
      | Some (v, p) => (GOOD, y_int v, p)
      | None => (SKIP, 0%Z, snd (pop p))
      end
    end
  end.
(** style.c:1021-1033 parse_integer *)
Definition parse_integer (key : string) (p : pstate) : perr * pstate :=
  match parse_integer_impl key p with
  | (GOOD, n, p) => (GOOD, with_style (style_set key (VInt (u32 n)) (p_style p)) p)
  | (e, _, p) => (e, p)
  end.
(** style.c:1053-1071 parse_string *)
Definition parse_string (key : string) (p : pstate) : perr * option ytok * pstate :=
  match lexer_if (Kw key) p with
  | None => (NONE, None, p)
  | Some (_, p) =>
    match lexer_if Colon p with
    | None => (FAIL, None, p)
    | Some (_, p) =>
      match lexer_if YString p with
      | Some (v, p) => (GOOD, Some v, p)
      | None => (SKIP, None, snd (pop p))
      end
    end
  end.

(** External: what clang-format prints for a style (style.c:1107-1156), no value if it
    fails; whether a pattern compiles (regcomp(3)). *)
Record env := Env { e_dump : string -> option bytes; e_regcomp : bytes -> bool; e_arith : arith }.

(** style.c:589-613 yaml_document_language, as the type of the value; "None" if there is none.
    When no colon follows, the loop takes the next token. *)
Fixpoint doc_language (l : list ytok) : ytype :=
  match l with
  | [] => Kw "None"
  | t :: r =>
      if ytype_eqb (y_type t) YEof then Kw "None"
      else if ytype_eqb (y_type t) DocumentBegin then Kw "None"
      else if ytype_eqb (y_type t) (Kw "Language") then
        match r with
        | [] => Kw "None"
        | c :: r' => if ytype_eqb (y_type c) Colon then match r' with v :: _ => y_type v | [] => Kw "None" end
                     else doc_language r'
        end
      else doc_language r
  end.
(** style.c:615-625 skip_document *)
Fixpoint skip_document (l : list ytok) : list ytok :=
  match l with
  | [] => []
  | t :: r => if ytype_eqb (y_type t) YEof then l else if ytype_eqb (y_type t) DocumentBegin then r else skip_document r
  end.
(** style.c:683-687: sequences of an unknown option. *)
Fixpoint skip_sequences (fuel : nat) (p : pstate) : pstate :=
  match fuel with
  | 0 => p
  | S f => match lexer_if Sequence p with None => p | Some (_, p) => skip_sequences f (snd (pop p)) end
  end.

(** style.c:1089-1105 parse_AlignOperands *)
Definition parse_AlignOperands (so : sopt) (p : pstate) : perr * pstate :=
  match parse_enum so p with
  | (GOOD, p) =>
      (GOOD, match st_val (p_style p) "AlignOperands" with
             | VKw "True" => with_style (style_set "AlignOperands" (VKw "Align") (p_style p)) p
             | VKw "False" => with_style (style_set "AlignOperands" (VKw "DontAlign") (p_style p)) p
             | _ => p
             end)
  | r => r
  end.
(** style.c:1195-1205 parse_ColumnLimit *)
Definition parse_ColumnLimit (so : sopt) (p : pstate) : perr * pstate :=
  match parse_integer (so_key so) p with
  | (GOOD, p) =>
      (GOOD, match st_val (p_style p) "ColumnLimit" with
             | VInt 0 => with_style (style_set "ColumnLimit" (VInt (2 ^ 32 - 1)) (p_style p)) p
             | _ => p
             end)
  | r => r
  end.
(** style.c:1231-1249 parse_IncludeGuards *)
Definition parse_IncludeGuards (so : sopt) (p : pstate) : perr * pstate :=
  match parse_integer_impl (so_key so) p with
  | (GOOD, n, p) =>
      if (n <=? 0)%Z then (FAIL, with_style (style_set "IncludeGuards" (VInt 0) (p_style p)) p)
      else (GOOD, with_style (style_set (so_key so) (VInt (u32 n)) (p_style p)) p)
  | (e, _, p) => (e, p)
  end.
(** Change the last category; [None]: there is none, a NULL pointer dereference in parse_Regex. *)
Definition last_cat (f : category -> category) (st : style) : option style :=
  match rev (st_cats st) with
  | [] => None
  | c :: r => Some (set_cats (rev r ++ [f c]) st)
  end.
(** style.c:1251-1276 parse_Priority *)
Definition parse_Priority (so : sopt) (p : pstate) : perr * pstate :=
  match parse_integer_impl (so_key so) p with
  | (GOOD, n, p) =>
      match last_cat (fun c => Category (ic_pattern c) (ic_ok c) (if String.eqb (so_key so) "Priority" then n else ic_group c) n) (p_style p) with
      | None => (FAIL, p)
      | Some st => (GOOD, with_style st p)
      end
  | (e, _, p) => (e, p)
  end.
(** style.c:1278-1313 parse_Regex, no value for undefined behaviour.  The pattern ends at the first
    NUL as regcomp(3) takes a string. *)
Definition parse_Regex (e : env) (so : sopt) (p : pstate) : option (perr * pstate) :=
  match parse_string (so_key so) p with
  | (GOOD, Some v, p) =>
      let ok := e_regcomp e (y_str v) in
      match last_cat (fun c => Category (y_str v) ok (ic_group c) (ic_sort c)) (p_style p) with
      | None => None
      | Some st => Some (if ok then GOOD else FAIL, with_style st p)
      end
  | (GOOD, None, p) => Some (FAIL, p)
  | (r, _, p) => Some (r, p)
  end.
(** style.c:1158-1190 parse_BasedOnStyle: [based] parses another configuration, no function if one
    is already being parsed (st->depth > 0). *)
Definition parse_BasedOnStyle (e : env) (based : option (bytes -> style -> option (bool * style))) (so : sopt) (p : pstate) : option (perr * pstate) :=
  match parse_enum so p with
  | (GOOD, p) =>
      match based with
      | None => Some (SKIP, p)
      | Some f =>
        match st_val (p_style p) "BasedOnStyle" with
        | VKw s =>
            if String.eqb s "OpenBSD" || String.eqb s "InheritParentConfig" then Some (GOOD, p)
            else match e_dump e s with
                 | None => Some (SKIP, p)
                 | Some bf => match f bf (p_style p) with
                              | None => None
                              | Some (err, st) => Some (if err then FAIL else GOOD, with_style st p)
                              end
                 end
        | VInt _ => Some (GOOD, p)
        end
      end
  | r => Some r
  end.

(** style.c:1220-1224, the loop: [doc] parses what follows each sequence. *)
Fixpoint cats_loop (fuel : nat) (doc : pstate -> option (perr * pstate)) (p : pstate) : option pstate :=
  match fuel with
  | 0 => None
  | S f => match lexer_if Sequence p with
           | None => Some p
           | Some (_, p) =>
               match doc (with_style (set_cats (st_cats (p_style p) ++ [Category [] true 0 0]) (p_style p)) p) with
               | None => None
               | Some (_, p) => cats_loop f doc p
               end
           end
  end.
(** After the key and the colon of an option with options of its own. *)
Definition scoped (so : sopt) (body : pstate -> option pstate) (p : pstate) : option (perr * pstate) :=
  match lexer_if (so_type so) p with
  | None => Some (NONE, p)
  | Some (_, p) =>
    match lexer_if Colon p with
    | None => Some (FAIL, p)
    | Some (_, p) =>
        let scope := st_scope (p_style p) in
        match body (with_style (set_scope (Some (so_key so)) (p_style p)) p) with
        | None => None
        | Some p => Some (GOOD, with_style (set_scope scope (p_style p)) p)
        end
    end
  end.
(** A call of so_parse; [doc] is style_parse_yaml_documents with nested set. *)
Definition run_parse (e : env) (based : option (bytes -> style -> option (bool * style))) (fuel : nat) (doc : pstate -> option (perr * pstate))
    (f : pfun) (so : sopt) (p : pstate) : option (perr * pstate) :=
  match f with
  | PEnum => Some (parse_enum so p)
  | PBool => Some (parse_bool (so_key so) p)
  | PInteger => Some (parse_integer (so_key so) p)
  | PAlignOperands => Some (parse_AlignOperands so p)
  | PColumnLimit => Some (parse_ColumnLimit so p)
  | PIncludeGuards => Some (parse_IncludeGuards so p)
  | PPriority => Some (parse_Priority so p)
  | PRegex => parse_Regex e so p
  | PBasedOnStyle => parse_BasedOnStyle e based so p
  (* style.c:1073-1087 parse_nested *)
  | PNested => scoped so (fun p => option_map snd (doc p)) p
  (* style.c:1207-1229 parse_IncludeCategories *)
  | PIncludeCategories =>
      match scoped so (cats_loop fuel doc) p with
      | Some (GOOD, p) => Some (GOOD, with_style (style_set (so_key so) (VKw "None") (p_style p)) p)
      | r => r
      end
  end.
Definition scope_eqb (a b : option string) : bool :=
  match a, b with None, None => true | Some a, Some b => String.eqb a b | _, _ => false end.
(** style.c:677-693: an unknown option. *)
Definition skip_unknown (p : pstate) : pstate :=
  let p := snd (pop p) in
  let p := match lexer_if Colon p with Some (_, p) => p | None => p end in
  if peek_if Sequence p then skip_sequences (length (p_rest p)) p else snd (pop p).
(** style.c:627-697 style_parse_yaml_documents: no value if the fuel runs out or the behaviour is
    undefined. *)
Fixpoint documents (e : env) (based : option (bytes -> style -> option (bool * style))) (fuel : nat) (is_nested : bool) (p : pstate) : option (perr * pstate) :=
  match fuel with
  | 0 => None
  | S f =>
    if peek_if YEof p then Some (NONE, p)
    else if negb is_nested && negb (ytype_eqb (doc_language (p_rest p)) (Kw "None") || ytype_eqb (doc_language (p_rest p)) (Kw "Cpp"))
    then documents e based f is_nested (PState (skip_document (p_rest p)) (p_style p))
    else if peek_if Sequence p then Some (NONE, p)
    else match lexer_if DocumentBegin p with
    | Some (_, p) => documents e based f is_nested p
    | None =>
      match lexer_if DocumentEnd p with
      | Some (_, p) => documents e based f is_nested p
      | None =>
        match y_so (fst (pop p)) with
        | None => documents e based f is_nested (skip_unknown p)
        | Some so =>
          if negb (scope_eqb (so_scope so) (st_scope (p_style p))) then Some (NONE, p)
          else match so_parse so with
          | None => None (* y_so is only set for options with so_parse *)
          | Some fn =>
            match run_parse e based f (documents e based f true) fn so p with
            | None => None
            | Some (GOOD, p) | Some (SKIP, p) => documents e based f is_nested p
            | Some (FAIL, p) => Some (FAIL, p)
            | Some (NONE, p) => documents e based f is_nested (skip_unknown p)
            end
          end
        end
      end
    end
  end.
(** style.c:556-587 style_parse_yaml: whether it failed. *)
Definition parse_yaml (e : env) (based : option (bytes -> style -> option (bool * style))) (bf : bytes) (st : style) : option (bool * style) :=
  match fst (yaml_tokenize (e_arith e) bf) with
  | None => Some (true, st)
  | Some l => match documents e based (S (length l)) false (PState l st) with
              | None => None
              | Some (r, p) => Some (match r with NONE => false | _ => true end, p_style p)
              end
  end.
(** style.c:392-418 style_parse_buffer *)
Definition style_parse_buffer (e : env) (bf : option bytes) : option style :=
  match bf with
  | None => Some (style_set "BasedOnStyle" (VKw "OpenBSD") style_defaults)
  | Some bf => option_map snd (parse_yaml e (Some (parse_yaml e None)) bf style_defaults)
  end.
