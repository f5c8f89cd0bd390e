(** Token types, flags and keyword tables of token.h (generated from the macro
    lists FOR_TOKEN_TYPES, FOR_TOKEN_ALIASES, FOR_TOKEN_CPP and
    FOR_TOKEN_SENTINELS) and the token record. *)
From Verif Require Import Base.

(** token.h:7-102,141-150,152-159 and LEXER_EOF of lexer.h:5. *)
Inductive ttype : Set :=
| T_ASSEMBLY
| T_ATTRIBUTE
| T_BREAK
| T_CASE
| T_CHAR
| T_CONST
| T_CONTINUE
| T_DEFAULT
| T_DO
| T_DOUBLE
| T_ELSE
| T_ENUM
| T_EXTERN
| T_FLOAT
| T_FOR
| T_GOTO
| T_IF
| T_INLINE
| T_INT
| T_LONG
| T_REGISTER
| T_RESTRICT
| T_RETURN
| T_SHORT
| T_SIGNED
| T_SIZEOF
| T_STATIC
| T_STRUCT
| T_SWITCH
| T_TYPEDEF
| T_UNION
| T_UNSIGNED
| T_VOID
| T_VOLATILE
| T_WHILE
| T_LSQUARE
| T_RSQUARE
| T_LPAREN
| T_RPAREN
| T_LBRACE
| T_RBRACE
| T_PERIOD
| T_ELLIPSIS
| T_AMP
| T_AMPAMP
| T_AMPEQUAL
| T_STAR
| T_STAREQUAL
| T_PLUS
| T_PLUSPLUS
| T_PLUSEQUAL
| T_MINUS
| T_ARROW
| T_MINUSMINUS
| T_MINUSEQUAL
| T_TILDE
| T_EXCLAIM
| T_EXCLAIMEQUAL
| T_SLASH
| T_SLASHEQUAL
| T_PERCENT
| T_PERCENTEQUAL
| T_LESS
| T_LESSLESS
| T_LESSEQUAL
| T_LESSLESSEQUAL
| T_GREATER
| T_GREATERGREATER
| T_GREATEREQUAL
| T_GREATERGREATEREQUAL
| T_CARET
| T_CARETEQUAL
| T_PIPE
| T_PIPEPIPE
| T_PIPEEQUAL
| T_QUESTION
| T_COLON
| T_SEMI
| T_EQUAL
| T_EQUALEQUAL
| T_COMMA
| T_BACKSLASH
| T_BOOL
| T_INT8
| T_INT16
| T_INT32
| T_INT64
| T_UINT8
| T_UINT16
| T_UINT32
| T_UINT64
| T_VA_LIST
| T_CPP_IF
| T_CPP_IFDEF
| T_CPP_IFNDEF
| T_CPP_ELSE
| T_CPP_ELIF
| T_CPP_ENDIF
| T_CPP_DEFINE
| T_CPP_INCLUDE
| T_COMMENT
| T_CPP
| T_IDENT
| T_LITERAL
| T_SPACE
| T_STRING
| T_NONE
| T_EOF.

Definition ttype_num (t : ttype) : N :=
  match t with
  | T_ASSEMBLY => 0
  | T_ATTRIBUTE => 1
  | T_BREAK => 2
  | T_CASE => 3
  | T_CHAR => 4
  | T_CONST => 5
  | T_CONTINUE => 6
  | T_DEFAULT => 7
  | T_DO => 8
  | T_DOUBLE => 9
  | T_ELSE => 10
  | T_ENUM => 11
  | T_EXTERN => 12
  | T_FLOAT => 13
  | T_FOR => 14
  | T_GOTO => 15
  | T_IF => 16
  | T_INLINE => 17
  | T_INT => 18
  | T_LONG => 19
  | T_REGISTER => 20
  | T_RESTRICT => 21
  | T_RETURN => 22
  | T_SHORT => 23
  | T_SIGNED => 24
  | T_SIZEOF => 25
  | T_STATIC => 26
  | T_STRUCT => 27
  | T_SWITCH => 28
  | T_TYPEDEF => 29
  | T_UNION => 30
  | T_UNSIGNED => 31
  | T_VOID => 32
  | T_VOLATILE => 33
  | T_WHILE => 34
  | T_LSQUARE => 35
  | T_RSQUARE => 36
  | T_LPAREN => 37
  | T_RPAREN => 38
  | T_LBRACE => 39
  | T_RBRACE => 40
  | T_PERIOD => 41
  | T_ELLIPSIS => 42
  | T_AMP => 43
  | T_AMPAMP => 44
  | T_AMPEQUAL => 45
  | T_STAR => 46
  | T_STAREQUAL => 47
  | T_PLUS => 48
  | T_PLUSPLUS => 49
  | T_PLUSEQUAL => 50
  | T_MINUS => 51
  | T_ARROW => 52
  | T_MINUSMINUS => 53
  | T_MINUSEQUAL => 54
  | T_TILDE => 55
  | T_EXCLAIM => 56
  | T_EXCLAIMEQUAL => 57
  | T_SLASH => 58
  | T_SLASHEQUAL => 59
  | T_PERCENT => 60
  | T_PERCENTEQUAL => 61
  | T_LESS => 62
  | T_LESSLESS => 63
  | T_LESSEQUAL => 64
  | T_LESSLESSEQUAL => 65
  | T_GREATER => 66
  | T_GREATERGREATER => 67
  | T_GREATEREQUAL => 68
  | T_GREATERGREATEREQUAL => 69
  | T_CARET => 70
  | T_CARETEQUAL => 71
  | T_PIPE => 72
  | T_PIPEPIPE => 73
  | T_PIPEEQUAL => 74
  | T_QUESTION => 75
  | T_COLON => 76
  | T_SEMI => 77
  | T_EQUAL => 78
  | T_EQUALEQUAL => 79
  | T_COMMA => 80
  | T_BACKSLASH => 81
  | T_BOOL => 82
  | T_INT8 => 83
  | T_INT16 => 84
  | T_INT32 => 85
  | T_INT64 => 86
  | T_UINT8 => 87
  | T_UINT16 => 88
  | T_UINT32 => 89
  | T_UINT64 => 90
  | T_VA_LIST => 91
  | T_CPP_IF => 92
  | T_CPP_IFDEF => 93
  | T_CPP_IFNDEF => 94
  | T_CPP_ELSE => 95
  | T_CPP_ELIF => 96
  | T_CPP_ENDIF => 97
  | T_CPP_DEFINE => 98
  | T_CPP_INCLUDE => 99
  | T_COMMENT => 100
  | T_CPP => 101
  | T_IDENT => 102
  | T_LITERAL => 103
  | T_SPACE => 104
  | T_STRING => 105
  | T_NONE => 106
  | T_EOF => 107
  end%N.

Definition ttype_of_num (n : N) : ttype :=
  match n with
  | 0 => T_ASSEMBLY
  | 1 => T_ATTRIBUTE
  | 2 => T_BREAK
  | 3 => T_CASE
  | 4 => T_CHAR
  | 5 => T_CONST
  | 6 => T_CONTINUE
  | 7 => T_DEFAULT
  | 8 => T_DO
  | 9 => T_DOUBLE
  | 10 => T_ELSE
  | 11 => T_ENUM
  | 12 => T_EXTERN
  | 13 => T_FLOAT
  | 14 => T_FOR
  | 15 => T_GOTO
  | 16 => T_IF
  | 17 => T_INLINE
  | 18 => T_INT
  | 19 => T_LONG
  | 20 => T_REGISTER
  | 21 => T_RESTRICT
  | 22 => T_RETURN
  | 23 => T_SHORT
  | 24 => T_SIGNED
  | 25 => T_SIZEOF
  | 26 => T_STATIC
  | 27 => T_STRUCT
  | 28 => T_SWITCH
  | 29 => T_TYPEDEF
  | 30 => T_UNION
  | 31 => T_UNSIGNED
  | 32 => T_VOID
  | 33 => T_VOLATILE
  | 34 => T_WHILE
  | 35 => T_LSQUARE
  | 36 => T_RSQUARE
  | 37 => T_LPAREN
  | 38 => T_RPAREN
  | 39 => T_LBRACE
  | 40 => T_RBRACE
  | 41 => T_PERIOD
  | 42 => T_ELLIPSIS
  | 43 => T_AMP
  | 44 => T_AMPAMP
  | 45 => T_AMPEQUAL
  | 46 => T_STAR
  | 47 => T_STAREQUAL
  | 48 => T_PLUS
  | 49 => T_PLUSPLUS
  | 50 => T_PLUSEQUAL
  | 51 => T_MINUS
  | 52 => T_ARROW
  | 53 => T_MINUSMINUS
  | 54 => T_MINUSEQUAL
  | 55 => T_TILDE
  | 56 => T_EXCLAIM
  | 57 => T_EXCLAIMEQUAL
  | 58 => T_SLASH
  | 59 => T_SLASHEQUAL
  | 60 => T_PERCENT
  | 61 => T_PERCENTEQUAL
  | 62 => T_LESS
  | 63 => T_LESSLESS
  | 64 => T_LESSEQUAL
  | 65 => T_LESSLESSEQUAL
  | 66 => T_GREATER
  | 67 => T_GREATERGREATER
  | 68 => T_GREATEREQUAL
  | 69 => T_GREATERGREATEREQUAL
  | 70 => T_CARET
  | 71 => T_CARETEQUAL
  | 72 => T_PIPE
  | 73 => T_PIPEPIPE
  | 74 => T_PIPEEQUAL
  | 75 => T_QUESTION
  | 76 => T_COLON
  | 77 => T_SEMI
  | 78 => T_EQUAL
  | 79 => T_EQUALEQUAL
  | 80 => T_COMMA
  | 81 => T_BACKSLASH
  | 82 => T_BOOL
  | 83 => T_INT8
  | 84 => T_INT16
  | 85 => T_INT32
  | 86 => T_INT64
  | 87 => T_UINT8
  | 88 => T_UINT16
  | 89 => T_UINT32
  | 90 => T_UINT64
  | 91 => T_VA_LIST
  | 92 => T_CPP_IF
  | 93 => T_CPP_IFDEF
  | 94 => T_CPP_IFNDEF
  | 95 => T_CPP_ELSE
  | 96 => T_CPP_ELIF
  | 97 => T_CPP_ENDIF
  | 98 => T_CPP_DEFINE
  | 99 => T_CPP_INCLUDE
  | 100 => T_COMMENT
  | 101 => T_CPP
  | 102 => T_IDENT
  | 103 => T_LITERAL
  | 104 => T_SPACE
  | 105 => T_STRING
  | 106 => T_NONE
  | 107 => T_EOF
  | _ => T_NONE
  end%N.

Lemma ttype_num_inv : forall t, ttype_of_num (ttype_num t) = t.
Proof. destruct t; reflexivity. Qed.

Definition ttype_eqb (a b : ttype) : bool := (ttype_num a =? ttype_num b)%N.

Lemma ttype_eqb_eq : forall a b, ttype_eqb a b = true <-> a = b.
Proof.
  intros; unfold ttype_eqb; rewrite N.eqb_eq; split; [|congruence].
  intros H. rewrite <- (ttype_num_inv a), <- (ttype_num_inv b), H. auto.
Qed.

Lemma ttype_eqb_neq : forall a b, ttype_eqb a b = false <-> a <> b.
Proof.
  intros. rewrite <- ttype_eqb_eq. destruct (ttype_eqb a b); split; congruence.
Qed.

Lemma ttype_eqb_refl : forall a, ttype_eqb a a = true.
Proof. intros; apply ttype_eqb_eq; auto. Qed.

Definition ttype_eq_dec (a b : ttype) : {a = b} + {a <> b}.
Proof.
  destruct (ttype_eqb a b) eqn:E; [left; apply ttype_eqb_eq; auto|right; apply ttype_eqb_neq; auto].
Defined.

(** token.h, TOKEN_FLAG_*. *)
Definition F_TYPE : N := 1%N.
Definition F_QUALIFIER : N := 2%N.
Definition F_STORAGE : N := 4%N.
Definition F_BRANCH : N := 8%N.
Definition F_ASSIGN : N := 16%N.
Definition F_AMBIGUOUS : N := 32%N.
Definition F_BINARY : N := 64%N.
Definition F_DISCARD : N := 128%N.
Definition F_COMMENT_C99 : N := 256%N.
Definition F_CPP : N := 512%N.
Definition F_OPTLINE : N := 1024%N.
Definition F_OPTSPACE : N := 2048%N.
Definition F_SPACE : N := 4096%N.
Definition F_DIFF : N := 8192%N.
Definition F_TYPE_FUNC : N := 16384%N.
Definition F_COMMENT_CLANG_FORMAT_OFF : N := 32768%N.
Definition F_COMMENT_CLANG_FORMAT_ON : N := 65536%N.

Definition has_flag (flags mask : N) : bool := negb (N.land flags mask =? 0)%N.

Record keyword : Set := mkKw { kw_type : ttype; kw_str : bytes; kw_flags : N }.
Definition KW (t : ttype) (s : string) (f : N) : keyword := mkKw t (s2b s) f.

(** token.h:7-102 FOR_TOKEN_TYPES. *)
Definition keywords : list keyword := [
  KW T_ASSEMBLY "asm" 0%N;
  KW T_ATTRIBUTE "__attribute__" 0%N;
  KW T_BREAK "break" 0%N;
  KW T_CASE "case" 0%N;
  KW T_CHAR "char" F_TYPE;
  KW T_CONST "const" F_QUALIFIER;
  KW T_CONTINUE "continue" 0%N;
  KW T_DEFAULT "default" 0%N;
  KW T_DO "do" 0%N;
  KW T_DOUBLE "double" F_TYPE;
  KW T_ELSE "else" 0%N;
  KW T_ENUM "enum" F_TYPE;
  KW T_EXTERN "extern" F_STORAGE;
  KW T_FLOAT "float" F_TYPE;
  KW T_FOR "for" 0%N;
  KW T_GOTO "goto" 0%N;
  KW T_IF "if" 0%N;
  KW T_INLINE "inline" F_STORAGE;
  KW T_INT "int" F_TYPE;
  KW T_LONG "long" F_TYPE;
  KW T_REGISTER "register" F_STORAGE;
  KW T_RESTRICT "restrict" F_QUALIFIER;
  KW T_RETURN "return" 0%N;
  KW T_SHORT "short" F_TYPE;
  KW T_SIGNED "signed" F_TYPE;
  KW T_SIZEOF "sizeof" 0%N;
  KW T_STATIC "static" F_STORAGE;
  KW T_STRUCT "struct" F_TYPE;
  KW T_SWITCH "switch" 0%N;
  KW T_TYPEDEF "typedef" F_TYPE;
  KW T_UNION "union" F_TYPE;
  KW T_UNSIGNED "unsigned" F_TYPE;
  KW T_VOID "void" F_TYPE;
  KW T_VOLATILE "volatile" F_QUALIFIER;
  KW T_WHILE "while" 0%N;
  KW T_LSQUARE "[" 0%N;
  KW T_RSQUARE "]" 0%N;
  KW T_LPAREN "(" 0%N;
  KW T_RPAREN ")" 0%N;
  KW T_LBRACE "{" 0%N;
  KW T_RBRACE "}" 0%N;
  KW T_PERIOD "." F_AMBIGUOUS;
  KW T_ELLIPSIS "..." F_TYPE;
  KW T_AMP "&" (N.lor F_AMBIGUOUS F_BINARY);
  KW T_AMPAMP "&&" F_BINARY;
  KW T_AMPEQUAL "&=" F_ASSIGN;
  KW T_STAR "*" (N.lor (N.lor F_AMBIGUOUS F_BINARY) F_SPACE);
  KW T_STAREQUAL "*=" F_ASSIGN;
  KW T_PLUS "+" (N.lor F_AMBIGUOUS F_BINARY);
  KW T_PLUSPLUS "++" 0%N;
  KW T_PLUSEQUAL "+=" F_ASSIGN;
  KW T_MINUS "-" (N.lor F_AMBIGUOUS F_BINARY);
  KW T_ARROW "->" 0%N;
  KW T_MINUSMINUS "--" 0%N;
  KW T_MINUSEQUAL "-=" F_ASSIGN;
  KW T_TILDE "~" 0%N;
  KW T_EXCLAIM "!" F_AMBIGUOUS;
  KW T_EXCLAIMEQUAL "!=" F_BINARY;
  KW T_SLASH "/" (N.lor (N.lor F_AMBIGUOUS F_BINARY) F_SPACE);
  KW T_SLASHEQUAL "/=" F_ASSIGN;
  KW T_PERCENT "%" (N.lor F_AMBIGUOUS F_BINARY);
  KW T_PERCENTEQUAL "%=" F_ASSIGN;
  KW T_LESS "<" (N.lor F_AMBIGUOUS F_BINARY);
  KW T_LESSLESS "<<" (N.lor F_AMBIGUOUS F_BINARY);
  KW T_LESSEQUAL "<=" F_BINARY;
  KW T_LESSLESSEQUAL "<<=" F_ASSIGN;
  KW T_GREATER ">" (N.lor F_AMBIGUOUS F_BINARY);
  KW T_GREATERGREATER ">>" (N.lor F_AMBIGUOUS F_BINARY);
  KW T_GREATEREQUAL ">=" F_BINARY;
  KW T_GREATERGREATEREQUAL ">>=" F_ASSIGN;
  KW T_CARET "^" F_AMBIGUOUS;
  KW T_CARETEQUAL "^=" F_ASSIGN;
  KW T_PIPE "|" (N.lor (N.lor F_AMBIGUOUS F_BINARY) F_SPACE);
  KW T_PIPEPIPE "||" F_BINARY;
  KW T_PIPEEQUAL "|=" F_ASSIGN;
  KW T_QUESTION "?" 0%N;
  KW T_COLON ":" 0%N;
  KW T_SEMI ";" 0%N;
  KW T_EQUAL "=" (N.lor F_AMBIGUOUS F_ASSIGN);
  KW T_EQUALEQUAL "==" F_BINARY;
  KW T_COMMA "," 0%N;
  KW T_BACKSLASH "\" F_DISCARD;
  KW T_BOOL "_Bool" F_TYPE;
  KW T_INT8 "int8_t" F_TYPE;
  KW T_INT16 "int16_t" F_TYPE;
  KW T_INT32 "int32_t" F_TYPE;
  KW T_INT64 "int64_t" F_TYPE;
  KW T_UINT8 "uint8_t" F_TYPE;
  KW T_UINT16 "uint16_t" F_TYPE;
  KW T_UINT32 "uint32_t" F_TYPE;
  KW T_UINT64 "uint64_t" F_TYPE;
  KW T_VA_LIST "va_list" F_TYPE
].

(** token.h:104-139 FOR_TOKEN_ALIASES; the flags are inherited from the keyword
    of the same type (clang.c:165-172). *)
Definition alias_names : list (ttype * string) := [
  (T_ASSEMBLY, "__asm"%string);
  (T_ASSEMBLY, "__asm_"%string);
  (T_ASSEMBLY, "__asm__"%string);
  (T_ASSEMBLY, "_asm"%string);
  (T_ASSEMBLY, "_asm_"%string);
  (T_ASSEMBLY, "asm_"%string);
  (T_ASSEMBLY, "asm_inline"%string);
  (T_ASSEMBLY, "asm_volatile_goto"%string);
  (T_ATTRIBUTE, "__attribute"%string);
  (T_ATTRIBUTE, "__attribute_"%string);
  (T_ATTRIBUTE, "__attribute__"%string);
  (T_ATTRIBUTE, "_attribute"%string);
  (T_ATTRIBUTE, "_attribute_"%string);
  (T_ATTRIBUTE, "_attribute__"%string);
  (T_ATTRIBUTE, "attribute_"%string);
  (T_INLINE, "_inline"%string);
  (T_INLINE, "_inline_"%string);
  (T_INLINE, "_inline__"%string);
  (T_INLINE, "inline_"%string);
  (T_RESTRICT, "_restrict"%string);
  (T_VOLATILE, "__volatile"%string);
  (T_VOLATILE, "__volatile__"%string);
  (T_VOLATILE, "_volatile"%string);
  (T_VOLATILE, "_volatile_"%string);
  (T_UINT8, "u_int8_t"%string);
  (T_UINT16, "u_int16_t"%string);
  (T_UINT32, "u_int32_t"%string);
  (T_UINT64, "u_int64_t"%string)
].

(** token.h:141-150 FOR_TOKEN_CPP: type, normalized type, name. *)
Definition cpp_names : list (ttype * string) := [
  (T_CPP_IF, "if"%string);
  (T_CPP_IFDEF, "ifdef"%string);
  (T_CPP_IFNDEF, "ifndef"%string);
  (T_CPP_ELSE, "else"%string);
  (T_CPP_ELIF, "elif"%string);
  (T_CPP_ENDIF, "endif"%string);
  (T_CPP_DEFINE, "define"%string);
  (T_CPP_INCLUDE, "include"%string)
].

(** token.c:236-245 token_type_normalize. *)
Definition type_normalize (t : ttype) : ttype :=
  match t with
  | T_CPP_IFDEF => T_CPP_IF
  | T_CPP_IFNDEF => T_CPP_IF
  | T_CPP_ELIF => T_CPP_ELSE
  | _ => t
  end.
