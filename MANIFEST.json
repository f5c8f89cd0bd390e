{
 "claims": [
  {
   "property": "C01",
   "status": "proved",
   "theorems": [
    "C01_tiling",
    "C01_cover",
    "C01_order",
    "C01_tokens",
    "C01_discard",
    "C01_discard_backslash"
   ],
   "note": ""
  },
  {
   "property": "C02",
   "status": "proved",
   "theorems": [
    "C02_safe",
    "C02_eof",
    "C02_eof_tokenized"
   ],
   "note": ""
  },
  {
   "property": "C03",
   "status": "proved",
   "theorems": [
    "C03_eof_text"
   ],
   "note": ""
  },
  {
   "property": "C04",
   "status": "proved",
   "theorems": [
    "C04_positions",
    "C04_diff"
   ],
   "note": ""
  },
  {
   "property": "C05",
   "status": "proved",
   "theorems": [
    "C05_longest"
   ],
   "note": ""
  },
  {
   "property": "C06",
   "status": "proved",
   "theorems": [
    "C06_string",
    "C06_quote"
   ],
   "note": ""
  },
  {
   "property": "C07",
   "status": "proved",
   "theorems": [
    "C07_comments",
    "C07_none_missed"
   ],
   "note": ""
  },
  {
   "property": "C08",
   "status": "partial",
   "theorems": [
    "C08_directives_partial",
    "C08_none_missed",
    "C08_end_partial",
    "C08_string_refuted",
    "C08_slash_refuted"
   ],
   "note": "Every directive token ends at the first newline the code's own scan accepts (C08_directives_partial); this is where C ends the directive if it holds no literal, no //, no /*/ and no */* (C08_end_partial). Without that restriction the claim is false of the code: C08_string_refuted, C08_slash_refuted."
  },
  {
   "property": "C09",
   "status": "partial",
   "theorems": [
    "C09_merge_partial",
    "C09_merge_refuted"
   ],
   "note": "Unmerged comments and merged comments whose last part needs no trimming keep their text. False in general: C09_merge_refuted shows a merged comment losing its end."
  },
  {
   "property": "C10",
   "status": "proved",
   "theorems": [
    "C10_lookahead",
    "C10_peeks",
    "C10_values",
    "C10_prefix"
   ],
   "note": "Over all programs built from the stream operations; the heap of tokens, the token list and the reported errors are unchanged too."
  },
  {
   "property": "C11",
   "status": "proved",
   "theorems": [
    "C11_if",
    "C11_if_halted",
    "C11_if_peeking",
    "C11_if_flags",
    "C11_until",
    "C11_saw",
    "C11_unchanged_refuted"
   ],
   "note": "Streams well formed: one EOF token at the end, no token twice, branch tokens lead forward. A halt leaves the position on the branch token (C11_unchanged_refuted)."
  },
  {
   "property": "C12",
   "status": "proved",
   "theorems": [
    "C12_pair",
    "C12_if_pair",
    "C12_unique",
    "C12_comma"
   ],
   "note": "Same well-formedness; opening type not EOF."
  },
  {
   "property": "C13",
   "status": "proved",
   "theorems": [
    "C13_remove",
    "C13_order",
    "C13_eof"
   ],
   "note": "Lists in which no token, prefix or suffix occurs twice, directives refer to the token they precede and references are counted; removing preserves this. With no previous token the suffixes go to the next one."
  },
  {
   "property": "C14",
   "status": "proved",
   "theorems": [
    "C14_insert_after",
    "C14_copy_after",
    "C14_move_after",
    "C14_move_before"
   ],
   "note": "Anchor and moved token are different tokens of the list."
  },
  {
   "property": "C15",
   "status": "partial",
   "theorems": [
    "C15_swap",
    "C15_swap_partial",
    "C15_swap_refuted"
   ],
   "note": "Nothing is dropped or duplicated in any case and kept tokens stay. The exchange is complete if the kept tokens of the first list are at its end; C15_swap_refuted shows that tokens behind a kept one stay behind otherwise."
  },
  {
   "property": "C16",
   "status": "proved",
   "theorems": [
    "C16_parse",
    "C16_link"
   ],
   "note": "Initial linking (clang_read/clang_branch_*). Every sequence of directives has exactly one decomposition into complete conditionals and unmatched directives (C16_parse); tokenization links exactly those (C16_link). Folding of branches by the parser (clang_branch_fold) is not modelled."
  },
  {
   "property": "C17",
   "status": "proved",
   "theorems": [
    "C17_texts",
    "C17_strip"
   ],
   "note": "Printer without diff mode. Documents are assumed well formed: every minimizer of a document has the same positive number of candidates and verbatim parts are not empty."
  },
  {
   "property": "C18",
   "status": "proved",
   "theorems": [
    "C18_clean"
   ],
   "note": "For texts that contain no blanks before a newline themselves and literals that do not start with a newline; verbatim text may."
  },
  {
   "property": "C19",
   "status": "partial",
   "theorems": [
    "C19_runs_partial",
    "C19_runs_refuted"
   ],
   "note": "Proved for documents without lines kept as spaces, single spaces and muting, with texts not ending in blanks. False without: C19_runs_refuted."
  },
  {
   "property": "C20",
   "status": "proved",
   "theorems": [
    "C20_fits",
    "C20_group",
    "C20_next_break_refuted"
   ],
   "note": "C20_next_break_refuted shows that text after an unconditional line break in the group counts as well."
  },
  {
   "property": "C21",
   "status": "partial",
   "theorems": [
    "C21_column_partial",
    "C21_column_refuted"
   ],
   "note": "Proved without muting and without tabs starting off a tab stop. False with either: C21_column_refuted."
  },
  {
   "property": "C22",
   "status": "partial",
   "theorems": [
    "C22_best_partial",
    "C22_trials",
    "C22_forced",
    "C22_best_refuted",
    "C22_exceeds"
   ],
   "note": "Proved for minimizers without forced candidates; the first forced candidate wins whatever its cost (C22_forced, C22_best_refuted). Trials leave only flags of the document behind (C22_trials). Penalties are exact rationals in the model, doubles in the code."
  },
  {
   "property": "C23",
   "status": "proved",
   "theorems": [
    "C23_defined",
    "C23_lines",
    "C23_nonblank",
    "C23_idempotent"
   ],
   "note": ""
  },
  {
   "property": "C24",
   "status": "proved",
   "theorems": [
    "C24_blanks",
    "C24_columns",
    "C24_sensed",
    "C24_underflow_refuted",
    "C24_sense"
   ],
   "note": "All styles and texts without a NUL; columns for each mode; C24_sense specifies, independently of the model, which alignment is recognised from the first three lines. ColumnLimit below IndentWidth refuted (32-bit wrap). Model on top of the ruler and printer models."
  },
  {
   "property": "C25",
   "status": "proved",
   "theorems": [
    "C25_sorted",
    "C25_permuted"
   ],
   "note": "every configuration and every list of prefixes; regexec and a qsort contract are parameters"
  },
  {
   "property": "C26",
   "status": "partial",
   "theorems": [
    "C26_path_partial",
    "C26_closed",
    "C26_overread_refuted",
    "C26_comment_refuted"
   ],
   "note": "the statement as given is false: the search for the closing delimiter examines one byte behind the directive (C26_overread_refuted) and quotes in a comment win over brackets (C26_comment_refuted); exact result and bound proved, no over-read when the path is closed"
  },
  {
   "property": "C27",
   "status": "partial",
   "theorems": [
    "C27_guard",
    "C27_identifier_partial",
    "C27_identifier_refuted",
    "C27_bytes_refuted",
    "C27_rewritten",
    "C27_right",
    "C27_blank_refuted"
   ],
   "note": "the header rewriting is described exactly and a right guard is kept (guard without blanks); the guard is an identifier only for paths of letters, digits, separators not starting with a digit (C27_identifier_refuted, C27_bytes_refuted, C27_blank_refuted show the rest is false)"
  },
  {
   "property": "C28",
   "status": "proved",
   "theorems": [
    "C28_parse",
    "C28_lines",
    "C28_range",
    "C28_nonewline_refuted",
    "C28_header_refuted"
   ],
   "note": "For every well-formed unified diff (explicit grammar, hunks in order, numbers below 2^32): accepted, one entry per +++ line, chunks non-empty, ordered, disjoint and covering exactly the added lines. Refuted for the no-newline marker between removed and added lines and for header text that itself looks like a header. The two regular expressions are modelled by hand (POSIX leftmost-longest)."
  },
  {
   "property": "C29",
   "status": "proved",
   "theorems": [
    "C29_lookup"
   ],
   "note": "First covering chunk, none only if none covers."
  },
  {
   "property": "C30",
   "status": "proved",
   "theorems": [
    "C30_sense",
    "C30_aligned",
    "C30_bounded",
    "C30_fixed",
    "C30_max_tabs_refuted",
    "C30_tab_token_refuted"
   ],
   "note": "For every use of a ruler: the alignment documents it sets, printed by the doc model from any tab stop, end at the same column with at least one blank (minimal, tabs, sensed), end at the bound or get no padding (max), are constant (fixed); continuation indents match. Hypotheses: columns used in order, tokens on one line, indents only with one column. Refuted for tabs with a bound that is not a tab stop and for tokens containing a tab. Not modelled: wrap-around."
  },
  {
   "property": "C31",
   "status": "partial",
   "theorems": [
    "C31_enter",
    "C31_entered",
    "C31_restored",
    "C31_one_group",
    "C31_leave_once",
    "C31_disabled",
    "C31_exclusive_refuted",
    "C31_group_refuted"
   ],
   "note": "Proved: entering succeeds exactly when enabled or forced and compatible, any nesting restores all states, all active passes belong to one family of passes that may nest. \"At most one\" is false as the source allows exceptions (C31_exclusive_refuted); forced passes in disabled regions escape the families (C31_group_refuted)."
  },
  {
   "property": "C32",
   "status": "partial",
   "theorems": [
    "C32_forward",
    "C32_forward_trivia",
    "C32_comment_refuted"
   ],
   "note": "C32_forward: every run of forward declarations is sorted by tag at the place of its first declaration, nothing lost; C32_forward_trivia: where comments and blanks go; C32_comment_refuted. Local variables are the subject of C64; the exceptions shown there (types that differ in stars alone) make the part on these false in general."
  },
  {
   "property": "C33",
   "status": "partial",
   "theorems": [
    "C33_message_partial",
    "C33_message_refuted",
    "C33_wide_refuted",
    "C33_argument",
    "C33_frame",
    "C33_macro_refuted"
   ],
   "note": "Proved for messages that end with a newline character, for all literals with octal, hexadecimal and simple escapes; only the last literal of the format argument is changed. False for an escaped backslash before n, wide literals, and a macro after the literal (refuted with witnesses)."
  },
  {
   "property": "C34",
   "status": "proved",
   "theorems": [
    "C34_static",
    "C34_implicit_int"
   ],
   "note": ""
  },
  {
   "property": "C35",
   "status": "partial",
   "theorems": [
    "C35_braces",
    "C35_several_lines",
    "C35_protected",
    "C35_ignored_refuted",
    "C35_max_refuted"
   ],
   "note": "Proved: if any considered statement needs braces they are put around every changeable one, otherwise removed from every changeable one, no other token changes and all comments survive; a statement over several lines keeps its braces. Refuted for statements that may not be changed (not considered) and past the 32nd statement of a chain. That the statements handed over by the parser are those of the chain is not modelled."
  },
  {
   "property": "C36",
   "status": "proved",
   "theorems": [
    "C36_directory",
    "C36_atomic",
    "C36_content",
    "C36_step",
    "C36_nothing",
    "C36_result",
    "C36_leftovers",
    "C36_cleanup",
    "C36_readonly",
    "C36_power_refuted"
   ],
   "note": "As a transition system: every reachable state is a crash point, every system call may fail, writes and reads may be short. Interruption means the process stops; losing power is refuted (C36_power_refuted: nothing is synced before the renaming). Symbolic links and other processes are not modelled."
  },
  {
   "property": "C37",
   "status": "proved",
   "theorems": [
    "C37_exit",
    "C37_diff"
   ],
   "note": "Over all files and outcomes; exits through err(3), which stop the process, are not modelled."
  },
  {
   "property": "C38",
   "status": "proved",
   "theorems": [
    "C38_run",
    "C38_effect",
    "C38_compare"
   ],
   "note": "Public operations of libks/buffer.c with an arbitrary allocator; formatted printing takes the formatted text as given. Sizes above 2^63 are reported as overflow."
  },
  {
   "property": "C39",
   "status": "proved",
   "theorems": [
    "C39_complete",
    "C39_new",
    "C39_full_refuted"
   ],
   "note": "For buffers that are not full when reading starts, as the code uses them; C39_full_refuted shows that reading into a full buffer looks like end of file."
  },
  {
   "property": "C40",
   "status": "proved",
   "theorems": [
    "C40_lines",
    "C40_nomem_refuted"
   ],
   "note": "A line count as by the newline terminated reading: a final newline starts no further line. C40_nomem_refuted shows what happens if memory runs out, which the arena variant excludes."
  },
  {
   "property": "C41",
   "status": "proved",
   "theorems": [
    "C41_step",
    "C41_init",
    "C41_read",
    "C41_run"
   ],
   "note": "qsort is not modelled: sorting stores a permutation chosen by the environment. Elements are stored by the caller through the returned pointers."
  },
  {
   "property": "C42",
   "status": "proved",
   "theorems": [
    "C42_insert",
    "C42_find",
    "C42_remove",
    "C42_iterate",
    "C42_free",
    "C42_empty",
    "C42_run",
    "C42_null_refuted",
    "C42_twice_refuted"
   ],
   "note": "Every hash function, table growth included. NULL from a failed growth (the element is in the map nonetheless) and inserting a key twice are outside of the map contract: see the two refutations."
  },
  {
   "property": "C43",
   "status": "proved",
   "theorems": [
    "C43_sound",
    "C43_run",
    "C43_leave",
    "C43_realloc",
    "C43_calloc",
    "C43_trap",
    "C43_free"
   ],
   "note": "Every history of enter, leave, malloc, calloc, realloc and writes. Assumes that malloc(3) returns 8-aligned regions below 2^63 that overlap no frame in use, 0 or 8 poison bytes, and that the scope counter does not overflow."
  },
  {
   "property": "C44",
   "status": "proved",
   "theorems": [
    "C44_step",
    "C44_read",
    "C44_run",
    "C44_start"
   ],
   "note": "All macros but the _SAFE iterations."
  },
  {
   "property": "C45",
   "status": "partial",
   "theorems": [
    "C45_signed",
    "C45_unsigned",
    "C45_unsigned_mul_partial",
    "C45_unsigned_mul_refuted"
   ],
   "note": "Portable versions, all 15 functions. Multiplication of unsigned numbers is exact unless the second factor is zero, where it divides by zero (C45_unsigned_mul_refuted). The compiler builtins are not modelled."
  },
  {
   "property": "C46",
   "status": "partial",
   "theorems": [
    "C46_match_native_default",
    "C46_match_spec",
    "C46_match_until_native_default_partial",
    "C46_match_until_spec",
    "C46_match_until_refuted"
   ],
   "note": "Equal for all data in the matching function; for match-until equal for all data without NUL bytes and refuted with NUL bytes (the assembly ignores bytes after a NUL in a 16 byte block)."
  },
  {
   "property": "C47",
   "status": "proved",
   "theorems": [
    "C47_strwidth",
    "C47_colwidth",
    "C47_compose",
    "C47_strnice_printable",
    "C47_strnice_round_trip",
    "C47_strnice_refuted"
   ],
   "note": ""
  },
  {
   "property": "C48",
   "status": "proved",
   "theorems": [
    "C48_strindent",
    "C48_unaligned_refuted"
   ],
   "note": "The unaligned tab case is outside the claim and refuted separately."
  },
  {
   "property": "C49",
   "status": "proved",
   "theorems": [
    "C49_split_spec",
    "C49_split_unique",
    "C49_path_slice",
    "C49_absolute_refuted",
    "C49_header"
   ],
   "note": "Leading empty components of the slice are dropped; shown by C49_absolute_refuted."
  },
  {
   "property": "C50",
   "status": "partial",
   "theorems": [
    "C50_numeral",
    "C50_other",
    "C50_arith",
    "C50_option",
    "C50_min_refuted",
    "C50_rejected_refuted",
    "C50_malformed_refuted"
   ],
   "note": "Decimal numerals in int range (quoted or not, signed or not) are read whole with their value and nothing reported; digits out of range are reported; everything else restores the position; an integer option ends with the value (as an unsigned), for both overflow implementations. Missing: rejection is refuted (out of range values are still used, INT_MIN is reported, trailing characters accepted)."
  },
  {
   "property": "C51",
   "status": "partial",
   "theorems": [
    "C51_config",
    "C51_ignored",
    "C51_last",
    "C51_total",
    "C51_byte_refuted",
    "C51_novalue_refuted",
    "C51_stop_refuted"
   ],
   "note": "For every text spelling a sequence of items (known options, unknown options with one value or a sequence, nested options, document markers, comments), every option has its last valid value or its default; items that set nothing do not matter; any bytes are parsed without undefined behaviour. Missing: refuted for bytes that start no token, unknown options without value, nested options at top level and IncludeGuards: 0; values of IncludeCategories not stated."
  },
  {
   "property": "C52",
   "status": "partial",
   "theorems": [
    "C52_total",
    "C52_grouping",
    "C52_left",
    "C52_right",
    "C52_round_trip",
    "C52_grammar",
    "C52_tokens",
    "C52_all_tokens",
    "C52_all_tokens_refuted",
    "C52_condition_refuted",
    "C52_cast_refuted",
    "C52_postfix_refuted",
    "C52_strings_refuted"
   ],
   "note": "Totality, grouping for every input and every answer of the callbacks (each operator has the operands its level and direction call for), uniqueness (a tree that respects the levels is what its tokens are read as) and agreement with the grammar of C for plain expressions are proved. The second half is refuted: (a)/b loses the operator and f(a ? b : ) the condition; it is proved that the tokens of the tree are a subsequence of those consumed and all of them for inputs without a misplaced operator. The grammar of C is refuted for (int)a.b, -a++ and s + \"a\" \"b\". Not modelled: preprocessor branches met inside an expression, the document built from the tree."
  },
  {
   "property": "C53",
   "status": "proved",
   "theorems": [
    "C53_flush",
    "C53_reset",
    "C53_peek",
    "C53_context"
   ],
   "note": "Every history of reports, flushes, resets and peeks, with less than 2 GB of messages between flushes. Messages concern tokens on existing lines."
  },
  {
   "property": "C54",
   "status": "proved",
   "theorems": [
    "C54_lines",
    "C54_past",
    "C54_zero_refuted",
    "C54_reversed_refuted"
   ],
   "note": "For every input and every range of existing lines. Line 0 and reversed ranges are shown to be undefined (C54_zero_refuted, C54_reversed_refuted)."
  },
  {
   "property": "C55",
   "status": "partial",
   "theorems": [
    "C55_regions",
    "C55_verbatim",
    "C55_recognised",
    "C55_nested_refuted",
    "C55_line_refuted"
   ],
   "note": "Proved for inputs whose off comments are alone and end their line and whose on comments start theirs, without nesting, and for every way to lay out the documents of the tokens: the texts outside of regions and the bytes of each region are printed in order with only blanks in between (C55_regions), the bytes of a region stand in the output exactly as in the input (C55_verbatim), and exactly which comments count (C55_recognised). Refuted if an off comment stands within a region: all that follows is lost (C55_nested_refuted); and if code follows an off comment on its line: the line is printed twice up to there (C55_line_refuted). The grammar of the parser is not modelled: which layout documents are put between the tokens is universally quantified; branches and error recovery are left out."
  },
  {
   "property": "C56",
   "status": "partial",
   "theorems": [
    "C56_progress",
    "C56_balanced",
    "C56_copy_refuted"
   ],
   "note": "Proved for every history of seeking, stamping, unlinking directives and removing tokens (with or without their prefixes and suffixes) after tokenization. Not for copies: C56_copy_refuted shows that shutting down after copying a token with a directive dereferences NULL. clang_branch and clang_recover: C67."
  },
  {
   "property": "C57",
   "status": "partial",
   "theorems": [
    "C57_attributes",
    "C57_setid_refuted"
   ],
   "note": "Permissions, owner and group are kept; refuted for the set-id bits, as the mode is set before the owner and chown(2) may clear them."
  },
  {
   "property": "C58",
   "status": "proved",
   "theorems": [
    "C58_output",
    "C58_success"
   ],
   "note": "Formatting is a parameter."
  },
  {
   "property": "C59",
   "status": "partial",
   "theorems": [
    "C59_restored",
    "C59_placed",
    "C59_parens",
    "C59_muted"
   ],
   "note": "Proved: the state restored by every document; the layout of every ordinary document (words, lines, groups, plain indents, optional parts, minimizers, scopes, line limits); alignment below an opening parenthesis at the beginning of a line; muted texts and line breaks. Verbatim parts, alignment (DOC_ALIGN) and the other special indents (forced, width, newline) are outside the layout theorem."
  },
  {
   "property": "C60",
   "status": "proved",
   "theorems": [
    "C60_pieces",
    "C60_tokens",
    "C60_text",
    "C60_output",
    "C60_one_line",
    "C60_style"
   ],
   "note": "Document of an expression (expr.c:324-358, 686-1290) built with the model of doc.c builders (BuildModel): C60_pieces (never a missing operand, content in order), C60_tokens, C60_text, C60_output (with C52 and C17: output stripped of blanks is the tokens consumed), C60_one_line (with C20), C60_style. Documents of single tokens (comments, trimming) and of recovered tokens, and column widths, are parameters."
  },
  {
   "property": "C61",
   "status": "partial",
   "theorems": [
    "C61_total",
    "C61_total_gnu",
    "C61_layout",
    "C61_place",
    "C61_none",
    "C61_tokens",
    "C61_output",
    "C61_braces_refuted",
    "C61_comments_refuted"
   ],
   "note": "parser_decl() and parser_stmt_asm() are parameters required to read at least a token and to leave out semicolons only (C62 models them); preprocessor branches, the simple passes and the trimming of blank lines are not modelled. Refuted: a left brace does not end the line if nothing but a label follows on it (C61_braces_refuted); the comment behind the first of two semicolons is lost (C61_comments_refuted)."
  },
  {
   "property": "C62",
   "status": "partial",
   "theorems": [
    "C62_tokens",
    "C62_solid",
    "C62_output",
    "C62_rendered",
    "C62_answer",
    "C62_order_refuted",
    "C62_lost_refuted",
    "C62_apart_refuted"
   ],
   "note": "parser.c:parser_exec with all it calls (DeclModel, SynModel, ExprDocModel) for files without conditional branches and recovery, simplifications off; documents of tokens, columns and rulers are parameters. Strict runs (no token emitted in front of others, no document removed that tokens were emitted to): C62_tokens, C62_solid, C62_output. C62_rendered: what is laid out is the texts of the documents of the tokens printed, in order, with nothing but blanks between them. C62_answer: the answer does not depend on the bound on the depth of calls, and a strict answer is the answer of the tool. Refuted for the others: C62_order_refuted, C62_lost_refuted. C62_apart_refuted: words may run together within arguments (int a[static 4])."
  },
  {
   "property": "C63",
   "status": "partial",
   "theorems": [
    "C63_words",
    "C63_nothing_new",
    "C63_only_semicolons",
    "C63_documents",
    "C63_alignment",
    "C63_comment_refuted",
    "C63_twice_refuted",
    "C63_end_refuted"
   ],
   "note": "C63_words, C63_nothing_new, C63_only_semicolons compose the lexer (C01), the trimming of comments (C23), the alignment of backslashes (C24, C63_alignment), the parser (C62) and the printer (C17). C63_documents: the documents of tokens are those of parser_doc_token_impl. Not covered: lone backslashes, clang-format regions (C55), branches (C16), simplifications, recovery. Refuted without the conditions: C63_comment_refuted (a declaration becomes part of a comment), C63_twice_refuted (a declaration is printed twice), C63_end_refuted (a literal that does not end is lost)."
  },
  {
   "property": "C64",
   "status": "proved",
   "theorems": [
    "C64_grouped",
    "C64_left",
    "C64_declared",
    "C64_comma_refuted",
    "C64_stars_refuted",
    "C64_use_refuted"
   ],
   "note": "C64_grouped: the result as a function of the pieces of the block; C64_left: what is left of a declaration is one; C64_declared: the same variables with the same types; C64_comma_refuted, C64_stars_refuted, C64_use_refuted: the exceptions. Calls of the reader of declarations are a hypothesis (called). Which of the declarations with the same type a group follows is not stated."
  },
  {
   "property": "C65",
   "status": "proved",
   "theorems": [
    "C65_names",
    "C65_all_or_none",
    "C65_operand_refuted",
    "C65_pointer_refuted"
   ],
   "note": "C65_names: exactly when names are removed and which; C65_all_or_none; C65_operand_refuted, C65_pointer_refuted: the exceptions. Which identifiers the reader of prototypes reports is a parameter."
  },
  {
   "property": "C66",
   "status": "proved",
   "theorems": [
    "C66_loop",
    "C66_switch",
    "C66_again",
    "C66_reached_refuted",
    "C66_directive_refuted"
   ],
   "note": "C66_loop, C66_switch: exactly when and where tokens are added; C66_again: loops are left alone the second time, for streams without conditionals; C66_reached_refuted, C66_directive_refuted: the exceptions."
  },
  {
   "property": "C67",
   "status": "partial",
   "theorems": [
    "C67_progress",
    "C67_balanced",
    "C67_branch",
    "C67_recover",
    "C67_text",
    "C67_docs_partial",
    "C67_docs_refuted"
   ],
   "note": "C67_progress, C67_balanced: no operation of any history fails and all references are released; C67_branch, C67_recover: which tokens are removed and where reading goes on; C67_text: what is removed is in the new directive; C67_docs_partial: the documents agree with the cursor after the first recovery (missing: later ones); C67_docs_refuted: they do not after the second."
  },
  {
   "property": "C68",
   "status": "proved",
   "theorems": [
    "C68_off",
    "C68_lines",
    "C68_kept",
    "C68_identity",
    "C68_defined",
    "C68_shared_refuted",
    "C68_suffix_refuted",
    "C68_nested_refuted"
   ],
   "note": "Proved for all sources and documents: untouched lines are kept, identity without tokens in the diff, no failed assertion under the stated condition, nothing changes without diff mode. Refuted: C68_nested_refuted (assertion in a group with several chunks), C68_shared_refuted and C68_suffix_refuted (text lost). Which text replaces the touched lines is not specified, and that documents built by the parser satisfy made_from is not proved."
  },
  {
   "property": "C69",
   "status": "proved",
   "theorems": [
    "C69_search",
    "C69_ends",
    "C69_nearest"
   ],
   "note": "system calls are parameters that may answer differently each time; the names of directories are abstract numbers"
  },
  {
   "property": "C70",
   "status": "partial",
   "theorems": [
    "C70_comma",
    "C70_order",
    "C70_once",
    "C70_effective_partial",
    "C70_align",
    "C70_align_not",
    "C70_comment_refuted"
   ],
   "note": "proved but for one part, which is false: behind a // comment the comma becomes part of the comment (C70_comment_refuted)"
  },
  {
   "property": "C71",
   "status": "proved",
   "theorems": [
    "C71_strndup",
    "C71_sprintf",
    "C71_cleanup"
   ],
   "note": "Built on the client of C43, so malloc(3) is assumed to deliver fresh aligned memory below 2^63. The functions called are assumed not to touch the arena themselves; vsnprintf(3) is a parameter."
  },
  {
   "property": "C72",
   "status": "partial",
   "theorems": [
    "C72_accepted",
    "C72_options",
    "C72_readonly",
    "C72_files",
    "C72_trace",
    "C72_traced_partial",
    "C72_traced_refuted",
    "C72_pledge"
   ],
   "note": "Proved but for one part, which is false: knfmt -tal does not trace the lexer, as a letter behind an a raises the greatest unsigned number to 0 (C72_traced_refuted; C72_trace gives the exact levels). getopt(3) is a parameter; which promise a system call needs is taken from pledge(2)."
  },
  {
   "property": "C73",
   "status": "partial",
   "theorems": [
    "C73_status",
    "C73_descriptors",
    "C73_files",
    "C73_umask",
    "C73_diff",
    "C73_stable",
    "C73_shown_partial",
    "C73_silent_refuted"
   ],
   "note": "all but the last sentence. C73_shown_partial: once both temporary files have been made, diff is forked or a warning printed; C73_silent_refuted: nothing at all is printed if a temporary file cannot be made"
  },
  {
   "property": "C74",
   "status": "partial",
   "theorems": [
    "C74_align_partial",
    "C74_align_blank",
    "C74_align_refuted",
    "C74_static",
    "C74_implicit_int",
    "C74_printf_partial",
    "C74_printf_refuted"
   ],
   "note": "C74_static and C74_implicit_int: proved in full. C74_printf_partial: unless a literal ends with two newlines; C74_printf_refuted: then every run removes one. C74_align_blank: proved for a single blank, asked for or recognised; C74_align_partial: for any style if the alignment recognised in the result is the one it was made with; C74_align_refuted: otherwise not, three lines of equal length aligned to the left are taken for lines with a single blank by the second run. Comments (C23), loops (C66) and braces (C70) have theorems of their own."
  }
 ]
}