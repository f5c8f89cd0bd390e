# Formal model of knfmt in Rocq

## Goal and layout

`rocq/theories/` holds a hand-written, executable Gallina model of the C code in `/repo`
and proofs of the properties in `properties.jsonl`.  For every area there is

* `XxxModel.v` – definitions only; each cites the file and lines it models and says what is simplified;
* `XxxProofs.v` (and further files, below) – lemmas;
* `XxxProps.v` – small independent specifications, the final theorems (named after the property),
  `Example`s showing that the hypotheses are met by non-trivial cases, and `Print Assumptions`.

Conventions of the model

* bytes are `ascii`, byte strings are `list ascii`;
* lengths, offsets, line numbers and columns are unbounded `nat`/`N`/`Z`; machine wrap-around is written
  out only where the property is about overflow (buffer/vector/arena growth, checked arithmetic, integers in
  the configuration, the column of the printer);
* C failures that are not ordinary results (failed `assert`, out-of-bounds access, NULL dereference,
  use after release, division by zero) are explicit outcomes (`None`, `Bad`, a sticky flag), so a theorem
  saying the result is `Some`/`Ok` also says that the failure cannot happen;
* loops become structural recursion or recursion on fuel; when fuel is used, running out of fuel is a distinct
  outcome and a theorem shows it is never reached with the fuel the wrapper supplies (exception: the readers
  of statements and declarations, where the claims are about the runs that end, and `C62` shows that a run
  that ends does not depend on the bound);
* what the C library and the kernel do is a parameter, quantified over in the theorems (table below);
* a claim that is false of the faithful model is kept as `…_refuted` with a concrete witness, next to the
  strongest true variant.

## Plan per property

| Property | Files | Method |
|---|---|---|
| C01 C02 C03 | `LexModel` byte reader and `clang_read` with all its backtracking; `LexSpec` `LexRefine` `LexBlank` `LexMain` `LexTrivia` `LexAll` `LexSense` | refinement to a specification on suffixes of the input; span-tiling invariant by induction on the reads; progress measure on remaining bytes |
| C04 C54 | same model, line table; `LinesModel` | invariant "line table = offsets of line starts" |
| C05 C06 C07 C08 | same model | functional specifications of each reader by induction on the remaining input |
| C09 | same model with `CommentModel` | refutation witness + positive theorem for the untrimmed case |
| C10 C11 C12 | `StreamModel` token stream with peek counter and branch halts | equational lemmas; nesting via an operation grammar; bracket counting spec |
| C13 C14 C15 | `TokListModel` | list refinement; `token_list_swap` refuted in general and proved for the case without kept tokens |
| C16 C56 | `BranchModel`, `LifeProofs`: heap of directives with pv/nx/parent and reference counts | invariant over event sequences, refinement to a bracket matcher |
| C17–C22 | `DocModel` printer state machine; `DocEmit` `DocFit` `DocMin` | induction over documents with an invariant on output, column, newline counter |
| C23 C24 | `CommentModel`, `CppAlignModel` | induction over lines |
| C25 C26 C27 | `IncludeModel`, `GuardModel` | permutation/sortedness; bounds |
| C28 C29 | `DiffModel` | induction over diff lines |
| C30 | `RulerModel` | invariant over insertions |
| C31–C35 | `SimpleModel`, `ForwardModel`, `PrintfModel`, `StaticModel`, `StmtModel` | state machine invariants, permutation proofs |
| C36 C37 C57 C58 | `FileModel` small file-system with crash points and syscall oracle | invariant over all prefixes of the execution |
| C38–C41 | `BufferModel`, `VectorModel` | refinement to lists |
| C42 | `MapModel` | refinement to association list, invariant on buckets |
| C43 | `ArenaModel` | invariant on frames and live intervals |
| C44 | `QueueModel` pointer-level list macros | separation-style invariant relating heap and sequence |
| C45 | `ArithModel` | `Z` arithmetic |
| C46 C49 | `StrModel` scalar and 16-byte block versions | induction on blocks; refutation for NUL bytes |
| C47 C48 C49 | `UtilModel` | induction |
| C50 C51 | `YamlModel` | induction over digits / over the event stream |
| C52 | `ExprModel` precedence climbing parser | induction on fuel, grammar specification, preservation of tokens |
| C53 | `ErrorModel` | refinement |
| C55 | `ParserModel` tokens to documents, clang-format off regions | line slice specification |
| C59 | `IndentProps` on `DocModel` | induction over documents: the column at the start of every line |
| C60 | `BuildModel` documents under construction, `ExprDocModel` documents of expressions | a document is added to only at live places; the words of the document are those of the tree |
| C61 | `SynModel` statements; `RunProofs` (a weakest-precondition calculus for the readers), `SynProofs` | rule per reader: the words added to the document are those of the tokens consumed, but for dropped semicolons |
| C62 | `DeclModel` declarations, functions, files; `DeclProofs`, `BelowProofs` (independence of the bound), `InkProofs` | the same rules; composition with C52, C60, C61 and the printer |
| C63 | `WholeModel`, `WholeProofs` | composition of the tokenizer (C01–C08), the readers (C62) and the printer (C17–C22): bytes read against bytes written |
| C64 | `SdeclModel`; `SdeclProofs` (operations on tokens), `SdeclLeave` (putting variables in place), `SdeclSpec`, `SdeclCollect` (collecting them), `SdeclMain` | invariants over the pieces of a block; tokens of the result as a function of the pieces |
| C65 | `ProtoModel` | the calls made while a prototype is read, in any number and order; removal of a list of tokens (C35) |
| C66 | `LoopModel` | look-ahead of C10–C12, insertion of C14; any stream |
| C67 | `RecoverModel`; `RecoverProofs` (unlinking, dropping and moving with all that stays the same), `RecoverSteps` (each function of recovery) | invariants of C56 and the order of directives, over histories; the whole stream before and after |
| C68 | `DdocModel` (the printer of C17–C22 with diff mode); `DdocProofs`, `DdocSpec`, `DdocSteps` (invariant of the printer), `DdocFinal`, `DdocSafe` | what has been printed is the source up to a line but for touched lines, through every document; equality with `DocModel` without diff mode |
| C69 | `SearchModel` | system calls as parameters, answering anything at any time; descriptors as a list; induction on the rounds, and a fixed tree as a special case |
| C70 | `BracesModel` | insertion and moving of suffixes as in C14 and C35; the text of the stream before and after |
| C71 | `CleanupModel` (on `ArenaModel`) | each function is a sequence of steps of the client of C43; chains of records in memory kept through every step; a stack of lists as specification |
| C72 | `MainModel` (on `FileModel`) | induction on the options read, with the options so far as state; positions of the transition system of C36 |
| C73 | `TmpModel` (on `FileModel`) | transition system with a descriptor table, shared open files and a child; one invariant over all positions |
| C74 | `StaticModel`, `PrintfModel`, `CppAlignModel` | the second run on the result of the first; commutation of replacing a text with reading, lines of the result are those of the input |

## How the theorems compose

`C63` is the end-to-end statement: for every input that the model of the tokenizer reads and the model of the
readers accepts, the bytes printed are the bytes read up to blanks and to semicolons dropped, under the
side conditions named in its statement.  It rests on the spans of the tokenizer (`C01`), on the texts of the
tokens being laid out in order with blanks between them (`C62`), and on the printer emitting the words of
a document in order (`C17`).  Where the condition is needed, a `C63_…_refuted` theorem gives an input on which
the tool as modelled loses or changes text.

## Trusted base

* Coq 8.16.1 kernel (and `coqchk`, run over all files).  No axioms: Appendix B.  `vcheck` lists as library axioms
  only the seven of `Coq.ssr.ssrunder.Under_rel`, which `Lia`/`ssreflect` files of the standard library load; no
  theorem depends on them.
* The correspondence between the C text and the model, checked by reading only: nothing is extracted or executed
  from `/repo`.  Appendix A lists what is and what is not modelled.  As a check of the reading, the expected
  results in `/repo/tests/valid-*.c` were compared (blanks removed) with what the model computes for these files
  from bytes to documents: 365 of 399 agree; the others use preprocessor branches or recovery, `__BEGIN_DECLS`
  style macros or list-entry macros answered by a parameter, or have an expected result that is not the input.
* What the C library and the operating system do is a parameter of the model; theorems quantify over it:

| Parameter | Stands for | Where | Assumed |
|---|---|---|---|
| `qsort` | qsort(3) | Include, Forward, Sdecl | result is a sorted permutation (hypothesis of the theorems, with an instance shown) |
| `matches` | regexec(3) for include categories | Include | nothing |
| POSIX longest match | regexec(3) for the two expressions of diff.c | Diff | written out as a definition |
| `c_format`, system call outcomes, crash points | lexer+parser, open/read/write/rename/… | File | nothing; each outcome is a possible step |
| `hash` | HASH_JEN | Map | nothing |
| `ok`, `junk` | malloc/realloc success, uninitialised memory | Buffer, Vector, Arena | nothing |
| `in_diff` | whether a line is in the diff | Lex | nothing |
| `trim`, `align` | comment_trim, cpp_align | Lex | instantiated with `CommentModel`; `align` is arbitrary in C63 up to the named condition (`C63_alignment`) |
| `queries` | state of spaces, lines, comments beside a token when asked | ExprDoc, Syn, Decl | nothing |
| `docs` (`tok`, …) | the documents of a token with its prefixes and suffixes | ExprDoc, Syn, Decl | their texts; C63 instantiates them with `tokdoc`, the model of parser.c |
| `width` | doc_width | Syn, Decl | nothing |
| `tpeek`, `braces` | parser_type_peek, lengths of brace initialisers | Expr, Syn | DeclModel instantiates them |
| `asks` (`o_…`) | cdefs and list-entry macro look-ups | Decl | nothing but what `fair`/`kept` state |
| style settings | `.clang-format` values | Doc, Syn, Decl | any |

* `clang_branch`, `clang_recover` and `clang_branch_fold` are modelled on the stream (C67), not inside the readers
  of statements and declarations.
* Not modelled at all, in short: tracing and dumping,
  diff(1) itself.  Simple passes (`-s`) are modelled as operations on the token list,
  not inside the readers of statements and declarations.

## Faults of the tool found on the way

A claim one would expect that is false of the model; each is a theorem with a witness.

* `C08_slash_refuted`: /*/ does not close a comment in C, but ends it for the scan of a directive.
* `C08_string_refuted`: A comment opening inside a string swallows the following lines.
* `C09_merge_refuted`: The text of the second comment is cut off: the closing */ is lost.
* `C11_unchanged_refuted`: A failed consumption may move the position: it ends up on the branch.
* `C15_swap_refuted`: Tokens behind a kept one are not exchanged.
* `C19_runs_refuted`: A line kept as a space is forgotten when the line ends, and the count of newlines starts over.
* `C20_next_break_refuted`: What comes after an unconditional line in the group counts as well: a group whose text up to its first line break fits is broken nevertheless.
* `C21_column_refuted`: The column differs from that of the output for muted text, and for alignment in front of text that is not indented.
* `C22_best_refuted`: The alternative chosen by minimizing need not be the one with the least cost.
* `C24_underflow_refuted`: With a limit smaller than the indentation the width wraps around: more than four thousand million blanks in front of each backslash.
* `C26_comment_refuted`: A quote in a comment behind the path is taken for the path.
* `C26_overread_refuted`: An unclosed path makes it look one byte behind the directive, and return it.
* `C27_blank_refuted`: A blank in the name of the header: its guard is never recognised, another one is added by each run.
* `C27_bytes_refuted`: Bytes that cannot be part of an identifier are kept in the guard.
* `C27_identifier_refuted`: Not for every path: digits, other bytes.
* `C28_header_refuted`: The text behind a header that itself looks like one is taken for it.
* `C28_nonewline_refuted`: diff(1) marks a last line without newline by a line of its own, which is taken for a line of the file: the line behind it is not recorded.
* `C30_max_tabs_refuted`: Bounded by something that is not a tab stop, with tabs: an entry of exactly that width ends somewhere else than shorter ones.
* `C30_tab_token_refuted`: A token that contains a tab defeats sensing: its width is computed in two ways which do not agree.
* `C31_exclusive_refuted`: Two passes may be active at once.
* `C31_group_refuted`: Passes of different groups may be active at once where simplification is disabled and one is forced: entering a pass while disabled marks it ignored, which counts as being on.
* `C32_comment_refuted`: A comment in front of the first declaration ends up in front of another one.
* `C33_macro_refuted`: The newline is removed from a format followed by a macro, although the literal is not at its end.
* `C33_message_refuted`: A backslash followed by the letter n at the end of the message is taken for a newline; what is left is not a string literal.
* `C33_wide_refuted`: Wide literals are string tokens, too (clang.c:568-576); the prefix is lost and a quote is left inside.
* `C35_ignored_refuted`: A statement whose braces were ignored does not count: braces are removed although a branch spans lines.
* `C35_max_refuted`: Only the first 32 statements are considered.
* `C36_power_refuted`: If the power fails, and the directory is on disk but the data is not, neither the old nor the new contents are found: there is no fsync(2).
* `C39_full_refuted`: Into a full buffer nothing is read, and that looks like the end of the file.
* `C40_nomem_refuted`: Without memory a line is silently missing or stale.
* `C42_null_refuted`: Without memory for more buckets map_insert returns NULL although the element is in the map: a caller that takes NULL for "not inserted" is wrong.
* `C42_twice_refuted`: Inserting a key twice makes two elements; which of them map_find delivers changes when the table grows.
* `C45_unsigned_mul_refuted`: The portable version of the checked multiplication divides by zero if a factor is zero.
* `C46_match_until_refuted`: With a NUL byte in the data the two versions disagree: the instruction ignores everything after the NUL in its 16 byte block.
* `C47_strnice_refuted`: Backslashes are not escaped.
* `C48_unaligned_refuted`: Off a tab stop the width with tabs is wrong in general.
* `C49_absolute_refuted`: "/a/b" has three components, but slicing it to three drops the leading slash.
* `C50_malformed_refuted`: A numeral followed by other characters, the keyword Integer, and a negative number are used as values, too.
* `C50_min_refuted`: The smallest int is reported as too large.
* `C50_rejected_refuted`: A numeral out of range is used all the same.
* `C51_byte_refuted`: A byte that starts no token makes the whole configuration ignored.
* `C51_novalue_refuted`: An unknown option without value takes the next one with it.
* `C51_stop_refuted`: A known option without colon, a nested option at top level, and no lines around the guard, end it.
* `C52_all_tokens_refuted`: An operator directly after something in parentheses that could be a type is lost: the tree of [(a)/b] has no [/], that of [(a)&&(b)] no [&&].
* `C52_cast_refuted`: [(int)a.b] is read as [((int)a).b].
* `C52_condition_refuted`: A condition without a last operand is lost as a whole: [f(a ? b : )].
* `C52_postfix_refuted`: [-a++] is read as [(-a)++].
* `C52_strings_refuted`: [s + "a" "b"] is read as [(s + "a") "b"].
* `C54_reversed_refuted`: A range that ends before it begins is not noticed: its length does not fit.
* `C54_zero_refuted`: Line 0 does not exist; asking for it reads in front of the table.
* `C55_line_refuted`: If code follows the off comment on its line, that line is printed twice up to there.
* `C55_nested_refuted`: If a second off comment stands within a region, what follows the region is not printed.
* `C56_copy_refuted`: A copy of a token with a directive (lexer_copy_after) is not covered: the copied prefix is a directive that belongs to no conditional, and shutting down dereferences NULL.
* `C57_setid_refuted`: Set-id bits may be lost: the mode is set before the owner.
* `C61_braces_refuted`: It is not so that a left brace ends the line: if a label and nothing else is on the same line as the braces, the label is put there ([nstmt] does not count it).
* `C61_comments_refuted`: The comment behind a semicolon that is dropped is lost.
* `C62_apart_refuted`: Nor that words are kept apart: only identifiers are, within the arguments of functions.
* `C62_lost_refuted`: Nor that none is lost: the comma of [int , ;] is removed along with the document of the declarators.
* `C62_order_refuted`: It is not so for every file accepted that the tokens keep their order: in "int a, (*b)[2];" the semicolon is put in front of what is not understood, as the document of the first declarator is given to it ([strict] excludes this).
* `C63_comment_refuted`: Declarations may become comments: two comments on a line the last of which lasts until its end and is followed by blanks lose the end of the line.
* `C63_end_refuted`: A literal that does not end is lost along with all that follows it.
* `C63_twice_refuted`: Declarations may be printed twice: without tabs, trimming makes the last of two comments on a line longer, and the text of both is as many bytes of the input.
* `C64_comma_refuted`: A comment behind a comma: what is left of the declaration ends in a comma, as in int a, ; int b;
* `C64_stars_refuted`: Types that differ in stars alone: char const a; char *const p; becomes char const a, p;
* `C64_use_refuted`: A variable ends up behind its use: int f, *p = &f; becomes int *p = &f; int f;
* `C65_operand_refuted`: What is removed need not be the name of an argument: the last identifier behind a star is, here the operand of a multiplication. void f(int, int a[2 * M]); becomes void f(int, int a[2 * ]);
* `C65_pointer_refuted`: Names are removed although all arguments are named: that of a function pointer is part of its type and is not taken for a name. void f(int (STAR cb)(void), int a); becomes void f(int (STAR cb)(void), int);
* `C66_directive_refuted`: The continue is put in front of a directive that precedes the semicolon, outside of the conditional: while (x) #if A ; #endif is continue #if A ; #endif afterwards.
* `C66_reached_refuted`: The break is added even if statements follow the empty one, which are no longer reached: switch (x) { default: ; f(); } becomes switch (x) { default: break; f(); }
* `C67_docs_refuted`: Stamps are not removed along with the documents, and those of tokens removed are counted again: the second recovery removes the document of a function that is not read again, that is, the function is missing from the output.
* `C68_nested_refuted`: Without the hypothesis of C68_defined assertions do fail: in a group with tokens in two chunks doc_diff_leave enters the group again and takes a comment in front of the first chunk for one to wait for, although it has been printed; the output ends there, with the statement missing, and doc_diff_exit then leaves with the comment still pending (doc.c:1655).
* `C68_shared_refuted`: A statement that shares its line with the next one is lost if only the next one has a token in the diff: the lines up to the one on which the next statement starts are copied, without that line, and the statement itself is not formatted. Of "a = 1; b = 2 +" and "3;" with the second line in the diff remains "b = 2 + 3;".
* `C68_suffix_refuted`: A comment outside of the diff at the end of a line, in a statement that continues on a line in the diff, takes its line with it: doc_diff_group_enter copies the lines before the line after the comment, which is taken to be the line of the comment itself as the comment has no new line, and mutes everything up to and including the comment.
* `C70_comment_refuted`: With a comment up to the end of the line behind the last field the comma is put behind the comment, where it is part of the comment: of "A // a" becomes "A // a,", and the comma is still missing; formatted again it is "A // a,,".
* `C72_traced_refuted`: knfmt -tal: the lexer was asked for twice over and is not traced, as the level wraps to 0.
* `C73_silent_refuted`: If a temporary file cannot be made, the exit status tells that formatting would change the file, but nothing is shown: neither diff nor a warning. filediff (knfmt.c:260-267) does not warn where KS_tmpfd returned -1, and neither does KS_tmpfd.
* `C74_align_refuted`: In general a second run does change something: the first three lines happen to end in the same column and get a single blank, which is then taken for the way all lines are to be continued; the fourth, aligned by the first run, is moved by the second.
* `C74_printf_refuted`: A literal that ends with two newlines loses one in every run.

## Testing the theorems

`seeded/LOG.jsonl` records the wrong programs tried: each line names the definition edited, the edit, the claim it
breaks, the theorems that failed and the theorems tightened as a result.
`failed` is where the build stopped, and is what was observed.  `theorems_failed` is weaker: it lists the
theorems of that file and of the files depending on it, which were not compiled any more; most were not tried
against the edit one by one.  A proof that stops compiling also need not mean its statement is false.
Seventeen edits had been stopped only by an example or a refutation witness.  Rerun with those set aside,
eight survived the theorems of their property.  Two led to tightening (C27 and C22), two are caught by lemmas of
other properties.  Four are still caught by no general theorem that was tried: in `recover` and `type_peek`
(C52; tried against its own file only), `loop_good` (C67) and `diff_verbatim` (C68, comments that go past the chunk).


## Appendix A: functions of the code

Generated from the function definitions in `/repo` and the citations in the `*Model.v` files.
Per file: functions a definition of the model cites (by name or by lines), with the model files,
and functions no definition cites.  Cited does not mean without simplification: the comment at
the citation says what is simplified.  `t.c` and `fuzz-*.c` (tests and fuzzers) are left out.

In total 578 functions (13022 lines) are cited and 136 (1449 lines) are not.

* `clang.c` – in `BracesModel`, `BranchModel`, `DeclModel`, `GuardModel`, `LexModel`, `LexRefine`, `LoopModel`, `PrintfModel`, `RecoverModel`, `SdeclModel`, `StaticModel`, `StreamModel`, `TokListModel`: clang_stamp, clang_branch, clang_recover, clang_token_move_prefixes, clang_token_branch_unlink, clang_keyword_token, clang_token_type, clang_after_read, clang_before_free, clang_find_identifier, clang_read, clang_end_of_branch, clang_last_stamped, clang_recover_find_branch, clang_branch_fold, remove_token, clang_branch_enter, clang_branch_link, clang_branch_leave, clang_branch_purge, clang_read_prefix, peek_c99_comment, sense_clang_format_comment, clang_read_comment, clang_read_cpp, clang_find_cpp, clang_keyword, clang_find_keyword, clang_find_keyword1, clang_ellipsis, token_move_prefix, token_branch_exhaust, token_branch_find, token_branch_link, token_branch_parent, token_branch_parent_update_flags, token_branch_revert, token_prolong, isnum. **Not modelled:** clang_init, clang_shutdown, clang_alloc, clang_free, clang_lexer_callbacks, clang_token_branch_next, clang_token_branch_parent, clang_token_alloc, clang_token_type_str, clang_token_serialize, clang_token_type_serialize, clang_token_serialize_prefix.
* `comment.c` – in `CommentModel`, `CppAlignModel`, `LexModel`: comment_trim, nextline, skipws, rskipws.
* `compat-pledge.c` – in `MainModel`: pledge.
* `cpp-align.c` – in `CommentModel`, `CppAlignModel`, `LexModel`: classify_indent, nextline, is_not_aligned, all_identical, all_tabs, sense_alignment, cpp_align. **Not modelled:** all_not_aligned.
* `cpp-include-guard.c` – in `GuardModel`: is_guard_define, path_to_guard, sense_include_guards, emit_cpp, emit_line, emit_ifndef, ensure_line, cpp_include_guard.
* `cpp-include.c` – in `IncludeModel`, `LexModel`: cpp_include_alloc, cpp_include_leave, cpp_include_add, add_to_include_group, include_cmp, is_main_include, cpp_include_exec, cpp_include_reset, add_line, findpath, token_trim_verbatim_line. **Not modelled:** cpp_include_free, cpp_include_done.
* `diff.c` – in `DdocModel`, `DiffModel`, `MainModel`, `SearchModel`: diff_init, diff_parse, diff_get_chunk, diff_end, matchpath, strtou, matchchunk, matchline, trimprefix. **Not modelled:** diff_shutdown.
* `doc.c` – in `BuildModel`, `CppAlignModel`, `DdocModel`, `DeclModel`, `DocModel`, `ParserModel`, `RecoverModel`, `StmtModel`, `WholeModel`: doc_exec, doc_width, doc_remove, doc_remove_tail, doc_set_indent, doc_set_dedent, doc_set_align, doc_append, doc_move_before, doc_init, doc_root_impl, doc_alloc_impl, doc_indent_impl, doc_dedent_impl, doc_minimize_free, doc_minimize_impl, doc_literal_impl, doc_token_free, doc_token, doc_max, doc_exec1, doc_exec_indent, doc_exec_align, doc_exec_verbatim, doc_exec_minimize, doc_exec_minimize_indent, doc_exec_minimize_indent1, doc_exec_mute, doc_walk, doc_fits, doc_fits1, doc_print_indent, doc_print_indent1, doc_print, doc_trim_spaces, doc_trim_lines, doc_diff_group_enter, doc_diff_group_leave, doc_diff_group_has_many_chunks, doc_diff_mute_enter, doc_diff_mute_leave, doc_diff_literal, doc_diff_verbatim, doc_diff_exit, doc_diff_emit, doc_diff_covers, doc_diff_is_mute, doc_diff_leave_impl, doc_is_mute, doc_parens_align, doc_column, doc_state_init, doc_state_reset_lines, doc_state_snapshot, doc_state_snapshot_restore, countlines. **Not modelled:** doc_annotate, doc_exec_scope, doc_exec_maxlines, doc_has_list, doc_max1, doc_state_reset, doc_trace_impl, doc_trace_enter_impl, doc_trace_leave_impl, docstr, indentstr, statestr.
* `error.c` – in `ErrorModel`: error_end, error_reset, error_flush. **Not modelled:** error_alloc, error_begin.
* `expr.c` – in `ExprDocModel`, `ExprModel`: expr_init, expr_shutdown, expr_exec, expr_peek, expr_exec1, expr_exec_recover_cast, expr_exec_binary, expr_exec_concat, expr_exec_field, expr_exec_literal, expr_exec_call, expr_exec_parens, expr_exec_prepost, expr_exec_sizeof, expr_exec_squares, expr_exec_ternary, expr_exec_unary, expr_exec_peek, expr_doc, expr_doc_unary, expr_doc_binary, expr_doc_parens, expr_doc_field, expr_doc_call, expr_doc_arg, expr_doc_sizeof, expr_doc_concat, expr_doc_ternary, expr_doc_recover, expr_doc_token_impl, expr_free_concat, expr_doc_align_impl, expr_doc_align_disable_impl, expr_doc_align_init, expr_doc_indent_parens, expr_doc_has_spaces, expr_doc_width, expr_doc_soft_impl, expr_state_init, expr_find_rule, token_move_next_line, token_move_prev_line. **Not modelled:** expr_exec_recover, expr_alloc, expr_type_str.
* `file.c` – in `FileModel`: file_read. **Not modelled:** files_alloc, files_free, file_close.
* `fs.c` – in `FileModel`, `SearchModel`: searchpath, tmptemplate.
* `knfmt.c` – in `FileModel`, `MainModel`, `TmpModel`: main, filelist, fileformat, filediff, filewrite, fileprint, fileattr. **Not modelled:** usage.
* `lexer.c` – in `BranchModel`, `DeclModel`, `ErrorModel`, `ExprModel`, `FileModel`, `LexModel`, `LexRefine`, `LinesModel`, `ParserModel`, `RecoverModel`, `StreamModel`, `SynModel`, `TokListModel`, `YamlModel`: lexer_tokenize, lexer_free, lexer_get_state, lexer_set_state, lexer_get_peek, lexer_getc, lexer_ungetc, lexer_match, lexer_emit_template, lexer_emit_synthetic, has_line, lexer_error, lexer_error_flush, lexer_error_reset, lexer_get_lines, lexer_seek, lexer_seek_after, lexer_pop, lexer_back, lexer_back_if, lexer_copy_after, lexer_insert_after, lexer_move_after, lexer_move_before, lexer_remove, lexer_expect_impl, lexer_peek_enter, lexer_peek_leave, lexer_peek, lexer_peek_if, lexer_if, lexer_peek_if_flags, lexer_if_flags, lexer_peek_if_pair, lexer_if_pair, lexer_peek_if_prefix_flags, lexer_peek_until, lexer_peek_until_not_nested, lexer_peek_until_comma, lexer_until, lexer_peek_first, lexer_peek_last, lexer_get_diffchunk, lexer_eat_lines_and_spaces, lexer_eat_lines, lexer_eat_spaces, lexer_eof, lexer_line_alloc, lexer_column, lexer_buffer_slice, lexer_expect_error, lexer_copy_token_list. **Not modelled:** lexer_get_path, lexer_emit, lexer_serialize, lexer_get_error, lexer_dump, lexer_serialize_token_type, lexer_serialize_impl.
* `libks/arch-x86_64.c` – **not modelled:** cpuid, is_x86_64, sse_version, has_bmi1, is_valgrind_running, KS_init.
* `libks/arch.c`
* `libks/arena-buffer.c` – in `DiffModel`: arena_buffer_getline. **Not modelled:** arena_buffer_alloc, arena_buffer_read, arena_buffer_read_fd, callback_alloc, callback_realloc, callback_free.
* `libks/arena-vector.c` – **not modelled:** callback_calloc, callback_realloc, callback_free, arena_vector_init.
* `libks/arena.c` – in `ArenaModel`, `CleanupModel`, `StreamModel`: align_address, arena_push, arena_frame_alloc, arena_alloc, arena_free, arena_scope_leave, arena_scope_enter_impl, arena_scope_validate, arena_malloc, arena_calloc, arena_realloc_fast, arena_realloc, arena_sprintf, arena_strdup, arena_strndup, arena_cleanup, arena_poison. **Not modelled:** frame_poison, frame_unpoison, arena_ref, arena_rele, arena_stats_bytes, arena_stats_frames, arena_stats_scopes, arena_stats_alignment, arena_stats.
* `libks/arithmetic.c` – in `ArithModel`: KS_i32_add_overflow0, KS_i32_sub_overflow0, KS_i32_mul_overflow0, KS_i64_add_overflow0, KS_i64_sub_overflow0, KS_i64_mul_overflow0, KS_u32_add_overflow0, KS_u32_sub_overflow0, KS_u32_mul_overflow0, KS_u64_add_overflow0, KS_u64_sub_overflow0, KS_u64_mul_overflow0, KS_size_add_overflow0, KS_size_sub_overflow0, KS_size_mul_overflow0.
* `libks/buffer.c` – in `BufferModel`, `DocModel`, `VectorModel`: buffer_alloc_impl, buffer_read_fd_impl, buffer_puts, buffer_putc, buffer_vprintf, buffer_release, buffer_str, buffer_reset, buffer_pop, buffer_cmp, buffer_getline, buffer_getline_impl, buffer_getline_free, buffer_reserve, callback_realloc. **Not modelled:** buffer_alloc, buffer_read, buffer_read_impl, buffer_read_fd, buffer_free, buffer_printf, buffer_get_ptr, buffer_get_len, buffer_get_size, callback_alloc, callback_free.
* `libks/consistency.c` – **not modelled:** assert_consistency.
* `libks/map.c` – in `MapModel`: map_init, map_free, map_insert, map_insert_n, map_find, map_find_n, map_remove, map_iterate, map_alloc_element, key_get_ptr, key_get_size, pointer_align, HASH_ADD, HASH_ADD_TO_TABLE, HASH_APPEND_LIST, HASH_DELETE, HASH_DEL_IN_BKT, HASH_EXPAND_BUCKETS, HASH_FIND, HASH_MAKE_TABLE, HASH_TO_BKT, hash_key_init, hash_key_read_u32, HASH_JEN. **Not modelled:** map_key, element_get_key, element_get_val.
* `libks/string.c` – in `StrModel`: KS_str_match_default, KS_str_match_until_default, KS_str_split.
* `libks/tmp.c` – in `TmpModel`: KS_tmpfd.
* `libks/vector.c` – in `VectorModel`: vector_init_impl, vector_alloc, vector_pop, vector_clear, vector_sort, vector_first, vector_last, vector_reserve1. **Not modelled:** callback_calloc, callback_realloc, callback_free, vector_init, vector_free, vector_reserve, ptov.
* `options.c` – in `MainModel`: options_init, options_trace_parse, ctotrace.
* `parser-attributes.c` – in `DeclModel`: parser_attributes_peek, parser_attributes.
* `parser-braces.c` – in `BracesModel`, `DeclModel`, `ExprModel`: parser_braces, is_first_token_on_line, is_row_aligned, parser_braces_with_ruler, parser_braces_field, parser_braces_field1, peek_expr_stop, lbrace_cache_lookup, insert_trailing_comma.
* `parser-cpp.c` – in `DeclModel`, `ExprModel`: is_list_entry, parser_cpp_peek_type, parser_cpp_peek_decl, parser_cpp_peek_x, parser_cpp_x, parser_cpp_cdefs, parser_cpp_decl_root, iscdefs. **Not modelled:** parser_cpp_decl_enter, parser_cpp_decl_leave.
* `parser-decl.c` – in `DeclModel`, `ForwardModel`, `SdeclModel`, `SynModel`: parser_decl, parser_decl1, parser_decl2, parser_decl_init, parser_decl_peek_parens_or_squares, parser_decl_init1, parser_decl_init_assign, parser_decl_bitfield, parser_decl_braces, parser_simple_decl_enter, parser_simple_decl_forward_enter. **Not modelled:** parser_decl_peek.
* `parser-expr.c` – in `ExprDocModel`, `ExprModel`, `SynModel`: parser_expr_peek, parser_expr, expr_recover, peek_binary_operator, expr_recover_cast, expr_doc_token.
* `parser-extern.c` – in `DeclModel`: parser_extern.
* `parser-func.c` – in `DeclModel`, `ProtoModel`, `SynModel`: parser_func_peek1, parser_func_decl, parser_func_decl1, parser_simple_decl_proto_enter, parser_func_impl, parser_func_arg, parser_func_impl1, parser_func_proto, parser_func_arg_peek, want_line_after_func_impl. **Not modelled:** parser_func_peek.
* `parser-stmt-asm.c` – in `DeclModel`, `SynModel`: doc_asm_operand, parser_stmt_asm_operand_cpp, parser_stmt_asm_operand, parser_asm_peek, parser_root_asm, parser_decl_asm, parser_stmt_asm, parser_asm.
* `parser-stmt-expr.c` – in `ExprModel`, `SynModel`: is_loop_stmt, parser_stmt_expr, parser_stmt_expr_gnu.
* `parser-stmt.c` – in `SynModel`: parser_stmt, parser_stmt1, is_case_on_same_line, parser_stmt_block, peek_else_if, has_if_stmt_braces, parser_stmt_if, parser_stmt_for, parser_stmt_dowhile, parser_stmt_kw_expr, parser_stmt_label, parser_stmt_case, parser_stmt_goto, parser_stmt_switch, parser_stmt_while, parser_stmt_break, parser_stmt_continue, parser_stmt_return, parser_stmt_semi, parser_stmt_cpp, is_loop_stmt. **Not modelled:** parser_stmt_peek, parser_simple_stmt_enter, parser_simple_stmt_no_braces_enter, parser_simple_stmt_no_braces_leave, is_simple_stmt, peek_simple_stmt.
* `parser-type.c` – in `DeclModel`, `ExprModel`, `SynModel`: parser_type_peek, find_align_token, parser_type, peek_type_func_ptr, peek_type_ptr_array, peek_type_ident_after_type, peek_type_noident, peek_type_unknown_array, peek_type_unknown_bitfield, peek_type_squares.
* `parser.c` – in `DdocModel`, `DeclModel`, `FileModel`, `ParserModel`, `RecoverModel`, `SynModel`, `WholeModel`: countlines, clang_format_verbatim, clang_format_on, clang_format_off, parser_exec, parser_root, parser_fail_impl, parser_width, parser_good, parser_none, parser_reset, parser_doc_token_impl, parser_semi. **Not modelled:** parser_alloc, is_branch, parser_token_trim_before, parser_token_trim_after, parser_arena_scope_enter, parser_arena_scope_leave.
* `ruler.c` – in `RulerModel`: ruler_init, ruler_insert_impl, ruler_indent_impl, ruler_indent_remove, ruler_exec, ruler_get_column_count, ruler_exec_indent, ruler_column_alignment, ruler_column_length, countspaces, minimize. **Not modelled:** ruler_free, ruler_reset.
* `simple-decl-forward.c` – in `ForwardModel`, `ForwardProps`: simple_decl_forward_enter, decl_forward_cmp, simple_decl_forward_reset, first_token, last_token, simple_decl_forward_leave, is_forward_decl, find_ident, is_covered_by_diff, simple_decl_forward. **Not modelled:** simple_decl_forward_free.
* `simple-decl-proto.c` – in `ProtoModel`: simple_decl_proto_enter, simple_decl_proto_leave, simple_decl_proto_arg, simple_decl_proto_arg_ident. **Not modelled:** simple_decl_proto_free.
* `simple-decl.c` – in `SdeclModel`: simple_decl_enter, simple_decl_leave, is_type_valid, simple_decl_type, simple_decl_semi, simple_decl_comma, token_range_str, decl_var_cmp, decl_var_is_empty, decl_type_slot, simple_decl_type_create, simple_decl_type_find, simple_decl_move_vars, simple_decl_var_end, associate_semi, classify. **Not modelled:** simple_decl_free, decl_free, simple_decl_var_init.
* `simple-expr-printf.c` – in `PrintfModel`: identify_function, find_format_argument_inner, find_format_argument, string_has_line, simple_expr_printf.
* `simple-implicit-int.c` – in `StaticModel`: is_implicit_int, simple_implicit_int.
* `simple-static.c` – in `StaticModel`: find_static_token, simple_static.
* `simple-stmt-empty-loop.c` – in `LoopModel`: sense_empty_loop_braces, insert_continue, insert_semi, simple_stmt_empty_loop_braces, simple_stmt_empty_loop_no_braces.
* `simple-stmt-switch.c` – in `LoopModel`: token_move_to_next_line, simple_stmt_switch.
* `simple-stmt.c` – in `StmtModel`: simple_stmt_leave, simple_stmt_braces_enter, simple_stmt_no_braces_enter, simple_stmt_no_braces_leave, simple_stmt_alloc, is_stmt_empty, simple_stmt_need_braces, need_braces, add_braces, remove_braces, isoneline, is_brace_moveable, strtrim. **Not modelled:** simple_stmt_enter, simple_stmt_free.
* `simple.c` – in `BracesModel`, `ExprDocModel`, `SimpleModel`: simple_alloc, simple_enter, simple_leave, is_simple_enabled, simple_disable, simple_enable, is_pass_mutually_exclusive.
* `style.c` – in `CppAlignModel`, `DdocModel`, `DocModel`, `IncludeModel`, `LexModel`, `SearchModel`, `SynModel`, `YamlModel`: style_init, style_parse, style_parse_buffer, style, priority_cmp, style_include_priorities, style_include_priority, style_defaults, style_set, style_parse_yaml, yaml_document_language, skip_document, style_parse_yaml_documents, style_dump, yaml_read, yaml_read_integer, yaml_keyword, yaml_find_keyword, parse_bool, parse_enum, parse_integer, parse_integer_impl, parse_string, parse_nested, parse_AlignOperands, clang_format_dump_style, parse_BasedOnStyle, parse_ColumnLimit, parse_IncludeCategories, parse_IncludeGuards, parse_Priority, parse_Regex. **Not modelled:** style_shutdown, style_dump_keywords, style_free, style_brace_wrapping, style_dump_IncludeCategories, yaml_token_alloc, yaml_token_serialize, yaml_token_type_serialize, yaml_type_str, style_keyword_str.
* `token.c` – in `BracesModel`, `BranchModel`, `DeclModel`, `ExprDocModel`, `ExprModel`, `ForwardModel`, `GuardModel`, `IncludeModel`, `ParserModel`, `RecoverModel`, `RulerModel`, `SdeclModel`, `StaticModel`, `StmtModel`, `StreamModel`, `SynModel`, `TokListModel`, `TokenModel`: token_alloc, token_ref, token_rele, token_trim, token_position_after, token_cmp, token_strcmp, token_memcmp, token_has_cpp, token_type_normalize, token_has_suffix, token_has_line, token_has_verbatim_line, token_has_prefixes, token_has_tabs, token_has_spaces, token_is_decl, token_is_moveable, token_is_first, token_is_dangling, token_list_prepend, token_list_append, token_list_append_after, token_list_remove, token_list_swap, token_list_first, token_list_last, token_find_suffix_spaces, token_move_suffixes, token_move_suffixes_if, token_flags_inherit, token_list_find. **Not modelled:** token_serialize, token_serialize_with_extra_flags, token_has_indent, token_has_c99_comment, token_set_str, token_flags_str, token_type_str.
* `trace.c` – **not modelled:** trace_type_str, trace_impl.
* `util.c` – in `UtilModel`: colwidth, strwidth, path_slice, is_path_header, strindent_buffer, strnice_buffer. **Not modelled:** strnice.

## Appendix B: assumptions of each theorem

Generated: what `Print Assumptions` answers for each theorem named in `MANIFEST.json`.

Every one of them is answered by `Closed under the global context` (no axioms):

* `AgainAlignProps`: C74_align_partial, C74_align_blank, C74_align_refuted.
* `AgainProps`: C74_static, C74_implicit_int, C74_printf_partial, C74_printf_refuted.
* `ArenaProps`: C43_sound, C43_run, C43_leave, C43_realloc, C43_calloc, C43_trap, C43_free.
* `ArithProps`: C45_signed, C45_unsigned, C45_unsigned_mul_partial, C45_unsigned_mul_refuted.
* `BracesProps`: C70_comma, C70_order, C70_once, C70_effective_partial, C70_align, C70_align_not, C70_comment_refuted.
* `BranchProps`: C16_parse, C16_link, C56_progress, C56_balanced, C56_copy_refuted.
* `BufferProps`: C38_run, C38_effect, C38_compare, C39_complete, C39_new, C39_full_refuted, C40_lines, C40_nomem_refuted.
* `CleanupProps`: C71_strndup, C71_sprintf, C71_cleanup.
* `CommentProps`: C23_defined, C23_lines, C23_nonblank, C23_idempotent.
* `CppAlignProps`: C24_blanks, C24_columns, C24_sensed, C24_underflow_refuted.
* `CppSenseProps`: C24_sense.
* `DdocProps`: C68_off, C68_lines, C68_kept, C68_identity, C68_defined, C68_shared_refuted, C68_suffix_refuted, C68_nested_refuted.
* `DeclProps`: C62_tokens, C62_solid, C62_output, C62_rendered, C62_answer, C62_order_refuted, C62_lost_refuted, C62_apart_refuted.
* `DiffProps`: C28_parse, C28_lines, C28_range, C28_nonewline_refuted, C28_header_refuted, C29_lookup.
* `DocProps`: C17_texts, C17_strip, C18_clean, C19_runs_partial, C19_runs_refuted, C20_fits, C20_group, C20_next_break_refuted, C21_column_partial, C21_column_refuted, C22_best_partial, C22_trials, C22_forced, C22_best_refuted.
* `ErrorProps`: C53_flush, C53_reset, C53_peek, C53_context.
* `ExceedProps`: C22_exceeds.
* `ExprDocProps`: C60_pieces, C60_tokens, C60_text, C60_output, C60_one_line, C60_style.
* `ExprProps`: C52_total, C52_grouping, C52_left, C52_right, C52_round_trip, C52_grammar, C52_tokens, C52_all_tokens, C52_all_tokens_refuted, C52_condition_refuted, C52_cast_refuted, C52_postfix_refuted, C52_strings_refuted.
* `FileProps`: C36_directory, C36_atomic, C36_content, C36_step, C36_nothing, C36_result, C36_leftovers, C36_cleanup, C36_readonly, C36_power_refuted, C37_exit, C37_diff, C57_attributes, C57_setid_refuted, C58_output, C58_success.
* `ForwardProps`: C32_forward, C32_forward_trivia, C32_comment_refuted.
* `GuardProps`: C27_guard, C27_identifier_partial, C27_identifier_refuted, C27_bytes_refuted, C27_rewritten, C27_right, C27_blank_refuted.
* `IncludeProps`: C25_sorted, C25_permuted, C26_path_partial, C26_closed, C26_overread_refuted, C26_comment_refuted.
* `IndentProps`: C59_restored, C59_placed, C59_parens, C59_muted.
* `LexProps`: C01_tiling, C01_cover, C01_order, C01_tokens, C01_discard, C01_discard_backslash, C02_safe, C02_eof, C02_eof_tokenized, C03_eof_text, C04_positions, C04_diff, C05_longest, C06_string, C06_quote, C07_comments, C07_none_missed, C08_directives_partial, C08_none_missed, C08_end_partial, C08_string_refuted, C08_slash_refuted, C09_merge_partial, C09_merge_refuted.
* `LinesProps`: C54_lines, C54_past, C54_zero_refuted, C54_reversed_refuted.
* `LoopProps`: C66_loop, C66_switch, C66_again, C66_reached_refuted, C66_directive_refuted.
* `MainProps`: C72_accepted, C72_options, C72_readonly, C72_files, C72_trace, C72_traced_partial, C72_traced_refuted, C72_pledge.
* `MapProps`: C42_insert, C42_find, C42_remove, C42_iterate, C42_free, C42_empty, C42_run, C42_null_refuted, C42_twice_refuted.
* `ParserProps`: C55_regions, C55_verbatim, C55_recognised, C55_nested_refuted, C55_line_refuted.
* `PrintfProps`: C33_message_partial, C33_message_refuted, C33_wide_refuted, C33_argument, C33_frame, C33_macro_refuted.
* `ProtoProps`: C65_names, C65_all_or_none, C65_operand_refuted, C65_pointer_refuted.
* `QueueProps`: C44_step, C44_read, C44_run, C44_start.
* `RecoverProps`: C67_progress, C67_balanced, C67_branch, C67_recover, C67_text, C67_docs_partial, C67_docs_refuted.
* `RulerProps`: C30_sense, C30_aligned, C30_bounded, C30_fixed, C30_max_tabs_refuted, C30_tab_token_refuted.
* `SdeclProps`: C64_grouped, C64_left, C64_declared, C64_comma_refuted, C64_stars_refuted, C64_use_refuted.
* `SearchProps`: C69_search, C69_ends, C69_nearest.
* `SimpleProps`: C31_enter, C31_entered, C31_restored, C31_one_group, C31_leave_once, C31_disabled, C31_exclusive_refuted, C31_group_refuted.
* `StaticProps`: C34_static, C34_implicit_int.
* `StmtProps`: C35_braces, C35_several_lines, C35_protected, C35_ignored_refuted, C35_max_refuted.
* `StrProps`: C46_match_native_default, C46_match_spec, C46_match_until_native_default_partial, C46_match_until_spec, C46_match_until_refuted, C49_split_spec, C49_split_unique.
* `StreamProps`: C10_lookahead, C10_peeks, C10_values, C10_prefix, C11_if, C11_if_halted, C11_if_peeking, C11_if_flags, C11_until, C11_saw, C11_unchanged_refuted, C12_pair, C12_if_pair, C12_unique, C12_comma.
* `SynProps`: C61_total, C61_total_gnu, C61_layout, C61_place, C61_none, C61_tokens, C61_output, C61_braces_refuted, C61_comments_refuted.
* `TmpProps`: C73_status, C73_descriptors, C73_files, C73_umask, C73_diff, C73_stable, C73_shown_partial, C73_silent_refuted.
* `TokListProps`: C13_remove, C13_order, C13_eof, C14_insert_after, C14_copy_after, C14_move_after, C14_move_before, C15_swap, C15_swap_partial, C15_swap_refuted.
* `UtilProps`: C47_strwidth, C47_colwidth, C47_compose, C47_strnice_printable, C47_strnice_round_trip, C47_strnice_refuted, C48_strindent, C48_unaligned_refuted, C49_path_slice, C49_absolute_refuted, C49_header.
* `VectorProps`: C41_step, C41_init, C41_read, C41_run.
* `WholeProps`: C63_words, C63_nothing_new, C63_only_semicolons, C63_documents, C63_alignment, C63_comment_refuted, C63_twice_refuted, C63_end_refuted.
* `YamlProps`: C50_numeral, C50_other, C50_arith, C50_option, C50_min_refuted, C50_rejected_refuted, C50_malformed_refuted, C51_config, C51_ignored, C51_last, C51_total, C51_byte_refuted, C51_novalue_refuted, C51_stop_refuted.
