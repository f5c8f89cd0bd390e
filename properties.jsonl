{"id": "C01", "title": "Tokenization accounts for every input byte", "statement": "Reading a source buffer to EOF yields tokens (with their attached leading comments/directives and trailing comments/whitespace) whose source spans are disjoint, appear in input order, and leave uncovered only blank characters (space, tab, form feed, carriage return, newline). No other input byte is skipped or duplicated.", "quantifier": "every finite byte sequence used as input buffer", "why_tests_cant": "The input space is infinite and the reader backtracks at many points; tests only sample well-formed C files.", "anchors": ["lexer.c:lexer_getc,lexer_ungetc,lexer_eat_lines,lexer_eat_spaces,lexer_emit_template", "clang.c:clang_read,clang_read_prefix,clang_read_comment,clang_read_cpp,clang_keyword"]}
{"id": "C02", "title": "Tokenization terminates with exactly one EOF token", "statement": "For every input buffer the tokenizer finishes, never reads outside the buffer and returns a token list in which exactly the last token is EOF; every other token consumed at least one byte.", "quantifier": "every finite byte sequence", "why_tests_cant": "Termination and memory safety over all inputs cannot be established by finite sampling.", "anchors": ["lexer.c:lexer_tokenize,lexer_getc", "clang.c:clang_read"]}
{"id": "C03", "title": "Text swallowed by EOF is exactly an unterminated literal or a final unknown byte", "statement": "The EOF token carries source text only if the input ends inside an unterminated string/character literal or its last byte is not the start of any token; since the EOF text is never emitted, in every other case nothing is lost at the end of a file.", "quantifier": "every finite byte sequence", "why_tests_cant": "Requires considering all ways the input can end.", "anchors": ["clang.c:clang_read", "parser.c:parser_exec"]}
{"id": "C04", "title": "Token positions are the true source positions", "statement": "The line and column recorded in each token equal the line number and tab-expanded column of its first byte in the input, no matter how often the reader backtracked over newlines.", "quantifier": "every input and every token read from it", "why_tests_cant": "Backtracking across newlines mutates the line counter and the line table in ways depending on input shape.", "anchors": ["lexer.c:lexer_getc,lexer_ungetc,lexer_line_alloc,lexer_column,lexer_emit_template", "util.c:colwidth"]}
{"id": "C05", "title": "Operators are read by longest match", "statement": "A punctuation token is the longest entry of the operator table that is a prefix of the remaining input; '..' is two periods, '...' an ellipsis and a period followed by a digit starts a number.", "quantifier": "every remaining input at which a token starts", "why_tests_cant": "The reader decides one character at a time using an ambiguity flag; correctness depends on the whole table and on all continuations.", "anchors": ["clang.c:clang_keyword,clang_find_keyword,clang_ellipsis", "token.h:FOR_TOKEN_TYPES"]}
{"id": "C06", "title": "String and character literals end at the first unescaped delimiter", "statement": "A literal token extends from its opening quote (optionally preceded by L) to the first delimiter not preceded by an odd number of backslashes, and nothing inside it is interpreted.", "quantifier": "every input containing a literal, every nesting of escapes", "why_tests_cant": "Runs of backslashes of unbounded length.", "anchors": ["clang.c:clang_read"]}
{"id": "C07", "title": "Comments end where C says they end", "statement": "A block comment token ends at the first */ after its opening (/*/ does not close it), a // comment extends to the end of line and adjacent // lines are joined; an unterminated comment extends to the end of the buffer.", "quantifier": "every input in which a comment starts", "why_tests_cant": "Unbounded contents.", "anchors": ["clang.c:clang_read_comment,peek_c99_comment"]}
{"id": "C08", "title": "A preprocessor directive spans its continuation lines", "statement": "A directive token extends to the first newline that is neither escaped by a backslash nor inside a block comment opened within the directive.", "quantifier": "every input in which a directive starts", "why_tests_cant": "Unbounded contents and interleavings of comments and continuations.", "anchors": ["clang.c:clang_read_cpp"]}
{"id": "C09", "title": "Merging comments on one line keeps their text", "statement": "When several block comments share a line they are joined into one token whose text must be the text of all of them.", "quantifier": "every pair of comments on the same line", "why_tests_cant": "The length arithmetic mixes trimmed and untrimmed lengths; only rare inputs expose it.", "anchors": ["clang.c:clang_read_prefix,token_prolong", "comment.c:comment_trim"]}
{"id": "C10", "title": "Peeking never moves the parser", "statement": "Any combination of look-ahead operations leaves the stream position, the error flag and the peek depth exactly as before.", "quantifier": "every token list, every position, every nesting of look-aheads", "why_tests_cant": "The look-ahead functions compose arbitrarily.", "anchors": ["lexer.c:lexer_peek,lexer_peek_if,lexer_peek_if_flags,lexer_peek_if_pair,lexer_peek_until,lexer_peek_until_comma,lexer_peek_enter,lexer_peek_leave"]}
{"id": "C11", "title": "Conditional consumption is exact", "statement": "Consuming a token of an expected type advances by exactly that token if the next token has the type and otherwise leaves the position unchanged, unless a preprocessor branch halts the stream.", "quantifier": "every token list and position", "why_tests_cant": "Unbounded token lists with arbitrary branch markers.", "anchors": ["lexer.c:lexer_if,lexer_if_flags,lexer_if_pair,lexer_pop,lexer_until"]}
{"id": "C12", "title": "Pair look-ahead finds the matching bracket", "statement": "Peeking a bracket pair returns the first position at which the opening and closing counts balance, and fails if there is none.", "quantifier": "every token sequence and nesting depth", "why_tests_cant": "Unbounded nesting.", "anchors": ["lexer.c:lexer_peek_if_pair,lexer_if_pair,lexer_peek_until_comma"]}
{"id": "C13", "title": "Removing a token keeps its comments and directives", "statement": "Removing a token hands its leading comments/directives to the following token (ahead of that token's own) and its trailing ones to the preceding token (after that token's own), in order; the removed text itself is the only thing that disappears.", "quantifier": "every token list and every removable token", "why_tests_cant": "Arbitrary token/prefix/suffix populations.", "anchors": ["lexer.c:lexer_remove", "clang.c:clang_token_move_prefixes", "token.c:token_move_suffixes"]}
{"id": "C14", "title": "Moving, inserting and copying tokens edits exactly one place", "statement": "Moving a token keeps the multiset of tokens and the relative order of all others; insertion and copy add exactly one token right after the anchor.", "quantifier": "every token list and every pair of positions", "why_tests_cant": "Unbounded lists.", "anchors": ["lexer.c:lexer_move_after,lexer_move_before,lexer_insert_after,lexer_copy_after"]}
{"id": "C15", "title": "Swapping trailing trivia exchanges two lists except the kept tokens", "statement": "Swapping the suffixes of two tokens moves every suffix not carrying the keep-flag to the other token and neither drops nor duplicates a suffix.", "quantifier": "every pair of suffix lists and flag masks", "why_tests_cant": "The loop restarts from the list head on each iteration; only particular arrangements expose the problem.", "anchors": ["token.c:token_list_swap", "lexer.c:lexer_move_before"]}
{"id": "C16", "title": "Preprocessor branches are matched like brackets", "statement": "After tokenization every #if/#else/#endif directive that takes part in a complete conditional is linked to its neighbours in source order and refers to the token it precedes; every unmatched directive is demoted to an opaque directive.", "quantifier": "every sequence of conditional directives with arbitrary nesting", "why_tests_cant": "Arbitrary nesting and malformed nesting.", "anchors": ["clang.c:clang_branch_enter,clang_branch_link,clang_branch_leave,clang_branch_purge,token_branch_revert"]}
{"id": "C17", "title": "The printer emits every piece of text in order", "statement": "The formatted text with blanks removed equals the concatenation, in document order, of all literal and verbatim texts with blanks removed; layout decisions only ever add or remove blanks.", "quantifier": "every layout document and every style", "why_tests_cant": "Layout depends on width, nesting and look-ahead over unbounded documents.", "anchors": ["doc.c:doc_exec,doc_exec1,doc_exec_literal,doc_exec_verbatim,doc_print,doc_trim_spaces"]}
{"id": "C18", "title": "No trailing blanks on lines the printer breaks", "statement": "Whenever the printer breaks a line no space or tab is left before the newline.", "quantifier": "every document", "why_tests_cant": "Interaction of indentation, alignment and line breaks over all documents.", "anchors": ["doc.c:doc_print,doc_trim_spaces,doc_exec_hardline"]}
{"id": "C19", "title": "Bounded runs of blank lines", "statement": "The printer never emits more consecutive newlines through its line-breaking nodes than the configured maximum.", "quantifier": "every document", "why_tests_cant": "Runs arise from arbitrary nesting of line nodes.", "anchors": ["doc.c:doc_print,doc_exec1"]}
{"id": "C20", "title": "A group printed on one line fits the column limit", "statement": "The printer keeps a group flat if and only if the text of the group laid out on one line from the current column ends at or before the column limit, and then prints exactly that text without a line break; otherwise it breaks the lines of the group.", "quantifier": "every group without unconditional line breaks, verbatim parts and muting, every position and column limit", "why_tests_cant": "Unbounded documents.", "anchors": ["doc.c:doc_fits,doc_fits1,doc_exec_group"]}
{"id": "C21", "title": "The printer's column counter is the true column", "statement": "After every printing step the column used for layout decisions equals the tab-expanded width of the last line in the output.", "quantifier": "every document", "why_tests_cant": "The counter is updated incrementally on many paths.", "anchors": ["doc.c:doc_print,doc_indent,doc_trim_spaces"]}
{"id": "C22", "title": "Choosing an indentation never loses to a worse candidate", "statement": "Among the candidate indentations tried for a document the selected one has the lowest penalty, earlier candidates winning ties, and trying candidates has no effect on the emitted output.", "quantifier": "every document and every candidate list", "why_tests_cant": "Requires all documents and penalties.", "anchors": ["doc.c:doc_exec_minimize,doc_exec_minimize_indent,doc_exec_snapshot,doc_exec_restore"]}
{"id": "C23", "title": "Comment trimming only touches blanks", "statement": "Normalising a comment keeps its number of lines and every non-blank byte in order, leaves no blanks at line ends, keeps the line ending convention and changes nothing when applied again.", "quantifier": "every comment text", "why_tests_cant": "Unbounded text with arbitrary blanks and line endings.", "anchors": ["comment.c:comment_trim,skipws,rskipws,nextline"]}
{"id": "C24", "title": "Aligning macro continuations keeps the macro body", "statement": "Re-aligning the trailing backslashes of a multi-line #define changes only the blanks in front of the backslashes. The alignment in use is recognised from the first three continued lines: a single blank each, or, the first line aside, one column by tabs or by spaces without mixing them; nothing is recognised when one of them goes beyond the limit.", "quantifier": "every directive text and every alignment style", "why_tests_cant": "Unbounded text.", "anchors": ["cpp-align.c:cpp_align,nextline,sense_alignment"]}
{"id": "C25", "title": "Sorting includes permutes them", "statement": "Sorting a block of includes yields the same directives, each exactly once, ordered by priority group and then by the path order; blank lines and groups are placed only between groups.", "quantifier": "every include block and style configuration", "why_tests_cant": "Unbounded blocks and arbitrary category configuration.", "anchors": ["cpp-include.c:cpp_include_exec,cpp_include_add,cpp_include_leave,findpath"]}
{"id": "C26", "title": "Extracting an include path stays within the directive", "statement": "The path of an include directive is found between the first matching delimiters and no byte outside the directive is examined.", "quantifier": "every directive text", "why_tests_cant": "An out-of-bounds read is invisible in ordinary tests.", "anchors": ["cpp-include.c:findpath"]}
{"id": "C27", "title": "Include guards derive from the path", "statement": "The generated guard is a valid identifier for the last path components, and rewriting a guard that is already right changes nothing.", "quantifier": "every path and every header", "why_tests_cant": "Unbounded paths and headers.", "anchors": ["cpp-include-guard.c"]}
{"id": "C28", "title": "Diff parsing records exactly the added lines", "statement": "For a well-formed unified diff the recorded chunks of each file are non-empty, ordered, disjoint and cover exactly the new-file line numbers of added lines.", "quantifier": "every unified diff", "why_tests_cant": "Unbounded number of files, hunks and lines.", "anchors": ["diff.c:diff_parse,parse_hunk"]}
{"id": "C29", "title": "Diff chunk lookup is membership", "statement": "Looking up a line returns a chunk covering it if there is one and nothing otherwise.", "quantifier": "every chunk list and line number", "why_tests_cant": "Unbounded lists.", "anchors": ["diff.c:diff_get_chunk"]}
{"id": "C30", "title": "Aligned columns line up", "statement": "After executing a ruler every entry of an aligned column is padded to end at the same output column which is at least as wide as the widest entry; in bounded modes longer entries get no padding.", "quantifier": "every set of rows and columns and every alignment mode", "why_tests_cant": "Unbounded tables.", "anchors": ["ruler.c:ruler_insert,ruler_exec,ruler_exec_indent,minimize"]}
{"id": "C31", "title": "Simplification passes nest properly", "statement": "At any time at most one simplification pass is active, entering while another is active is refused (unless forced), and leaving restores the enclosing state.", "quantifier": "every sequence of enter/leave requests", "why_tests_cant": "Unbounded request sequences.", "anchors": ["simple.c:simple_enter,simple_leave,is_simple_enabled"]}
{"id": "C32", "title": "Declaration sorting keeps all declarations", "statement": "Simplifying a run of forward declarations or local variables only permutes the declarations and sorts them in the documented order.", "quantifier": "every run of declarations", "why_tests_cant": "Unbounded runs.", "anchors": ["simple-decl-forward.c", "simple-decl.c"]}
{"id": "C33", "title": "Removing a trailing newline from error messages keeps a valid literal", "statement": "Stripping the redundant newline escape from the message of err/warn style calls yields a valid string literal denoting the message without its final newline.", "quantifier": "every string literal token", "why_tests_cant": "Depends on parity of a backslash run of unbounded length.", "anchors": ["simple-expr-printf.c"]}
{"id": "C34", "title": "Qualifier and implicit-int rewriting keeps the type", "statement": "Moving static to the front and inserting int after a lone signed/unsigned keeps every other token and their order.", "quantifier": "every declaration token sequence", "why_tests_cant": "Unbounded token sequences.", "anchors": ["simple-static.c", "simple-implicit-int.c"]}
{"id": "C35", "title": "Braces are added or removed consistently", "statement": "Within one simplified if/else chain braces are added to all statements if any needs them, removed from all otherwise, and a statement spanning several lines never loses its braces.", "quantifier": "every set of statements", "why_tests_cant": "Unbounded sets.", "anchors": ["simple-stmt.c"]}
{"id": "C36", "title": "In-place rewriting is atomic", "statement": "If formatting in place is interrupted at any point the named file holds either its old or the complete new content, no write happens when nothing changed, and the temporary file is removed on every failure that is handled.", "quantifier": "every crash point, every schedule of short writes and every failing system call", "why_tests_cant": "Crash points and I/O schedules cannot be enumerated by tests.", "anchors": ["knfmt.c:filewrite,fileformat", "fs.c:KS_fs_tmp"]}
{"id": "C37", "title": "Exit status reflects all files", "statement": "The exit status is nonzero iff at least one file failed (or differed, in check mode); a failure in one file does not stop processing of others.", "quantifier": "every list of files and results", "why_tests_cant": "Unbounded lists.", "anchors": ["knfmt.c:main,fileformat,filediff"]}
{"id": "C38", "title": "Growable buffers behave as byte strings", "statement": "Every sequence of buffer operations has the effect of the corresponding operations on a byte string, never writes past the capacity, and reports failure without changing the contents on size overflow.", "quantifier": "every operation sequence", "why_tests_cant": "Unbounded histories and sizes near the overflow boundary.", "anchors": ["libks/buffer.c"]}
{"id": "C39", "title": "Reading a file reads all of it", "statement": "Reading a descriptor into a buffer yields the complete content for every pattern of short reads.", "quantifier": "every content and every read schedule", "why_tests_cant": "Read sizes are chosen by the kernel.", "anchors": ["libks/buffer.c:buffer_read_fd_impl"]}
{"id": "C40", "title": "Line iteration loses nothing", "statement": "Iterating lines of a buffer yields every line once in order; joining them with newlines gives back the buffer.", "quantifier": "every buffer content", "why_tests_cant": "Unbounded contents.", "anchors": ["libks/buffer.c:buffer_getline_impl"]}
{"id": "C41", "title": "Growable vectors behave as sequences", "statement": "Every sequence of vector operations acts as on a mathematical sequence; capacity arithmetic never wraps; popping an empty vector is detected.", "quantifier": "every operation sequence", "why_tests_cant": "Unbounded histories and overflow boundaries.", "anchors": ["libks/vector.c"]}
{"id": "C42", "title": "Hash maps behave as finite maps", "statement": "Insert, lookup, removal and iteration agree with a finite map iterated in insertion order, for every hash function, including across table growth.", "quantifier": "every operation sequence and hash function", "why_tests_cant": "Collisions and growth depend on the hash.", "anchors": ["libks/map.c"]}
{"id": "C43", "title": "Arena allocations never overlap", "statement": "Live allocations are disjoint, aligned and inside the arena's frames; leaving a scope frees exactly what was allocated since entering it; reallocation keeps the old contents.", "quantifier": "every sequence of enter/allocate/reallocate/leave", "why_tests_cant": "Unbounded histories.", "anchors": ["libks/arena.c"]}
{"id": "C44", "title": "Linked list operations refine sequences", "statement": "The intrusive list operations keep the doubly linked structure consistent and act as insertion/removal on the sequence of elements.", "quantifier": "every operation sequence", "why_tests_cant": "Pointer structures of unbounded size.", "anchors": ["libks/list.h"]}
{"id": "C45", "title": "Overflow-checked arithmetic is exact", "statement": "The checked addition, subtraction and multiplication helpers report overflow iff the mathematical result is outside the type and otherwise return it.", "quantifier": "all operand values of all widths", "why_tests_cant": "2^128 operand pairs.", "anchors": ["libks/arithmetic.c"]}
{"id": "C46", "title": "Vectorised and scalar string matching agree", "statement": "The SIMD and portable implementations of span matching return the same length.", "quantifier": "every string and range set", "why_tests_cant": "All lengths, alignments and contents (including NUL bytes).", "anchors": ["libks/string.c", "libks/string-x86_64.S"]}
{"id": "C47", "title": "Width computation agrees with tab stops", "statement": "Column width of a text equals the position reached by moving one column per byte, to the next multiple of eight on tabs and to the start on newlines; widths compose over concatenation.", "quantifier": "every text and start column", "why_tests_cant": "Unbounded text.", "anchors": ["util.c:colwidth,strwidth"]}
{"id": "C48", "title": "Generated indentation has the requested width", "statement": "Emitting an indentation of n columns from a tab stop advances the column by exactly n, with or without tabs.", "quantifier": "every indentation and position", "why_tests_cant": "Unbounded.", "anchors": ["util.c:strindent_buffer"]}
{"id": "C49", "title": "Path slicing returns the last components", "statement": "Slicing a path to n components returns its last n slash separated components joined by slashes (leading empty components of the slice are dropped), or the whole path if it has fewer.", "quantifier": "every path and count", "why_tests_cant": "Unbounded.", "anchors": ["util.c:path_slice", "libks/string.c:KS_str_split"]}
{"id": "C50", "title": "Configuration integers are range checked", "statement": "An integer option accepts exactly the decimal numerals in int range (optionally signed) and stores their value; anything else is rejected.", "quantifier": "every text", "why_tests_cant": "Overflow boundaries and unbounded digit strings.", "anchors": ["style.c:yaml_read_integer"]}
{"id": "C51", "title": "Unknown configuration is ignored without affecting the rest", "statement": "Options not known or with unsupported values leave every setting at its previous value and the options following them are still honoured; the last setting of an option wins.", "quantifier": "every configuration file", "why_tests_cant": "Unbounded configurations.", "anchors": ["style.c:style_parse_yaml,style_parse_yaml1"]}
{"id": "C52", "title": "Expression grouping follows C precedence", "statement": "The grouping chosen for an expression follows the operator precedence and associativity table, and reading the tree from left to right gives back exactly the tokens consumed.", "quantifier": "every operator/operand sequence", "why_tests_cant": "Unbounded expressions.", "anchors": ["expr.c:expr_exec1,expr_exec_binary,expr_exec_ternary,expr_exec_parens"]}
{"id": "C53", "title": "Error messages are withheld until wanted", "statement": "Messages are neither lost nor duplicated: flushing prints all messages recorded since the last reset in order, and nothing is recorded while peeking.", "quantifier": "every sequence of report/flush/reset", "why_tests_cant": "Unbounded histories.", "anchors": ["error.c", "lexer.c:lexer_error"]}
{"id": "C54", "title": "Line ranges are exact slices", "statement": "Asking for the text of lines [a,b) returns exactly those lines of the input.", "quantifier": "every input and every valid line range", "why_tests_cant": "Unbounded input.", "anchors": ["lexer.c:lexer_get_lines"]}
{"id": "C55", "title": "Disabled regions are copied verbatim", "statement": "clang-format off/on regions are copied verbatim from the input.", "quantifier": "every input with such comments", "why_tests_cant": "Unbounded.", "anchors": ["parser.c:parser_doc_token_impl", "clang.c:sense_clang_format_comment"]}
{"id": "C56", "title": "Token lifetimes balance", "statement": "Every reference taken on a token is dropped exactly once, so at shutdown each token has exactly its list reference left.", "quantifier": "every sequence of branch and stamp operations", "why_tests_cant": "Unbounded histories.", "anchors": ["token.c:token_ref,token_rele", "clang.c:clang_before_free"]}
{"id": "C57", "title": "In-place formatting keeps mode and owner", "statement": "A file formatted in place has the permissions, owner and group it had before.", "quantifier": "every file, every attributes, every outcome of the system calls", "why_tests_cant": "Depends on system calls failing at any point.", "anchors": ["knfmt.c:fileattr,filewrite"]}
{"id": "C58", "title": "Standard output holds the formatted files in order", "statement": "Without -d and -i the output is the concatenation of the formatted files in the order given, whatever the sizes of the writes; a file that fails contributes nothing unless writing itself failed.", "quantifier": "every list of files and every schedule of short writes", "why_tests_cant": "I/O schedules cannot be enumerated.", "anchors": ["knfmt.c:fileprint,main"]}
{"id": "C59", "title": "A line that is broken goes on at the indentation in force", "statement": "Executing a document leaves the indentation, parenthesis depth, limit on empty lines and mode as they were. The output of a document of words, lines, groups, indents, optional parts and minimizers is one of the layouts in which every line that is broken goes on with the blanks (tabs of 8 and spaces) for the sum of the indents around the place where it is broken, the blanks before it being removed. Below an opening parenthesis at the beginning of a line the next line is aligned behind the parenthesis. Muted parts leave nothing but at most one line break at the current indentation.", "quantifier": "every document of that kind, every line width and every output written before", "why_tests_cant": "The nesting of indents, groups, minimizers and line breaks is unbounded; tests show some layouts of some documents.", "anchors": ["doc.c:doc_exec1,doc_exec_indent,doc_print,doc_indent,doc_exec_mute,doc_trim_spaces"]}
{"id": "C60", "title": "An expression is printed as its tokens with spaces only between them", "statement": "The document built for an expression consists of the tokens of its tree from left to right with single spaces, places where a line may be broken, or line breaks after comments in between, as a direct left-to-right printer gives them; building it never meets a missing operand for a tree that was read. Blanks aside the text printed is the tokens consumed, for any line limit. An expression that fits is printed on one line with one space at each such place. Style options only change where lines are broken. Parentheses are dropped around the whole or added after sizeof only if asked for.", "quantifier": "every expression tree, style and line limit", "why_tests_cant": "Trees are unbounded and style options multiply the cases; tests compare output for some expressions.", "anchors": ["expr.c:expr_doc,expr_doc_binary,expr_doc_ternary,expr_doc_call,expr_doc_soft", "doc.c:doc_alloc,doc_append,doc_remove"]}
{"id": "C61", "title": "A statement is printed as its tokens, one statement per line", "statement": "parser_stmt() ends for every sequence of tokens without failing an assertion, and reports FAIL just if an error was raised. If it accepts, the document it adds consists, from left to right, of the parts of a statement as a grammar of statements gives them: keywords, expressions, one space or line break where the grammar has one (else after a right brace on the same line, bodies without braces on their own line, statements of a block separated by lines), every line being indented by IndentWidth per block or body around it, switch blocks not counted and labels at the left margin, and at least one token was read. The tokens of these parts followed by the ones not read are the tokens given, but for semicolons that precede or follow another one or follow a right brace. Blanks aside the text printed is those tokens, for any line limit, provided that no expression loses a token. Nothing that was in the document before is touched.", "quantifier": "every sequence of tokens, nesting depth, style and line limit, IndentWidth below the flag values of doc.h; any reader of declarations and of assembly that adds its tokens in order, below the document given, and loses at most such semicolons (C62 shows that the ones of the tool do)", "why_tests_cant": "Nesting and the order of statements are unbounded; tests format some programs.", "anchors": ["parser-stmt.c:parser_stmt,parser_stmt_block,parser_stmt_if,parser_stmt_for,parser_stmt_dowhile,parser_stmt_kw_expr,parser_stmt_label,parser_stmt_case,parser_stmt_goto,parser_stmt_return", "parser-stmt-expr.c:parser_stmt_expr,parser_stmt_expr_gnu", "parser.c:parser_semi"]}
{"id": "C62", "title": "A file is printed as its tokens", "statement": "If parser_exec() accepts the tokens of a file, all of them have been read and the document built consists, from left to right, of these tokens and of blanks (spaces, places where lines may end, columns), but for semicolons that precede or follow another one or follow a right brace, and for the end of the file if no comment or directive precedes it. Hence no other token is dropped, doubled or moved, and what doc_exec() prints, blanks aside, is the tokens kept in order, for any line limit and style, provided no expression loses a token (C52). It is taken for granted that no token is emitted in front of others already emitted and that no document is removed again that a token was emitted to; files that break this are accepted too, such as int a, (*b)[2]; and int , ;.", "quantifier": "every sequence of tokens that ends with the end of the file, nesting depth, style, line limit; any answers to the questions about lines, spaces and columns; files without conditional branches, simplifications and recovery", "why_tests_cant": "Files, nesting and the lists of declarations are unbounded; tests format some files.", "anchors": ["parser.c:parser_exec,parser_root", "parser-decl.c:parser_decl,parser_decl1,parser_decl2,parser_decl_init,parser_decl_init1,parser_decl_init_assign,parser_decl_bitfield,parser_decl_braces", "parser-func.c:parser_func_decl,parser_func_impl,parser_func_proto,parser_func_arg,parser_func_args", "parser-type.c:parser_type", "parser-braces.c:parser_braces", "parser-attributes.c:parser_attributes", "parser-stmt-asm.c:parser_stmt_asm", "parser-cpp.c:parser_cpp_x,parser_cpp_cdefs,parser_cpp_decl_root", "parser-extern.c:parser_extern"]}
{"id": "C63", "title": "Formatting only moves blanks and drops semicolons", "statement": "From the bytes of a file to the bytes written (clang_read(), parser_exec(), doc_exec() together): if the file is accepted, the output consists of the texts of tokens, comments and directives of the input, in the order of the input, with nothing but blanks in between. The bytes of the output other than blanks are some of those of the input in the same order, if tabs are used and lines do not end in carriage returns. They are all of them but for semicolons, if comments do not run together on a line, expressions lose no tokens (C52), the file does not end within a literal and no comment hangs on a semicolon that may be left out. Backslashes on their own, clang-format regions, conditional branches, simplifications and recovery are left aside.", "quantifier": "every input without lone backslashes, style, line limit, nesting; any answers to the questions about lines, spaces and columns", "why_tests_cant": "The claim is about all bytes of all files at once; tests compare some files.", "anchors": ["clang.c:clang_read,clang_read_prefix,clang_read_comment,clang_read_cpp,clang_read_suffix", "comment.c:comment_trim", "cpp-align.c:cpp_align", "parser.c:parser_exec,parser_doc_token_impl", "doc.c:doc_exec"]}
{"id": "C64", "title": "Grouping of local variables keeps the variables", "statement": "Simplifying the declarations of a block (simple_decl_enter() to simple_decl_leave()) never fails. Every declared variable that is a name and stars, without comments or directives at it or its type, is moved to a declaration of its own type text and number of stars; there is one such declaration per type and number of stars, it has all these variables, in order of their names, and comes right behind a declaration with the same type text, in place of it if all of its variables moved. Nothing else moves, tokens with comments or directives stay, and tokens keep their text and what is attached. What is left of a declaration is the declaration of the other variables. The variables declared and their types are the same as before. Exceptions, shown by examples: a comment behind a comma may leave a comma in front of a semicolon, types that differ in stars alone are taken for the same, and a variable may end up behind an initializer that uses it.", "quantifier": "every block of declarations, number of variables and stars, any sorting function that sorts", "why_tests_cant": "Blocks and their types, stars and comments are unbounded; tests simplify some blocks.", "anchors": ["simple-decl.c:simple_decl_leave,simple_decl_type,simple_decl_semi,simple_decl_comma,simple_decl_var_end,simple_decl_move_vars,associate_semi,classify", "lexer.c:lexer_move_after,lexer_copy_after,lexer_insert_after,lexer_remove"]}
{"id": "C65", "title": "Prototypes: names for all arguments or for none", "statement": "If some arguments of a prototype are named, some are not and every identifier behind the type of an argument follows a star, a type or a qualifier, simplifying it (simple_decl_proto_enter() to simple_decl_proto_leave()) removes one identifier from each named argument, the last one, and nothing else; otherwise nothing changes. Comments and directives are kept, tokens keep their text. With at most one such identifier per argument, names are given for all arguments or for none. Exceptions, shown by examples: what is removed may be the operand of a multiplication in the size of an array, and a function pointer counts as unnamed.", "quantifier": "every prototype, number of arguments and identifiers, attached comments and directives", "why_tests_cant": "Prototypes and what is attached to their tokens are unbounded; there are two test inputs.", "anchors": ["simple-decl-proto.c:simple_decl_proto_arg,simple_decl_proto_arg_ident,simple_decl_proto_leave", "parser-func.c:parser_simple_decl_proto_enter,parser_func_arg", "lexer.c:lexer_remove"]}
{"id": "C66", "title": "Empty statements are spelled out", "statement": "simple_stmt_empty_loop_braces() and simple_stmt_empty_loop_no_braces() give a loop with an empty body (a semicolon, braces, or braces around a semicolon; braces and the semicolon inside of them without comments and directives) the body continue; and change nothing else; doing it again changes nothing. simple_stmt_switch() puts break on a line of its own in front of a semicolon that follows default: and changes nothing else. Exceptions, shown by examples: statements behind default: ; are no longer reached, and continue is put in front of a directive that precedes the semicolon.", "quantifier": "every stream of tokens and position, conditionals included (doing it again: without conditionals)", "why_tests_cant": "Streams and their conditionals are unbounded; tests cover a few loops and one switch.", "anchors": ["simple-stmt-empty-loop.c:simple_stmt_empty_loop_braces,simple_stmt_empty_loop_no_braces,sense_empty_loop_braces", "simple-stmt-switch.c:simple_stmt_switch", "lexer.c:lexer_insert_after,lexer_peek_if_pair"]}
{"id": "C67", "title": "Taking a branch and recovering from errors keep the stream in order and the text", "statement": "clang_branch() removes exactly the tokens between the first #if or #elif whose #else is at the cursor, and seeks behind the last stamp still there. clang_recover() looks from the cursor back to the last stamp and then ahead for the nearest branch with tokens and replaces everything from its directive to the next one by one directive with that part of the input, at the same place; nothing else changes, and everything removed can be read from the new directive. It returns one more than the number of stamps not in front of the branch and seeks behind the last one in front. None of this fails, in any order with seeking, stamping, unlinking and removing, and at shutdown all references are released. After the first recovery the cursor is behind the last document kept; this is false of later ones, where parser_exec() can remove a document that is not read again.", "quantifier": "every file, every history of operations and every stamp; text: every input and offsets in order", "why_tests_cant": "Histories and nesting of conditionals are unbounded; tests cover a few conditionals, and none with two recoveries and a stamp inside of the first branch.", "anchors": ["clang.c:clang_branch,clang_recover,clang_branch_fold,clang_recover_find_branch,clang_last_stamped", "lexer.c:lexer_emit_template", "parser.c:parser_exec", "token.c:token_is_dangling"]}
{"id": "C68", "title": "With a diff only what it touches is formatted", "statement": "doc_exec() with DOC_EXEC_DIFF (knfmt -D) copies from the source every line that is neither in a chunk of the diff, nor between the first and the last token of a group with a token in the diff, nor part of a comment or directive with such a line: they are in the output byte for byte, in order, with nothing in between but the text that replaces the other lines. If no token is in the diff, the output is the source. No assertion of the doc_diff functions fails, unless in one group a comment or directive outside of the diff comes before tokens of the diff in several chunks; then one can, and text is lost. Text is also lost when a statement outside of the diff shares its line with one in it, and when a comment outside of the diff ends a line of a statement that continues in the diff. Without DOC_EXEC_DIFF the doc_diff functions change nothing.", "quantifier": "every source, every set of chunks and every document whose groups hold tokens in the order of the source, flagged as the diff says; every style limit", "why_tests_cant": "The interplay of chunks, groups, comments, muting and minimizing is unbounded; tests cover some two hundred diffs, compared with outputs recorded from the program itself.", "anchors": ["doc.c:doc_exec,doc_exec1,doc_exec_verbatim,doc_exec_mute,doc_diff_group_enter,doc_diff_group_leave,doc_diff_mute_enter,doc_diff_mute_leave,doc_diff_literal,doc_diff_verbatim,doc_diff_exit,doc_diff_emit,doc_diff_covers,doc_diff_leave_impl,doc_diff_is_mute", "diff.c:diff_get_chunk", "lexer.c:lexer_get_lines"]}
{"id": "C69", "title": "The search for a file goes upwards to the nearest directory that has it", "statement": "searchpath() returns a descriptor of the file in the first directory, starting with the current one and going upwards, in which it can be opened, and stores in *nlevels how many directories it has gone up; nothing is stored if nothing is found. It returns -1 only if no directory up to the root has the file, or if on the way a directory cannot be opened or examined. Whatever the system calls answer, no descriptor but the one returned is left open, no other is closed, and none is used after it has been closed. It ends unless there is no end to the directories above.", "quantifier": "every tree of directories, every current directory and every sequence of answers of open(2), openat(2) and fstat(2), including directories moved meanwhile", "why_tests_cant": "A test runs in one directory of one tree; failing system calls and leaked descriptors do not show, and neither does a level counted wrongly where .git is in the current directory.", "anchors": ["fs.c:searchpath"]}
{"id": "C70", "title": "Braces: the comma added behind the last field", "statement": "insert_trailing_comma() (knfmt -s) puts exactly one comma directly behind the last token in front of the closing brace, if that token is neither a comma nor a closing parenthesis and ends its line; otherwise nothing changes. The comma takes over the white space of the token, so that it is on the same line, and its share of the diff; comments stay in front of it and no other token changes. A second call changes nothing. The comma is code: it does not end up inside a comment (this is false if a // comment follows the last field). parser_braces_field1() moves the white space behind = to the identifier before if there is a tab in it and changes nothing else.", "quantifier": "every token stream, every pair of braces in it and every set of attached comments, directives and white space", "why_tests_cant": "The single test of the pass has a handful of fields without comments of the // kind; suffix lists of other shapes are not tried.", "anchors": ["parser-braces.c:insert_trailing_comma,parser_braces_field1", "token.c:token_has_line,token_has_tabs,token_move_suffixes_if", "lexer.c:lexer_insert_after"]}
{"id": "C71", "title": "Functions registered with an arena scope are called once, in reverse, when it is left; strings copied into it are separate", "statement": "A function registered with arena_cleanup is called exactly once, with the argument given, when the scope it was registered in is left with arena_scope_leave. Functions of one scope are called in the reverse order of their registration and those of an outer scope are not called before it is left. This holds whatever is allocated, reallocated, written to or registered meanwhile, in that scope or in scopes entered within. arena_strdup, arena_strndup and arena_sprintf return memory that overlaps no other allocation, holds the text followed by a NUL and leaves all other allocations as they are.", "quantifier": "every sequence of entering and leaving scopes, allocations, reallocations, writes within allocations, registrations and string copies, of any length; every page size and poison size; every answer of malloc(3)", "why_tests_cant": "The records of what to call live in the arena next to the memory of the client; a mistake shows only for certain sequences of scopes and frame boundaries.", "anchors": ["libks/arena.c:254-298", "libks/arena.c:474-537", "libks/arena.c:56-60"]}
{"id": "C72", "title": "The options of the command line do what they say in any order", "statement": "knfmt goes on to format files exactly if all options and all letters of -t are known, no file is named together with -D and at least one is named with -i unless -D is given; otherwise it ends with status 1 before looking at any file. An option is in force iff it was given, in any order and number; the last -c counts. Without -i, and whenever -d is given, no file is changed. Without arguments and -D standard input is formatted. Every kind of trace that was asked for, by its own letter or by a, is traced. Once pledge(2) was called no system call is made that it forbids.", "quantifier": "every sequence of options with every argument, every list of files, every behaviour of the file system", "why_tests_cant": "There are as many combinations of options as there are command lines; tests use a few of them, each once.", "anchors": ["knfmt.c:55-193", "options.c:11-48", "options.h:6-21", "trace-types.h:4-15"]}
{"id": "C73", "title": "Showing a difference leaves nothing behind and compares the right two texts", "statement": "With -d and a text that formatting changes, knfmt runs /usr/bin/diff -u with labels PATH.orig and PATH on two files that hold, from the first byte on, exactly what was read and exactly what formatting made of it, and that stay so while diff runs even if waiting for it fails. It reports success iff formatting changed nothing, whatever system call fails. No descriptor stays open on return, at most two are open at any point, none is closed twice. The umask is as before. The only files ever made are /tmp/libks.XXXXXXXX; each is gone once its unlink succeeds and no other file is touched. If a difference cannot be shown, a message says so.", "quantifier": "every pair of texts, every path, every set of open descriptors, every file system, every outcome of every system call, every partial write, every point of interruption, every interleaving with diff", "why_tests_cant": "Tests cannot make mkstemp, unlink, write, lseek, fork and waitpid fail in all combinations, and do not look at descriptors and files left behind.", "anchors": ["knfmt.c:247-297", "libks/tmp.c:27-76"]}
{"id": "C74", "title": "Running a pass over its own result changes nothing", "statement": "Formatting is meant to settle: a declaration whose static was moved to the front, a type to which int was added, a message whose newline was removed and a directive whose line continuations were aligned are left alone by the next run of the same pass. In particular a single blank in front of the backslashes, asked for by the style or found in the text, stays.", "quantifier": "every token stream, every declaration and message in it, every text of a directive, every style, every column limit", "why_tests_cant": "A test case formats one file once and compares the result; the result is not formatted again, and lines that end in the same column by chance are rare in tests.", "anchors": ["simple-static.c:23-35", "simple-implicit-int.c:9-25", "simple-expr-printf.c:87-116", "cpp-align.c:115-282"]}
