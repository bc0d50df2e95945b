{"id": "C01", "title": "Offsets survive the trip through line/column", "statement": "For a line index built from a text, converting any byte offset to (line, column) with line_col and back with offset returns the same offset, and never panics, for every offset up to and past the end of the text.", "quantifier": "all texts, all byte offsets", "why_tests_cant": "A test fixes a handful of texts; the claim is about every Unicode text and every offset in it.", "anchors": ["crates/ide_db/src/line_index.rs: LineIndex::new, LineIndex::line_col, LineIndex::offset"]}
{"id": "C02", "title": "line_col is the line/column an editor shows", "statement": "For every text and every offset that lies inside it, line_col reports as line the number of '\\n' characters wholly before the offset and as column the number of bytes since the last such '\\n' (or the start of the text).", "quantifier": "all texts, all prefixes of the text", "why_tests_cant": "A test fixes a handful of texts; the claim is about every Unicode text and every offset in it.", "anchors": ["crates/ide_db/src/line_index.rs: LineIndex::new, LineIndex::line_col"]}
{"id": "C03", "title": "UTF-16 columns are right and invertible", "statement": "For every position on a character boundary, to_utf16 yields exactly the number of UTF-16 code units between the start of its line and the position, and to_utf8 maps that column back to the original byte column.", "quantifier": "all texts, all character-boundary positions", "why_tests_cant": "A test fixes a handful of texts; the claim is about every Unicode text and every offset in it. Astral, BMP and ASCII characters mix arbitrarily on a line.", "anchors": ["crates/ide_db/src/line_index.rs: LineIndex::to_utf16, LineIndex::to_utf8, utf8_to_utf16_col, utf16_to_utf8_col"]}
{"id": "C04", "title": "lines() splits a range exactly at line starts", "statement": "For every range, LineIndex::lines yields non-empty consecutive sub-ranges that concatenate to the range, with cuts exactly at the line starts strictly inside the range.", "quantifier": "all texts, all ranges start <= end", "why_tests_cant": "A test fixes a handful of texts; the claim is about every Unicode text and every offset in it.", "anchors": ["crates/ide_db/src/line_index.rs: LineIndex::lines"]}
{"id": "C05", "title": "Line-ending normalisation replaces exactly the CRLF pairs", "statement": "LineEndings::normalize returns the text with every two-character sequence CR LF replaced by LF and every other byte untouched and in order, terminates without panicking, and reports Dos exactly when the text contains a CR. The documented invariant that the result never contains CR LF (and hence idempotence) holds exactly for the texts without CR CR LF.", "quantifier": "all texts", "why_tests_cant": "The in-place gap-buffer loop has unboundedly many iterations and its result depends on how CR and LF are interleaved.", "anchors": ["crates/move_language_server/src/line_index.rs: LineEndings::normalize"]}
{"id": "C06", "title": "Batched document edits equal one-at-a-time edits", "statement": "Applying a list of content changes in one textDocument/didChange gives the same text (or the same panic) as applying each change alone against the text produced so far, for every list whose ranges have start line <= end line; the cached line index never leaks stale positions.", "quantifier": "all starting texts, all finite change lists", "why_tests_cant": "The cache-validity rule must be right for every order and overlap of edits; tests try a dozen.", "anchors": ["crates/move_language_server/src/lsp_utils.rs: apply_document_changes", "crates/move_language_server/src/from_proto.rs: text_range, offset"]}
{"id": "C07", "title": "A ranged edit replaces exactly the addressed text", "statement": "For every text split as before ++ old ++ after, a change whose range is the UTF-16 positions of the two split points replaces old by the new text and leaves before and after untouched; a change without range replaces the whole document.", "quantifier": "all texts, all splits at character boundaries, all replacement texts", "why_tests_cant": "A test fixes a handful of texts; the claim is about every Unicode text and every offset in it.", "anchors": ["crates/move_language_server/src/lsp_utils.rs: apply_document_changes"]}
{"id": "C08", "title": "Edit disjointness check is exact", "statement": "all_edits_are_disjoint returns true exactly when no two of the completion's edits and additional edits overlap (and an insert/replace pair is nested properly), for all lists of well-formed ranges in any order.", "quantifier": "all completion items, all lists of additional edits", "why_tests_cant": "Pairwise disjointness over lists of any length and order; the code only compares sorted neighbours.", "anchors": ["crates/move_language_server/src/lsp_utils.rs: all_edits_are_disjoint"]}
{"id": "C09", "title": "VFS returns the last contents written", "statement": "After any sequence of set_file_contents calls, file_id(path) is Some exactly when the last write to path was Some, and file_contents of that id is that last write; writes to other paths never interfere.", "quantifier": "all histories of writes over any set of paths", "why_tests_cant": "Quantifies over unbounded histories and path sets.", "anchors": ["crates/vfs/src/lib.rs: Vfs::set_file_contents, file_id, file_contents", "crates/vfs/src/path_interner.rs"]}
{"id": "C10", "title": "File ids are stable and unique", "statement": "Once a path has been given a file id, file_path of that id is that path for ever after any further history, two different paths never share an id, and lookups by a previously returned id never panic.", "quantifier": "all histories, all pairs of paths", "why_tests_cant": "Stability must hold for all future histories.", "anchors": ["crates/vfs/src/path_interner.rs: PathInterner::intern, lookup, get", "crates/vfs/src/lib.rs: alloc_file_id"]}
{"id": "C11", "title": "The VFS change log is complete and minimal", "statement": "set_file_contents returns true and records one change exactly when the stored contents differ from the new ones, with Create/Modify/Delete according to existence before and after; any file whose contents differ from the last take_changes is in the log, and replaying existence through the log reproduces the current set of live files.", "quantifier": "all histories interleaving writes and take_changes", "why_tests_cant": "Histories are unbounded; a missed change is a file never re-analysed.", "anchors": ["crates/vfs/src/lib.rs: set_file_contents, take_changes, has_changes, ChangedFile"]}
{"id": "C12", "title": "partition covers each live file exactly once", "statement": "FileSetConfig::partition yields (number of configured roots + 1) sets; every live file of the VFS is in exactly one of them under its own path and id, and no deleted file is in any.", "quantifier": "all configurations, all VFS histories", "why_tests_cant": "Configurations and file populations are unbounded.", "anchors": ["crates/vfs/src/file_set.rs: FileSetConfig::partition, classify, FileSetConfigBuilder::build, FileSet"]}
{"id": "C13", "title": "Files belong to the nearest enclosing root", "statement": "A file is classified into the set whose configured root is the longest one whose text is a prefix of the file's path (kinds of path kept apart), the lowest-numbered set winning when two sets list the same root, and into the default last set if none is. This is the deepest enclosing directory whenever no root's text merely starts the name of a neighbouring directory; otherwise it need not be (a root /foo captures /foobar/a).", "quantifier": "all configurations, all paths", "why_tests_cant": "Relies on the order of an FST stream over arbitrary key sets.", "anchors": ["crates/vfs/src/file_set.rs: FileSetConfig::classify, PrefixOf, build", "crates/base_db/src/input.rs: SourceRoot docs"]}
{"id": "C14", "title": "Absolute path normalisation", "statement": "normalize_path of an absolute path yields an absolute path with no '.', '..' or empty components that denotes the same location as lexical resolution (never above the root), and normalising twice changes nothing.", "quantifier": "all component lists", "why_tests_cant": "Component sequences are unbounded.", "anchors": ["crates/paths/src/lib.rs: normalize_path, AbsPath::normalize"]}
{"id": "C15", "title": "Virtual paths: pop and join", "statement": "VirtualPath::join(base, rel) resolves the leading ../ segments of rel against base, returns None exactly when there are more of them than base has '/' and otherwise is the textual concatenation; pop undoes a join of a single segment; parent chains are finite; resolve_path joins to the directory of the anchor and panics exactly for an anchor that is not in the set (its documentation promises None).", "quantifier": "all virtual paths and relative paths", "why_tests_cant": "Strings and segment counts are unbounded.", "anchors": ["crates/vfs/src/vfs_path.rs: VirtualPath::join, pop, VfsPath::parent"]}
{"id": "C16", "title": "Loader directory filter: longest rule wins", "statement": "Directories::contains_file(path) holds exactly when the extension is listed and some include entry is an ancestor of path and every exclude entry that is an ancestor of path is strictly shorter than the longest such include.", "quantifier": "all include/exclude lists and paths", "why_tests_cant": "Lists are unbounded and order must not matter.", "anchors": ["crates/vfs/src/loader.rs: Directories::includes_path, contains_file, contains_dir"]}
{"id": "C17", "title": "Lexing tiles the text", "statement": "Whenever lexing a text does not panic, the produced token lengths sum to the byte length of the text, every token but the final end-of-file token is non-empty, every token boundary is a character boundary, and the trivia/non-trivia order is the text order.", "quantifier": "all texts", "why_tests_cant": "All Unicode texts; the lexer computes lengths with several ad-hoc scanners.", "anchors": ["crates/parser/src/lexer.rs: find_token, Lexer::bump, Lexer::new"]}
{"id": "C18", "title": "Token kinds mean what they say", "statement": "For every text, the first token reported is the longest lexeme the text starts with, of that lexeme's kind: whitespace tokens contain only whitespace and are maximal, identifiers and keywords are maximal [A-Za-z_][A-Za-z0-9_]* words with the keyword kind exactly for the keyword spellings, punctuation tokens spell exactly their symbol. Its reported length is the length of the lexeme in bytes, except for byte strings, where it is the number of characters (so a byte string with a non-ASCII character ends early). No token is reported exactly on an unterminated byte string or where no lexeme starts.", "quantifier": "all texts", "why_tests_cant": "The shape must hold for every continuation of the text.", "anchors": ["crates/parser/src/lexer.rs: find_token, get_name_len", "crates/parser/src/syntax_kind/generated.rs: from_keyword"]}
{"id": "C19", "title": "Parsing is lossless", "statement": "Whenever SourceFile::parse returns a tree, the concatenation of the tree's token texts is exactly the input text.", "quantifier": "all texts", "why_tests_cant": "All texts, through lexer, grammar, event processing and tree building; error recovery included.", "anchors": ["crates/syntax/src/lib.rs: SourceFile::parse", "crates/syntax/src/parsing.rs", "crates/syntax/src/parsing/text_tree_sink.rs", "crates/parser/src/event.rs: process", "crates/parser/src/parser.rs"]}
{"id": "C20", "title": "The tree is well formed", "statement": "Whenever the grammar finishes without a panic, event processing and tree building do not panic either: starts and finishes balance at every prefix, there is exactly one root, it is SOURCE_FILE, and no TOMBSTONE node is in the tree.", "quantifier": "all texts", "why_tests_cant": "Depends on every marker being completed or abandoned on every path through a mutually recursive grammar.", "anchors": ["crates/parser/src/marker.rs", "crates/parser/src/event.rs: process", "crates/syntax/src/parsing/text_tree_sink.rs", "crates/parser/src/grammar.rs and grammar/*"]}
{"id": "C21", "title": "Parsing always stops", "statement": "SourceFile::parse terminates on every text: it returns a tree or panics, and the recursion depth and loop iterations are bounded by a linear function of the text length plus the 10 000-step fuse.", "quantifier": "all texts", "why_tests_cant": "Termination is a statement about all inputs.", "anchors": ["crates/parser/src/parser.rs: Parser::nth", "crates/parser/src/grammar.rs", "crates/parser/src/grammar/*"]}
{"id": "C22", "title": "Syntax error positions lie in the text", "statement": "Every syntax error reported for a text has a range within the text, at a token boundary, and errors are reported in non-decreasing position order.", "quantifier": "all texts", "why_tests_cant": "All texts and all recovery paths.", "anchors": ["crates/syntax/src/parsing/text_tree_sink.rs: TextTreeSink::error", "crates/ide_diagnostics/src/lib.rs: diagnostics"]}
{"id": "C23", "title": "Binary operators: precedence and associativity", "statement": "A script whose body is one statement, a sequence of literals separated by supported binary operators, parses without errors to the tree given by the precedence table with left associativity, in any layout (files within the step limit of the parser). In every file that parses, every binary expression is grouped that way.", "quantifier": "all operator sequences in files of up to 1996 tokens, all layouts; for the second part all texts", "why_tests_cant": "Sequences are unbounded.", "anchors": ["crates/parser/src/grammar/expressions.rs: expr_bp, current_op"]}
{"id": "C24", "title": "Lookahead agrees with the tokens that follow", "statement": "nth(1) reports the kind of the token at the first character after the current token that is not white space, and nth(2) that of the token right behind the token (blanks and comments included) that directly follows the current one. So they are the next and next-but-one non-trivia tokens when no comment, respectively no trivia at all, lies in between, and need not be otherwise.", "quantifier": "all texts and positions", "why_tests_cant": "Depends on what separates the tokens (nothing, whitespace, comments).", "anchors": ["crates/parser/src/lexer.rs: lookahead, lookahead_2", "crates/parser/src/parser.rs: nth"]}
{"id": "C25", "title": "Parsing never panics", "statement": "SourceFile::parse returns a tree (possibly with errors) for every text a user can type.", "quantifier": "all texts", "why_tests_cant": "All texts.", "anchors": ["crates/parser/src/lexer.rs: find_token", "crates/parser/src/parser.rs: nth", "crates/parser/src/grammar/items.rs"]}
{"id": "C26", "title": "Token sets behave as sets", "statement": "TokenSet::new, union and contains agree with membership in the listed kinds for every list of kinds and every kind, and SyntaxKind <-> u16 conversions round-trip with out-of-range values rejected.", "quantifier": "all kind lists, all kinds, all u16", "why_tests_cant": "Shift-based bit tricks must be right for every discriminant.", "anchors": ["crates/parser/src/token_set.rs", "crates/parser/src/syntax_kind.rs"]}
{"id": "C27", "title": "AST accessors return the operands the user wrote", "statement": "For every binary expression node with two operand children, BinExpr::lhs returns the first and BinExpr::rhs the second operand.", "quantifier": "all syntax trees", "why_tests_cant": "Trees are unbounded.", "anchors": ["crates/syntax/src/ast/nodes.rs: BinExpr", "crates/syntax/src/ast.rs: support::child"]}
{"id": "C28", "title": "Every request is answered exactly once", "statement": "For every stream of client messages and task completions that the server survives, each request message is answered by exactly one response carrying its id, in arrival order, and no response is sent for anything else.", "quantifier": "all message streams and schedules", "why_tests_cant": "Histories and interleavings are unbounded.", "anchors": ["crates/move_language_server/src/main_loop.rs: on_request, handle_event", "crates/move_language_server/src/dispatch.rs", "crates/move_language_server/src/global_state.rs: respond, cancel, register_request"]}
{"id": "C29", "title": "Shutdown protocol", "statement": "After a shutdown request has been answered every later request is answered with InvalidRequest, unknown methods before it with MethodNotFound, malformed shutdown parameters with InvalidParams and no shutdown; the loop ends successfully on exit and only then, and with an error when the client hangs up.", "quantifier": "all message streams", "why_tests_cant": "Histories are unbounded.", "anchors": ["crates/move_language_server/src/main_loop.rs: run, on_request"]}
{"id": "C30", "title": "The server's copy of a document is the client's", "statement": "After any history of didOpen/didChange/didClose notifications, the contents stored for every open document are the text obtained by applying that history; documents never affect each other, and unopened documents ignore changes.", "quantifier": "all notification histories over any set of documents", "why_tests_cant": "Histories are unbounded.", "anchors": ["crates/move_language_server/src/main_loop.rs: on_notification", "crates/move_language_server/src/mem_docs.rs", "crates/vfs/src/lib.rs"]}
{"id": "C31", "title": "Analysis sees the current text after every turn", "statement": "After every main-loop turn, for every file of the VFS the database text is the line-ending-normalised VFS contents, its source root is set, and no change is pending.", "quantifier": "all event histories", "why_tests_cant": "Histories are unbounded.", "anchors": ["crates/move_language_server/src/global_state.rs: process_changes", "crates/base_db/src/change.rs: Change::apply", "crates/ide_db/src/apply_change.rs"]}
{"id": "C32", "title": "Document lookups in the main loop cannot fail", "statement": "For every history of well-formed messages, the lookups the main loop unwraps (the VFS file of an open document, its UTF-8 decoding, the line-ending entry, the source root of a changed file) always succeed.", "quantifier": "all event histories and schedules", "why_tests_cant": "A failure anywhere kills the server.", "anchors": ["crates/move_language_server/src/main_loop.rs: on_notification, update_diagnostics", "crates/move_language_server/src/global_state.rs: file_line_index"]}
{"id": "C33", "title": "Diagnostics reach the client", "statement": "If an open document has syntax errors and the server is left alone until all tasks are delivered, the client has been sent a publishDiagnostics for it that reflects its current text.", "quantifier": "all histories and schedules", "why_tests_cant": "Depends on all histories and task interleavings.", "anchors": ["crates/move_language_server/src/main_loop.rs: handle_event, update_diagnostics", "crates/move_language_server/src/reload.rs: SourceRootConfig"]}
{"id": "C34", "title": "Published diagnostics mirror the collection", "statement": "Over any history of diagnostics updates, taking the change set after each batch and publishing those files keeps the client's view equal (up to the compared fields) to diagnostics_for for every file; unchanged updates publish nothing.", "quantifier": "all update histories", "why_tests_cant": "Histories are unbounded.", "anchors": ["crates/move_language_server/src/diagnostics.rs"]}
{"id": "C35", "title": "Diagnostics are bounded and positioned in the file", "statement": "For every text whose parse succeeds at most 128 diagnostics are produced, one per leading syntax error in order, each with range inside the text.", "quantifier": "all texts", "why_tests_cant": "A test fixes a handful of texts; the claim is about every Unicode text and every offset in it.", "anchors": ["crates/ide_diagnostics/src/lib.rs: diagnostics", "crates/move_language_server/src/handlers.rs"]}
{"id": "C36", "title": "Positions are exchanged in the negotiated encoding", "statement": "Positions sent to and received from the client are in the offset encoding negotiated at initialisation.", "quantifier": "all client capabilities, all texts and positions", "why_tests_cant": "A test fixes a handful of texts; the claim is about every Unicode text and every offset in it.", "anchors": ["crates/move_language_server/src/config.rs: offset_encoding", "crates/move_language_server/src/global_state.rs: file_line_index", "crates/move_language_server/src/lsp_utils.rs: apply_document_changes"]}
{"id": "C37", "title": "to_proto and from_proto positions are inverse", "statement": "For both encodings, from_proto::offset(to_proto::position(o)) = o for every character-boundary offset o, and ranges keep their order.", "quantifier": "all texts, all boundary offsets, both encodings", "why_tests_cant": "A test fixes a handful of texts; the claim is about every Unicode text and every offset in it.", "anchors": ["crates/move_language_server/src/to_proto.rs: position, range", "crates/move_language_server/src/from_proto.rs: offset, text_range"]}
{"id": "C38", "title": "Project discovery finds the nearest manifest", "statement": "ProjectManifest::discover returns the Dove.toml of the nearest ancestor directory that has one (the path itself if it is one), otherwise those of the immediate child directories; discover_all is sorted and duplicate free; a manifest path always has a parent.", "quantifier": "all paths and file systems", "why_tests_cant": "Directory depth and file-system contents are unbounded.", "anchors": ["crates/project_model/src/lib.rs", "crates/project_model/src/manifest_path.rs"]}
{"id": "C39", "title": "At most one long-running operation at a time, none lost", "statement": "For every sequence of OpQueue calls, should_start_op never answers true while an operation is in progress, and every request made is followed by a start as soon as should_start_op is called with none in progress.", "quantifier": "all call sequences", "why_tests_cant": "Histories are unbounded.", "anchors": ["crates/move_language_server/src/op_queue.rs"]}
{"id": "C40", "title": "equal_range_by finds exactly the equal run", "statement": "For every slice sorted by the key ordering, equal_range_by returns the maximal range of elements comparing Equal, and everything before is Less and after is Greater.", "quantifier": "all sorted slices and comparison functions", "why_tests_cant": "Binary search over slices of any length.", "anchors": ["crates/stdx/src/lib.rs: equal_range_by"]}
{"id": "C41", "title": "Case conversion helpers", "statement": "to_lower_snake_case output contains no ASCII uppercase letter and is idempotent; to_pascal_case output has no underscore; both preserve the letters up to case.", "quantifier": "all strings", "why_tests_cant": "All strings.", "anchors": ["crates/stdx/src/lib.rs: to_snake_case, to_pascal_case"]}
{"id": "C42", "title": "Cursor markers round-trip", "statement": "extract_offset(add_cursor(text, o)) = (o, text) for every text without the marker and every boundary offset (where inserting creates no earlier marker).", "quantifier": "all texts and offsets", "why_tests_cant": "A test fixes a handful of texts; the claim is about every Unicode text and every offset in it.", "anchors": ["crates/test_utils/src/lib.rs: add_cursor, try_extract_offset"]}
{"id": "C43", "title": "A file's diagnostics do not depend on the other open files", "statement": "Whether diagnostics are produced for one open document does not depend on the contents of another open document.", "quantifier": "all sets of open documents", "why_tests_cant": "All combinations of documents.", "anchors": ["crates/move_language_server/src/main_loop.rs: update_diagnostics", "crates/move_language_server/src/thread_pool.rs"]}
{"id": "C44", "title": "trim_indent removes exactly the common indentation", "statement": "For every text, stdx::trim_indent drops one leading line feed and then, from every line that is not blank, exactly the smallest indentation of the non-blank lines; shorter blank lines lose only their indentation; line ends and everything after the indentation stay. It does not panic unless a line is indented by a whitespace character of more than one byte.", "quantifier": "all texts", "why_tests_cant": "Line counts, indentation widths and whitespace characters are unbounded; the byte/char mismatch only shows with unusual whitespace.", "anchors": ["crates/stdx/src/lib.rs: trim_indent"]}
{"id": "C45", "title": "iter_eq_by compares sequences elementwise", "statement": "stdx::iter_eq_by answers true exactly when both sequences have the same length and the predicate holds of every pair at the same position.", "quantifier": "all finite sequences and predicates", "why_tests_cant": "Sequences are unbounded; the result must be right for every pair of lengths.", "anchors": ["crates/stdx/src/lib.rs: iter_eq_by"]}
{"id": "C46", "title": "Diagnostics carry the version of the text they are about", "statement": "When the server publishes diagnostics with a document version, the diagnostics were computed from that version of the document.", "quantifier": "all message histories and schedules of background results", "why_tests_cant": "The version is read when the notification is sent and the text when the job was started; whether they agree depends on the interleaving.", "anchors": ["crates/move_language_server/src/main_loop.rs: handle_event, update_diagnostics", "crates/move_language_server/src/mem_docs.rs"]}
{"id": "C47", "title": "Closing a document takes its diagnostics away", "statement": "After a document has been closed and all background work is done, the client no longer shows diagnostics for it.", "quantifier": "all histories in which a document is closed", "why_tests_cant": "Histories and schedules are unbounded.", "anchors": ["crates/move_language_server/src/main_loop.rs: on_notification, update_diagnostics", "crates/move_language_server/src/diagnostics.rs"]}
{"id": "C48", "title": "Core Move programs are accepted and parsed to their tree", "statement": "A text that is a program of the core language (modules, scripts, address blocks, structs with type parameters, functions, let statements, patterns, operator, call, field, record, path, literal and block expressions) parses without errors, to exactly the syntax tree of the grammar; blanks and comments are the only additions.", "quantifier": "all programs of a recursive grammar, all layouts outside two listed defects, up to 1996 tokens", "why_tests_cant": "The grammar is recursive: programs nest without bound and every production can meet every context.", "anchors": ["crates/parser/src/grammar.rs", "crates/parser/src/grammar/items.rs", "crates/parser/src/grammar/expressions.rs", "crates/parser/src/grammar/patterns.rs", "crates/parser/src/grammar/paths.rs", "crates/parser/src/grammar/types.rs", "crates/parser/src/parser.rs: nth"]}
{"id": "C49", "title": "Blanks and comments do not change the parse", "statement": "Two texts that have the same tokens apart from blanks and comments are parsed to the same tree apart from blanks and comments.", "quantifier": "all pairs of texts", "why_tests_cant": "Blanks and comments can stand between any two tokens in any number.", "anchors": ["crates/parser/src/lexer.rs: lookahead, lookahead_2", "crates/parser/src/grammar/paths.rs", "crates/parser/src/grammar/expressions.rs"]}
{"id": "C50", "title": "A file without error messages is in the grammar", "statement": "If parsing a text gives no error message, then the tree is one of the grammar in LenientSpec.v (the core grammar with its relaxed rules spelled out), and its leaves from left to right are the tokens of the text; so whatever is outside that grammar is reported, or stops the parser.", "quantifier": "all texts below 4 GiB", "why_tests_cant": "The claim is about every text the parser keeps quiet about; a test can only try some malformed inputs.", "anchors": ["crates/parser/src/grammar.rs", "crates/parser/src/grammar/items.rs", "crates/parser/src/grammar/items/adt.rs", "crates/parser/src/grammar/expressions.rs", "crates/parser/src/grammar/expressions/atom.rs", "crates/parser/src/grammar/patterns.rs", "crates/parser/src/grammar/paths.rs", "crates/parser/src/grammar/types.rs", "crates/parser/src/grammar/params.rs", "crates/syntax/src/lib.rs: parse"]}
{"id": "C51", "title": "The typed view agrees with the parsed file", "statement": "Parse::ok gives the file exactly when there are no errors and never panics; script_defs are all scripts at the top of the file, in order; in a file without errors a statement's expression and semicolon, a literal's boolean tokens and a function's keyword are the ones written there; casting gives a typed node or token exactly for its kind, and the text of a typed token is a lexeme of that kind.", "quantifier": "all texts below 4 GiB and all nodes and tokens of their trees", "why_tests_cant": "The accessors search the children of every node of every tree; a test fixes some trees.", "anchors": ["crates/syntax/src/lib.rs: Parse::tree, Parse::errors, Parse::ok", "crates/syntax/src/ast.rs: support", "crates/syntax/src/ast/nodes.rs", "crates/syntax/src/ast/tokens.rs"]}
{"id": "C52", "title": "A change to the analysis database sets exactly what it lists", "statement": "After a change is applied, the text of every file is the last one the change lists for it (empty if it lists the file as deleted), and its old text if it is not listed; the source roots are numbered in order, a file belongs to the last root that lists it, and the local and library roots are those marked so; nothing else changes. Applying panics exactly if a listed file has no source root.", "quantifier": "all databases, all changes with fewer than 2^32 roots", "why_tests_cant": "Changes list any number of files and roots, with repetitions, against any earlier state.", "anchors": ["crates/base_db/src/change.rs: Change::apply", "crates/ide_db/src/apply_change.rs: RootDatabase::apply_change", "crates/base_db/src/input.rs: SourceRoot"]}
{"id": "C53", "title": "Blanks and comments lie between nodes, not inside their edges", "statement": "In the tree of any text, every node below the root has blanks and comments only between its children: its first and last child are neither and its text starts with a token; and its text also ends with a token if no empty node is inside it.", "quantifier": "all texts below 4 GiB and all nodes of their trees", "why_tests_cant": "The range of every node of every tree depends on it; tests look at a few snapshots.", "anchors": ["crates/syntax/src/parsing/text_tree_sink.rs: TextTreeSink::{token,start_node,finish_node,finish}", "crates/syntax/src/lib.rs: SourceFile::parse"]}
{"id": "C54", "title": "What a file is parsed to depends on the kinds of its tokens only", "statement": "If two files have the same sequence of token kinds (blanks and comments included) and agree on which tokens begin with 0x, then SourceFile::parse yields trees of the same shape (same nodes, same token kinds, same nesting, blanks and comments included) with the same messages at the start of the same tokens, or panics on both for the same reason. In particular replacing any run of blanks by another non-empty run of blanks (re-indenting, breaking or joining lines) changes nothing else, for files with syntax errors too.", "quantifier": "all pairs of texts below 4 GiB that consist of tokens, with ASCII byte strings", "why_tests_cant": "It relates every pair of spellings of every token sequence, erroneous ones included; tests look at single files.", "anchors": ["crates/parser/src/lexer.rs: Lexer::{lookahead,lookahead_2,bump,current_text}", "crates/parser/src/grammar/**", "crates/syntax/src/parsing/text_tree_sink.rs", "crates/syntax/src/lib.rs: SourceFile::parse"]}
{"id": "C55", "title": "Requests and notifications reach the first handler registered, and requests are answered exactly once", "statement": "For any table of request handlers (changing the state, reading it on the main thread, or reading it on the worker pool) that return, fail or panic in any way: every request gets exactly one answer, from the first entry for its method; the answer is the handler's value, its own error code, ContentModified for a cancelled computation, InternalError for other failures and for panics of read-only handlers, InvalidParams for parameters that do not decode, MethodNotFound for unknown methods, InvalidRequest after shutdown, or RequestCanceled if the client cancelled it first. Only a panicking handler that changes the state ends the server. Read-only requests leave the state alone. A notification runs the first handler for its method and no other.", "quantifier": "all handler tables, all requests with distinct ids, all cancellations, all interleavings of workers with the main loop", "why_tests_cant": "It ranges over every table of handlers and every interleaving of requests, cancellations and worker completions; a test fixes one of each.", "anchors": ["crates/move_language_server/src/dispatch.rs: RequestDispatcher, NotificationDispatcher, result_to_response, thread_result_to_response", "crates/move_language_server/src/global_state.rs: respond, cancel, register_request", "crates/move_language_server/src/main_loop.rs: on_request, Task::Response"]}
{"id": "C56", "title": "A session, from the start of the process to its exit status", "statement": "Requests before initialize are refused with ServerNotInitialized; initialize is answered once with the capabilities, announcing utf-8 exactly when the client lists it; after the notification initialized the client is served by the main loop. Any other message in between ends the process with status 101, and the main loop is never reached without a complete handshake. Every request read is answered exactly once, in order. The projects known to the server are those found from the workspace folders that are file URLs, or else from the root URI, or else from the current directory. The server sends exactly one request, a registration, to clients that can register for saves, and none to others. The exit status is 0 exactly if exit was read in the main loop, and 101 otherwise. A well-behaved client is served until it exits or the connection breaks.", "quantifier": "all sequences of messages and worker steps, all client capabilities, all file systems", "why_tests_cant": "It ranges over every sequence of messages and every point at which the handshake can go wrong; a test follows one conversation.", "anchors": ["crates/move_language_server/src/bin/move_language_server.rs: main, run_server", "crates/move_language_server/src/config.rs: Config", "crates/move_language_server/src/caps.rs: server_capabilities", "crates/move_language_server/src/lsp_ext.rs: supports_utf8"]}
{"id": "C57", "title": "Published diagnostics are those of a text the document had", "statement": "Whatever the order of messages, background work and deliveries, and however the session ends, the diagnostics in a publishDiagnostics notification are those of a text that the named document had, while open, at some earlier moment of the session. If results are delivered in the order in which the work was begun, the texts behind successive notifications for a document never go back in time. A document that was never opened gets no notification.", "quantifier": "all sequences of messages, worker steps and deliveries, all contents, all hash orders", "why_tests_cant": "It speaks about every interleaving of edits with background work and about all earlier moments of a session; a test fixes one interleaving.", "anchors": ["crates/move_language_server/src/handlers.rs: publish_diagnostics", "crates/move_language_server/src/main_loop.rs: GlobalState::update_file_notifications_on_threadpool, handle_event", "crates/move_language_server/src/diagnostics.rs: DiagnosticCollection"]}
{"id": "C58", "title": "The output of a command reaches the callbacks line by line", "statement": "streaming_output hands the lines of a command's standard output to the first callback and those of its standard error to the second, each exactly once, complete and in order, and returns all bytes of both, however the bytes arrive and whichever stream ends first. A line is handed over as soon as its line feed has been read, never earlier unless the stream has ended. Invalid UTF-8 is replaced without affecting other lines. Both pipes are read until both have ended; it fails only if polling or reading fails, and then the lines handed over are the beginning of the output.", "quantifier": "all outputs, all ways in which they are split into reads and interleaved, all interruptions and failures", "why_tests_cant": "The division of the output into reads and the order in which the pipes become ready are up to the kernel; a test sees one of them.", "anchors": ["crates/stdx/src/process.rs: streaming_output, imp::read2"]}
{"id": "C59", "title": "Tagged test texts are read back", "statement": "extract_tags, given a text in which parts are enclosed in properly nested <tag attr>...</tag>, returns the text without the tags and, for every tagged part, the byte range it has in that text and its attribute (trimmed, none if blank), ordered by start and end with equal ranges in the order of their closing tags; it panics on every text that is not such a document.", "quantifier": "every tag name, every nesting of tagged parts, every text", "why_tests_cant": "the code's test has one text with two tags; nesting depth, stray '<' in the text, equal ranges and ill-formed texts are unbounded", "anchors": ["crates/test_utils/src/lib.rs: extract_tags"]}
{"id": "C60", "title": "Annotations point to the last line that is long enough", "statement": "extract_annotations returns one entry per run of carets in a // comment, in order, with the trimmed text that follows the run (and the text of a bar under its last caret in the next line) and the range the run covers in the last earlier line whose code is long enough (or the whole text for ^file); ranges lie in the text; there is no result exactly if some run is about no line or some bar continues nothing.", "quantifier": "every text: any number of lines, comments, runs and bars", "why_tests_cant": "the map from line lengths to line starts is pruned at each line; whether the line found is always the last long enough depends on the whole history of line lengths", "anchors": ["crates/test_utils/src/lib.rs: extract_annotations, extract_line_annotations"]}
{"id": "C61", "title": "The typed tree made from a grammar offers what the grammar mentions", "statement": "Making the typed tree succeeds exactly for grammars with lawful labels and repetitions, nameable tokens and enums of structs, and panics on every other. Every part a struct's rule mentions has an accessor, its own or that of an enum its type belongs to (or is noted as belonging to a trait), and there are no other accessors. On every tree that fits the rule, the accessor of a required part returns one, and each child that is not a literal's token or a separator is returned or stands behind an earlier sibling of the same type that is returned.", "quantifier": "every grammar, every struct in it, every tree that fits its rule", "why_tests_cant": "the only test compares the output for one grammar with the checked-in files; grammars and trees are unbounded, and fields interact through removal of duplicates, enums and traits", "anchors": ["crates/generate_ast/src/ast.rs: lower, lower_rule, lower_comma_list, deduplicate_fields, extract_enums, extract_struct_traits, extract_enum_traits", "crates/generate_ast/src/ast/gen_nodes.rs: generate_nodes"]}
{"id": "C62", "title": "The checked-in typed tree and kinds are those of the checked-in grammar", "statement": "The structs, enums, accessor names and casts of the typed tree are the ones made from move.ungram, and each accessor returns on every tree what the accessor made from the grammar returns; the kinds, their order and classes, and the kinds of keywords and single characters are those of the generator's table.", "quantifier": "every syntax tree, every kind, every string and character", "why_tests_cant": "the test compares text after rustfmt; that equal text means equal results on every tree is a statement about all trees", "anchors": ["crates/syntax/src/ast/nodes.rs", "crates/syntax/src/ast/tokens.rs", "crates/parser/src/syntax_kind/generated.rs", "crates/generate_ast/src/syntax_kind.rs: generate_syntax_kinds, KINDS_SRC", "crates/generate_ast/src/move.ungram"]}
{"id": "C63", "title": "Documents keep their identity across URLs", "statement": "A URL names the file reached by decoding its path: escapes are resolved, empty and '.' parts dropped, '..' goes up, and finding out never panics. URLs that lead to one file are one document. For every file the server writes exactly one URL, in a fixed way, that leads back to it, and different files get different URLs. What the server sends about a document goes to a URL that leads to the same file as the URL it was opened under, and it is the same URL exactly if the client wrote it the server's way.", "quantifier": "every URL (scheme, host, path, query, fragment) and every file name of any bytes", "why_tests_cant": "paths and escapes are arbitrary byte strings and every character may be written in several ways; a test sees a few of them", "anchors": ["crates/move_language_server/src/from_proto.rs: abs_path, vfs_path", "crates/move_language_server/src/to_proto.rs: url_from_abs_path", "crates/move_language_server/src/global_state.rs: file_id_to_url, url_to_file_id, url_file_version", "crates/paths/src/lib.rs: AbsPathBuf::try_from"]}
{"id": "C64", "title": "Described files become the described database", "statement": "A list of entries (path, text with cursor markers, perhaps a new source root) is turned into a database exactly if it is acceptable: absolute paths, known kinds of roots, dependencies only of named crates, no garbled markers, a place marked at most once. The database then has exactly those files, numbered in order, each with its text without the markers, under its path and in the root last started, and the place reported is the marked one. Refuted: a text that describes files leads to them; reading a description returns no entry, whatever the text, so the functions for tests with a single file, a position or a range cannot succeed.", "quantifier": "every list of entries with texts below 4 GiB, every text", "why_tests_cant": "texts, markers and orders of roots are arbitrary; no test in the repository uses these functions", "anchors": ["crates/base_db/src/fixture.rs: WithFixture, ChangeFixture::parse", "crates/test_utils/src/fixture.rs: Fixture::parse", "crates/test_utils/src/lib.rs: extract_range_or_offset, RangeOrOffset"]}
{"id": "C65", "title": "The file system knows each file by one spelling", "statement": "Whatever absolute path is given to the virtual file system, it stores the shortest spelling of the file the path leads to: '.', empty parts and '..' are resolved, never above the root. Joining (which never panics), popping and taking parents of stored paths give stored spellings again and lead where the parts say. So paths that lead to one file are one path, and comparing stored paths by components, by bytes or by the files they lead to is the same.", "quantifier": "every absolute path of any bytes, every joined path, every sequence of these operations", "why_tests_cant": "a file has infinitely many spellings, and the operations can be chained in any order; tests try a few spellings", "anchors": ["crates/vfs/src/vfs_path.rs: VfsPath::from, join, pop, parent, starts_with, encode", "crates/paths/src/lib.rs: normalize_path, AbsPath::normalize, AbsPath::join"]}
{"id": "C66", "title": "Absolute paths stay absolute", "statement": "The path wrappers accept exactly the absolute (or relative) paths, and none of their methods panics on what they hold: joining gives an absolute path with the parts of both, the parent is the path without its last part, what remains after stripping a prefix is relative and joins back to an equal path, prefixes, suffixes and equality go by parts, names split at the last dot, and every manifest path has a directory.", "quantifier": "every byte string as path or argument", "why_tests_cant": "the assertions and unwraps depend on arbitrary byte strings with repeated slashes, dots and missing names", "anchors": ["crates/paths/src/lib.rs: AbsPathBuf::try_from, assert, pop, AbsPath::parent, join, to_path_buf, strip_prefix, starts_with, ends_with, file_name, file_stem, extension, RelPathBuf::try_from", "crates/project_model/src/manifest_path.rs: ManifestPath::try_from, parent"]}
{"id": "C67", "title": "Downloaded binaries are put in place whole", "statement": "Whatever windows download at the same time and wherever one of them crashes, fails or loses its connection, a file in the extension's storage that has the name of a binary holds what it held before or all the pieces, in order, of one answer of the server that ended (and whose announced length, if any, was a number); a call that has found its binary finds it there until somebody removes it; files with other names are not touched.", "quantifier": "every interleaving of any number of calls, network answers in any pieces, failures, crash points and removals; every storage at the start", "why_tests_cant": "the crash point, the split into pieces and the interleaving of windows are unbounded", "anchors": ["editors/code/src/components/net.ts: download, downloadFile", "editors/code/src/components/bootstrap.ts: getBinaryPathEnsureExists"]}
{"id": "C68", "title": "Which dove binary the extension runs", "statement": "A configured path is used, with the home directory for a leading ~/, and nothing is asked of the network. Without one, the binary is the first asset of the latest release whose name begins with the binary's name and mentions the platform. It is asked for by its URL and only when no such file is there, or when the user asks to try again.", "quantifier": "every configuration, release, storage and history of calls", "why_tests_cant": "depends on arbitrary names in releases, earlier downloads and failures", "anchors": ["editors/code/src/components/bootstrap.ts: bootstrap, getBinaryPathEnsureExists", "editors/code/src/components/net.ts: fetchRelease"]}
{"id": "C69", "title": "Failed downloads can be retried with the user's token", "statement": "Every request for a release carries the token the user entered last (none if they cleared it; a closed box changes nothing). A call fails only because the platform is unknown, the user gave up, the release is null or has nothing for them, or the binary does not run; every other failure leads to a dialog, and whatever has happened a call that is still alive can end well.", "quantifier": "every history of answers, failures and choices, any number of calls at once", "why_tests_cant": "the loop of dialogs can go round any number of times, in several windows that share the token", "anchors": ["editors/code/src/components/net.ts: downloadWithRetryDialog, inputToken, fetchRelease", "editors/code/src/components/persistent_state.ts: PersistentState"]}
{"id": "C70", "title": "The progress shown adds up", "statement": "For an announced length that is not exceeded, the percentages reported rise strictly and stay within 1 and 100, the increments are positive and sum to the last percentage, which is the nearest to what has been received; it is 100 exactly when at most half a percent is missing.", "quantifier": "every announced length and every split of the answer into pieces", "why_tests_cant": "the pieces are chosen by the network", "anchors": ["editors/code/src/components/net.ts: download, downloadFile"]}
{"id": "C71", "title": "One language server for each workspace folder", "statement": "However editor events, answers of pending calls and reloads interleave, a folder never gets more servers than the extension was activated times, only servers that were started are stopped, and none twice. If reloads happen only when no initialisation is under way, no folder ever has two servers running and each reload stops all that run.", "quantifier": "every schedule of editor events, settings changes, reloads and answers to any number of pending calls", "why_tests_cant": "depends on how calls that wait for the file system, downloads and processes interleave with events", "anchors": ["editors/code/src/components/ws.ts: ClientWorkspaceFactory, ClientWorkspace", "editors/code/src/extension.ts: tryActivate"]}
{"id": "C72", "title": "Which servers the extension starts", "statement": "A server is started for a folder only after the editor showed or saved a Move document (or Dove.toml) of that folder, the folder's Dove.toml was found and dove gave its metadata. It is run from the binary got for the same activation, with the dialect and account address of that metadata and with the local dependencies, the git dependencies and the modules directory, in this order. The first document of a folder leads to a server if all the answers are positive, and so does a reload for the document shown then.", "quantifier": "every schedule as in C71; every document, metadata and pair of binaries", "why_tests_cant": "the documents, answers and interleavings before the start are unbounded", "anchors": ["editors/code/src/components/ws.ts: initClientWorkspace, ClientWorkspace.start", "editors/code/src/components/dove.ts: Dove.metadata, getServerInitOptsFromMetadata", "editors/code/src/components/util.ts: isMoveDocument"]}
{"id": "C73", "title": "Reloads and listeners of the extension", "statement": "At any time the listeners registered are those of the last activation, each once: all of them if it ended well, and only the first three while it is under way or has failed. The reload command and a change of the settings reload exactly when the last activation ended well. Saving a manifest then leads to a reload if it is valid and to its errors being shown if not. An activation ends once and fails only if binaries or metadata could not be had for the document it began with; after that nothing reloads the extension.", "quantifier": "every schedule as in C71", "why_tests_cant": "any number of reloads can come at any point of activations under way", "anchors": ["editors/code/src/extension.ts: activate, tryActivate"]}
{"id": "C74", "title": "Unfinished programs get their tree and one message for each missing part", "statement": "In a program of the language of C75, names, types, parameters, bodies, patterns, expressions, addresses, fields, commas and closing braces may be missing, or have other tokens in their place, if what follows is one of the tokens at which the parser goes on. Such a program is parsed to the tree it would have with the part left out (or with the tokens in its place under an ERROR node), and the parser reports exactly one message for each missing part, in the order of the text, saying what was expected. Each message is placed where the part is missing: between the same two tokens, right behind the first or right in front of the second.", "quantifier": "every derivation in the grammar of unfinished programs, with any number of gaps at any depth, up to 1996 tokens, gaps and places where statements or expressions follow each other unseparated; every layout the parser copes with", "why_tests_cant": "gaps can be combined and nested without bound, and each changes what the rest of the parser sees", "anchors": ["crates/parser/src/parser.rs: Parser::err_recover, error_and_skip_until, expect", "crates/parser/src/grammar/items.rs: ITEM_RECOVERY_SET, TOP_LEVEL_ITEM_RECOVERY_SET", "crates/parser/src/grammar/types.rs: TYPE_RECOVERY_SET", "crates/parser/src/grammar/patterns.rs: PAT_RECOVERY_SET", "crates/parser/src/grammar/expressions/atom.rs: EXPR_STMT_RECOVERY"]}
{"id": "C75", "title": "The accepted files are exactly the phrases of one unambiguous grammar", "statement": "In a layout the parser copes with (no comment between a name or number and a brace or colon, no brace or star glued to a qualified name), a text is parsed without an error message if and only if its tokens are a phrase of the grammar in LenientSpec.v, and then the tree is the one of that phrase. No text is two phrases. Everything else gets at least one error message.", "quantifier": "every text; for the direction from the grammar to the parser, up to 998 tokens (or, more exactly, up to 1996 tokens and places where statements or expressions follow each other unseparated)", "why_tests_cant": "both the accepted and the refused texts are infinitely many, and phrases nest without bound", "anchors": ["crates/parser/src/grammar.rs: root", "crates/parser/src/grammar/items.rs", "crates/parser/src/grammar/expressions.rs: stmt, expr_bp", "crates/parser/src/grammar/expressions/atom.rs: paren_expr, bump_address", "crates/parser/src/grammar/patterns.rs: pattern"]}
{"id": "C76", "title": "A mistake does not disturb what stands before it", "statement": "Take any place between the items of a file, the modules of an address, the items of a module or script, or the statements of a function, with everything before it correct. Whatever follows, if the parser returns at all then its tree begins with the complete items before that place, and the open module, script, address or function begins with its complete parts, as in a correct file; and no error message is placed before that place.", "quantifier": "every text, every such place with at most 1970 tokens before it, and everything that can follow", "why_tests_cant": "what can follow a place is any text, and what stands before it nests without bound", "anchors": ["crates/parser/src/grammar.rs: root", "crates/parser/src/grammar/items.rs: item_list, address_item_list, module, script, address, function", "crates/parser/src/grammar/expressions.rs: stmt", "crates/syntax/src/parsing/text_tree_sink.rs"]}
{"id": "C77", "title": "What follows does not change the messages further up", "statement": "Take two files that begin with the same tokens. If the parser returns for both, then it gives both files the same error messages, in the same order and each between the same two tokens, as far as the last but one of the tokens they share; only messages behind that can differ.", "quantifier": "every two texts, however much they have in common and whatever follows in each", "why_tests_cant": "both the shared beginning and the two continuations are arbitrary texts", "anchors": ["crates/parser/src/parser.rs: nth, at, bump, error", "crates/parser/src/grammar.rs: root", "crates/parser/src/grammar/expressions.rs", "crates/syntax/src/parsing/text_tree_sink.rs"]}
{"id": "C78", "title": "Regenerating the generated files", "statement": "A run of the generator passes exactly if every generated file has the lines that would be written to it, however they are ended, and then it writes nothing. Any other run changes at most one file, the first that is not up to date, which then has exactly the text generated for it. If all files can be written, the number of runs that fail until one passes is the number of files that were not up to date, and all later runs pass.", "quantifier": "every disk, every list of generated files and their texts, every number of runs", "why_tests_cant": "what is on the disk before the first run is arbitrary", "anchors": ["crates/test_utils/src/lib.rs: ensure_file_contents, try_ensure_file_contents, normalize_newlines", "crates/generate_ast/src/generate_all.rs: generate_ast"]}
{"id": "C79", "title": "Every returned tree, however broken the file, has the shape of one grammar", "statement": "For every text for which the parser returns, the tree is one of a fixed grammar that gives, for every construct, the ways in which parts of it can be missing, replaced or skipped; the leaves are the tokens of the text and the messages are exactly those that the grammar attaches to these places, in the same order and at the same places. In particular, also in broken files: operators bind by their precedence and to the left; a function, struct or module has its parts in order and each at most once; an ERROR node holds only bare tokens or one block in braces; and no message is outside a fixed list.", "quantifier": "every text shorter than 4 GiB for which the parser returns, every node of its tree, every message", "why_tests_cant": "the ways to break a file are without number; recovery in one construct changes what the constructs around it see", "anchors": ["crates/parser/src/grammar.rs and grammar/*.rs", "crates/parser/src/parser.rs: err_and_bump, err_recover, error_and_skip_until, expect", "crates/syntax/src/parsing.rs: parse_text"]}
{"id": "C80", "title": "A panic is reported with exactly the message being handled", "statement": "When a thread of the server panics, what is written before the standard panic message is the context of the request or notification that this thread is handling, and of no other: not of one handled before, even if its handler panicked and was caught, and not of one handled by another thread. Nested contexts are listed from the outside. Reporting never aborts the process, and a thread that has dealt with its messages has no contexts left.", "quantifier": "every number of threads, every nesting of contexts, catches and panics on each, every interleaving, including that of the lines written", "why_tests_cant": "contexts are kept in a stack per thread that must stay balanced through every return, panic and catch, under every interleaving with other threads and the one-time installation of the hook", "anchors": ["crates/stdx/src/panic_context.rs: enter, PanicContext::init, drop, with_ctx", "crates/move_language_server/src/dispatch.rs: on_sync_mut, on_sync, on, NotificationDispatcher::on"]}
{"id": "C81", "title": "What follows does not change the constructs further up", "statement": "Take two files that begin with the same tokens. If the parser returns for both, then every construct that ends three or more tokens before the end of the shared part, whether correct or broken and however deeply nested, is in both syntax trees or in neither: of the same kind, made of the same parts, behind the same number of tokens. So typing further down never changes how a finished construct further up was understood.", "quantifier": "every two texts, however much they have in common and whatever follows in each, and every construct at every depth", "why_tests_cant": "it compares the trees of all pairs of files with a common beginning, for every way in which the two can go on; a test compares one pair", "anchors": ["crates/syntax/src/lib.rs: SourceFile::parse", "crates/parser/src/marker.rs: Marker::complete, Marker::abandon, CompletedMarker::precede", "crates/parser/src/event.rs: process", "crates/parser/src/grammar.rs: root"]}
{"id": "C82", "title": "The rest of a file is read as if it stood alone", "statement": "Take a file that the parser returns for, and a place between two of its top-level items. The text from there on, taken alone, is also parsed; its tree holds exactly the items that follow that place in the tree of the whole file, and its messages are exactly the messages of the whole file behind that place, with the same text, in the same order and between the same tokens. So whatever precedes an item, correct or broken, has no influence on how the item is understood, and two files that end in the same items have the same trees and the same messages there. Behind the items of a correct program this holds for whatever follows, with no message about the correct items.", "quantifier": "every text the parser returns for, with or without mistakes, and every place between two of its top-level items", "why_tests_cant": "it relates the result for a file to the results for all its ends, whatever stands before them and whatever state the parser has built up by then (events, markers, steps); a test compares one file with one of its ends", "anchors": ["crates/syntax/src/lib.rs: SourceFile::parse", "crates/parser/src/grammar.rs: root", "crates/parser/src/parser.rs: Parser, Marker, CompletedMarker", "crates/parser/src/event.rs: process"]}
{"id": "C83", "title": "What the dump of a file tells about its tree", "statement": "Every file that is parsed has a dump (the text the snapshot tests compare). Two files have the same dump exactly if the parser gives the same messages at the same places for both, and their trees agree in all nodes, kinds and ranges and in the texts of all tokens, where of a token of 25 bytes and more only the beginning counts, up to the first end of a character from byte 21 on. So a file whose tokens are all shorter has a dump that no other file has, and a change in the tree or in a message never leaves a dump unchanged unless it is behind the beginning of such a token.", "quantifier": "every two files that are parsed, with or without mistakes, with any characters, and every table of printable characters", "why_tests_cant": "it says that the printed form is unambiguous: texts with quotes, line breaks and escapes, messages with line breaks and nested nodes must never look the same as other ones; snapshot tests themselves rely on it", "anchors": ["crates/syntax/src/lib.rs: Parse::debug_dump", "crates/syntax/src/syntax_error.rs: SyntaxError", "crates/syntax/src/tests.rs: parser_tests"]}
{"id": "C84", "title": "What the check for linear running time accepts", "statement": "A test that measures how its running time grows passes exactly if one of at most four rounds of measurements looks linear, and it measures no more after the first such round. Measurements on a line look linear exactly if the line does not start a tenth of the largest time or more below zero. Measurements that look linear are, scaled to at most 1, all within a tenth of a line that does not start a tenth below zero; the line they are compared with is the one with the least sum of squares. Times that grow with the square of the size never look linear, however many sizes there are, nor do times with a linear part as well if at the largest size the quadratic part is at least one and a half times the linear part.", "quantifier": "every list of measurements, every sequence of rounds, every number of sizes from two on, every factor", "why_tests_cant": "it is about all measurements, and the check is itself what other tests rely on: it must not let quadratic growth through for any number of samples", "anchors": ["crates/test_utils/src/assert_linear.rs: AssertLinear::next_round, AssertLinear::sample, AssertLinear::drop, Round::finish, normalize, mean"]}
{"id": "C85", "title": "The version a server reports names the commit it was built from", "statement": "The version in the answer to initialize is, for the first build in a working copy, the abbreviated hash of the current commit, the date and the channel; or the value of MOVE_LANGUAGE_SERVER_REV if that is set; or question marks if git knows no commit. In every later build it names the commit the server is built from. (This fails after a commit on a branch, because only .git/HEAD is watched; what holds is that the version was right at some build and that no build since then found the variable changed or .git/HEAD written; switching repairs it, and a version asked for with the variable is always the one reported.)", "quantifier": "every history of commits, switches, changes of the environment, days and builds, every place of the server's directory in the working copy", "why_tests_cant": "it depends on the history of the working copy and on when cargo runs the build script again; no test builds twice", "anchors": ["crates/move_language_server/build.rs: main, set_rerun, rev, commit_hash, build_date, exec", "crates/move_language_server/src/bin/move_language_server.rs: run_server"]}
{"id": "C86", "title": "What dove prints is read the same in whatever pieces it arrives", "statement": "The metadata the editor extension takes from the program dove, and the message it shows if there are none, depend only on what the program prints, not on the pieces in which the output arrives or on which of the two pipes is read first. (This fails if a piece ends in the middle of a character, because each piece is decoded on its own: the text is right exactly if no character is cut.)", "quantifier": "every output, every way to cut it into pieces, every interleaving of the two pipes, every meaning of the JSON text", "why_tests_cant": "how output is cut depends on the system and on timing; tests see one way, with short output in one piece", "anchors": ["editors/code/src/components/dove.ts: Dove.metadata, metadataWithErrorMessage, runCommand"]}
{"id": "C87", "title": "Every Move file is handled by the server of its folder only", "statement": "The language server of a project folder is told about the Move files in that folder and its subfolders, and about nothing else; the server of the innermost folder a file is in is always among those told. No other server is told about the file. (The last part fails for a folder inside another one: the server of the outer folder is told too. It holds if no folder is in another one.)", "quantifier": "every list of folders with servers and every document, with any scheme, language and path", "why_tests_cant": "it ranges over all arrangements of folders; the extension has no tests", "anchors": ["editors/code/src/components/client.ts: createLanguageServerClient", "editors/code/src/components/ws.ts: ClientWorkspaceFactory"]}
{"id": "C88", "title": "The server always comes to its end and no worker sends to nobody", "statement": "Whenever the main loop of the server ends, for whatever reason and whatever is queued or being computed, its main thread comes to its end: waiting for a change to be applied and waiting for the workers at the end are never deadlocks, however the threads are scheduled. No worker ever fails because nobody receives its result. At the end every job was run exactly once, and only jobs that panicked have given no result. No change is applied while a job has questions left to ask, so that each job sees one version of the documents.", "quantifier": "every sequence of jobs, changes and receptions in the main loop, every number of workers from one on, every schedule, every point at which a job is cancelled", "why_tests_cant": "it is about all interleavings of the main thread with the workers; a deadlock or a failed send needs a particular one", "anchors": ["crates/move_language_server/src/global_state.rs: Handle, GlobalState (order of the fields), drop", "crates/move_language_server/src/thread_pool.rs: TaskPool::spawn, TaskPool::drop", "crates/move_language_server/src/main_loop.rs: main_loop, run, next_event", "crates/ide_db/src/apply_change.rs: request_cancellation, apply_change"]}
