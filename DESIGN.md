# DESIGN

Formal model (Rocq/Coq 8.16.1) of pontem-network/move-language-server, see `properties.jsonl` for the claims and `MANIFEST.json` for their status.

## Plan per property

- **C01** Offsets survive the trip through line/column. Model LineIndex::new/line_col/offset over code-point lists (LineIndex.v). Proof: newlines list is sorted, starts with 0; partition_point characterised on sorted lists.
- **C02** line_col is the line/column an editor shows. Same model; independent spec counts '\n' in the prefix and sums UTF-8 lengths after the last one. Induction on the text.
- **C03** UTF-16 columns are right and invertible. Same model incl. utf16_lines map; spec sums UTF-16 lengths over the line prefix. Induction over the line's characters.
- **C04** lines() splits a range exactly at line starts. Model lines(); proof via sorted newline list and filter characterisation.
- **C05** Line-ending normalisation replaces exactly the CRLF pairs. Model the gap-buffer loop on byte lists with fuel; spec is a structural rewrite of CR LF; prove equality and which ending is reported; refute the documented 'no \r\n' invariant with the witness \r\r\n.
- **C06** Batched document edits equal one-at-a-time edits. Model apply_document_changes with its cached index and IndexValid; spec = fold with a fresh index each time; invariant: cached index agrees with a fresh one on all valid lines.
- **C07** A ranged edit replaces exactly the addressed text. Corollary of C03 (UTF-16 round trip) plus replace_range model.
- **C08** Edit disjointness check is exact. Model with sort; spec = pairwise disjointness over the list of ranges. Sorted-neighbour to pairwise lemma.
- **C09** VFS returns the last contents written. Model Vfs + PathInterner as lists; spec = fold of 'last write'. Invariant over op lists.
- **C10** File ids are stable and unique. Interner append-only invariant.
- **C11** The VFS change log is complete and minimal. History invariant over writes and take_changes.
- **C12** partition covers each live file exactly once. Model partition; invariant over Vfs from C09-C10; FileSet as two maps.
- **C13** Files belong to the nearest enclosing root. Model build (sort/dedup) and classify (ordered prefix stream, last wins); spec = longest root that is a prefix, first listed among equals, real and virtual kept apart. Bytewise-vs-component reading refuted.
- **C14** Absolute path normalisation. Components model; spec = stack machine resolution.
- **C15** Virtual paths: pop, join, names, starts_with, resolve. String model; induction on the number of leading ../; each function against a specification by segments.
- **C16** Loader directory filter: longest rule wins. Model includes_path; spec via quantifiers over the lists.
- **C17** Lexing tiles the text. Model the lexer completely (Lexer.v); lengths by case analysis on find_token.
- **C18** Token kinds mean what they say. Same; per-branch characterisation.
- **C19** Parsing is lossless. Model parser, markers, events, process, sink, tree builder; token-preservation invariants through each layer; whole grammar by open recursion so that each grammar function's body is checked once.
- **C20** The tree is well formed. Balance / marker discipline invariant over the grammar, then process/sink lemma.
- **C21** Parsing always stops. Fuelled interpreter of the grammar; measure in steps-left and bytes-left; theorem: the out-of-fuel result is unreachable for an explicit linear fuel.
- **C22** Syntax error positions lie in the text. Sink error uses current text position; monotone.
- **C23** Binary operators: precedence and associativity. Spec: independent precedence-climbing/shift-reduce function or relational grammar; induction on operator list.
- **C24** Lookahead agrees with the tokens that follow. Exact statement of what the two lookaheads return (LexerExact.v); the plain reading is refuted by a comment witness.
- **C25** Parsing never panics. Refuted with witnesses; exact characterisation of lexical panics; families of panicking texts and of never panicking texts.
- **C26** Token sets behave as sets. Finite domain: boolean sweep lifted, plus N bit lemmas for lists.
- **C27** AST accessors return the operands the user wrote. Tree model; rhs refuted, lhs proved.
- **C28** Every request is answered exactly once. Server state machine over event lists; ghost trace of outputs.
- **C29** Shutdown protocol. Same machine.
- **C30** The server's copy of a document is the client's. Same machine; spec = per-document fold.
- **C31** Analysis sees the current text after every turn. Invariant of the machine after each turn.
- **C32** Document lookups in the main loop cannot fail. Same invariant: no unwrap failure under well-formed events.
- **C33** Diagnostics reach the client. Refuted for the shipped (default, never reassigned) SourceRootConfig: the server never publishes. For a config with local roots: proved under FIFO task delivery, refuted for arbitrary schedules.
- **C34** Published diagnostics mirror the collection. DiagnosticCollection model, history induction.
- **C35** Diagnostics are bounded and positioned in the file. take 128 + C22.
- **C36** Positions are exchanged in the negotiated encoding. Refuted: encodings are hard-wired.
- **C37** to_proto and from_proto positions are inverse. Corollary of C01/C03.
- **C38** Project discovery finds the nearest manifest. File system as oracle functions (Section variables).
- **C39** At most one long-running operation at a time, none lost. Op list induction.
- **C40** equal_range_by finds exactly the equal run. partition_point by binary search model.
- **C41** Case conversion helpers. String models over ASCII code points (case mapping of non-ASCII characters is outside: uses Unicode tables). Pascal case is characterised by splitting at underscores into words.
- **C42** Cursor markers round-trip. String search model.
- **C43** A file's diagnostics do not depend on the other open files. Refuted: batch task; witness with two documents, one of which panics the parser. What holds (own text only; all or nothing) is proved of the job function.
- **C44** trim_indent removes the common indentation. Line split model; specification by lines.
- **C45** iter_eq_by compares elementwise. Direct induction.
- **C46** Version of diagnostics. Server model; refuted by a schedule, with the part that does hold proved of every step, and the full claim proved for clients that wait (invariant: work under way is about the current texts).
- **C47** Closing takes diagnostics away. Server model; refuted by a run. Proved instead: silence about a closed document once the work under way is done (invariant: no task mentions it).
- **C48** Core programs are accepted. Grammar as an inductive relation (SyntaxSpec.v: `gen`, `core_program`), lexemes from LexSpec.v. Proof: a total-correctness logic for the grammar functions that knows the remaining tokens (ParserTotal.v), one lemma per production (AcceptProofs.v), induction on the derivation; the number of lookaheads is bounded by 5 per token. The size limit is shown to be needed by a thousand-statement file.
- **C49** Layout does not matter. Corollary of C48 for good layouts; refuted in general by three pairs of texts. For files of any kind, a relational proof over the whole grammar: two runs of the parser that are given the same answers at its five lookahead sites take the same steps, and the sinks build the same tree.
- **C50** Silence means the text is in the grammar. Grammar LenientSpec.v: `lenient`, the relaxed rules marked. Proof: a partial-correctness logic for runs that report nothing (LenientLogic.v), in which reporting an error ends the obligations and end of file excuses an unfinished phrase; one lemma per grammar function (LenientProofs.v); error events are shown to survive to the messages (LenientTop.v). That only the strict core is accepted is refuted.
- **C51** The typed view agrees with the parsed file. Model ast.rs, ast/nodes.rs, ast/tokens.rs and Parse::{tree,errors,ok} (Ast.v). Proof: C50 gives the form of every node of a file without errors (TypedProofs.v), C19 and C18 the text of every token.
- **C52** A change to the analysis database sets exactly what it lists. Model Change::apply and RootDatabase::apply_change (Database.v). Proof: induction over the listed files and roots against a last-entry specification (PropDatabase.v).
- **C53** Blanks and comments lie between nodes. Model the sink (Sink.v). Proof: the invariant of SinkProofs.v carries the trivia still pending and which children are at the edges. That no node ends with a blank is refuted (empty nodes).
- **C54** Two files with like tokens. Proof: a simulation between two parser states over like lexers (same events, same counters, like remaining tokens), for every primitive operation, lifted through every grammar function by a predicate saying that the text of a token is used for the 0x test only (ShapeProofs.v); then two tree builders run in step. That blanks can be replaced is a fact about the reference tokenizer (ReblankProofs.v).
- **C55** A server whose table of handlers is a parameter (Dispatch.v). Proof: an invariant over all event sequences relating the queue of requests, the answers sent, and the work in the pool; a case analysis of one request against an independent description of the answer due (DispatchSpec.v); and a theorem that the program's own table run by it is the request handling of Server.v.
- **C56** The process as a function of the labels of a session (Session.v): handshake, configuration, then the main loop of Server.v with the shipped configuration. Proof: induction on the messages of the handshake against an inductive description of it (SessionSpec.v), then the theorems about the main loop (C28, C32) and about discovery (C38).
- **C57** Server model. An invariant ties every task under way, every result not yet received and every stored diagnostic to a number of labels after which the document had the text it is about (PastSpec.v: told_at); with in-order deliveries these numbers are sorted.
- **C58** A loop over an arbitrary schedule of poll results and read sizes (ChildOutput.v), including the pollfd bookkeeping. Invariant: what was written is what was returned, plus a buffer without line feeds, plus what is still in the pipe; the entries polled are exactly the pipes that have not ended. Decoding is compatible with cutting at line feeds (induction on the bytes). Spec: ChildOutputSpec.v.
- **C59** Model extract_tags on character lists with byte offsets. Specification: documents as trees, how they are written, shown, and where their parts lie. Proved by induction on the tree (reading what was written) and on the loop (only written documents are read).
- **C60** Model the scan with its map of line lengths as a sorted list. Specification: a relation on lines that looks at the list of earlier lines instead of the map. The map invariant: the first key at least e belongs to the last line with at least e bytes.
- **C61** Model lower on rules as an inductive type and give each field the meaning of the method written for it. Specification: what a rule mentions and requires, lawful rules, and which trees fit a rule, as inductive relations. Proved by induction on rules; refutations for what the generator gets wrong.
- **C62** Run the modelled generator on move.ungram and prove, for all trees, that the accessors of Ast.v are those made; likewise the tables of Kinds.v.
- **C63** Model from_proto::vfs_path and to_proto::url_from_abs_path with the functions of the url crate they call, on byte lists (FileUrl.v, AbsPath.v). Specification: relations for escapes, decoding, following the parts between slashes and the server's way of writing (FileUrlSpec.v). Proved by induction on segments; refuted: the client's own URL is used, other schemes are kept apart.
- **C64** Model Fixture::parse, ChangeFixture::parse and the WithFixture functions over the database of Database.v (Fixture.v). Specification: what a marked text shows, which root an entry belongs to, and the database described, without the loop (FixtureSpec.v). Proved with an invariant over the entries seen so far; refuted: reading a description yields its files.
- **C65** Model the paths crate and the file-system half of VfsPath on bytes, with the std::path functions they call (AbsPath.v). Specification: following the parts of a path from a directory (AbsPathSpec.v). Proved by induction over the parts that a stored path is the spelling of the names reached; the component lists used elsewhere (VfsPath.v) are shown to be the same.
- **C66** Same model; every wrapper returns `res`, so that the theorems exclude its assertions and unwraps.
- **C67** Model the calls of getBinaryPathEnsureExists as state machines over a shared storage, one step per await (Download.v); labels are the answers, failures, crashes and choices. Specification: what can be read off the history of labels (DownloadSpec.v). Proved by an invariant over all runs that ties each half-written file to the pieces received so far. Assumes that the random numbers of temporary files are new. Refuted: what is stored has the announced length.
- **C68** Same model and invariant, without assumptions about random numbers. Refuted as further claims: the binary is the one for the platform (win is part of darwin), it is of the latest release, the language server's setting has an effect.
- **C69** Same model; the token is specified as a relation on histories. Progress is proved as: from every reachable state there is a continuation about that call alone that ends well.
- **C70** Model the reports of one download on exact quotients (Download.v: reports); induction over the pieces.
- **C71** Model activations, initialisations and checks as state machines, one step per await, over the listeners and clients (Workspaces.v); labels are events and answers. Servers that run are read off the outputs (WorkspacesSpec.v). Proved by invariants over all runs: the number of starts pending or done for a folder and an activation is at most one. Refuted: two servers never run for a folder (a reload that overtakes a start leaves its server running for good).
- **C72** Same model; an invariant ties each pending start to the labels that led to it. Refuted: a start that failed is tried again before a reload.
- **C73** Same model; an invariant gives the listeners by the state of the last activation. Refuted: the user can always reload.
- **C74** The grammar of C75 with productions for missing and wrong parts (GapSpec.v: `gap`, `unfinished`); a table says at which tokens parsing goes on for each missing part. Proof: the rules of C48 extended with rules for errors (GapRules.v), one lemma per production (GapProofs.v, GapPhrases.v), induction on the derivation (GapTop.v). Finished programs are the special case without gaps.
- **C75** From the parser to the grammar: C50's proof with the comment condition turned into a condition on the lexer's lookahead (ExactProofs.v), and an invariant that only integers written with 0x become addresses (AddressProofs.v). From the grammar to the parser: every phrase is an unfinished program without gaps, so C74's proof applies; the number of unseparated places is below the number of tokens (ExactProofs.v). Unambiguous because the parser is a function.
- **C76** Two program logics run side by side (BeforeProofs.v): the total one of C48 for the correct part, the partial one of C20 for the rest. The parser's events and open markers determine the trees built so far, so both speak of the same trees. Errors stand behind the correct part because the number of tokens in front of each is known (C74) and the correct part holds none; a message directly below the file never comes with a result, since that loop only ends in a panic.
- **C77** A relation between two runs of the same program on the two files (SharedProofs.v): as long as at least three shared tokens are left, all questions the program can ask get the same answer, since it looks at most two tokens ahead, and the tokens and messages among the events are equal. When fewer are left, the equal beginning is already fixed, since events of those kinds are only ever added at the end. The messages of a file and the tokens in front of them are read off those events (C74). The trees are compared in C81.
- **C78** The disk is a function from paths to what can be read there, and whether a write succeeds is a parameter (Regen.v). Comparing the texts after `replace("\r\n", "\n")` is shown to be equality of lines up to one carriage return before each line end, by induction on the lines (RegenProofs.v). The number of failing runs is by induction on the number of stale files.
- **C79** RecoverSpec.v is a grammar of marked trees (a mark is a message and its place) with one production for each way of recovering, including what recovery can not do (a junk expression ends the list it is in unless a semicolon follows). A third program logic (RecoverLogic.v) over the same parser model keeps the marks in the tree; contracts for the loops say from which tokens they never return, so that places where the parser would loop until its limit need no production. RecoverProofs.v proves every grammar function against its contract, RecoverTop.v carries it through the tree builder and derives the shapes of single kinds of nodes by induction on the grammar.
- **C80** PanicContext.v is a small-step machine for any number of threads: code made of panics, guarded and caught scopes and sequences; frames to leave; the thread-local stack; the hook, which writes one line per step. PanicSpec.v says what code writes from the scopes around it in its text (lexically, without a stack). The invariant is that what a thread has written, followed by what its frames and its stack will write, is what its code writes; frames and stack fit each other. The dispatchers are instances.
- **C81** The two runs of C77 again, now with the state of the parser logic (ParserLogic.v) on both sides: as long as three shared tokens are left, the two runs are in the same logical state, that is the same open markers and the same trees built so far (KeepProofs.v). From then on each run goes its own way, but what is built changes only by a token or message at the end and by putting a node around what stands at the end. Such changes keep every finished construct where it is, and a construct they add ends at the last token. `sits` (KeepSpec.v) says where a construct stands.
- **C82** Every grammar function is shown to use markers only by handing them back (`prel`, ShiftProofs.v): two runs that see the same tokens but have collected different events before issue the same commands, with markers shifted by the lengths of what was collected. The step counter of the shorter run is never higher, so it does not panic where the longer one did not. Between two items the parser is at the head of the loop of `root` (RestProofs.v, `root_heads`), which is also how it starts on the rest alone; the trees follow from the events by the injectivity of `den`, the messages from the positions proved for C77. `C82_behind_correct_items` joins this with C76: behind the items of a correct program the parser has noted no message, so all messages of the file are those of the rest.
- **C83** Dump.v models `debug_dump` down to the characters, with the printing of rowan (`{:#?}` of nodes, tokens cut from 25 bytes on), of the standard library (`{:?}` of strings, for every table of printable characters; decimal and hexadecimal numbers from the standard library of Coq) and of ranges. DumpProofs.v reads dumps back: a line ends at the first line break since texts are escaped, a name ends at `@`, numbers at dots and blanks, escapes are a prefix code, and the levels of the lines determine the nesting (`read_back`). One message of the parser has a line break in it; its second line does not begin like an error or like a node, so the list of messages can still be read (`message_end`). `C83_same_dump_iff` states exactly what is lost, by the specification `alike` in DumpSpec.v.
- **C84** AssertLinear.v models the whole check except for the plot, with exact rational numbers in the place of floating-point ones; a division by zero makes the round not linear, as NaN does. AssertLinearProofs.v shows that the regression solves the two normal equations and hence has the least sum of squares (`normal_best`), that the solution is unique if there are two sizes, and that scaling does not change this. For quadratic times the sums of the first three powers give the constant term of the line, -(n+1)(n+2)/(6n^2), which is below -1/6 for every n (`C84_squares_fail`); with a linear part the same sums give -c(n+1)(n+2)/(6(cn^2+en)), which is below -1/10 if en is at most two thirds of cn^2 (`C84_mixed_fail`).
- **C85** Version.v models the build script function by function, with the outcomes of programs, the environment and the times of .git/HEAD as inputs, then cargo's rule for running it again (something named by rerun-if-changed or rerun-if-env-changed has changed) and a working copy: a commit on a branch does not write .git/HEAD, everything else that moves HEAD does. VersionProofs.v shows by induction on the history that what cargo keeps is the output of the script at one of the builds, at which all later builds found the same variable and the same .git/HEAD (`kept_from`); if commits are only made with detached HEAD, the current commit is then the same too (`careful_current`).
- **C86** DoveOutput.v models `runCommand` as a fold over the data events of both pipes in any order, each decoded on its own as Node does, and `metadata` with JSON.parse as a parameter. To show that the text is wrong whenever a character is cut, PropDoveOutput.v counts the bytes that do not continue a character: decoding never gives fewer characters than that, and more if a piece begins with a continuation byte (`lossy_starts`, `lossy_cont`), so that the cut text is longer.
- **C87** Selector.v models the document selector of a server and its matching in the editor: patterns segment by segment, with `**` as an inner loop. `glob_root` shows by induction on the folder's names that its pattern matches exactly what is below it; the innermost folder is found by an invariant of the loop over the folders (`innermost_spec`).
- **C88** Ending.v is a transition system of the main thread (any list of turns, then the drops in the order of the fields) and the workers: queued and computing jobs hold snapshots, a change waits until there are none and lets computing jobs be cut short, joining waits for the pool, dropping the receiver closes the channel. Every step makes a sum of what is left to do smaller (`step_weight`), so that runs are bounded; a state in which no step is possible is the end (`C88_no_deadlock`); that the channel is open while there is a worker with a job is an invariant (`step_phase`); that no job is lost or run twice is a permutation kept by every step (`step_places`). `C88_one_version` says of every single step that it applies no change while a job is queued or computing.

## Trusted base

- **Coq's kernel** (8.16.1; also checked by `coqchk`). No kernel check is switched off, no plugins, no functors, no module types. The proofs use `lia`, `lra`, `nra`, `field`, `vm_compute` and the standard library only; `vm_compute` occurs in examples, finite sweeps over the kinds and small witnesses.
- **Print Assumptions**: every theorem listed in MANIFEST.json is followed by `Print Assumptions` in its `Prop*.v` file and prints `Closed under the global context`. No theorem uses an axiom, not even one of the standard library. (The checker lists `Coq.ssr.ssrunder.Under_rel.*`; they are module-type fields of a file of the standard library that is loaded but not used.)
- `Section` variables (`hash_order`, a text, a root configuration) are closed at the end of their section and become universally quantified arguments of the theorems.
- **The model is written by hand** from the source text; the code was not compiled or run. Against slips in the transcription: every definition cites its lines, and `ModelTests.v` (generated by `tools/gen_model_tests.py` from the repository's own snapshot tests in `crates/syntax/test_data`) replays the repository's parser tests on the model.
- **Libraries are modelled by their documented behaviour**: Rust core and std (`String`, `char`, `Vec`, `slice::partition_point`, `sort`, `BTreeMap`, hash maps as association lists with an arbitrary iteration order where the order can be observed, `Path` components on Unix), rowan 0.13.2 (green tree builder, children, tokens), text-size 1.1.0, salsa 0.17.0-pre.1 (inputs are maps, derived queries are functions of the inputs, cancellation may strike at any point of a job), fst 0.4.7 (`Map` built from a sorted list, stream of the keys below a bound), indexmap 1.7.0, threadpool 1.8.1 and crossbeam-channel 0.5.1 (jobs run in any order, results arrive in any order), url 2.2.2 (to_file_path, from_file_path on Unix; parsing of URLs is not modelled), lsp-server 0.5.2 (`ReqQueue`, `Connection`), lsp-types 0.90.0, drop_bomb 0.1.5 (dropping an armed bomb panics). JSON decoding is an input of the model (parameters decode or do not).
- **Arithmetic** is that of the debug profile: overflow panics. Positions inside the parser's event list are not bounded by 2^32.

## What is modelled

| Model file | Code |
|---|---|
| Base.v, Utf8.v | the part of Rust's core library the code uses: panics, 32-bit arithmetic, strings, UTF-8 |
| LineIndex.v | ide_db/src/line_index.rs (all); move_language_server/src/{from_proto,to_proto}.rs (offsets, positions, ranges) |
| LineEndings.v | move_language_server/src/line_index.rs |
| DocChanges.v | move_language_server/src/lsp_utils.rs: apply_document_changes, all_edits_are_disjoint |
| Vfs.v | vfs/src/lib.rs, vfs/src/path_interner.rs |
| VfsPath.v | vfs/src/vfs_path.rs, paths/src/lib.rs normalisation, anchored_path.rs |
| AbsPath.v | paths/src/lib.rs (all), the file-system half of vfs/src/vfs_path.rs, project_model/src/manifest_path.rs, on bytes (Unix), with the functions of std::path they call |
| FileSet.v | vfs/src/file_set.rs |
| Loader.v | vfs/src/loader.rs (Entry, Directories) |
| Kinds.v, TokenSet.v | parser/src/syntax_kind*, token_set.rs |
| Lexer.v | parser/src/lexer.rs (all) |
| Parser.v | parser/src/{parser,marker,event}.rs |
| Grammar.v | parser/src/grammar.rs and parser/src/grammar/** (all functions) |
| Sink.v | parser/src/event.rs process, syntax/src/parsing.rs, parsing/text_tree_sink.rs, SourceFile::parse |
| Ast.v | syntax/src/ast.rs, ast/nodes.rs, ast/tokens.rs, Parse::{tree,errors,ok} |
| Database.v | base_db/src/{change,input,lib}.rs, ide_db/src/{apply_change,lib}.rs, reload.rs SourceRootConfig::partition |
| Diagnostics.v | move_language_server/src/{diagnostics,handlers}.rs, ide_diagnostics/src/lib.rs, ide/src/lib.rs |
| Server.v | move_language_server/src/{main_loop,global_state,mem_docs,dispatch,thread_pool,reload}.rs |
| Dispatch.v | move_language_server/src/dispatch.rs for any table of handlers; lib.rs from_json, LspError |
| Session.v | move_language_server/src/bin/move_language_server.rs, config.rs, caps.rs, lsp_ext.rs supports_utf8, the handshake of lsp-server |
| ChildOutput.v | stdx/src/process.rs (Unix) |
| Tags.v | test_utils/src/lib.rs extract_tags, extract_annotations, extract_line_annotations |
| Generator.v | generate_ast/src/ast.rs (all), ast/gen_nodes.rs and ast/gen_tokens.rs (meaning of the accessors and casts written), syntax_kind.rs, move.ungram |
| FileUrl.v | move_language_server/src/from_proto.rs abs_path, vfs_path; to_proto.rs url_from_abs_path (Unix), with the url crate's to_file_path and from_file_path |
| Fixture.v | test_utils/src/fixture.rs Fixture::parse; base_db/src/fixture.rs |
| Project.v | project_model/src/{lib,manifest_path}.rs |
| Stdx.v | stdx/src/lib.rs (case, trim_indent, equal_range_by, iter_eq_by), op_queue.rs, test_utils markers |
| Download.v | editors/code/src/components/bootstrap.ts (all), net.ts (fetchRelease, download, downloadFile, downloadWithRetryDialog), persistent_state.ts |
| Regen.v | test_utils/src/lib.rs ensure_file_contents, try_ensure_file_contents, normalize_newlines; generate_ast/src/generate_all.rs |
| PanicContext.v | stdx/src/panic_context.rs; where dispatch.rs enters contexts |
| Dump.v | syntax/src/lib.rs debug_dump, with the printing of rowan and of the standard library it uses |
| AssertLinear.v | test_utils/src/assert_linear.rs (without the plot, over exact rational numbers) |
| Version.v | move_language_server/build.rs (all), and when cargo runs it |
| DoveOutput.v | editors/code/src/components/dove.ts runCommand, metadata, metadataWithErrorMessage |
| Selector.v | editors/code/src/components/client.ts documentSelector, with the matching of selectors in the editor |
| Ending.v | move_language_server/src/global_state.rs Handle and the order of drops, thread_pool.rs, the waiting in ide_db/src/apply_change.rs, with the thread pool, the channel and salsa's lock |
| Workspaces.v | editors/code/src/extension.ts, components/ws.ts, dove.ts and util.ts as far as they decide which servers, listeners and calls there are |

## What is not modelled

- Logging (logger.rs), timing, the Windows and wasm variants of stdx/process.rs, stdx macros, `defer`, `JodChild`.
- Text of messages that only go to the log; the JSON encoding itself.
- Setting up the log, the io threads.
- The Rust text written by generate_ast (its meaning is modelled), ungrammar's parser, and rustfmt.
- Parse::cast, clone_for_update, clone_subtree, SyntaxTreeBuilder outside the sink.
- test_utils: minicore.rs, bench_fixture.rs, skip_slow_tests, format_diff.
- The editor extension outside the table (commands, colours, tasks); promises are modelled by their awaits, HTTP answers are inputs, percentages use exact quotients.
- Windows path prefixes; the file system (an oracle in Project.v).
- Failure to send on the channel to the client, and running out of memory or stack. (A worker's channel is open as long as there are workers: C88.)

## Simplifications

- A `SyntaxNode` is its green node: parents and offsets are computed from the tree when a theorem needs them.
- Outside AbsPath.v and FileUrl.v a real path is the list of its names; C65 proves that stored paths are determined by them and that the operations agree.
- A turn of the main loop is atomic. Workers run between turns; a job reads the snapshot taken when it was spawned, and may be cut short by a cancellation at any file of its list (the label says where).
- Fuel in the interpreter of the grammar: `Fuel` never stands for a behaviour of the program, and C21 proves that the fuel used is always enough.

## Statements that are false of the code

Theorems named `_refuted` give a witness against the claim as a user would state it. What holds instead is proved next to them. The findings behind them and others met on the way:

- *Diagnostics.* `source_root_config` is never assigned after start, so every file is in a library root and nothing is ever published (C33). Otherwise: results may arrive out of order, so stale diagnostics can stay (C33); the version sent is the one at sending time (C46); closing a document leaves its diagnostics (C47); a parser panic in one open file loses the diagnostics of the whole batch (C43).
- *Positions.* The server negotiates utf-8 but reads edits as UTF-16 and publishes byte columns (C36). A column or line outside the document, or in the middle of a character, panics the main loop. It advertises full synchronisation and implements incremental.
- *Protocol.* A response nobody asked for, and a notification whose parameters do not decode, panic the main loop (C32). `exit` without `shutdown` ends with success. If the parameters of `initialize` do not decode, the process ends without answering it (C56). A notification that does not decode panics outside its panic context, so the report does not name it (C80).
- *Downloads.* On Windows the label `win` is found in `darwin`, so the macOS binary is taken when it comes first (C68). A file with the asset's name is kept for ever, whatever release it is of, and a broken one makes every start fail (C68). The number of bytes received is not compared with the announced one (C67); without one the percentage is infinite. Failed downloads leave their temporary files behind. The path of the language server is a constant from a developer's home directory; the setting is ignored (C68).
- *Editor extension.* `dove.metadata` returns a pair, so that the test for missing metadata before a start (ws.ts:69) never holds. A folder is entered before its server is started, so that a start that failed is not tried again before a reload (C72). A reload does not wait for starts under way: their servers are never stopped and run beside those of the next activation (C71). `move.reload` and the listeners for settings and manifests are registered only at the end of an activation, so that after a failed one only restarting the editor helps (C73). The options sent with `initialize` are not read by the server. The output of dove is decoded piece by piece, so that a path with a character outside ASCII can arrive damaged (C86). A file in a folder inside another one is handled by two servers, and a folder with brackets in its name gives a pattern that does not match its own files (C87).
- *URLs.* The scheme of a URL is not looked at, so that a document `git:/a.move` overwrites the server's copy of the file /a.move. Messages carry the server's spelling of a URL, not the client's (C63).
- *Line endings.* `\r\r\n` becomes `\r\n`, so the documented absence of `\r\n` fails (C05).
- *Paths.* A root captures paths bytewise: `/foo` captures `/foobar` (C13). `FileSet::resolve_path` panics for an unknown anchor instead of returning None. Virtual `join` only understands leading `../` and `./`. A path named Dove.toml is accepted without looking whether it exists (C38).
- *Lexer.* Unknown characters, `"` and unterminated byte strings are `todo!()`; block comments are not known; `&mutable` is `&mut` `able`; `0xu8` is one number; `_` and hex strings are never produced (C18).
- *Parser.* More than 10 000 lookaheads panic, so 1112 times `module M;` does (C48_any_size_refuted), and no file with more than 10 001 tokens other than literals and prefix operators is ever accepted (C48_no_large_file_is_accepted; the proof charges each token to a look). A token that starts no known item, at the top of a file or in a module, script or address, makes a loop trip an assertion, so a `use` or `const` in a module brings the parser down (C25). So does a closing parenthesis where a statement should start; other tokens that start no statement are skipped up to the next `;` or `)`, so every `if (…)` and `while (…)` in a function ends there and panics (C25). Lookahead reports a comment as the next token, and the second lookahead does not skip blanks (C24), so `M::x*2`, `M::S{` and comments before `:` or `{` are misparsed (C49). Function generics, tuples, `==`, `&&`, borrows, `if`, `while` and others are not in the grammar. Accepted without an error: `(a b)`, `script;`, `T: A +`, missing semicolons, `S { 1 + 2 }` (C50 gives the whole relaxed grammar).
- *Typed tree.* `BinExpr::rhs` returns the left operand (C27). Several accessors of ScriptDef and FunctionDef find nothing in any file without errors (C51). `Expr` is only a binary expression or a literal.
- *Helpers.* `trim_indent` panics on multi-byte blanks (C44). `<tagged>` is read as the tag `tag` (C59). A second continuation line of an annotation panics (C60). `Fixture::parse` never returns a file (the line that adds one is commented out), so that `with_single_file`, `with_position` and `with_range` always panic (C64).
- *Version.* The build script asks cargo to watch .git/HEAD, which a commit on a branch does not write, so that a server built after one reports the commit before; the variable for the channel is not watched at all; a working copy in the root directory, and a git worktree (where .git is a file), is not found (C85).
- *Unused code.* `should_refresh_for_change` still looks for Cargo.toml and Rust files and is never called; discovered projects have no effect that can be seen; the macro `T!` has an arm for a token kind that does not exist.
- *Generator.* A struct whose parts are as many as an enum has variants loses their accessors to one for the enum, even if the parts are of one type or stand side by side. Optional parts of one type get the same body whatever their labels (the cause of `rhs` = `lhs`). Accessors moved to a trait vanish, because the trait implementations are commented out. Two methods may get one name (C61). Whether a token is a bracket is decided by looking for its name in the text `[]{}()`, so that a token `{}` or `](` would count as one. In move.ungram the operators of `BinExpr` lack parentheses, so its rule has five alternatives.

## Wrong programs

`seeded/LOG.jsonl` lists the edits made to scratch copies of the model, which lemmas then failed, which property theorems depend on them, and what was tightened where an edit survived.
