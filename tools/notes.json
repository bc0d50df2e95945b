{
 "C05": {
  "status": "proved",
  "note": "The _refuted theorems are witnesses that the documented invariant 'no CR LF left' and idempotence fail; C05_crlf_left_iff and C05_normalize_again say exactly when."
 },
 "C06": {
  "status": "proved",
  "note": "For batches that keep the text below 4 GiB, with start line <= end line in every range; a refutation shows that the condition on the ranges is needed (the cached line index is stale without it)."
 },
 "C13": {
  "status": "proved",
  "note": "The _refuted theorem is the witness for the last sentence of the property."
 },
 "C15": {
  "status": "proved",
  "note": "The _refuted theorem is the witness that resolve_path does not return None for an unknown anchor."
 },
 "C17": {
  "note": "Full, for texts below 4 GiB (longer tokens have their length truncated to u32 by the program)."
 },
 "C18": {
  "status": "proved",
  "note": "The _refuted theorem is the witness that byte strings with non-ASCII characters are cut short."
 },
 "C24": {
  "status": "proved",
  "note": "The _refuted theorems are the witnesses for 'need not be otherwise'."
 },
 "C26": {
  "note": ""
 },
 "C21": {
  "note": "Full for calls and loop iterations in the model; the machine stack is not modelled."
 },
 "C23": {
  "status": "proved",
  "note": "C23_operator_sequences is the full claim for files of up to 1996 tokens (the parser gives up on larger ones, C48_any_size_refuted); the theorems named _partial hold of every parsed file."
 },
 "C25": {
  "status": "partial",
  "note": "Refuted as stated. Proved: which kinds of panic are possible; a file that is a sequence of tokens can only fail an assertion; any other file brings the parser down; so does every file that begins with complete items and goes on with a token that starts no known item at that place (use, const, public, native, spec, a stray name or bracket), whatever follows; and so does every function body in which, behind complete statements, a token that starts no statement is followed by a closing parenthesis before any semicolon, as in every if (...) and while (...). Missing: an exact description of the texts of tokens on which the assertions fail (other mistakes inside functions, lookahead limit)."
 },
 "C44": {
  "status": "proved",
  "note": "Full for texts indented with one-byte whitespace; the exception named in the statement is shown by C44_wide_space_refuted."
 },
 "C27": {
  "note": "Refuted as stated (rhs returns the left operand; names, calls, parentheses are never returned). Proved: the shape of the node, lhs for operands the AST knows, and the operator token."
 },
 "C33": {
  "status": "partial",
  "note": "Refuted as stated: with the shipped source roots nothing is ever published, and with other roots results may arrive out of order. Proved for local roots when results are received in submission order and no open document makes the parser panic; such a settled state can always be reached."
 },
 "C46": {
  "status": "partial",
  "note": "Refuted as stated (the version is read when the notification is sent). Proved: it is the version the document has at that moment, absent if it is not open; and for clients that touch documents only when the server has nothing left to do, it is the version of the text diagnosed."
 },
 "C47": {
  "status": "partial",
  "note": "Refuted: the last diagnostics stay. Proved: once a document is closed and the work under way is done, nothing is published for it until it is opened again."
 },
 "C48": {
  "status": "proved",
  "note": "For programs of the grammar in SyntaxSpec.v of at most 1996 tokens, outside the two layouts listed there. Without the size limit it is false (C48_any_size_refuted); no file at all is accepted with more than 10 001 tokens other than literals and prefix operators (C48_no_large_file_is_accepted)."
 },
 "C49": {
  "status": "partial",
  "note": "Refuted as stated (a star or brace glued to a qualified name, a comment before a brace or colon). Proved for core programs in other layouts; and for any two layouts of any file, well-formed or not, that begin alike and avoid those two situations (or just answer the parser's lookahead questions alike): same panic, or same tree and same messages at the same places."
 },
 "C16": {
  "status": "proved",
  "note": "C16_dependency_skips_tests_refuted records a related defect (cargo_package_dependency excludes absolute /tests), not part of the property."
 },
 "C50": {
  "status": "proved",
  "note": "C50_only_core_programs_accepted_refuted shows that the relaxed rules are needed: the parser keeps quiet about files outside the core language."
 },
 "C51": {
  "status": "proved",
  "note": "C51_accessors_that_find_nothing: the remaining accessors of functions and scripts find nothing in any file without errors (see C27)."
 },
 "C52": {
  "status": "proved",
  "note": "Salsa inputs are maps to the values last set; salsa itself is trusted."
 },
 "C53": {
  "status": "proved",
  "note": "C53_no_node_ends_with_a_blank_refuted shows why the last clause needs its condition."
 },
 "C54": {
  "status": "proved",
  "note": "Texts with characters that start no token are outside the quantifier. Adding a blank where there was none, or removing one altogether, is not covered: C49_layout_is_irrelevant_refuted shows it can matter."
 },
 "C55": {
  "status": "proved",
  "note": "Ids are assumed distinct: a repeated id replaces the waiting entry (HashMap insert). Handlers do not touch the request queue themselves."
 },
 "C56": {
  "status": "proved",
  "note": "The handshake of lsp-server 0.5.2 is modelled by its documented behaviour; decoding of the parameters of initialize is a parameter of the model. If they do not decode, initialize is never answered (C56_bad_initialize_is_not_answered)."
 },
 "C57": {
  "status": "proved",
  "note": "Without in-order delivery the texts may go back in time (witness overtaken, PropDiag.v)."
 },
 "C43": {
  "status": "partial",
  "note": "Refuted: a parser panic in one open file loses the diagnostics of all. Proved: diagnostics that do arrive depend on the file's own text only; a job has results for all of its files or none, and none exactly if one of its files cannot be parsed or is too long."
 },
 "C58": {
  "status": "proved",
  "note": "Unix version of read2; spawning and waiting for the command are taken to succeed."
 },
 "C59": {
  "status": "proved",
  "note": "Both directions for all texts. A refutation shows that <tagged> counts as an opening tag of 'tag'."
 },
 "C60": {
  "status": "proved",
  "note": "An equivalence with the relational specification for all texts. A refutation shows that a second continuation line is refused although the documentation promises values of several lines."
 },
 "C61": {
  "status": "proved",
  "note": "Refutations show the generator's faults: a part can be lost to an enum accessor, labels do not tell parts of one type apart (the cause of rhs = lhs in C27), method names may clash, and accessors moved to traits vanish."
 },
 "C62": {
  "status": "proved",
  "note": "ungrammar's parser is outside the repository; move.ungram is given as the value it returns."
 },
 "C63": {
  "status": "proved",
  "note": "The set of characters that the url crate escapes is a parameter. Refuted as extra claims: messages carry the URL the client used (file:///a%40b comes back as file:///a@b), documents of other schemes are kept apart (git:/a.move is taken for the file /a.move)."
 },
 "C64": {
  "status": "proved",
  "note": "char::is_uppercase is a parameter. Refuted: Fixture::parse returns entries (it never pushes one), so with_single_file, with_position and with_range never succeed."
 },
 "C36": {
  "status": "partial",
  "note": "Refuted as stated: positions received are always read as UTF-16, positions sent are always UTF-8. Proved: received positions are right if UTF-16 was negotiated, sent positions if UTF-8 was, and both for ASCII documents whatever was negotiated."
 },
 "C67": {
  "status": "proved",
  "note": "Assumes that the random names of temporary files are new (fresh_draws). Refuted as an extra claim: what is stored has the announced length."
 },
 "C68": {
  "status": "proved",
  "note": "Refuted as extra claims: a Windows user gets a Windows binary (the label win is part of darwin); the file is of the latest release (a file of that name is kept, even a broken one); the setting for the language server has an effect."
 },
 "C71": {
  "status": "proved",
  "note": "Refuted as an extra claim: no folder ever has two servers running, reloads at any time included."
 },
 "C72": {
  "status": "proved",
  "note": "Refuted as an extra claim: a start that failed is tried again when another document of the folder is opened."
 },
 "C73": {
  "status": "proved",
  "note": "Refuted as an extra claim: the extension can always be reloaded (the command is registered only when an activation has ended well)."
 },
 "C74": {
  "status": "proved",
  "note": "Gaps not covered: segments of qualified names, and the conditionals and parentheses in the recovery set of patterns (they bring the parser down, C25)."
 },
 "C75": {
  "status": "proved",
  "note": "The two excluded layouts and the size limit are those of C48; a_comment_changes_the_tree shows that the first one matters."
 },
 "C76": {
  "status": "proved",
  "note": "Not covered: places inside nested blocks, expressions and lists; the two layouts excluded in C48. That the parser may not return at all is C25."
 },
 "C77": {
  "status": "proved",
  "note": "Files with a byte string that is not ASCII are excluded, as in C18. If the parser panics on one of the files nothing is said (C25)."
 },
 "C78": {
  "status": "proved",
  "note": "One panic ends a run, so one run does not bring all files up to date if several are stale. That the generated texts do not depend on the disk is read off the code (include_str! and constants)."
 },
 "C79": {
  "status": "proved",
  "note": "The grammar of broken files is an upper bound: every tree returned is in it. That each of its trees is returned for some text is not claimed (C74 and C75 have such statements for parts of it). The token and position statements are for texts in which strings are ASCII, as in C74."
 },
 "C80": {
  "status": "proved",
  "note": "Found: a notification whose parameters do not decode panics before its context is entered, so that the report does not say which one it was. Lines of two threads that panic at the same time may be mixed. Handlers are given by whether they panic, and with what message; the default hook's text is kept as the message only."
 },
 "C81": {
  "note": "Said for trees without blanks and comments; the place of a construct is the number of tokens before it. Both files must be parsed without a panic. A construct that ends within the last two shared tokens is not covered, since the parser looks two tokens ahead, nor is one that reaches beyond the shared part: an operator there may regroup it."
 },
 "C82": {
  "note": "The place must be behind at least one token and before a token that is no blank or comment. Places of messages are given as numbers of tokens in front. The other direction, that the items before the place are read as if they stood alone, is not claimed: the parser looks ahead (see C77 and C81)."
 },
 "C83": {
  "note": "The format of nodes, tokens and strings is that of rowan 0.13.2 and of the standard library, which are not in this sandbox; the snapshots in /repo agree with it, but none of them has a token of 25 bytes and more, so the cutting of long tokens is not confirmed by them."
 },
 "C84": {
  "note": "Over exact rational numbers, not over 64-bit floating-point ones: rounding can change the answer only for measurements that are within rounding errors of one of the three limits, and times that are exactly quadratic are not (the constant term is below -1/6, the limit is -1/10). With a linear part the constant term can be as close to the limit as the number of sizes is large. No test in /repo uses the check at this commit."
 },
 "C85": {
  "note": "Refuted as stated: after a commit on a branch the server is built with the version of the commit before, and a channel set later has no effect. Proved: the first build is right; every version was right at one of the builds and nothing watched has changed for the builds since; the commit is right if commits are made with detached HEAD only; which file is watched. git, date and cargo are modelled by their documentation; a value is taken to have no line break."
 },
 "C86": {
  "note": "Refuted as stated: a piece that ends in the middle of a character gives replacement characters. Proved: the text is right exactly if no character is cut, and then the answer does not depend on pieces and order; always so for ASCII output. Not modelled: a program that cannot be started (its error event has no listener)."
 },
 "C87": {
  "note": "Refuted as stated: with nested folders both servers are told. Proved: exactly which documents a server is told about, that the own server always is, and that it is the only one if no folder is in another one. The names of folders are taken to have no characters that mean something in a pattern (with such ones, as in `a[1]`, a server is not told about the files in its own folder); the matching is that of the editor, by its documentation."
 },
 "C88": {
  "note": "The process ends after this when the threads for input and output do (not modelled). The pool, the channel and the lock of the database are modelled by their documentation; a query of a job is one step."
 }
}