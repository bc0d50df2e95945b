{
 "claims": [
  {
   "property": "C01",
   "status": "proved",
   "theorems": [
    "C01_offset_line_col_roundtrip",
    "C01_index_exists"
   ],
   "note": ""
  },
  {
   "property": "C02",
   "status": "proved",
   "theorems": [
    "C02_line_col_counts_newlines",
    "C02_line_col_any_offset"
   ],
   "note": ""
  },
  {
   "property": "C03",
   "status": "proved",
   "theorems": [
    "C03_utf16_columns"
   ],
   "note": ""
  },
  {
   "property": "C04",
   "status": "proved",
   "theorems": [
    "C04_lines_split_at_line_starts"
   ],
   "note": ""
  },
  {
   "property": "C05",
   "status": "proved",
   "theorems": [
    "C05_normalize_replaces_crlf",
    "C05_crlf_left_iff",
    "C05_normalize_again",
    "C05_normalized_text_has_no_crlf_refuted",
    "C05_normalize_idempotent_refuted"
   ],
   "note": "The _refuted theorems are witnesses that the documented invariant 'no CR LF left' and idempotence fail; C05_crlf_left_iff and C05_normalize_again say exactly when."
  },
  {
   "property": "C06",
   "status": "proved",
   "theorems": [
    "C06_batch_equals_single_edits",
    "C06_any_ranges_refuted"
   ],
   "note": "For batches that keep the text below 4 GiB, with start line <= end line in every range; a refutation shows that the condition on the ranges is needed (the cached line index is stale without it)."
  },
  {
   "property": "C07",
   "status": "proved",
   "theorems": [
    "C07_client_edits_are_applied"
   ],
   "note": ""
  },
  {
   "property": "C08",
   "status": "proved",
   "theorems": [
    "C08_disjointness_check_exact"
   ],
   "note": ""
  },
  {
   "property": "C09",
   "status": "proved",
   "theorems": [
    "C09_histories_run",
    "C09_vfs_returns_last_write"
   ],
   "note": ""
  },
  {
   "property": "C10",
   "status": "proved",
   "theorems": [
    "C10_file_ids_stable",
    "C10_file_ids_unique"
   ],
   "note": ""
  },
  {
   "property": "C11",
   "status": "proved",
   "theorems": [
    "C11_write_logs_exactly_real_changes",
    "C11_log_replays_to_live_files",
    "C11_log_is_complete"
   ],
   "note": ""
  },
  {
   "property": "C12",
   "status": "proved",
   "theorems": [
    "C12_partition_covers_live_files_once"
   ],
   "note": ""
  },
  {
   "property": "C13",
   "status": "proved",
   "theorems": [
    "C13_classify_longest_prefix",
    "C13_classify_nearest_root",
    "C13_classify_nearest_directory",
    "C13_build_never_fails",
    "C13_classified_below_its_root_refuted"
   ],
   "note": "The _refuted theorem is the witness for the last sentence of the property."
  },
  {
   "property": "C14",
   "status": "proved",
   "theorems": [
    "C14_normalize_is_lexical_simplification",
    "C14_normalize_idempotent"
   ],
   "note": ""
  },
  {
   "property": "C15",
   "status": "proved",
   "theorems": [
    "C15_join_drops_leading_parents",
    "C15_every_path_decomposes",
    "C15_pop_undoes_join",
    "C15_pop_cuts_at_last_slash",
    "C15_parent_chains_end",
    "C15_starts_with",
    "C15_name_and_extension",
    "C15_resolve_path",
    "C15_resolve_path_panics_iff",
    "C15_resolve_path_total_refuted"
   ],
   "note": "The _refuted theorem is the witness that resolve_path does not return None for an unknown anchor."
  },
  {
   "property": "C16",
   "status": "proved",
   "theorems": [
    "C16_loader_filter_longest_rule",
    "C16_directory_filter_longest_rule",
    "C16_dependency_skips_tests_refuted"
   ],
   "note": "C16_dependency_skips_tests_refuted records a related defect (cargo_package_dependency excludes absolute /tests), not part of the property."
  },
  {
   "property": "C17",
   "status": "proved",
   "theorems": [
    "C17_tokens_tile",
    "C17_tokens_so_far",
    "C17_tokens_nonempty",
    "C17_lexing_stops"
   ],
   "note": "Full, for texts below 4 GiB (longer tokens have their length truncated to u32 by the program)."
  },
  {
   "property": "C18",
   "status": "proved",
   "theorems": [
    "C18_first_token",
    "C18_lexeme_kinds_unique",
    "C18_end_of_file",
    "C18_no_token",
    "C18_token_stream",
    "C18_token_stream_reached",
    "C18_ascii_in_scope",
    "C18_non_ascii_string_refuted"
   ],
   "note": "The _refuted theorem is the witness that byte strings with non-ASCII characters are cut short."
  },
  {
   "property": "C19",
   "status": "proved",
   "theorems": [
    "C19_lossless",
    "C19_leaves_are_the_tokens"
   ],
   "note": ""
  },
  {
   "property": "C20",
   "status": "proved",
   "theorems": [
    "C20_well_formed",
    "C20_tree_building_cannot_fail",
    "C20_starts_and_finishes_balance"
   ],
   "note": ""
  },
  {
   "property": "C21",
   "status": "proved",
   "theorems": [
    "C21_parsing_stops",
    "C21_calls_are_linear"
   ],
   "note": "Full for calls and loop iterations in the model; the machine stack is not modelled."
  },
  {
   "property": "C22",
   "status": "proved",
   "theorems": [
    "C22_error_positions"
   ],
   "note": ""
  },
  {
   "property": "C23",
   "status": "proved",
   "theorems": [
    "C23_grouping_partial",
    "C23_grouping_is_unique_partial",
    "C23_operator_sequences"
   ],
   "note": "C23_operator_sequences is the full claim for files of up to 1996 tokens (the parser gives up on larger ones, C48_any_size_refuted); the theorems named _partial hold of every parsed file."
  },
  {
   "property": "C24",
   "status": "proved",
   "theorems": [
    "C24_lookahead_next_reads",
    "C24_white_space",
    "C24_lookahead_second_reads",
    "C24_lookahead_next_agrees",
    "C24_lookahead_second_agrees",
    "C24_lookahead_zero",
    "C24_lookahead_refuted",
    "C24_lookahead_2_refuted"
   ],
   "note": "The _refuted theorems are the witnesses for 'need not be otherwise'."
  },
  {
   "property": "C25",
   "status": "partial",
   "theorems": [
    "C25_never_panics_refuted",
    "C25_kinds_of_panic_partial",
    "C25_token_streams_partial",
    "C25_other_files_panic_partial",
    "C25_unknown_items_panic_partial",
    "C25_other_items_in_modules_panic_partial",
    "C25_stray_parentheses_panic_partial",
    "C25_conditionals_panic_partial",
    "C25_root_check_never_fails"
   ],
   "note": "Refuted as stated. Proved: which kinds of panic are possible; a file that is a sequence of tokens can only fail an assertion; any other file brings the parser down; so does every file that begins with complete items and goes on with a token that starts no known item at that place (use, const, public, native, spec, a stray name or bracket), whatever follows; and so does every function body in which, behind complete statements, a token that starts no statement is followed by a closing parenthesis before any semicolon, as in every if (...) and while (...). Missing: an exact description of the texts of tokens on which the assertions fail (other mistakes inside functions, lookahead limit)."
  },
  {
   "property": "C26",
   "status": "proved",
   "theorems": [
    "C26_token_set_new",
    "C26_token_set_union",
    "C26_token_set_empty",
    "C26_kind_u16_roundtrip",
    "C26_u16_kind_roundtrip"
   ],
   "note": ""
  },
  {
   "property": "C27",
   "status": "partial",
   "theorems": [
    "C27_parts",
    "C27_lhs_partial",
    "C27_rhs_partial",
    "C27_operator",
    "C27_rhs_refuted",
    "C27_other_accessors_refuted"
   ],
   "note": "Refuted as stated (rhs returns the left operand; names, calls, parentheses are never returned). Proved: the shape of the node, lhs for operands the AST knows, and the operator token."
  },
  {
   "property": "C28",
   "status": "proved",
   "theorems": [
    "C28_every_request_answered_once"
   ],
   "note": ""
  },
  {
   "property": "C29",
   "status": "proved",
   "theorems": [
    "C29_shutdown_protocol"
   ],
   "note": ""
  },
  {
   "property": "C30",
   "status": "proved",
   "theorems": [
    "C30_documents_follow_the_client",
    "C30_well_behaved_clients"
   ],
   "note": ""
  },
  {
   "property": "C31",
   "status": "proved",
   "theorems": [
    "C31_analysis_sees_current_text"
   ],
   "note": ""
  },
  {
   "property": "C32",
   "status": "proved",
   "theorems": [
    "C32_well_behaved_clients_are_served",
    "C32_only_these_messages_kill",
    "C32_jobs_find_their_files"
   ],
   "note": ""
  },
  {
   "property": "C33",
   "status": "partial",
   "theorems": [
    "C33_in_order_delivery_partial",
    "C33_can_settle",
    "C33_nothing_published_refuted",
    "C33_stale_diagnostics_refuted"
   ],
   "note": "Refuted as stated: with the shipped source roots nothing is ever published, and with other roots results may arrive out of order. Proved for local roots when results are received in submission order and no open document makes the parser panic; such a settled state can always be reached."
  },
  {
   "property": "C34",
   "status": "proved",
   "theorems": [
    "C34_client_shows_the_collection",
    "C34_client_shows_the_history",
    "C34_fixes_belong_to_shown_diagnostics",
    "C34_only_news_is_published"
   ],
   "note": ""
  },
  {
   "property": "C35",
   "status": "proved",
   "theorems": [
    "C35_diagnostics_of_a_file",
    "C35_diagnostics_in_order"
   ],
   "note": ""
  },
  {
   "property": "C36",
   "status": "partial",
   "theorems": [
    "C36_received_positions_refuted",
    "C36_sent_positions_refuted",
    "C36_received_utf16_partial",
    "C36_sent_utf8_partial",
    "C36_ascii_documents_partial"
   ],
   "note": "Refuted as stated: positions received are always read as UTF-16, positions sent are always UTF-8. Proved: received positions are right if UTF-16 was negotiated, sent positions if UTF-8 was, and both for ASCII documents whatever was negotiated."
  },
  {
   "property": "C37",
   "status": "proved",
   "theorems": [
    "C37_to_proto_from_proto_inverse",
    "C37_ranges_roundtrip"
   ],
   "note": ""
  },
  {
   "property": "C38",
   "status": "proved",
   "theorems": [
    "C38_manifest_itself",
    "C38_nearest_ancestor",
    "C38_children_otherwise",
    "C38_discovery_ends",
    "C38_manifests_have_parents",
    "C38_from_manifest_file",
    "C38_discover_single",
    "C38_discover_all"
   ],
   "note": ""
  },
  {
   "property": "C39",
   "status": "proved",
   "theorems": [
    "C39_at_most_one",
    "C39_starts_when_idle_and_requested",
    "C39_completion"
   ],
   "note": ""
  },
  {
   "property": "C40",
   "status": "proved",
   "theorems": [
    "C40_equal_range",
    "C40_partition_point"
   ],
   "note": ""
  },
  {
   "property": "C41",
   "status": "proved",
   "theorems": [
    "C41_snake_no_uppercase",
    "C41_snake_idempotent",
    "C41_pascal_no_underscore",
    "C41_pascal_words",
    "C41_words_exist",
    "C41_letters_kept",
    "C41_snake_words"
   ],
   "note": ""
  },
  {
   "property": "C42",
   "status": "proved",
   "theorems": [
    "C42_cursor_round_trip",
    "C42_add_cursor_bounds",
    "C42_range_round_trip",
    "C42_range_or_offset"
   ],
   "note": ""
  },
  {
   "property": "C43",
   "status": "partial",
   "theorems": [
    "C43_own_text_only_partial",
    "C43_all_or_nothing_partial",
    "C43_other_files_matter_refuted",
    "C43_all_fine_partial"
   ],
   "note": "Refuted: a parser panic in one open file loses the diagnostics of all. Proved: diagnostics that do arrive depend on the file's own text only; a job has results for all of its files or none, and none exactly if one of its files cannot be parsed or is too long."
  },
  {
   "property": "C44",
   "status": "proved",
   "theorems": [
    "C44_trim_indent",
    "C44_wide_space_refuted"
   ],
   "note": "Full for texts indented with one-byte whitespace; the exception named in the statement is shown by C44_wide_space_refuted."
  },
  {
   "property": "C45",
   "status": "proved",
   "theorems": [
    "C45_iter_eq_by"
   ],
   "note": ""
  },
  {
   "property": "C46",
   "status": "partial",
   "theorems": [
    "C46_version_of_diagnostics_refuted",
    "C46_version_is_the_current_one_partial",
    "C46_patient_clients_partial"
   ],
   "note": "Refuted as stated (the version is read when the notification is sent). Proved: it is the version the document has at that moment, absent if it is not open; and for clients that touch documents only when the server has nothing left to do, it is the version of the text diagnosed."
  },
  {
   "property": "C47",
   "status": "partial",
   "theorems": [
    "C47_closed_documents_keep_diagnostics_refuted",
    "C47_silence_after_closing_partial"
   ],
   "note": "Refuted: the last diagnostics stay. Proved: once a document is closed and the work under way is done, nothing is published for it until it is opened again."
  },
  {
   "property": "C48",
   "status": "proved",
   "theorems": [
    "C48_no_large_file_is_accepted",
    "C48_core_programs_are_parsed",
    "C48_core_grammar_unambiguous",
    "C48_any_size_refuted"
   ],
   "note": "For programs of the grammar in SyntaxSpec.v of at most 1996 tokens, outside the two layouts listed there. Without the size limit it is false (C48_any_size_refuted); no file at all is accepted with more than 10 001 tokens other than literals and prefix operators (C48_no_large_file_is_accepted)."
  },
  {
   "property": "C49",
   "status": "partial",
   "theorems": [
    "C49_same_answers_same_reading_partial",
    "C49_careful_layouts_partial",
    "C49_layout_is_irrelevant_partial",
    "C49_layout_is_irrelevant_refuted"
   ],
   "note": "Refuted as stated (a star or brace glued to a qualified name, a comment before a brace or colon). Proved for core programs in other layouts; and for any two layouts of any file, well-formed or not, that begin alike and avoid those two situations (or just answer the parser's lookahead questions alike): same panic, or same tree and same messages at the same places."
  },
  {
   "property": "C50",
   "status": "proved",
   "theorems": [
    "C50_no_errors_means_in_the_grammar",
    "C50_phrase_is_the_text",
    "C50_outside_is_reported",
    "C50_includes_the_core",
    "C50_only_core_programs_accepted_refuted"
   ],
   "note": "C50_only_core_programs_accepted_refuted shows that the relaxed rules are needed: the parser keeps quiet about files outside the core language."
  },
  {
   "property": "C51",
   "status": "proved",
   "theorems": [
    "C51_ok",
    "C51_scripts",
    "C51_statement",
    "C51_literal",
    "C51_function",
    "C51_accessors_that_find_nothing",
    "C51_casts",
    "C51_tokens"
   ],
   "note": "C51_accessors_that_find_nothing: the remaining accessors of functions and scripts find nothing in any file without errors (see C27)."
  },
  {
   "property": "C52",
   "status": "proved",
   "theorems": [
    "C52_texts",
    "C52_roots",
    "C52_no_roots",
    "C52_roots_known",
    "C52_panics_iff"
   ],
   "note": "Salsa inputs are maps to the values last set; salsa itself is trusted."
  },
  {
   "property": "C53",
   "status": "proved",
   "theorems": [
    "C53_trivia_between_children",
    "C53_text_starts_and_ends_with_a_token",
    "C53_no_node_ends_with_a_blank_refuted"
   ],
   "note": "C53_no_node_ends_with_a_blank_refuted shows why the last clause needs its condition."
  },
  {
   "property": "C54",
   "status": "proved",
   "theorems": [
    "C54_structure_depends_on_token_kinds",
    "C54_blank_runs_do_not_matter"
   ],
   "note": "Texts with characters that start no token are outside the quantifier. Adding a blank where there was none, or removing one altogether, is not covered: C49_layout_is_irrelevant_refuted shows it can matter."
  },
  {
   "property": "C55",
   "status": "proved",
   "theorems": [
    "C55_answered_once",
    "C55_request_turn",
    "C55_cancellation",
    "C55_can_finish",
    "C55_program_is_instance",
    "C55_notifications"
   ],
   "note": "Ids are assumed distinct: a repeated id replaces the waiting entry (HashMap insert). Handlers do not touch the request queue themselves."
  },
  {
   "property": "C56",
   "status": "proved",
   "theorems": [
    "C56_handshake",
    "C56_no_service_without_handshake",
    "C56_every_request_answered_once",
    "C56_exit_status",
    "C56_well_behaved_clients_are_served",
    "C56_registration",
    "C56_bad_initialize_is_not_answered"
   ],
   "note": "The handshake of lsp-server 0.5.2 is modelled by its documented behaviour; decoding of the parameters of initialize is a parameter of the model. If they do not decode, initialize is never answered (C56_bad_initialize_is_not_answered)."
  },
  {
   "property": "C57",
   "status": "proved",
   "theorems": [
    "C57_diagnostics_are_of_a_text_it_had",
    "C57_in_order_never_back",
    "C57_unopened_documents_get_none"
   ],
   "note": "Without in-order delivery the texts may go back in time (witness overtaken, PropDiag.v)."
  },
  {
   "property": "C58",
   "status": "proved",
   "theorems": [
    "C58_all_lines_once_in_order",
    "C58_text_is_decoded",
    "C58_lines_are_prompt",
    "C58_failures",
    "C58_no_pipe_is_forgotten",
    "C58_returns_when_both_ended"
   ],
   "note": "Unix version of read2; spawning and waiting for the command are taken to succeed."
  },
  {
   "property": "C59",
   "status": "proved",
   "theorems": [
    "C59_tags_are_read",
    "C59_ranges_cut_the_tagged_text",
    "C59_only_nested_tags",
    "C59_longer_names_refuted"
   ],
   "note": "Both directions for all texts. A refutation shows that <tagged> counts as an opening tag of 'tag'."
  },
  {
   "property": "C60",
   "status": "proved",
   "theorems": [
    "C60_annotations_are_read",
    "C60_ranges_lie_in_the_text",
    "C60_scan_ends",
    "C60_many_lines_refuted"
   ],
   "note": "An equivalence with the relational specification for all texts. A refutation shows that a second continuation line is refused although the documentation promises values of several lines."
  },
  {
   "property": "C61",
   "status": "proved",
   "theorems": [
    "C61_accepted_grammars",
    "C61_accessors_for_every_mention",
    "C61_required_parts_are_found",
    "C61_children_are_returned_or_hidden",
    "C61_results_have_the_type",
    "C61_no_child_is_lost_refuted",
    "C61_labels_tell_parts_apart_refuted",
    "C61_methods_are_distinct_refuted",
    "C61_every_mention_has_a_method_refuted"
   ],
   "note": "Refutations show the generator's faults: a part can be lost to an enum accessor, labels do not tell parts of one type apart (the cause of rhs = lhs in C27), method names may clash, and accessors moved to traits vanish."
  },
  {
   "property": "C62",
   "status": "proved",
   "theorems": [
    "C62_typed_tree_is_that_of_the_grammar",
    "C62_typed_tokens_are_those_of_the_grammar",
    "C62_kinds_are_those_of_the_table"
   ],
   "note": "ungrammar's parser is outside the repository; move.ungram is given as the value it returns."
  },
  {
   "property": "C63",
   "status": "proved",
   "theorems": [
    "C63_which_file",
    "C63_one_file_one_document",
    "C63_files_have_urls",
    "C63_urls_tell_files_apart",
    "C63_answers_lead_to_the_document",
    "C63_answers_use_the_same_url_iff",
    "C63_urls_as_shipped",
    "C63_answers_use_the_same_url_refuted",
    "C63_other_schemes_are_kept_apart_refuted"
   ],
   "note": "The set of characters that the url crate escapes is a parameter. Refuted as extra claims: messages carry the URL the client used (file:///a%40b comes back as file:///a@b), documents of other schemes are kept apart (git:/a.move is taken for the file /a.move)."
  },
  {
   "property": "C64",
   "status": "proved",
   "theorems": [
    "C64_entries_accepted_iff",
    "C64_entries_make_the_database",
    "C64_texts_describe_files_refuted",
    "C64_what_tests_get"
   ],
   "note": "char::is_uppercase is a parameter. Refuted: Fixture::parse returns entries (it never pushes one), so with_single_file, with_position and with_range never succeed."
  },
  {
   "property": "C65",
   "status": "proved",
   "theorems": [
    "C65_stored_spelling",
    "C65_join",
    "C65_pop",
    "C65_one_spelling",
    "C65_comparisons_agree",
    "C65_names_stand_for_paths",
    "C65_same_file_same_path",
    "C65_encodings_agree"
   ],
   "note": ""
  },
  {
   "property": "C66",
   "status": "proved",
   "theorems": [
    "C66_only_absolute_paths",
    "C66_join",
    "C66_parent",
    "C66_strip_prefix",
    "C66_ends_with",
    "C66_equality",
    "C66_names",
    "C66_nameless",
    "C66_manifests"
   ],
   "note": ""
  },
  {
   "property": "C67",
   "status": "proved",
   "theorems": [
    "C67_whole_files",
    "C67_found_is_there",
    "C67_other_files",
    "C67_announced_length_refuted"
   ],
   "note": "Assumes that the random names of temporary files are new (fresh_draws). Refuted as an extra claim: what is stored has the announced length."
  },
  {
   "property": "C68",
   "status": "proved",
   "theorems": [
    "C68_which_binary",
    "C68_requests",
    "C68_right_platform_refuted",
    "C68_latest_release_refuted",
    "C68_language_server_setting_refuted"
   ],
   "note": "Refuted as extra claims: a Windows user gets a Windows binary (the label win is part of darwin); the file is of the latest release (a file of that name is kept, even a broken one); the setting for the language server has an effect."
  },
  {
   "property": "C69",
   "status": "proved",
   "theorems": [
    "C69_token",
    "C69_failures",
    "C69_only_checked",
    "C69_can_end_well"
   ],
   "note": ""
  },
  {
   "property": "C70",
   "status": "proved",
   "theorems": [
    "C70_progress",
    "C70_hundred"
   ],
   "note": ""
  },
  {
   "property": "C71",
   "status": "proved",
   "theorems": [
    "C71_bounded",
    "C71_stops",
    "C71_one_at_a_time",
    "C71_reload_stops_all",
    "C71_always_one_at_a_time_refuted"
   ],
   "note": "Refuted as an extra claim: no folder ever has two servers running, reloads at any time included."
  },
  {
   "property": "C72",
   "status": "proved",
   "theorems": [
    "C72_why",
    "C72_opening_starts",
    "C72_reload_starts",
    "C72_starts_retried_refuted"
   ],
   "note": "Refuted as an extra claim: a start that failed is tried again when another document of the folder is opened."
  },
  {
   "property": "C73",
   "status": "proved",
   "theorems": [
    "C73_listeners",
    "C73_reload",
    "C73_manifest_saved",
    "C73_manifests_changed",
    "C73_why_failed",
    "C73_ends_once",
    "C73_failed_is_final",
    "C73_can_always_reload_refuted"
   ],
   "note": "Refuted as an extra claim: the extension can always be reloaded (the command is registered only when an activation has ended well)."
  },
  {
   "property": "C74",
   "status": "proved",
   "theorems": [
    "C74_unfinished_programs_are_parsed"
   ],
   "note": "Gaps not covered: segments of qualified names, and the conditionals and parentheses in the recovery set of patterns (they bring the parser down, C25)."
  },
  {
   "property": "C75",
   "status": "proved",
   "theorems": [
    "C75_accepted_trees_exactly",
    "C75_accepted_texts_exactly",
    "C75_everything_else_is_reported",
    "C75_one_tree"
   ],
   "note": "The two excluded layouts and the size limit are those of C48; a_comment_changes_the_tree shows that the first one matters."
  },
  {
   "property": "C76",
   "status": "proved",
   "theorems": [
    "C76_before_a_mistake",
    "C76_items_before_a_mistake"
   ],
   "note": "Not covered: places inside nested blocks, expressions and lists; the two layouts excluded in C48. That the parser may not return at all is C25."
  },
  {
   "property": "C77",
   "status": "proved",
   "theorems": [
    "C77_messages_shared",
    "C77_message_in_both"
   ],
   "note": "Files with a byte string that is not ASCII are excluded, as in C18. If the parser panics on one of the files nothing is said (C25)."
  },
  {
   "property": "C78",
   "status": "proved",
   "theorems": [
    "C78_passes",
    "C78_first_stale_file",
    "C78_settles",
    "C78_settles_soon"
   ],
   "note": "One panic ends a run, so one run does not bring all files up to date if several are stale. That the generated texts do not depend on the disk is read off the code (include_str! and constants)."
  },
  {
   "property": "C79",
   "status": "proved",
   "theorems": [
    "C79_every_tree",
    "C79_operators",
    "C79_functions",
    "C79_structs",
    "C79_modules",
    "C79_error_nodes",
    "C79_messages"
   ],
   "note": "The grammar of broken files is an upper bound: every tree returned is in it. That each of its trees is returned for some text is not claimed (C74 and C75 have such statements for parts of it). The token and position statements are for texts in which strings are ASCII, as in C74."
  },
  {
   "property": "C80",
   "status": "proved",
   "theorems": [
    "C80_reports",
    "C80_writes_one",
    "C80_never_stuck",
    "C80_main_thread",
    "C80_main_thread_survives",
    "C80_workers"
   ],
   "note": "Found: a notification whose parameters do not decode panics before its context is entered, so that the report does not say which one it was. Lines of two threads that panic at the same time may be mixed. Handlers are given by whether they panic, and with what message; the default hook's text is kept as the message only."
  },
  {
   "property": "C81",
   "status": "proved",
   "theorems": [
    "C81_constructs_shared"
   ],
   "note": "Said for trees without blanks and comments; the place of a construct is the number of tokens before it. Both files must be parsed without a panic. A construct that ends within the last two shared tokens is not covered, since the parser looks two tokens ahead, nor is one that reaches beyond the shared part: an operator there may regroup it."
  },
  {
   "property": "C82",
   "status": "proved",
   "theorems": [
    "C82_rest_alone",
    "C82_same_end",
    "C82_behind_correct_items"
   ],
   "note": "The place must be behind at least one token and before a token that is no blank or comment. Places of messages are given as numbers of tokens in front. The other direction, that the items before the place are read as if they stood alone, is not claimed: the parser looks ahead (see C77 and C81)."
  },
  {
   "property": "C83",
   "status": "proved",
   "theorems": [
    "C83_dump_exists",
    "C83_same_dump_iff",
    "C83_short_tokens"
   ],
   "note": "The format of nodes, tokens and strings is that of rowan 0.13.2 and of the standard library, which are not in this sandbox; the snapshots in /repo agree with it, but none of them has a token of 25 bytes and more, so the cutting of long tokens is not confirmed by them."
  },
  {
   "property": "C84",
   "status": "proved",
   "theorems": [
    "C84_passes_iff",
    "C84_fails_iff",
    "C84_lines",
    "C84_near_a_line",
    "C84_best_line",
    "C84_criterion",
    "C84_squares_fail",
    "C84_mixed_fail"
   ],
   "note": "Over exact rational numbers, not over 64-bit floating-point ones: rounding can change the answer only for measurements that are within rounding errors of one of the three limits, and times that are exactly quadratic are not (the constant term is below -1/6, the limit is -1/10). With a linear part the constant term can be as close to the limit as the number of sizes is large. No test in /repo uses the check at this commit."
  },
  {
   "property": "C85",
   "status": "partial",
   "theorems": [
    "C85_first_build",
    "C85_right_at_some_build",
    "C85_names_the_commit_partial",
    "C85_switching_repairs",
    "C85_asked_for",
    "C85_names_the_commit_refuted",
    "C85_watched"
   ],
   "note": "Refuted as stated: after a commit on a branch the server is built with the version of the commit before, and a channel set later has no effect. Proved: the first build is right; every version was right at one of the builds and nothing watched has changed for the builds since; the commit is right if commits are made with detached HEAD only; which file is watched. git, date and cargo are modelled by their documentation; a value is taken to have no line break."
  },
  {
   "property": "C86",
   "status": "partial",
   "theorems": [
    "C86_right_iff",
    "C86_same_answer_partial",
    "C86_answer_partial",
    "C86_ascii_partial",
    "C86_pieces_refuted"
   ],
   "note": "Refuted as stated: a piece that ends in the middle of a character gives replacement characters. Proved: the text is right exactly if no character is cut, and then the answer does not depend on pieces and order; always so for ASCII output. Not modelled: a program that cannot be started (its error event has no listener)."
  },
  {
   "property": "C87",
   "status": "partial",
   "theorems": [
    "C87_told_iff",
    "C87_own_server",
    "C87_one_server_partial",
    "C87_one_server_refuted"
   ],
   "note": "Refuted as stated: with nested folders both servers are told. Proved: exactly which documents a server is told about, that the own server always is, and that it is the only one if no folder is in another one. The names of folders are taken to have no characters that mean something in a pattern (with such ones, as in `a[1]`, a server is not told about the files in its own folder); the matching is that of the editor, by its documentation."
  },
  {
   "property": "C88",
   "status": "proved",
   "theorems": [
    "C88_bounded",
    "C88_no_deadlock",
    "C88_ends",
    "C88_no_failed_send",
    "C88_every_job",
    "C88_lost",
    "C88_one_version"
   ],
   "note": "The process ends after this when the threads for input and output do (not modelled). The pool, the channel and the lock of the database are modelled by their documentation; a query of a job is one step."
  }
 ]
}