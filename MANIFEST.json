{
 "claims": [
  {
   "property": "C01",
   "status": "proved",
   "theorems": [
    "C01_sequence_roundtrip",
    "C01_writes_append"
   ],
   "note": ""
  },
  {
   "property": "C02",
   "status": "partial",
   "theorems": [
    "C02_class",
    "C02_interface",
    "C02_trait",
    "C02_function_partial",
    "C02_method_partial",
    "C02_const",
    "C02_define",
    "C02_class_const_partial",
    "C02_property",
    "C02_global_variable",
    "C02_parameter_documentation_refuted"
   ],
   "note": "Every field the code serialises reads back unchanged for every kind; parameter descriptions, name-token locations and class constant visibility are not persisted (refutations)."
  },
  {
   "property": "C03",
   "status": "partial",
   "theorems": [
    "C03_visibility_refuted",
    "C03_visibility_partial"
   ],
   "note": "The full statement is false of the code: ClassConst.Serialise does not write the visibility. The partial theorem proves it for public constants."
  },
  {
   "property": "C04",
   "status": "proved",
   "theorems": [
    "C04_memory_is_a_map",
    "C04_leveldb_is_a_map"
   ],
   "note": ""
  },
  {
   "property": "C05",
   "status": "proved",
   "theorems": [
    "C05_failed_batch_changes_nothing",
    "C05_committed_batch_is_sequential",
    "C05_batch_invisible_until_done"
   ],
   "note": ""
  },
  {
   "property": "C06",
   "status": "proved",
   "theorems": [
    "C06_memory_scan",
    "C06_leveldb_scan"
   ],
   "note": ""
  },
  {
   "property": "C07",
   "status": "proved",
   "theorems": [
    "C07_read_precedence",
    "C07_memory_mode_never_writes_disk",
    "C07_scan_from_all"
   ],
   "note": ""
  },
  {
   "property": "C08",
   "status": "partial",
   "theorems": [
    "C08_look_ups_exact_partial",
    "C08_properties_exact_refuted"
   ],
   "note": "Exact after every history for classes, interfaces, traits, functions, constants, defines, methods and global variables; for properties under the condition that no file URI ends in a digit (a.php5 and a.php can collide: refuted). Text tables (strings.ToLower) enter as a parameter with text_ok."
  },
  {
   "property": "C09",
   "status": "partial",
   "theorems": [
    "C09_class_constants_exact_partial",
    "C09_class_constants_exact_refuted"
   ],
   "note": "False of the code: the scan has no separator behind the name (FOO also returns FOOBAR). Exact when no longer-named constant exists and no two files declare the same constant."
  },
  {
   "property": "C10",
   "status": "partial",
   "theorems": [
    "C10_members_kept_partial",
    "C10_class_constants_kept_refuted"
   ],
   "note": "Methods (always) and properties (URIs not ending in a digit) stay; class constants are replaced (refuted)."
  },
  {
   "property": "C11",
   "status": "proved",
   "theorems": [
    "C11_kinds_apart",
    "C11_answers_have_the_kind"
   ],
   "note": "Removing all symbols of other kinds from every event of the history changes no answer; covered is True except for class constants and properties, whose look-ups have the defects of C08-C10."
  },
  {
   "property": "C12",
   "status": "partial",
   "theorems": [
    "C12_sync_replaces_own_symbols_partial",
    "C12_other_files_unchanged_refuted"
   ],
   "note": "Exact for all kinds under `covered`; refuted for a class constant declared by two files."
  },
  {
   "property": "C13",
   "status": "proved",
   "theorems": [
    "C13_sync_idempotent"
   ],
   "note": ""
  },
  {
   "property": "C14",
   "status": "partial",
   "theorems": [
    "C14_delete_removes_own_symbols_partial",
    "C14_other_files_kept_refuted"
   ],
   "note": "As C12."
  },
  {
   "property": "C15",
   "status": "partial",
   "theorems": [
    "C15_search_results_current_partial",
    "C15_namespaces_refuted"
   ],
   "note": "Proved for all nine symbol searches over every history (class constants: no constant declared by two files; properties: no URI ends in a digit). Refuted for namespace completion: namespaces of deleted files are still proposed."
  },
  {
   "property": "C16",
   "status": "partial",
   "theorems": [
    "C16_vanished_files_cleaned_partial"
   ],
   "note": "For a folder run without concurrent edits (see C17) and covered queries; includes that stub documents stay."
  },
  {
   "property": "C17",
   "status": "partial",
   "theorems": [
    "C17_changed_files_analysed_partial",
    "C17_changed_during_indexing_refuted"
   ],
   "note": "Proved for a run during which no document is changed by the editor; refuted otherwise (stale hash captured by PrepareForIndexing)."
  },
  {
   "property": "C18",
   "status": "partial",
   "theorems": [
    "C18_limits_partial",
    "C18_complete_partial",
    "C18_results_match_partial",
    "C18_qualified_classes_refuted",
    "C18_listing_constants_refuted",
    "C18_limit_zero_refuted",
    "C18_old_spelling_refuted"
   ],
   "note": "Limit and predicates proved for fresh limits n >= 1, completeness for all searches but qualified class searches with a limit, and soundness of matches when spellings were stable. Refuted: qualified class searches report complete though cut; the empty keyword ignores limit and predicates; limit 0 returns one result; old spellings still match."
  },
  {
   "property": "C19",
   "status": "partial",
   "theorems": [
    "C19_migration_partial",
    "C19_version_recorded_refuted",
    "C19_namespaces_forgotten_refuted"
   ],
   "note": "Clearing below v0.0.13 and keeping everything otherwise are proved; refuted: the recorded version is not updated when nothing is cleared, and namespace completions survive the clearing. semver parsing is a parameter."
  },
  {
   "property": "C20",
   "status": "partial",
   "theorems": [
    "C20_tokens_sound",
    "C20_tokens_total_partial",
    "C20_never_fails_refuted",
    "C20_non_empty_refuted"
   ],
   "note": "Tokens are substrings of the name and no token occurs twice, for every name. Totality is proved for names that are well-encoded UTF-8; it is false for ill-formed bytes (slice panic) and a lone underscore yields an empty token."
  },
  {
   "property": "C21",
   "status": "partial",
   "theorems": [
    "C21_found_by_prefix_partial"
   ],
   "note": "Proved for every kind, history, keyword and word except single characters in front of an underscore (see C57); words are specified for ASCII names, whole names for any well-encoded text. strings.ToLower is a parameter with text_ok and lowers_ascii."
  },
  {
   "property": "C22",
   "status": "partial",
   "theorems": [
    "C22_no_false_negatives_partial",
    "C22_never_reported_absent",
    "C22_populate_failure_refuted"
   ],
   "note": "xxhash and xorfilter are parameters: xor_ok (no false negatives, field ranges) and populates (construction succeeds). Without populates Lookup can fail (refuted) but never answers no."
  },
  {
   "property": "C23",
   "status": "partial",
   "theorems": [
    "C23_references_exact_partial",
    "C23_references_sound",
    "C23_filter_failure_refuted"
   ],
   "note": "For files below the workspace root and successful filter construction; refuted when construction fails. Soundness needs no construction hypothesis."
  },
  {
   "property": "C24",
   "status": "partial",
   "theorems": [
    "C24_every_text_has_lines",
    "C24_line_table_partial",
    "C24_lone_cr_refuted"
   ],
   "note": "Proved for every text without a CR not followed by LF; a lone CR is refuted (the table counts CR and LF separately in a way that loses it)."
  },
  {
   "property": "C25",
   "status": "partial",
   "theorems": [
    "C25_order",
    "C25_round_trip_partial",
    "C25_non_ascii_refuted"
   ],
   "note": "Offsets to positions are monotone for every text; the round trip is proved when the line prefix is ASCII (positions count bytes one way and characters the other)."
  },
  {
   "property": "C26",
   "status": "partial",
   "theorems": [
    "C26_edits_partial",
    "C26_astral_refuted",
    "C26_past_line_end_refuted",
    "C26_cr_before_lf_refuted",
    "C26_detected_terminator_refuted"
   ],
   "note": "Proved for basic-plane UTF-8 text without lone CR and for edits within lines, any number of edits; refuted for astral characters, columns past the end of a line, a CR inserted before an LF and the detected line terminator."
  },
  {
   "property": "C27",
   "status": "partial",
   "theorems": [
    "C27_in_document",
    "C27_after_edits_partial",
    "C27_negative_line_edit_refuted"
   ],
   "note": "Full for every opened text and every position, and after every sequence of edits covered by C26; an edit with a negative line crashes (refuted)."
  },
  {
   "property": "C28",
   "status": "proved",
   "theorems": [
    "C28_compare_positions",
    "C28_total_order",
    "C28_in_range",
    "C28_compare_ranges"
   ],
   "note": "Full."
  },
  {
   "property": "C29",
   "status": "partial",
   "theorems": [
    "C29_position",
    "C29_range_partial",
    "C29_negative_range_refuted"
   ],
   "note": "Full for positions; ranges with non-negative numbers (negative numbers refuted)."
  },
  {
   "property": "C30",
   "status": "partial",
   "theorems": [
    "C30_round_trip",
    "C30_distinct",
    "C30_plain_paths_refuted"
   ],
   "note": "Round trip and distinctness for URIs below the root as the server builds them; refuted for a plain path of the same form as a URI."
  },
  {
   "property": "C31",
   "status": "partial",
   "theorems": [
    "C31_array_suffixes_partial",
    "C31_dearray",
    "C31_fails_exactly",
    "C31_never_fails_refuted",
    "C31_printed_back_refuted"
   ],
   "note": "Array levels, element type and de-arraying are exact for every text; a text of only brackets panics (C31_fails_exactly says exactly which), and [] after the name of an alias type is printed differently (refutations)."
  },
  {
   "property": "C32",
   "status": "partial",
   "theorems": [
    "C32_class_names_partial",
    "C32_function_names_partial",
    "C32_constant_names_partial",
    "C32_possible_function_names_partial",
    "C32_fully_qualified_refuted",
    "C32_case_refuted",
    "C32_qualified_function_refuted",
    "C32_global_function_refuted"
   ],
   "note": "Exact for valid PHP names when declarations and uses agree in letter case, for unqualified and qualified class names, functions and constants. Refuted: fully qualified names, differing case, qualified function names, and the global fall-back of functions."
  },
  {
   "property": "C33",
   "status": "proved",
   "theorems": [
    "C33_unions_without_duplicates",
    "C33_first_appearance",
    "C33_idempotent"
   ],
   "note": "Full: order of first appearance, no duplicates, idempotent."
  },
  {
   "property": "C34",
   "status": "partial",
   "theorems": [
    "C34_scope_and_name",
    "C34_every_string_refuted"
   ],
   "note": "Full for fully qualified and for unqualified names; refuted for arbitrary strings (relative names with a backslash)."
  },
  {
   "property": "C35",
   "status": "partial",
   "theorems": [
    "C35_levels",
    "C35_every_level",
    "C35_underscore_refuted"
   ],
   "note": "Every level of every indexed namespace and nothing else; a namespace containing the separator is refuted."
  },
  {
   "property": "C36",
   "status": "partial",
   "theorems": [
    "C36_methods_and_interfaces_terminate_partial",
    "C36_constants_and_properties_terminate_partial",
    "C36_terminates_refuted"
   ],
   "note": "Proved for the methods of classes and for all members of interfaces in every store (also with cyclic inheritance), and for constants and properties of classes without inheritance cycles. Refuted for constants and properties of classes that extend each other: the loop never ends."
  },
  {
   "property": "C37",
   "status": "partial",
   "theorems": [
    "C37_methods_complete_partial",
    "C37_only_declared_methods",
    "C37_interface_methods_complete_partial",
    "C37_properties_complete_partial",
    "C37_constants_complete_partial",
    "C37_repeated_query_refuted",
    "C37_interface_after_class_refuted",
    "C37_trait_properties_refuted"
   ],
   "note": "Proved for the first collection of a request, over any history, when no class-like is declared twice; for properties and constants also when there is no cycle and no used trait declares the member. Refuted for later collections in the same request (shared search maps) and for properties of traits."
  },
  {
   "property": "C38",
   "status": "partial",
   "theorems": [
    "C38_each_name_once",
    "C38_methods_override_partial",
    "C38_properties_override_partial",
    "C38_constants_override_partial",
    "C38_case_refuted",
    "C38_constructor_partial",
    "C38_constructor_refuted"
   ],
   "note": "Each name offered once: proved in full. Overriding: proved over any history when no class-like is declared twice, for methods, properties and constants, with exact spelling, and for the constructor among the public ones. Refuted for methods overridden with another spelling and for a private constructor."
  },
  {
   "property": "C39",
   "status": "partial",
   "theorems": [
    "C39_access_partial",
    "C39_relations",
    "C39_static_score",
    "C39_static_partial",
    "C39_private_parent_refuted",
    "C39_private_static_refuted",
    "C39_protected_refuted"
   ],
   "note": "Proved: public members are always offered, private and protected ones only under the stated conditions on the scope; what is recorded as related; the score of static members. Refuted: private parent members offered in a subclass, private static members offered from outside, protected members of a parent not offered."
  },
  {
   "property": "C40",
   "status": "proved",
   "theorems": [
    "C40_lookup_latest",
    "C40_lookup_nothing",
    "C40_variables_offered",
    "C40_file"
   ],
   "note": "Every recorded history of occurrences; the latest occurrence at or before the position, or nothing; variables offered are exactly those names. C40_file lifts this to analysed files: the table is that of the innermost function around the position, and what is offered is written in it."
  },
  {
   "property": "C41",
   "status": "partial",
   "theorems": [
    "C41_unused_partial",
    "C41_out_of_order_refuted",
    "C41_file_partial"
   ],
   "note": "Proved when occurrences of a scope are recorded in document order; refuted otherwise (assignments record the left side after the right side). C41_file_partial is the same for analysed files, where scopes are always balanced."
  },
  {
   "property": "C42",
   "status": "partial",
   "theorems": [
    "C42_round_trip_partial",
    "C42_large_refuted"
   ],
   "note": "Proved for any sequence of messages of 1 to 2^31-1 bytes; refuted for messages of 2 GiB or more, which are written but not readable (32-bit Content-Length)."
  },
  {
   "property": "C43",
   "status": "proved",
   "theorems": [
    "C43_delivered_exactly_frames",
    "C43_bad_line_fails",
    "C43_missing_length_fails"
   ],
   "note": "Read delivers a message exactly for well-formed frames (iff), and malformed or missing Content-Length and lines without colon fail, for all byte streams and any TrimSpace."
  },
  {
   "property": "C44",
   "status": "partial",
   "theorems": [
    "C44_at_most_one_response_partial",
    "C44_all_answered_partial",
    "C44_goroutines_end",
    "C44_empty_id_refuted",
    "C44_odd_id_refuted"
   ],
   "note": "For all executions and handler scripts whose ids are non-empty strings or 64-bit integers: at most one response, exactly one at rest, right id and content, termination and no panic. Refuted for the id \"\" (answered with 0) and for fractional or too large ids (never answered). Writing to the stream is assumed to succeed and handlers not to panic."
  },
  {
   "property": "C45",
   "status": "proved",
   "theorems": [
    "C45_start_in_order",
    "C45_start_once",
    "C45_acts_after_start"
   ],
   "note": "Proved for all executions: every earlier request has started and passed before a request starts; each starts at most once."
  },
  {
   "property": "C46",
   "status": "partial",
   "theorems": [
    "C46_distinct_ids",
    "C46_responses_reach_their_call",
    "C46_keeps_reading_partial",
    "C46_unknown_id_refuted",
    "C46_second_response_refuted",
    "C46_cancelled_call_refuted"
   ],
   "note": "Distinct ids (2^64 calls), delivery to the call with the id and to no other proved. Keeps reading proved for well-behaved peers without cancellation of answered calls; refuted for unknown ids, repeated responses and cancelled calls, each of which blocks the reader for ever."
  },
  {
   "property": "C47",
   "status": "partial",
   "theorems": [
    "C47_blocks_exactly",
    "C47_answers_partial",
    "C47_second_initialize_refuted"
   ],
   "note": "The state machine answers every request except exactly a second initialize, which blocks (refuted)."
  },
  {
   "property": "C48",
   "status": "partial",
   "theorems": [
    "C48_right_folder_partial",
    "C48_lookalike_refuted",
    "C48_nested_refuted"
   ],
   "note": "Proved for folders none of which is a string prefix of another's files; look-alike and nested folders refuted."
  },
  {
   "property": "C49",
   "status": "partial",
   "theorems": [
    "C49_commas_started",
    "C49_commas_before_partial",
    "C49_before_comma_refuted"
   ],
   "note": "Proved: the active parameter is the number of commas that start at or before the cursor; equals the commas before the cursor unless the cursor is directly in front of a comma, where it is refuted."
  },
  {
   "property": "C50",
   "status": "partial",
   "theorems": [
    "C50_same_items",
    "C50_in_order_partial",
    "C50_ranking_refuted"
   ],
   "note": "Proved: the items shown are a permutation of the items collected, and a list already ordered by score is shown unchanged (so equal scores keep their order). Refuted in general: the comparison reads scores by position and the scores do not move with the items, so an unsorted list may stay unsorted (C50_ranking_refuted). Missing: order for unsorted input, which is false of the code. The model is Go's SliceStable (insertion sort blocks, symMerge)."
  },
  {
   "property": "C51",
   "status": "proved",
   "theorems": [
    "C51_outline"
   ],
   "note": "Exact characterisation of the outline for every symbol tree."
  },
  {
   "property": "C52",
   "status": "partial",
   "theorems": [
    "C52_class_at_partial",
    "C52_class_scope_partial",
    "C52_next_class_refuted",
    "C52_nested_class_refuted",
    "C52_variable_scope",
    "C52_imports_at"
   ],
   "note": "ClassAt: proved for nested, ordered documents. Class scope for visibility: proved inside classes that follow each other; refuted before a class and after a nested anonymous class. Variable scope and imports at a position are proved in full."
  },
  {
   "property": "C53",
   "status": "proved",
   "theorems": [
    "C53_syntax_tree_walk",
    "C53_symbol_walk",
    "C53_enter_and_leave"
   ],
   "note": "All three walks, every tree and every visitor."
  },
  {
   "property": "C54",
   "status": "partial",
   "theorems": [
    "C54_auto_import_partial",
    "C54_conflict_refuted",
    "C54_shadowed_refuted"
   ],
   "note": "The inserted import makes the returned name resolve to the chosen class if no import already binds its last part and no declaration shadows it; both conditions are shown necessary."
  },
  {
   "property": "C55",
   "status": "proved",
   "theorems": [
    "C55_truncated_data_never_decodes"
   ],
   "note": ""
  },
  {
   "property": "C56",
   "status": "partial",
   "theorems": [
    "C56_memory_and_leveldb_agree_partial",
    "C56_interchangeable_refuted"
   ],
   "note": "Equal contents for every history of batch-only callbacks; false for callbacks that write directly to the database inside a batch."
  },
  {
   "property": "C57",
   "status": "partial",
   "theorems": [
    "C57_words_are_tokens_partial",
    "C57_all_words_refuted"
   ],
   "note": "Every word of at least the length the code keeps is a token for ASCII names; single-letter words in the middle are dropped (refuted)."
  },
  {
   "property": "C58",
   "status": "partial",
   "theorems": [
    "C58_indexing_never_fails_partial",
    "C58_folder_indexing_never_fails_partial",
    "C58_indexing_fails_refuted"
   ],
   "note": "Total for valid UTF-8 names; an ill-formed name panics (refuted)."
  },
  {
   "property": "C59",
   "status": "partial",
   "theorems": [
    "C59_delete_folder_by_prefix_partial",
    "C59_sibling_folder_kept_refuted"
   ],
   "note": "The code deletes by URI prefix: exactly those with the prefix are removed; sibling folders with a longer name are removed too (refuted)."
  },
  {
   "property": "C60",
   "status": "partial",
   "theorems": [
    "C60_unused_imports_partial",
    "C60_fully_qualified_refuted"
   ],
   "note": "Exact for files whose references are not fully qualified; a fully qualified reference marks an import (refuted)."
  },
  {
   "property": "C61",
   "status": "partial",
   "theorems": [
    "C61_reported_positions_partial",
    "C61_non_ascii_refuted"
   ],
   "note": "Proved for ASCII text without lone CR; refuted for non-ASCII text (columns are bytes, the protocol counts UTF-16 units)."
  },
  {
   "property": "C62",
   "status": "proved",
   "theorems": [
    "C62_token_at"
   ],
   "note": "Every tree and every offset."
  },
  {
   "property": "C63",
   "status": "partial",
   "theorems": [
    "C63_symbol_at_partial",
    "C63_argument_list_partial",
    "C63_callee_partial",
    "C63_callee_refuted",
    "C63_symbol_before_partial"
   ],
   "note": "Proved for documents whose symbols start in document order (and lie inside their parents). Docblock members, which the parser adds with the position of the comment, break that order. The callee is refuted for calls in the arguments of an anonymous class."
  },
  {
   "property": "C64",
   "status": "partial",
   "theorems": [
    "C64_proposals_partial",
    "C64_mark_partial",
    "C64_mark_refuted"
   ],
   "note": "Proved for all five places of name completion: totality, soundness, the bound 999 + number of searches, and below 1000 declarations the list is unmarked and lacks nothing. For completion after implements, in trait use and after new with an unqualified name the mark is right for any number of declarations. Refuted for expressions: the mark of the last search overwrites the others (C64_mark_refuted). Missing: qualified names after new, and expressions and types beyond the limit."
  },
  {
   "property": "C65",
   "status": "partial",
   "theorems": [
    "C65_workspace_symbols_partial"
   ],
   "note": "Proved for any number of folders: totality, soundness of every entry, the bound, completeness when fewer than 1000 entries are returned, empty query. Partial because class constants and properties need the exceptions of C08 and C09 (no shared constants, no URI ending in a digit), and nothing is said beyond the limit (the protocol has no mark there)."
  },
  {
   "property": "C66",
   "status": "partial",
   "theorems": [
    "C66_namespace_completion_partial",
    "C66_other_case_refuted"
   ],
   "note": "Proved when the typed text is a prefix of the proposed name in the same case, with or without the leading backslash. Refuted when the case differs, which matching allows (C66_other_case_refuted)."
  },
  {
   "property": "C67",
   "status": "partial",
   "theorems": [
    "C67_concurrent_indexing_partial",
    "C67_as_if_one_by_one_partial",
    "C67_never_stuck_partial",
    "C67_same_file_refuted"
   ],
   "note": "Proved for any interleaving of synchronisations and deletions of different files (a small-step model in which each write to a database or to the reference map is a step), with the same restrictions on property and class-constant look-ups as C08/C09. Refuted when two synchronisations of the same file overlap, which the code allows. Look-ups only; find-references during overlaps is not covered."
  },
  {
   "property": "C68",
   "status": "partial",
   "theorems": [
    "C68_kill_while_indexing_partial",
    "C68_stale_symbols_refuted"
   ],
   "note": "Proved: the server always starts again and nothing that was completely indexed is lost, for any kills. That the index recovers fully is refuted: the key list of a file is written before the batch that removes its old symbols, so a kill between the two leaves removed symbols in the index for good. What remains is characterised: it comes from an earlier version of a file whose indexing was cut off. Power loss (unsynced writes) is not modelled."
  },
  {
   "property": "C69",
   "status": "partial",
   "theorems": [
    "C69_analysis_ends",
    "C69_no_crash_partial",
    "C69_no_crash_refuted"
   ],
   "note": "Ends: for every tree. Never crashes: for trees whose nodes lie in the text in order, start where their trimmed text starts, and whose group-use elements end with a phrase (well_parsed); without that it is false of the code (C69_no_crash_refuted). Missing: that the external parser only builds such trees."
  },
  {
   "property": "C70",
   "status": "proved",
   "theorems": [
    "C70_symbols_come_from_the_file"
   ],
   "note": "For every tree; justification relation in Analyse/AnalyseSpec.v."
  },
  {
   "property": "C71",
   "status": "partial",
   "theorems": [
    "C71_statements_partial",
    "C71_declaration_found_partial",
    "C71_define_found_partial",
    "C71_finally_refuted",
    "C71_type_name_refuted",
    "C71_define_refuted",
    "C71_once_refuted"
   ],
   "note": "Statements of blocks the analysis looks into, plain names. The full property is false of the code: finally blocks are not looked into, a class named like a type is renamed, define is put into the namespace, chained assignments in a constructor are scanned twice (the _refuted theorems)."
  },
  {
   "property": "C72",
   "status": "partial",
   "theorems": [
    "C72_methods_partial",
    "C72_properties_partial",
    "C72_constants_partial",
    "C72_scope_refuted"
   ],
   "note": "For classes with no class inside whose headers come first. False in general: C72_scope_refuted."
  },
  {
   "property": "C73",
   "status": "partial",
   "theorems": [
    "C73_declared_then_found_partial",
    "C73_member_then_found_partial"
   ],
   "note": "Under the conditions of C71/C72 (statements of blocks the analysis looks into, plain names, classes without nested classes) and of C08/C09. The record handed to the store is related to the analysed symbol by kind, name, place, class, visibility and static; its other fields are open."
  },
  {
   "property": "C74",
   "status": "partial",
   "theorems": [
    "C74_found_then_written_partial"
   ],
   "note": "For look-ups covered by C08/C09; the name is that of the analysed symbol, which C70 ties to the node as written (its namespace is covered by C71)."
  },
  {
   "property": "C75",
   "status": "partial",
   "theorems": [
    "C75_uses_found_partial",
    "C75_finally_refuted",
    "C75_coalesce_refuted",
    "C75_subscript_refuted",
    "C75_compound_refuted",
    "C75_interface_extends_refuted"
   ],
   "note": "proved for the uses in all parts that are read, as listed in Analyse/UseSpec.v (reads, uses); the refutations show constructs that are not read: finally blocks, the operators ?? and +=, an indexed call in front of ->, extends of interfaces."
  },
  {
   "property": "C76",
   "status": "partial",
   "theorems": [
    "C76_class_uses_partial",
    "C76_group_refuted"
   ],
   "note": "proved for names spelled as imported, fully qualified names whose first part is not imported, and groups that import one kind; the refutation shows a function in a group taken for a class; the other conditions are those of C32 and refuted there."
  },
  {
   "property": "C77",
   "status": "partial",
   "theorems": [
    "C77_class_references_partial",
    "C77_member_references_partial",
    "C77_function_references_partial",
    "C77_nothing_else_partial",
    "C77_latin1_refuted",
    "C77_later_import_refuted"
   ],
   "note": "Class, member and function references and the converse are proved for all histories, file contents and uses at any depth, from the tree of the file to the answer of GetReferences. Missing: the conditions of C75 (parts of files that are not read), C76/C32 (names not spelled as imported), valid UTF-8 for property names behind an arrow and no later import of a called function (both refuted without); the place of the name of a declaration is left open."
  },
  {
   "property": "C78",
   "status": "partial",
   "theorems": [
    "C78_method_partial",
    "C78_class_constant_partial",
    "C78_property_partial",
    "C78_class_partial",
    "C78_function_partial",
    "C78_elsewhere_partial",
    "C78_calls_partial",
    "C78_class_uses_partial",
    "C78_second_namespace_refuted",
    "C78_first_letter_refuted",
    "C78_initial_value_refuted",
    "C78_namesake_refuted"
   ],
   "note": "Proved for methods, class constants, properties without an initial value, classes, interfaces and traits in the namespace at the top of their file, functions (with the references of the global namesake); on uses: soundness. False, shown: a class in a second namespace of its file (NodeRange is given a token by value and yields the zero position), the cursor in front of the first letter, a property with an initial value, a function with a global namesake."
  },
  {
   "property": "C79",
   "status": "partial",
   "theorems": [
    "C79_class_names_partial",
    "C79_functions_partial",
    "C79_constants_partial",
    "C79_new_partial",
    "C79_nothing_else_partial",
    "C79_renamed_refuted",
    "C79_interface_access_refuted",
    "C79_hidden_function_refuted"
   ],
   "note": "Proved for the names of classes, interfaces, traits (C79_class_names_partial), functions, constants and for new, for the cursor on the name and for every workspace history; C79_nothing_else_partial holds for every position. Missing: the members of classes (not modelled), names in front of :: that are interfaces, full names whose first part is the name of an import, and functions declared both in the namespace and globally; the last three are false and refuted."
  },
  {
   "property": "C80",
   "status": "partial",
   "theorems": [
    "C80_class_names_partial",
    "C80_functions_partial",
    "C80_constants_partial",
    "C80_nothing_else_partial",
    "C80_no_crash_partial"
   ],
   "note": "Proved for every use at any depth of a class, interface, function or constant name, for every indexing history: marked iff something it stands for is declared as deprecated, with version and reason in the message; every hint belongs to a symbol whose look-up is deprecated; no crash. Missing: uses of members; hypothesis one_at: no two symbols share the range of the name."
  },
  {
   "property": "C81",
   "status": "partial",
   "theorems": [
    "C81_each_error_once",
    "C81_errors_are_listed",
    "C81_where_it_is_partial",
    "C81_nowhere_refuted"
   ],
   "note": "Proved for every tree: exactly one diagnostic per parse error outside doc comments, in order, with message and tokens (C81_each_error_once); the editor's positions are those of the tokens for ASCII texts without lone CR (partial, as C61). Refuted for an error that carries no token: the server crashes; the parser never makes one as far as can be seen."
  },
  {
   "property": "C82",
   "status": "partial",
   "theorems": [
    "C82_errors_current_partial",
    "C82_last_file_partial",
    "C82_one_answer",
    "C82_other_file_refuted",
    "C82_overtaken_refuted",
    "C82_stale_refuted"
   ],
   "note": "False as stated: refuted for two files opened within two seconds (one timer per store), for a search overtaken by a newer one, and for a search that ends after an edit while another file is edited. Proved: without typing during a search the errors shown are those of the current text of every file and the hints missing or current; the file changed last shows errors and hints of its last text if searches end in the order they began."
  },
  {
   "property": "C83",
   "status": "partial",
   "theorems": [
    "C83_always_answered",
    "C83_no_memory_partial",
    "C83_only_derivable",
    "C83_exact_partial",
    "C83_without_private_members",
    "C83_later_occurrence",
    "C83_stale_refuted",
    "C83_two_levels_refuted",
    "C83_reassigned_refuted"
   ],
   "note": "Every question for the types of an expression ends (always_answered), every type found is derivable (only_derivable), the answer does not depend on earlier questions while the index stays (no_memory_partial), and it is exact when no type occurs at two array levels and the visible members do not depend on the order of the receiver's types (exact_partial; the latter holds of every index without private members). Refuted in full: what was found before the index changed is kept, Order|Order[] loses one of the two, and a variable keeps the types of earlier assignments."
  },
  {
   "property": "C84",
   "status": "partial",
   "theorems": [
    "C84_method_leads_to_members",
    "C84_scoped_method_leads_to_members",
    "C84_property_leads_to_members",
    "C84_scoped_property_leads_to_members",
    "C84_constant_leads_to_members",
    "C84_ends_partial",
    "C84_method_of_class_partial",
    "C84_method_of_interface_partial",
    "C84_method_of_trait_partial",
    "C84_scoped_method_partial",
    "C84_property_partial",
    "C84_scoped_property_partial",
    "C84_constant_partial",
    "C84_constant_of_interface_partial",
    "C84_union_refuted"
   ],
   "note": "Soundness without conditions on the workspace (properties: files with plain URIs; constants: none declared in two files). Exact for the first type of the receiver if class-likes have unique names and the name was not asked for before; the remaining types can miss members (C84_union_refuted). Properties and constants only if no class extends itself and the used traits have none of that name."
  },
  {
   "property": "C85",
   "status": "partial",
   "theorems": [
    "C85_arrow_proposals",
    "C85_static_proposals",
    "C85_ends_partial",
    "C85_arrow_no_crash_partial",
    "C85_arrow_of_class_partial",
    "C85_static_of_class_partial",
    "C85_arrow_of_interface_partial",
    "C85_trait_refuted",
    "C85_crash_refuted"
   ],
   "note": "Sound for any number of receiver types, any earlier questions and any matcher, and :: never panics (C85_arrow_proposals, C85_static_proposals). Partial: ending needs that no class inherits from itself; -> does not panic if every property has a name (C85_crash_refuted shows the panic); completeness for the first type of the receiver if it is a class (or an interface, for methods), under unique class names and without properties from traits. C85_trait_refuted: members of a trait are not proposed."
  },
  {
   "property": "C86",
   "status": "partial",
   "theorems": [
    "C86_active_parameter",
    "C86_active_parameter_partial",
    "C86_comma_refuted",
    "C86_hints_partial",
    "C86_hints_refuted"
   ],
   "note": "Proved for every list of arguments and every offset in it: the marked parameter is the number of commas that begin at or before the cursor, which is the number of commas passed unless the cursor is directly in front of a comma (refuted there). Hints stand at the right arguments if every place between commas holds one argument (refuted for an empty place). Finding the call around the cursor is not modelled."
  },
  {
   "property": "C87",
   "status": "partial",
   "theorems": [
    "C87_method_signatures",
    "C87_static_signatures",
    "C87_new_signatures",
    "C87_ends",
    "C87_method_of_class_partial",
    "C87_method_of_interface_partial",
    "C87_static_of_class_partial",
    "C87_new_of_class_partial",
    "C87_functions_partial",
    "C87_private_constructor_refuted",
    "C87_trait_refuted",
    "C87_namespace_refuted"
   ],
   "note": "Every signature shown describes an accessible method the receiver has, whatever was asked before; exact for one receiver type; functions exactly those PHP calls when the imports are those of the last namespace (refuted otherwise). A private constructor lets that of the parent be shown (refuted). Nothing is shown for a method called inside a trait (C87_trait_refuted)."
  },
  {
   "property": "C88",
   "status": "partial",
   "theorems": [
    "C88_class_names_partial",
    "C88_functions_partial",
    "C88_constants_partial",
    "C88_new_partial",
    "C88_nothing_else_partial",
    "C88_method_shows_members",
    "C88_scoped_method_shows_members",
    "C88_property_shows_members",
    "C88_scoped_property_shows_members",
    "C88_constant_shows_members",
    "C88_ends_partial",
    "C88_method_of_class_partial",
    "C88_method_of_interface_partial",
    "C88_method_of_trait_partial",
    "C88_scoped_method_partial",
    "C88_property_partial",
    "C88_scoped_property_partial",
    "C88_constant_partial",
    "C88_constant_of_interface_partial"
   ],
   "note": "Names under the conditions of C79 (imports and cursor), except that the name is not looked up a second time through the imports; new and members if no two class-likes share a name, soundness without that. Members: first type of the receiver exactly, all types soundly. Missing: variables."
  },
  {
   "property": "C89",
   "status": "partial",
   "theorems": [
    "C89_recorded",
    "C89_edits_partial",
    "C89_catch_refuted",
    "C89_closure_refuted",
    "C89_reference_refuted",
    "C89_parameter_refuted"
   ],
   "note": "Proved: C89_recorded says that the edits are exactly (as a permutation) those of the occurrences of the name recorded in the innermost function scope around the cursor; C89_edits_partial, for every analysed file, that there is a function around the cursor (or the file) with no function of its own code around the cursor such that every edit replaces by the new name a variable that is written in it and has the name under the cursor, and that all the variables of this name in its own code (in expressions, on the left of assignments, as values of foreach, behind global) and its parameters of this name are replaced. Partial because not every variable is in what the analysis reads. Refutations on well-parsed files: the variable of a catch clause keeps its name (C89_catch_refuted); renaming from outside a closure changes its use but not its body, and from inside not the variable outside (C89_closure_refuted); use (&$x) is recorded as a variable \"&$x\" (C89_reference_refuted); at a parameter nothing is renamed (C89_parameter_refuted)."
  },
  {
   "property": "C90",
   "status": "partial",
   "theorems": [
    "C90_careful_partial",
    "C90_lookups_partial",
    "C90_opened_text_refuted",
    "C90_stale_document_refuted",
    "C90_stale_notification_refuted",
    "C90_discarded_refuted",
    "C90_ghost_refuted",
    "C90_new_file_refuted",
    "C90_reordered_refuted"
   ],
   "note": "Partial: proved for careful sessions (documents opened with the text on the disk and closed saved, requests only about open documents, deletions notified of what is gone and not open, canonical URIs, texts covered by C26, names valid UTF-8), of any length. The refuted theorems show that the full statement fails for each way of not being careful that an editor can take."
  },
  {
   "property": "C91",
   "status": "partial",
   "theorems": [
    "C91_one_name_partial",
    "C91_indexed_partial",
    "C91_indexer_not_stuck_partial",
    "C91_read_partial",
    "C91_distinct",
    "C91_plus_refuted",
    "C91_percent_refuted",
    "C91_colon_refuted",
    "C91_two_names_refuted",
    "C91_blank_refuted",
    "C91_question_refuted",
    "C91_control_refuted",
    "C91_drive_refuted"
   ],
   "note": "Partial: all names agree for paths of letters, digits, '-._~', blanks and non-ASCII characters, of any length; the indexer's name is the editor's for all paths without blanks (or without $&+,:;=@); reading is right for all paths without + % :. The refuted theorems show each other case failing. net/url is modelled from its documented behaviour; only URIs that begin with file:///."
  },
  {
   "property": "C92",
   "status": "partial",
   "theorems": [
    "C92_offered_partial",
    "C92_static_property",
    "C92_written_partial",
    "C92_function_partial",
    "C92_catch_refuted",
    "C92_static_refuted",
    "C92_reference_refuted",
    "C92_letters_refuted"
   ],
   "note": "Proved: with the cursor in a variable of an expression the labels are, each once, exactly the names recorded in the innermost function from before the cursor that contain the longest word in front of it (C92_offered_partial), and all are written in that function (C92_written_partial). C92_function_partial says it without the records: in the innermost function around the cursor (no function of its own code is around the cursor, too) the parameters and all the variables in its own code before the cursor that contain the word are offered, unless one of that name is under the cursor. C92_static_property: behind :: no variables are offered. Partial: not every variable is in what the analysis reads; the full statement is refuted for catch and static variables, variables taken by reference and letters beyond U+00FF."
  },
  {
   "property": "C93",
   "status": "partial",
   "theorems": [
    "C93_place_partial",
    "C93_class_partial",
    "C93_use_partial",
    "C93_variables",
    "C93_extends_refuted",
    "C93_interface_extends_refuted",
    "C93_call_refuted",
    "C93_inside_refuted"
   ],
   "note": "Proved: in a name in an expression, behind implements and behind the use of a class (C93_place_partial; C93_use_partial derives the condition on the symbol under the cursor from the tree) the list offers only current declarations of the kinds for the place that match the word in front of the cursor (the longest word at the end of the line), and below the limit of 1000 all of them; where a class is named (new, extends, instanceof, catch, ::, parameter types: C93_class_partial) the same for the whole name under the cursor; variables are offered exactly in the places of C92 (C93_variables). Hypotheses: tokens do not overlap, no lone carriage return, names without NUL bytes (as in C64), stable spellings for the soundness part. Missing because false: behind the extends of a class interfaces are offered too (C93_extends_refuted), behind that of an interface nothing (C93_interface_extends_refuted), nothing in the name of a called function (C93_call_refuted), inside the name of a class the part behind the cursor counts (C93_inside_refuted). Member lists are in C85."
  },
  {
   "property": "C94",
   "status": "partial",
   "theorems": [
    "C94_shown_partial",
    "C94_no_memory_partial",
    "C94_reassigned_refuted"
   ],
   "note": "Partial: the text, soundness of every type and independence of earlier questions are proved for every analysed heap of objects; exactness under the conditions of C83 (no type at two array levels, visible members do not depend on the order of types). Missing: which object of the heap is under the cursor. Refuted: a variable that is assigned again keeps the types written down for the earlier value."
  },
  {
   "property": "C95",
   "status": "partial",
   "theorems": [
    "C95_written",
    "C95_declaration_partial",
    "C95_define_partial",
    "C95_methods_partial",
    "C95_properties_partial",
    "C95_constants_partial",
    "C95_order_partial",
    "C95_methods_order_partial",
    "C95_once_refuted"
   ],
   "note": "Soundness of the outline is proved in full. The order of the file is kept for these. Completeness covers named declarations on the top level (C71) and the named members of such classes; declarations inside functions are only covered by soundness. An anonymous class in a chained assignment is shown twice (C95_once_refuted)."
  }
 ]
}