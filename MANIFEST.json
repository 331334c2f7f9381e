{
 "claims": [
  {
   "property": "C01",
   "status": "proved",
   "theorems": [
    "C01_hash_is_64_bytes_and_idempotent"
   ],
   "note": "H is any function with 64-byte results; the hypothesis is met by toy_sha."
  },
  {
   "property": "C02",
   "status": "proved",
   "theorems": [
    "C02_hash_identifies_content_refuted",
    "C02_hash_identifies_content_same_kind"
   ],
   "note": "Both halves of the statement: the positive one and the refutation across the 64-byte boundary."
  },
  {
   "property": "C03",
   "status": "proved",
   "theorems": [
    "C03_hash_text_is_faithful"
   ],
   "note": ""
  },
  {
   "property": "C04",
   "status": "proved",
   "theorems": [
    "C04_tree_keeps_blocks_in_order"
   ],
   "note": ""
  },
  {
   "property": "C05",
   "status": "proved",
   "theorems": [
    "C05_build_never_panics_refuted",
    "C05_build_panics_only_on_empty"
   ],
   "note": "The guarantee 'never panics' is refuted; the panicking inputs are characterised exactly."
  },
  {
   "property": "C06",
   "status": "proved",
   "theorems": [
    "C06_head_is_merkle_root",
    "C06_merkle_root_unique"
   ],
   "note": ""
  },
  {
   "property": "C07",
   "status": "proved",
   "theorems": [
    "C07_head_binds_leaves",
    "C07_head_binds_blocks"
   ],
   "note": ""
  },
  {
   "property": "C08",
   "status": "proved",
   "theorems": [
    "C08_padding_is_ambiguous_refuted",
    "C08_no_domain_separation_refuted"
   ],
   "note": "Refutations of 'the head identifies the block list', for all blocks."
  },
  {
   "property": "C09",
   "status": "proved",
   "theorems": [
    "C09_height_and_length"
   ],
   "note": ""
  },
  {
   "property": "C10",
   "status": "proved",
   "theorems": [
    "C10_compact_loses_nothing"
   ],
   "note": ""
  },
  {
   "property": "C11",
   "status": "proved",
   "theorems": [
    "C11_order_restores_blocks"
   ],
   "note": "Hypotheses are on hash equality among the given blocks only, no global injectivity."
  },
  {
   "property": "C12",
   "status": "proved",
   "theorems": [
    "C12_order_of_any_blocks_refuted",
    "C12_order_fails_with_a_padding_block_refuted"
   ],
   "note": "Refutation of 'Order succeeds for every block list'."
  },
  {
   "property": "C13",
   "status": "proved",
   "theorems": [
    "C13_hashtree_encoding_roundtrip",
    "C13_leaf_encoding_roundtrip"
   ],
   "note": ""
  },
  {
   "property": "C14",
   "status": "proved",
   "theorems": [
    "C14_leaves_and_compact_roundtrip",
    "C14_any_leaves_roundtrip"
   ],
   "note": ""
  },
  {
   "property": "C15",
   "status": "proved",
   "theorems": [
    "C15_hashtree_decoding_never_panics_refuted",
    "C15_hashtree_decoding_terminates",
    "C15_no_leaves_is_an_error",
    "C15_database_decoding_never_panics_refuted",
    "C15_database_decoding_terminates"
   ],
   "note": "Panic witnesses per decoder and termination for all inputs."
  },
  {
   "property": "C16",
   "status": "proved",
   "theorems": [
    "C16_pointer_and_key_roundtrip"
   ],
   "note": ""
  },
  {
   "property": "C17",
   "status": "proved",
   "theorems": [
    "C17_keys_roundtrip",
    "C17_fetch_and_list_exact"
   ],
   "note": "Lists with 64-byte hashes, kinds and pointers of 64 bits; encodings shorter than 2^63 bytes."
  },
  {
   "property": "C18",
   "status": "proved",
   "theorems": [
    "C18_commit_roundtrip",
    "C18_built_trees_are_well_formed"
   ],
   "note": "Including hash, result and score, which are recomputed by the decoder."
  },
  {
   "property": "C19",
   "status": "proved",
   "theorems": [
    "C19_negative_proof_roundtrip_refuted"
   ],
   "note": "Refutation for every negative proof, with the exact decoded value."
  },
  {
   "property": "C20",
   "status": "proved",
   "theorems": [
    "C20_commits_roundtrip",
    "C20_reference_roundtrip",
    "C20_commit_fetch_exact"
   ],
   "note": ""
  },
  {
   "property": "C21",
   "status": "proved",
   "theorems": [
    "C21_contents_roundtrip"
   ],
   "note": ""
  },
  {
   "property": "C22",
   "status": "proved",
   "theorems": [
    "C22_commit_hash_binds_without_proof",
    "C22_commit_hash_covers_its_fields",
    "C22_commit_hash_binds_refuted"
   ],
   "note": "Positive part for commits without proof (the only ones the database makes); refutation with proofs."
  },
  {
   "property": "C23",
   "status": "proved",
   "theorems": [
    "C23_mining_result_and_score",
    "C23_zero_proof_result_is_hash"
   ],
   "note": ""
  },
  {
   "property": "C24",
   "status": "proved",
   "theorems": [
    "C24_sessions_show_what_was_committed",
    "C24_written_and_committed_is_read_back"
   ],
   "note": "For every state reached by a session (New, Open, then writes, cancels, commits, reopens) without failing writes; sizes below 2^63."
  },
  {
   "property": "C25",
   "status": "proved",
   "theorems": [
    "C25_committed_data_survives_reopening"
   ],
   "note": "Same sessions; the chunk condition is part of `allowed`."
  },
  {
   "property": "C26",
   "status": "proved",
   "theorems": [
    "C26_commit_loses_data_refuted"
   ],
   "note": "Refutation of 'a commit never loses earlier contents', for every session meeting the size condition."
  },
  {
   "property": "C27",
   "status": "proved",
   "theorems": [
    "C27_commit_appends_one_linked_commit"
   ],
   "note": ""
  },
  {
   "property": "C28",
   "status": "proved",
   "theorems": [
    "C28_commit_appends_one_key_per_content"
   ],
   "note": ""
  },
  {
   "property": "C29",
   "status": "proved",
   "theorems": [
    "C29_cancel_discards_pending_writes",
    "C29_cancelled_writes_are_never_committed"
   ],
   "note": ""
  },
  {
   "property": "C30",
   "status": "proved",
   "theorems": [
    "C30_batch_is_committed_again_refuted"
   ],
   "note": "Refutation of 'a batch is committed once'."
  },
  {
   "property": "C31",
   "status": "proved",
   "theorems": [
    "C31_commit_of_nothing_panics_refuted"
   ],
   "note": "Refutation of 'returns an error'."
  },
  {
   "property": "C32",
   "status": "proved",
   "theorems": [
    "C32_uncommitted_writes_are_invisible"
   ],
   "note": ""
  },
  {
   "property": "C33",
   "status": "proved",
   "theorems": [
    "C33_unknown_context_is_an_error",
    "C33_closed_context_is_unknown"
   ],
   "note": ""
  },
  {
   "property": "C34",
   "status": "proved",
   "theorems": [
    "C34_identifiers_are_reused_refuted",
    "C34_identifiers_are_unique_without_close"
   ],
   "note": "Positive part while nothing is closed; refutation by an execution."
  },
  {
   "property": "C35",
   "status": "proved",
   "theorems": [
    "C35_new_exists_delete"
   ],
   "note": ""
  },
  {
   "property": "C36",
   "status": "proved",
   "theorems": [
    "C36_every_crash_point_has_a_complete_copy",
    "C36_commit_is_not_atomic_refuted"
   ],
   "note": "Crash = process stops; power loss and reordering of disk writes are not modelled."
  },
  {
   "property": "C37",
   "status": "proved",
   "theorems": [
    "C37_second_committer_erases_the_first_refuted"
   ],
   "note": "Refutation of 'both batches are kept'."
  },
  {
   "property": "C38",
   "status": "proved",
   "theorems": [
    "C38_commit_keeps_earlier_reads"
   ],
   "note": ""
  },
  {
   "property": "C40",
   "status": "proved",
   "theorems": [
    "C40_remaining_is_a_suffix"
   ],
   "note": ""
  },
  {
   "property": "C41",
   "status": "proved",
   "theorems": [
    "C41_matches_consume"
   ],
   "note": ""
  },
  {
   "property": "C42",
   "status": "proved",
   "theorems": [
    "C42_guarded_grammars_terminate",
    "C42_non_recursive_grammars_terminate",
    "C42_the_answer_does_not_depend_on_the_bound"
   ],
   "note": "Termination = some bound on recursion depth and loop iterations is enough, and every larger bound gives the same result."
  },
  {
   "property": "C43",
   "status": "proved",
   "theorems": [
    "C43_recursion_diverges_refuted"
   ],
   "note": "Refutation of 'Execute always terminates': no bound on recursion depth is enough."
  },
  {
   "property": "C44",
   "status": "proved",
   "theorems": [
    "C44_bytes_are_the_input"
   ],
   "note": ""
  },
  {
   "property": "C45",
   "status": "proved",
   "theorems": [
    "C45_cardinalities_hold"
   ],
   "note": "Minimums of 2^63 and more are negative in the code's int comparison; excluded by cards_ok."
  },
  {
   "property": "C46",
   "status": "proved",
   "theorems": [
    "C46_parsing_is_sound"
   ],
   "note": ""
  },
  {
   "property": "C47",
   "status": "proved",
   "theorems": [
    "C47_values_match_their_bytes"
   ],
   "note": ""
  },
  {
   "property": "C48",
   "status": "proved",
   "theorems": [
    "C48_the_first_line_that_matches_wins"
   ],
   "note": ""
  },
  {
   "property": "C49",
   "status": "proved",
   "theorems": [
    "C49_composes_never_match_refuted",
    "C49_no_matched_line_has_a_compose_refuted"
   ],
   "note": "Refutation of 'a compose container matches its bytes'."
  },
  {
   "property": "C50",
   "status": "proved",
   "theorems": [
    "C50_externals_drop_the_rest_refuted",
    "C50_nothing_matches_after_an_external_refuted"
   ],
   "note": "Refutation of 'externals consume only what they matched'."
  },
  {
   "property": "C51",
   "status": "proved",
   "theorems": [
    "C51_everything_stops_at_the_exception"
   ],
   "note": ""
  },
  {
   "property": "C52",
   "status": "proved",
   "theorems": [
    "C52_compose",
    "C52_huge_occurrences_refuted"
   ],
   "note": "The last sentence of the statement is the refutation."
  },
  {
   "property": "C53",
   "status": "proved",
   "theorems": [
    "C53_uncovered_panics_without_suites_refuted",
    "C53_uncovered_returns_with_a_suite"
   ],
   "note": "Refutation of 'never panics', and the positive half."
  },
  {
   "property": "C60",
   "status": "proved",
   "theorems": [
    "C60_execute_is_direct_interpretation"
   ],
   "note": "The direct interpreter is in SpecInterp.v (again = false: a variable holds its value). Equality of outcome and world."
  },
  {
   "property": "C61",
   "status": "proved",
   "theorems": [
    "C61_nth_input_parameter_receives_nth_input",
    "C61_declaring_a_parameter_twice_is_an_error"
   ],
   "note": "Two theorems: the value received, and the duplicate declaration error."
  },
  {
   "property": "C62",
   "status": "proved",
   "theorems": [
    "C62_one_output_per_assignment",
    "C62_no_missing_output"
   ],
   "note": ""
  },
  {
   "property": "C63",
   "status": "proved",
   "theorems": [
    "C63_later_instructions_do_not_change_earlier_ones"
   ],
   "note": "'rest' is what the added instructions do; it is one computation for all worlds. What an execution passes is in C102 and C107."
  },
  {
   "property": "C64",
   "status": "proved",
   "theorems": [
    "C64_no_failure_without_missing_input_or_module_failure"
   ],
   "note": ""
  },
  {
   "property": "C65",
   "status": "proved",
   "theorems": [
    "C65_compile_accepts_exactly_scoped_lists"
   ],
   "note": "Scoping rules are the inductive 'scoped' in SpecInterp.v."
  },
  {
   "property": "C70",
   "status": "proved",
   "theorems": [
    "C70_panics_refuted",
    "C70_no_panic"
   ],
   "note": "The wished guarantee (queries never panic) is false; the theorem states exactly when they do."
  },
  {
   "property": "C71",
   "status": "proved",
   "theorems": [
    "C71_functions_get_the_selected_contents",
    "C71_a_function_of_one_content_gets_the_first"
   ],
   "note": ""
  },
  {
   "property": "C72",
   "status": "proved",
   "theorems": [
    "C72_the_remaining_is_the_tree_s",
    "C72_the_remaining_is_the_rest_of_the_input"
   ],
   "note": ""
  },
  {
   "property": "C73",
   "status": "proved",
   "theorems": [
    "C73_tree_decoding_is_canonical"
   ],
   "note": ""
  },
  {
   "property": "C74",
   "status": "proved",
   "theorems": [
    "C74_leaves_decoding_depends_only_on_input_refuted",
    "C74_missing_leaves_are_read_behind_the_end"
   ],
   "note": "Refutation of 'depends only on its input'."
  },
  {
   "property": "C75",
   "status": "proved",
   "theorems": [
    "C75_leaves_make_a_tree_iff_power_of_two"
   ],
   "note": ""
  },
  {
   "property": "C76",
   "status": "proved",
   "theorems": [
    "C76_commit_changes_three_names_only"
   ],
   "note": ""
  },
  {
   "property": "C77",
   "status": "proved",
   "theorems": [
    "C77_commit_destroys_databases_named_like_its_copies_refuted"
   ],
   "note": "Refutation of 'commit leaves other databases alone'."
  },
  {
   "property": "C78",
   "status": "proved",
   "theorems": [
    "C78_open_contexts_read_a_snapshot"
   ],
   "note": ""
  },
  {
   "property": "C79",
   "status": "proved",
   "theorems": [
    "C79_chunk_size_zero_crashes_open_refuted",
    "C79_chunk_size_zero_hangs_commit_refuted"
   ],
   "note": "Refutations; the second theorem says that every bound on loop iterations is exceeded."
  },
  {
   "property": "C80",
   "status": "proved",
   "theorems": [
    "C80_failed_content_write_is_not_reported_refuted"
   ],
   "note": "Refutation of 'Commit reports failed writes'."
  },
  {
   "property": "C81",
   "status": "proved",
   "theorems": [
    "C81_lock_does_not_exclude_during_swap_refuted"
   ],
   "note": "Refutation of mutual exclusion."
  },
  {
   "property": "C82",
   "status": "proved",
   "theorems": [
    "C82_commit_revives_a_deleted_database_refuted"
   ],
   "note": "Refutation of 'a deleted database stays deleted'."
  },
  {
   "property": "C83",
   "status": "proved",
   "theorems": [
    "C83_open_of_a_zeroed_file_panics_refuted"
   ],
   "note": "Refutation of 'Open never panics'."
  },
  {
   "property": "C84",
   "status": "proved",
   "theorems": [
    "C84_read_is_exact_or_fails",
    "C84_read_reaches_the_header_refuted"
   ],
   "note": "Positive part and refutation of confinement to the data area."
  },
  {
   "property": "C85",
   "status": "proved",
   "theorems": [
    "C85_a_database_is_open_once"
   ],
   "note": ""
  },
  {
   "property": "C86",
   "status": "proved",
   "theorems": [
    "C86_open_databases_are_independent"
   ],
   "note": ""
  },
  {
   "property": "C87",
   "status": "proved",
   "theorems": [
    "C87_failed_commit_changes_nothing"
   ],
   "note": "Faults are failing writes (after any number of bytes); the two side files may be left behind."
  },
  {
   "property": "C88",
   "status": "proved",
   "theorems": [
    "C88_locked_database_is_not_committed",
    "C88_locked_commit_is_an_error"
   ],
   "note": ""
  },
  {
   "property": "C89",
   "status": "proved",
   "theorems": [
    "C89_parsing_expression"
   ],
   "note": ""
  },
  {
   "property": "C90",
   "status": "proved",
   "theorems": [
    "C90_repetitions_never_give_back_refuted"
   ],
   "note": "Refutation of completeness with respect to the grammar's language; C89 is the positive side."
  },
  {
   "property": "C91",
   "status": "proved",
   "theorems": [
    "C91_one_recursive_match_per_line_refuted"
   ],
   "note": "Refutation of 'recursive references repeat as their cardinality says'."
  },
  {
   "property": "C92",
   "status": "proved",
   "theorems": [
    "C92_only_the_first_line_of_an_exception_counts_refuted"
   ],
   "note": "Refutation of 'an everything stops at any alternative of its exception'."
  },
  {
   "property": "C93",
   "status": "proved",
   "theorems": [
    "C93_no_panic_without_escapes"
   ],
   "note": ""
  },
  {
   "property": "C94",
   "status": "proved",
   "theorems": [
    "C94_escape_at_the_end_panics_refuted"
   ],
   "note": "Refutation of 'Execute never panics'."
  },
  {
   "property": "C95",
   "status": "proved",
   "theorems": [
    "C95_no_error_without_a_match_refuted",
    "C95_names_used_twice_refuted"
   ],
   "note": "Refutations of 'Execute without error matched'."
  },
  {
   "property": "C96",
   "status": "proved",
   "theorems": [
    "C96_coverages_are_the_parser_results",
    "C96_coverages_end",
    "C96_coverages_fail_only_with_the_parser",
    "C96_failures_are_not_hidden"
   ],
   "note": ""
  },
  {
   "property": "C97",
   "status": "proved",
   "theorems": [
    "C97_coverages_list_every_token",
    "C97_coverages_list_names_once",
    "C97_same_name_is_skipped_refuted"
   ],
   "note": "Positive halves and the refutation for tokens of one name."
  },
  {
   "property": "C98",
   "status": "proved",
   "theorems": [
    "C98_covered",
    "C98_uncovered"
   ],
   "note": ""
  },
  {
   "property": "C99",
   "status": "proved",
   "theorems": [
    "C99_covered_positions",
    "C99_optional_elements_shift_refuted"
   ],
   "note": "Positive half under no optional elements and no externals; the refutation by a witness."
  },
  {
   "property": "C100",
   "status": "proved",
   "theorems": [
    "C100_fetch_returns_a_part_of_that_name",
    "C100_fetch_zero_is_the_first",
    "C100_fetch_among_values"
   ],
   "note": ""
  },
  {
   "property": "C101",
   "status": "proved",
   "theorems": [
    "C101_fetch_misses_nested_ones_refuted"
   ],
   "note": "Refutation by a witness."
  },
  {
   "property": "C102",
   "status": "proved",
   "theorems": [
    "C102_execute_evaluates_variables_at_each_use"
   ],
   "note": "Same interpreter as C60 with again = true; no assumption on modules."
  },
  {
   "property": "C103",
   "status": "proved",
   "theorems": [
    "C103_variable_keeps_its_value_refuted"
   ],
   "note": "Refutation of 'a variable keeps the value it was given'."
  },
  {
   "property": "C104",
   "status": "proved",
   "theorems": [
    "C104_calls_grow_exponentially"
   ],
   "note": "Lower bound for every n; the direct interpretation makes n+1 calls."
  },
  {
   "property": "C105",
   "status": "proved",
   "theorems": [
    "C105_subprogram_runs_alone_on_the_same_inputs"
   ],
   "note": ""
  },
  {
   "property": "C106",
   "status": "proved",
   "theorems": [
    "C106_renaming_does_not_change_the_program"
   ],
   "note": ""
  },
  {
   "property": "C107",
   "status": "proved",
   "theorems": [
    "C107_last_attached_value_is_passed",
    "C107_last_attached_input_is_passed"
   ],
   "note": "Attached values are those evaluating without effect; the argument map is a sorted association list."
  },
  {
   "property": "C108",
   "status": "proved",
   "theorems": [
    "C108_queries_terminate"
   ],
   "note": ""
  },
  {
   "property": "C109",
   "status": "proved",
   "theorems": [
    "C109_queries_do_what_they_mean"
   ],
   "note": ""
  },
  {
   "property": "C110",
   "status": "proved",
   "theorems": [
    "C110_recursion_means_the_enclosing_query"
   ],
   "note": ""
  },
  {
   "property": "C111",
   "status": "proved",
   "theorems": [
    "C111_recursion_depends_on_the_queries_before_refuted"
   ],
   "note": "The wished guarantee (a recursive fetcher means the enclosing query) is false in general; C110 states when it holds."
  },
  {
   "property": "C112",
   "status": "proved",
   "theorems": [
    "C112_all_fetchers_have_the_name_of_the_trees",
    "C112_two_names_never_give_a_result_refuted"
   ],
   "note": "The wished guarantee (fetchers are alternatives) is false; the theorems state what holds."
  },
  {
   "property": "C113",
   "status": "proved",
   "theorems": [
    "C113_matches_tells_nothing_refuted"
   ],
   "note": "The wished guarantee (Matches decides whether a query fits a grammar) is false."
  },
  {
   "property": "C114",
   "status": "proved",
   "theorems": [
    "C114_channels_between_values"
   ],
   "note": ""
  },
  {
   "property": "C115",
   "status": "proved",
   "theorems": [
    "C115_grammar_of_grammars_ends"
   ],
   "note": ""
  },
  {
   "property": "C116",
   "status": "proved",
   "theorems": [
    "C116_only_value_assignments_refuted"
   ],
   "note": "The wished guarantee (every kind of instruction can be read) is false; the theorem gives the exact language."
  },
  {
   "property": "C117",
   "status": "proved",
   "theorems": [
    "C117_characters",
    "C117_names",
    "C117_hashes"
   ],
   "note": ""
  },
  {
   "property": "C118",
   "status": "proved",
   "theorems": [
    "C118_characters_truncated",
    "C118_own_text",
    "C118_every_string_has_code_points",
    "C118_texts_are_truncated_code_points"
   ],
   "note": "The wished guarantee (AllCharacters recognises its text) holds exactly for the texts of C118_own_text."
  },
  {
   "property": "C119",
   "status": "proved",
   "theorems": [
    "C119_channel_conditions"
   ],
   "note": ""
  },
  {
   "property": "C120",
   "status": "proved",
   "theorems": [
    "C120_previous_condition_fails_at_the_end_refuted"
   ],
   "note": "The expected guarantee (a channel is taken wherever its condition is met) fails; the theorem states exactly what happens instead."
  },
  {
   "property": "C121",
   "status": "proved",
   "theorems": [
    "C121_optional_tokens_are_no_condition_refuted"
   ],
   "note": "The expected guarantee (a condition whose token is not found prevents the channel) fails; the theorem states exactly what happens instead."
  },
  {
   "property": "C122",
   "status": "proved",
   "theorems": [
    "C122_commit_by_hash_finds_a_listed_commit",
    "C122_history_can_be_walked"
   ],
   "note": ""
  },
  {
   "property": "C123",
   "status": "proved",
   "theorems": [
    "C123_reading_many_is_reading_each",
    "C123_many_hashes_are_read_back"
   ],
   "note": ""
  },
  {
   "property": "C124",
   "status": "proved",
   "theorems": [
    "C124_changed_data_is_noticed_refuted"
   ],
   "note": "The wished guarantee fails; the theorem states exactly what happens instead."
  },
  {
   "property": "C125",
   "status": "proved",
   "theorems": [
    "C125_decoded_head_is_checked_refuted",
    "C125_decoded_commits_have_the_hash_of_their_fields",
    "C125_opened_commits_have_the_hash_of_their_fields"
   ],
   "note": "The head is not checked (refuted guarantee); the hash of commits is recomputed."
  },
  {
   "property": "C126",
   "status": "proved",
   "theorems": [
    "C126_open_checks_the_history_refuted"
   ],
   "note": "The wished guarantee fails; the theorem states exactly what happens instead."
  },
  {
   "property": "C127",
   "status": "proved",
   "theorems": [
    "C127_commits_take_the_bytes_of_the_moment",
    "C127_write_takes_the_bytes_given_refuted"
   ],
   "note": "The wished guarantee fails; the theorems state exactly what happens instead."
  },
  {
   "property": "C128",
   "status": "proved",
   "theorems": [
    "C128_building_leaves_the_caller_s_blocks_refuted",
    "C128_otherwise_blocks_are_kept"
   ],
   "note": "The wished guarantee fails; the theorems state exactly when the block is lost."
  },
  {
   "property": "C129",
   "status": "proved",
   "theorems": [
    "C129_given_heads_are_checked_refuted",
    "C129_building_again_gives_the_same",
    "C129_building_again_after_a_panic"
   ],
   "note": "That given heads are checked is refuted; repeated calls are covered for builders with blocks."
  },
  {
   "property": "C130",
   "status": "proved",
   "theorems": [
    "C130_builders_follow_their_rules",
    "C130_one_rule_each"
   ],
   "note": ""
  },
  {
   "property": "C131",
   "status": "proved",
   "theorems": [
    "C131_only_the_last_arguments_matter"
   ],
   "note": ""
  },
  {
   "property": "C132",
   "status": "proved",
   "theorems": [
    "C132_maximum_below_minimum_never_matches"
   ],
   "note": ""
  },
  {
   "property": "C133",
   "status": "proved",
   "theorems": [
    "C133_only_the_equality_of_names_matters"
   ],
   "note": ""
  },
  {
   "property": "C134",
   "status": "proved",
   "theorems": [
    "C134_bytes_have_no_meaning"
   ],
   "note": ""
  },
  {
   "property": "C135",
   "status": "proved",
   "theorems": [
    "C135_suites_do_not_change_parsing",
    "C135_same_bytes"
   ],
   "note": ""
  },
  {
   "property": "C136",
   "status": "proved",
   "theorems": [
    "C136_order_gives_what_it_was_given",
    "C136_missing_blocks_are_noticed_refuted",
    "C136_foreign_blocks_are_noticed_refuted"
   ],
   "note": "The first theorem is the guarantee that holds; the other two refute completeness and membership checks."
  },
  {
   "property": "C137",
   "status": "proved",
   "theorems": [
    "C137_open_does_not_disturb_commit",
    "C137_alone_as_in_one_process"
   ],
   "note": ""
  },
  {
   "property": "C138",
   "status": "proved",
   "theorems": [
    "C138_open_before_the_file_is_replaced"
   ],
   "note": ""
  },
  {
   "property": "C139",
   "status": "proved",
   "theorems": [
    "C139_open_gives_one_of_four",
    "C139_open_during_commit_reads_wrong_bytes_refuted",
    "C139_open_during_commit_fails_refuted"
   ],
   "note": "That an Open gives the history before or after is refuted; the first theorem says what it can give."
  },
  {
   "property": "C140",
   "status": "proved",
   "theorems": [
    "C140_one_commit_at_a_time"
   ],
   "note": ""
  },
  {
   "property": "C141",
   "status": "proved",
   "theorems": [
    "C141_two_commits_destroy_the_database_refuted"
   ],
   "note": "Mutual exclusion is refuted, by interleavings for every session."
  },
  {
   "property": "C142",
   "status": "proved",
   "theorems": [
    "C142_new_during_commit_empties_the_database_refuted"
   ],
   "note": "Refuted, by an interleaving for every session."
  },
  {
   "property": "C143",
   "status": "proved",
   "theorems": [
    "C143_recursive_parsing_expression"
   ],
   "note": ""
  },
  {
   "property": "C144",
   "status": "proved",
   "theorems": [
    "C144_recursion_as_implemented"
   ],
   "note": ""
  },
  {
   "property": "C145",
   "status": "proved",
   "theorems": [
    "C145_later_reference_to_an_enclosing_token_refuted"
   ],
   "note": "The expected independence of the lines of a token is refuted: the statement says which lines can never match; the example shows a word of the grammar's language that is an error."
  },
  {
   "property": "C146",
   "status": "proved",
   "theorems": [
    "C146_rounding_gives_the_next_power_of_two",
    "C146_rounding_does_not_change_the_tree"
   ],
   "note": ""
  },
  {
   "property": "C147",
   "status": "proved",
   "theorems": [
    "C147_opens_do_not_disturb_commit",
    "C147_each_open_as_if_there_were_no_others"
   ],
   "note": ""
  },
  {
   "property": "C148",
   "status": "proved",
   "theorems": [
    "C148_one_commit_at_a_time_among_any_number"
   ],
   "note": ""
  },
  {
   "property": "C149",
   "status": "proved",
   "theorems": [
    "C149_commit_returns",
    "C149_commit_returns_in_sessions",
    "C149_commit_after_a_lost_write_returns_refuted",
    "C149_commit_on_a_cut_off_file_returns_refuted"
   ],
   "note": "Positive theorem for every context and for sessions; two refutations with the hang stated for every fuel. The new file's name must not be a second name of the open file."
  },
  {
   "property": "C150",
   "status": "proved",
   "theorems": [
    "C150_items_have_one_encoding",
    "C150_key_lists",
    "C150_commits",
    "C150_commit_lists",
    "C150_references",
    "C150_commit_encoding_is_unique_refuted",
    "C150_key_list_depends_only_on_its_bytes_refuted"
   ],
   "note": "Exact characterisations (if and only if) of every decoder of contents and references; two refutations: uniqueness of commit encodings, independence of key lists from the memory behind them."
  },
  {
   "property": "C151",
   "status": "proved",
   "theorems": [
    "C151_size_of_the_file"
   ],
   "note": ""
  },
  {
   "property": "C152",
   "status": "proved",
   "theorems": [
    "C152_where_names_lead",
    "C152_where_names_lead_without_directory",
    "C152_plain_names_are_files_of_the_directory",
    "C152_names_stay_in_the_directory_refuted",
    "C152_a_file_has_one_name_refuted"
   ],
   "note": "Where every name leads, as walks through path elements, is proved for all names; that names stay in the directory and that a file has one name are refuted for every directory."
  },
  {
   "property": "C153",
   "status": "proved",
   "theorems": [
    "C153_calls_in_a_directory",
    "C153_every_directory",
    "C153_new_makes_the_directory",
    "C153_new_fails_otherwise"
   ],
   "note": "Discharges the assumption of one directory with plain names that the other database theorems make. No symbolic links, no permissions."
  },
  {
   "property": "C154",
   "status": "proved",
   "theorems": [
    "C154_one_application_keeps_all_commits_refuted"
   ],
   "note": "The guarantee is refuted: in every state a session reaches, a second name of the same file is opened and the second Commit replaces the first one's batch."
  },
  {
   "property": "C155",
   "status": "proved",
   "theorems": [
    "C155_what_a_loss_of_power_leaves",
    "C155_a_file_cut_short",
    "C155_a_commit_survives_a_loss_of_power_refuted"
   ],
   "note": "The guarantee is refuted: after every commit that succeeds, a disk with an empty database file and no copy may remain."
  },
  {
   "property": "C156",
   "status": "proved",
   "theorems": [
    "C156_calls_that_do_not_overlap",
    "C156_every_application_has_a_memory"
   ],
   "note": ""
  },
  {
   "property": "C157",
   "status": "proved",
   "theorems": [
    "C157_readers_of_other_databases"
   ],
   "note": "Accesses to memory are steps in one order that all goroutines agree on; iteration over the map is one step."
  },
  {
   "property": "C158",
   "status": "proved",
   "theorems": [
    "C158_readers_do_not_disturb_each_other"
   ],
   "note": "Accesses to memory are steps in one order that all goroutines agree on; iteration over the map is one step."
  },
  {
   "property": "C159",
   "status": "proved",
   "theorems": [
    "C159_readers_during_a_commit",
    "C159_readers_of_several_during_a_commit",
    "C159_keys_and_commits_during_a_commit",
    "C159_a_reader_during_a_commit_gets_a_content_refuted"
   ],
   "note": "The guarantee is refuted for every committed content; the theorem before it says what else a reader can get. Accesses to memory are steps in one order that all goroutines agree on; iteration over the map is one step."
  },
  {
   "property": "C160",
   "status": "proved",
   "theorems": [
    "C160_two_opens_get_two_identifiers_refuted"
   ],
   "note": "The guarantee is refuted from every memory in which both databases can be opened."
  },
  {
   "property": "C161",
   "status": "proved",
   "theorems": [
    "C161_both_writes_are_kept_refuted"
   ],
   "note": "The guarantee is refuted from every memory in which both writes succeed."
  },
  {
   "property": "C162",
   "status": "proved",
   "theorems": [
    "C162_a_write_during_a_commit_waits_refuted"
   ],
   "note": "The guarantee is refuted for every session, commit and content."
  },
  {
   "property": "C163",
   "status": "proved",
   "theorems": [
    "C163_readers_beside_a_write",
    "C163_readers_beside_a_cancel",
    "C163_readers_beside_a_close"
   ],
   "note": "Accesses to memory are steps in one order that all goroutines agree on; iteration over the map is one step."
  },
  {
   "property": "C164",
   "status": "proved",
   "theorems": [
    "C164_both_commits_are_there_refuted"
   ],
   "note": "The guarantee is refuted for every session and every pair of allowed commits."
  },
  {
   "property": "C165",
   "status": "proved",
   "theorems": [
    "C165_a_cancel_during_a_commit_waits_refuted"
   ],
   "note": "The guarantee is refuted for every session and every allowed commit."
  },
  {
   "property": "C166",
   "status": "proved",
   "theorems": [
    "C166_left_recursion_as_implemented",
    "C166_left_recursion_reads_lists_refuted"
   ],
   "note": "The exact behaviour is proved, and the guarantee is refuted for every such token and every number of repetitions."
  },
  {
   "property": "C167",
   "status": "proved",
   "theorems": [
    "C167_the_numbers_do_not_matter_to_one_call"
   ],
   "note": "Calls with descriptors: Open, Read, Write, Cancel, Commit, Close. ReadByHash and the lists of reads are not modelled with descriptors."
  },
  {
   "property": "C168",
   "status": "proved",
   "theorems": [
    "C168_a_refused_commit_has_no_effect_refuted"
   ],
   "note": "The guarantee is refuted for every history and every such descriptor table."
  },
  {
   "property": "C169",
   "status": "proved",
   "theorems": [
    "C169_a_database_reads_its_own_file_refuted"
   ],
   "note": "The guarantee is refuted; the schedule is also played on one concrete process (C169_played)."
  },
  {
   "property": "C170",
   "status": "proved",
   "theorems": [
    "C170_only_a_database_can_be_opened_refuted"
   ],
   "note": "The guarantee is refuted for every directory, and what such a context does is proved."
  },
  {
   "property": "C171",
   "status": "proved",
   "theorems": [
    "C171_counting_changes_nothing",
    "C171_parsing_takes_polynomial_time_refuted"
   ],
   "note": "The guarantee is refuted with a grammar of one token and an input of any depth. Only calls of the function token are counted; each of them does more work than that."
  },
  {
   "property": "C172",
   "status": "proved",
   "theorems": [
    "C172_non_recursive_grammars_take_polynomial_time"
   ],
   "note": "Calls made for channels, conditions and externals are not counted, so grammars with them are left out. The numbers c and d depend on the grammar; d can grow with the depth of its tokens."
  },
  {
   "property": "C173",
   "status": "proved",
   "theorems": [
    "C173_work_goes_on_after_a_crash"
   ],
   "note": "A process dies, the kernel goes on: what was written is in the file. C155 says what a loss of power can do."
  },
  {
   "property": "C174",
   "status": "proved",
   "theorems": [
    "C174_new_after_a_crash_loses_the_history_refuted"
   ],
   "note": "The guarantee is refuted for every session and commit."
  },
  {
   "property": "C175",
   "status": "proved",
   "theorems": [
    "C175_other_assignments"
   ],
   "note": "Each kind taken as the root. C116 says that the whole grammar never gets to them."
  },
  {
   "property": "C176",
   "status": "proved",
   "theorems": [
    "C176_names_in_a_row_refuted"
   ],
   "note": "The guarantee is refuted for every pair of names."
  },
  {
   "property": "C177",
   "status": "proved",
   "theorems": [
    "C177_own_suite"
   ],
   "note": ""
  },
  {
   "property": "C178",
   "status": "proved",
   "theorems": [
    "C178_trees_are_of_the_grammar"
   ],
   "note": ""
  },
  {
   "property": "C179",
   "status": "proved",
   "theorems": [
    "C179_names_in_a_parsed_grammar"
   ],
   "note": ""
  },
  {
   "property": "C180",
   "status": "proved",
   "theorems": [
    "C180_execute_fails_for_a_reason",
    "C180_outputs_need_values"
   ],
   "note": ""
  },
  {
   "property": "C181",
   "status": "proved",
   "theorems": [
    "C181_items_never_panic",
    "C181_short_inputs_are_errors",
    "C181_building_from_nothing_is_an_error",
    "C181_trees_panic_exactly",
    "C181_contents_panic_exactly",
    "C181_keys_panic_exactly",
    "C181_commit_panics_exactly",
    "C181_commits_panic_exactly",
    "C181_reference_panics_exactly"
   ],
   "note": ""
  },
  {
   "property": "C182",
   "status": "proved",
   "theorems": [
    "C182_accepted_texts",
    "C182_one_text_for_each_hash_refuted"
   ],
   "note": "That each hash has one text is refuted; which texts are accepted is proved for all texts."
  }
 ]
}