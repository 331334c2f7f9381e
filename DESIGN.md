# Formal model of steve-care-software/rodkina

The model is in `rocq/theories/`. It is written in Rocq (Coq 8.16.1) and uses the standard library only.
The English claims are in `properties.jsonl`. `MANIFEST.json` maps each claim to theorem names.
`seeded/LOG.jsonl` records the wrong programs the theorems were tried against.

## Layout

| File | Content |
|------|---------|
| `Base.v`, `BaseLemmas.v` | outcomes (`Ok`, `Err`, `Panic`, `Fuel`), bytes, Go slices with capacity, 64-bit little endian |
| `HashModel.v`, `HashProofs.v`, `SpecHexText.v`, `HashTextProofs.v`, `PropHexText.v` | `libs/cryptography/domain/hash`; the texts that are read as a hash |
| `HashTreeModel.v`, `HashTreeProofs.v` | `libs/cryptography/domain/hashtrees` |
| `HashFloat.v`, `HashFloatProofs.v` | the number of leaves, with rounded logarithms |
| `RefModel.v`, `RefProofs.v`, `SpecCanon.v`, `RefCanonProofs.v`, `SpecFault.v`, `RefFaultProofs.v` | `libs/databases/domain/references`, `libs/databases/domain/contents` |
| `DbModel.v` | `libs/databases/infrastructure/files` over an explicit file system |
| `DbRefProofs.v` ... `DbHistoryProofs.v` | histories, system calls of Commit, Open, sessions, several databases, frames, lookups; `DbEndProofs.v`: when Commit returns; `DbSizeProofs.v`: the size of the file |
| `DbThreads.v`, `SpecThreads.v`, `DbThreadProofs.v` ... `DbThreadProofs5.v` | goroutines that share one application: calls as steps on shared memory; each call alone; readers beside it; calls that spoil each other |
| `DbDescriptors.v`, `SpecDescriptors.v`, `DbDescriptorProofs.v` ... `DbDescriptorProofs5.v`, `PropDescriptors.v` | the descriptor numbers of a process: calls alone; a refused Commit that takes the connection of another |
| `DbDirModel.v`, `SpecDir.v`, `PropDir.v` | Open of a directory |
| `SpecRecover.v`, `DbRecoverProofs.v`, `PropRecover.v` | work after a crash |
| `SpecAssign.v`, `GrammarAssignProofs.v`, `PropAssign.v` | the other assignments of the grammar of grammars |
| `SpecOwn.v`, `AstOwnProofs.v`, `SpecNames.v`, `GrammarNamesProofs.v`, `PropNames.v` | the tokens and the names of the parts of a tree |
| `SpecBlame.v`, `InterpBlameProofs.v`, `PropBlame.v` | why the execution of a program fails |
| `SpecText.v`, `GrammarTextProofs.v`, `PropText.v` | code points, decimal names and own suites of the tokens made of texts |
| `PathModel.v`, `SpecPath.v`, `PathProofs.v`, `PathSimProofs.v`, `PathAliasProofs.v` | `filepath.Clean` and `Join`, places in a tree of directories, the database application with paths; walks; simulation by one directory; two names of a file |
| `AstModel.v` | `libs/asts`: grammars, trees, `Execute` |
| `AstProofs.v`, `AstTraceProofs.v` | what a successful run went through |
| `AstFuelProofs.v`, `AstListProofs.v` | bounds on calls; checkable hypotheses on concrete grammars |
| `AstPegProofs.v`, `AstRecProofs.v`, `AstLateProofs.v`, `AstLeftProofs.v`, `AstVisibleProofs.v`, `AstCondProofs.v` | parsing expressions, recursion, channels, channel conditions |
| `SpecCount.v`, `AstCountProofs.v`, `AstCostProofs.v`, `PropCount.v` | the number of calls of the parser |
| `AstPanicProofs.v`, `AstMoreProofs.v`, `AstEveryProofs.v` | panics, particular grammars, everythings |
| `CoverModel.v`, `Cover*Proofs.v` | Compose, Coverages, Covered, Uncovered, Fetch |
| `InterpModel.v`, `Interp*Proofs.v` | `libs/interpreters` |
| `QueryModel.v`, `Query*Proofs.v` | `libs/queries` |
| `GrammarModel.v`, `Grammar*Proofs.v` | `instances/grammars` |
| `Spec*.v`, `DbSession.v` | specifications, written without the model's helpers |
| `Prop*.v` | the property theorems, their examples, `Print Assumptions` |

`tools/manifest.py` writes `MANIFEST.json` from the theorem names and `tools/notes.json`.
`tools/design.py` writes the table below from `tools/methods.json`.
`tools/seed.py` and `tools/seedall.py` apply a wrong edit to a copy of the model and report the theorems that no longer hold.

## Conventions

* Go errors are the outcome `Err`. The messages are not modelled.
* Go panics (slice out of range, index out of range, nil dereference, division by zero) are the outcome `Panic`.
* Functions that may not terminate take a bound and return `Fuel` when it is used up.
  Theorems never treat `Fuel` as success. Divergence is stated as `Fuel` for every bound.
* A Go byte slice is a visible part and the bytes behind it up to the capacity,
  because `s[a:b]` is bounded by the capacity, not by the length.
* SHA-512 is a parameter `H : list byte -> list byte` of the theorems. Only `length (H x) = 64` is assumed (`sha_ok`).
  Every such function has collisions, so no theorem assumes that there are none or concludes that there is one somewhere.
  Theorems on binding conclude that *two named strings* collide, among the strings the code has hashed (`collide`).
* Where the code does not keep a promise one would expect, the property states what happens instead, so that it is true.
  The theorem that shows it ends in `_refuted`. It holds for a whole family of inputs where possible, and for a witness otherwise.
* Each theorem is followed by an `Example` with a concrete case that meets its hypotheses.

## Properties

<!-- properties -->
| Id | Claim | Modelled by | Proved by | Theorems |
|----|-------|-------------|-----------|----------|
| C01 | Hash adapter always yields a 64-byte hash and is idempotent | HashModel | case analysis on the length | `C01_hash_is_64_bytes_and_idempotent` |
| C02 | A content hash identifies the content, except across the 64-byte boundary | HashModel | case analysis; witness `sha512(x)` for every x | `C02_hash_identifies_content_refuted`, `C02_hash_identifies_content_same_kind` |
| C03 | Hash text form is faithful | HashModel | induction on the bytes | `C03_hash_text_is_faithful` |
| C04 | Hash tree of any non-empty block list is built without error or panic and keeps the blocks in order | HashTreeModel | induction on the depth of perfect trees | `C04_tree_keeps_blocks_in_order` |
| C05 | Building a hash tree panics exactly on the empty block list | HashTreeModel | C04 for the positive part; computation for the empty list | `C05_build_never_panics_refuted`, `C05_build_panics_only_on_empty` |
| C06 | The head of a hash tree is the Merkle root of the padded blocks | HashTreeModel | induction on the depth, against the relation `merkle` | `C06_head_is_merkle_root`, `C06_merkle_root_unique` |
| C07 | The head of a hash tree binds the blocks | HashTreeModel | induction on `merkle` derivations; the collision is looked for among the strings hashed (`merkle_input`) | `C07_head_binds_leaves`, `C07_head_binds_blocks` |
| C08 | The head alone does not identify the block list | HashTreeModel | witnesses for all blocks | `C08_padding_is_ambiguous_refuted`, `C08_no_domain_separation_refuted` |
| C09 | Hash tree height and length | HashTreeModel | induction on the depth | `C09_height_and_length` |
| C10 | Compacting a tree loses nothing | HashTreeModel | rebuilding the perfect tree from its leaves, induction on the depth | `C10_compact_loses_nothing` |
| C11 | Shuffled blocks are put back in order | HashTreeModel | induction on the leaves, lookups in the permuted list | `C11_order_restores_blocks` |
| C12 | Order fails when a block equals the padding block | HashTreeModel | counting leaves | `C12_order_of_any_blocks_refuted`, `C12_order_fails_with_a_padding_block_refuted` |
| C13 | Hash tree binary encoding round trips | HashTreeModel codecs | induction on trees, for every backing array behind the slice | `C13_hashtree_encoding_roundtrip`, `C13_leaf_encoding_roundtrip` |
| C14 | Leaves and compact encodings round trip | HashTreeModel codecs | induction on the list of leaves | `C14_leaves_and_compact_roundtrip`, `C14_any_leaves_roundtrip` |
| C15 | Decoders of untrusted bytes can panic but never loop | all decoders | a panicking input per decoder; a decreasing measure (unread bytes) for termination | `C15_hashtree_decoding_never_panics_refuted`, `C15_hashtree_decoding_terminates`, `C15_no_leaves_is_an_error`, `C15_database_decoding_never_panics_refuted`, `C15_database_decoding_terminates` |
| C16 | Pointer and content key encodings round trip | RefModel codecs | arithmetic of 64-bit fields | `C16_pointer_and_key_roundtrip` |
| C17 | Content key list encoding round trips and its lookups are exact | RefModel | induction on the list; lookups against `last_such`, `selects`, `greatest` | `C17_keys_roundtrip`, `C17_fetch_and_list_exact` |
| C18 | Commit encoding round trips | RefModel | arithmetic of 64-bit fields, C13 | `C18_commit_roundtrip`, `C18_built_trees_are_well_formed` |
| C19 | Commit encoding loses the sign of a proof | RefModel | for every negative proof | `C19_negative_proof_roundtrip_refuted` |
| C20 | Commit list and reference encodings round trip | RefModel | induction on the list | `C20_commits_roundtrip`, `C20_reference_roundtrip`, `C20_commit_fetch_exact` |
| C21 | Pending contents encoding round trips | RefModel | induction on the list | `C21_contents_roundtrip` |
| C22 | A commit's hash binds values root, date and parent when there is no proof | RefModel | decimal texts and fixed widths make the hashed string parseable; witnesses with proofs | `C22_commit_hash_binds_without_proof`, `C22_commit_hash_covers_its_fields`, `C22_commit_hash_binds_refuted` |
| C23 | Mining score and result are functions of the commit's hash and proof | RefModel | induction on the leading bytes | `C23_mining_result_and_score`, `C23_zero_proof_result_is_hash` |
| C24 | What is written and committed can be read back | DbModel, DbSession | invariant `synced` (file bytes, reference in memory, list of batches) kept by every operation | `C24_sessions_show_what_was_committed`, `C24_written_and_committed_is_read_back` |
| C25 | Committed data survives close and reopen | DbModel, DbSession | invariant, codecs of C13-C21 | `C25_committed_data_survives_reopening` |
| C26 | A commit over data that is not a whole number of read chunks loses data without an error | DbModel | induction on the copied chunks, for every session whose data is no whole number of chunks | `C26_commit_loses_data_refuted` |
| C27 | Commit history is append-only and forms a parent chain | DbModel | inversion of a successful commit, from any state | `C27_commit_appends_one_linked_commit` |
| C28 | Commit keeps earlier content keys and appends one per written content | DbModel | inversion of a successful commit, from any state | `C28_commit_appends_one_key_per_content` |
| C29 | Cancel discards the pending writes | DbModel, DbSession | induction on the writes | `C29_cancel_discards_pending_writes`, `C29_cancelled_writes_are_never_committed` |
| C30 | A second Commit without a new write commits the same batch again | DbModel, DbSession | invariant | `C30_batch_is_committed_again_refuted` |
| C31 | Commit with nothing pending panics | DbModel | case analysis, from any state | `C31_commit_of_nothing_panics_refuted` |
| C32 | Uncommitted writes are invisible | DbModel | frame of Write, from any state | `C32_uncommitted_writes_are_invisible` |
| C33 | Operations on an unknown or closed context fail without effect | DbModel | case analysis, from any state | `C33_unknown_context_is_an_error`, `C33_closed_context_is_unknown` |
| C34 | Open context identifiers are unique as long as nothing is closed, and are reused after a close | DbModel | induction on the operations; an execution for the refutation | `C34_identifiers_are_reused_refuted`, `C34_identifiers_are_unique_without_close` |
| C35 | New never overwrites and Exists is exact | DbModel | case analysis on the directory | `C35_new_exists_delete` |
| C36 | At every crash point of Commit a complete copy exists, but not always under the database's name | DbModel (`commit_states`) | case analysis over the program's system calls; induction on loops; an execution for the refutation | `C36_every_crash_point_has_a_complete_copy`, `C36_commit_is_not_atomic_refuted` |
| C37 | Two applications lose each other's commits | DbModel, DbSession | two applications on one file system, invariant for each | `C37_second_committer_erases_the_first_refuted` |
| C38 | Reads outside the batch are unaffected by a commit | DbModel, DbSession | invariant | `C38_commit_keeps_earlier_reads` |
| C40 | Parsing consumes a prefix | AstModel | induction on the call bound (`token_run_trace`) | `C40_remaining_is_a_suffix` |
| C41 | Matches consume bytes | AstModel | induction on the call bound | `C41_matches_consume` |
| C42 | Parsing terminates for guarded grammars | AstModel | well-founded measure (bytes left, size of the rest of the grammar) | `C42_guarded_grammars_terminate`, `C42_non_recursive_grammars_terminate`, `C42_the_answer_does_not_depend_on_the_bound` |
| C43 | Two left-recursive lines make the parser loop | AstModel | for every call bound and every input starting with the byte | `C43_recursion_diverges_refuted` |
| C44 | Parsed bytes are the input bytes | AstModel | induction on the call bound | `C44_bytes_are_the_input` |
| C45 | Cardinalities are respected | AstModel | induction on the call bound | `C45_cardinalities_hold` |
| C46 | Parsing is sound | AstModel | induction on the call bound, against the relation `derives` of SpecAst | `C46_parsing_is_sound` |
| C47 | A sequence of values matches exactly its bytes | AstModel | induction on the line | `C47_values_match_their_bytes` |
| C48 | Lines are tried in order and the first that matches wins | AstModel | induction on the lines | `C48_the_first_line_that_matches_wins` |
| C49 | Compose containers never match | AstModel | induction on the call bound | `C49_composes_never_match_refuted`, `C49_no_matched_line_has_a_compose_refuted` |
| C50 | External grammars drop the rest of the input | AstModel | induction on the call bound | `C50_externals_drop_the_rest_refuted`, `C50_nothing_matches_after_an_external_refuted` |
| C51 | Everything-except stops at the first exception | AstModel | induction on the input | `C51_everything_stops_at_the_exception` |
| C52 | Compose renders the bytes of a token | CoverModel | induction on the list; arithmetic of unsigned counters for the refutation | `C52_compose`, `C52_huge_occurrences_refuted` |
| C53 | Uncovered needs a suite | CoverModel | case analysis; induction on coverages | `C53_uncovered_panics_without_suites_refuted`, `C53_uncovered_returns_with_a_suite` |
| C60 | Compile then Execute computes the meaning of the source program | InterpModel | refinement: compiled programs against the direct interpreter of SpecInterp, induction on instructions and nested lists | `C60_execute_is_direct_interpretation` |
| C61 | Input parameters are numbered in order of declaration | InterpModel | induction on instructions | `C61_nth_input_parameter_receives_nth_input`, `C61_declaring_a_parameter_twice_is_an_error` |
| C62 | One output per assignment to a declared output | InterpModel | induction on instructions | `C62_one_output_per_assignment`, `C62_no_missing_output` |
| C63 | Later instructions do not change what earlier ones do | InterpModel | induction on instructions, for any continuation | `C63_later_instructions_do_not_change_earlier_ones` |
| C64 | A compiled program only fails at run time for missing inputs or module failures | InterpModel | induction on programs | `C64_no_failure_without_missing_input_or_module_failure` |
| C65 | Compile accepts exactly the well-scoped instruction lists | InterpModel | induction on instructions, both directions, against `scoped` | `C65_compile_accepts_exactly_scoped_lists` |
| C70 | When queries panic | QueryModel | induction on the query depth; witnesses | `C70_panics_refuted`, `C70_no_panic` |
| C71 | Functions of a query get the contents its token selects | QueryModel | induction on the query depth | `C71_functions_get_the_selected_contents`, `C71_a_function_of_one_content_gets_the_first` |
| C72 | Queries return the remaining of the parsed tree | QueryModel | case analysis; C40 for parsed trees | `C72_the_remaining_is_the_tree_s`, `C72_the_remaining_is_the_rest_of_the_input` |
| C73 | Hash tree and leaf decoding accepts encodings only | HashTreeModel codecs | inversion of successful decoding | `C73_tree_decoding_is_canonical` |
| C74 | Leaves decoding reads behind the end of its input | HashTreeModel codecs | witness: two backing arrays | `C74_leaves_decoding_depends_only_on_input_refuted`, `C74_missing_leaves_are_read_behind_the_end` |
| C75 | Leaves make a hash tree exactly when their number is a power of two | HashTreeModel | induction on the pairing of leaves | `C75_leaves_make_a_tree_iff_power_of_two` |
| C76 | Commit touches three file names only | DbModel (`commit_states`) | frame over every system call, every lock state, every failing write | `C76_commit_changes_three_names_only` |
| C77 | Commit destroys databases named like its side files | DbModel, DbSession | invariant | `C77_commit_destroys_databases_named_like_its_copies_refuted` |
| C78 | An open context reads a snapshot | DbModel | inodes outlive names; frame on the old inode | `C78_open_contexts_read_a_snapshot` |
| C79 | A read chunk size of zero crashes Open and hangs Commit | DbModel | for every bound on the loop | `C79_chunk_size_zero_crashes_open_refuted`, `C79_chunk_size_zero_hangs_commit_refuted` |
| C80 | A failed write of a content is not reported | DbModel | frame over failing writes | `C80_failed_content_write_is_not_reported_refuted` |
| C81 | The lock does not keep others out during the swap | DbModel | interleaving of two programs | `C81_lock_does_not_exclude_during_swap_refuted` |
| C82 | Commit revives a deleted database | DbModel, DbSession | invariant | `C82_commit_revives_a_deleted_database_refuted` |
| C83 | Open of a file starting with eight zero bytes panics | DbModel | for every file with such a beginning | `C83_open_of_a_zeroed_file_panics_refuted` |
| C84 | Read returns exactly the requested bytes or fails, but is not confined to the data area | DbModel | case analysis; witness | `C84_read_is_exact_or_fails`, `C84_read_reaches_the_header_refuted` |
| C85 | A database is open at most once per application | DbModel | induction on the operations | `C85_a_database_is_open_once` |
| C86 | Databases open in one application are independent | DbModel, DbMultiProofs | invariant for each database and separation of inodes and handles | `C86_open_databases_are_independent` |
| C87 | A Commit that returns an error changes nothing a user can see | DbModel | case analysis over the points of failure, all failing writes | `C87_failed_commit_changes_nothing` |
| C88 | A locked database is not committed to | DbModel | case analysis on the lock table | `C88_locked_database_is_not_committed`, `C88_locked_commit_is_an_error` |
| C89 | Grammars without recursion are parsing expressions | AstModel, SpecPeg | induction on the call bound, both directions, against parsing expressions; C42 for totality | `C89_parsing_expression` |
| C90 | Repetitions never give back | AstModel | greedy repetition, for all bytes and counts | `C90_repetitions_never_give_back_refuted` |
| C91 | A recursive reference matches at most once per line | AstModel | induction on the line | `C91_one_recursive_match_per_line_refuted` |
| C92 | Only the first line of an exception counts | AstModel | case analysis, for all exceptions of that shape | `C92_only_the_first_line_of_an_exception_counts_refuted` |
| C93 | Parsing does not panic without escapes | AstModel | induction on the call bound | `C93_no_panic_without_escapes` |
| C94 | An escaped exception at the end of the input panics | AstModel | for every input of that shape | `C94_escape_at_the_end_panics_refuted` |
| C95 | Execute returns trees of failed matches without an error | AstModel | for every input; witness | `C95_no_error_without_a_match_refuted`, `C95_names_used_twice_refuted` |
| C96 | Coverages report what the parser does | CoverModel, CoverBlameProofs | induction on tokens and suites; failures are traced to the suite that causes them | `C96_coverages_are_the_parser_results`, `C96_coverages_end`, `C96_coverages_fail_only_with_the_parser`, `C96_failures_are_not_hidden` |
| C97 | Coverages list each token once | CoverModel | induction on the traversal, against reachability | `C97_coverages_list_every_token`, `C97_coverages_list_names_once`, `C97_same_name_is_skipped_refuted` |
| C98 | Covered and Uncovered are exact | CoverModel | induction on coverages | `C98_covered`, `C98_uncovered` |
| C99 | Positions of covered elements | CoverModel | induction on trees; witness | `C99_covered_positions`, `C99_optional_elements_shift_refuted` |
| C100 | Fetch finds parts by name | CoverModel | induction on trees, against the relation `part` | `C100_fetch_returns_a_part_of_that_name`, `C100_fetch_zero_is_the_first`, `C100_fetch_among_values` |
| C101 | Fetch by index misses nested parts | CoverModel | witness | `C101_fetch_misses_nested_ones_refuted` |
| C102 | A variable stands for its expression at each use | InterpModel | C60 with `eval` unfolding variables | `C102_execute_evaluates_variables_at_each_use` |
| C103 | A variable does not keep the value it was given | InterpModel | witness: a module that counts its calls | `C103_variable_keeps_its_value_refuted` |
| C104 | Module calls can grow exponentially with the program | InterpModel | induction on n, a program with n assignments and 2^n calls | `C104_calls_grow_exponentially` |
| C105 | A sub-program runs alone, on the inputs of its parent | InterpModel | C60 | `C105_subprogram_runs_alone_on_the_same_inputs` |
| C106 | Only the equality of names matters | InterpModel | induction on instructions, for every injective renaming | `C106_renaming_does_not_change_the_program` |
| C107 | The value attached last to a position is the one passed | InterpModel | sorted association lists; C60 | `C107_last_attached_value_is_passed`, `C107_last_attached_input_is_passed` |
| C108 | Queries terminate | QueryModel | induction on the query | `C108_queries_terminate` |
| C109 | What any query gives | QueryModel | refinement against the relation `means` of SpecQuery, both directions | `C109_queries_do_what_they_mean` |
| C110 | Recursive fetchers stand for the enclosing query of that name | QueryModel | substitution lemma, induction on the query | `C110_recursion_means_the_enclosing_query` |
| C111 | Recursive fetchers depend on the queries executed before | QueryModel | witness: the same query twice | `C111_recursion_depends_on_the_queries_before_refuted` |
| C112 | All fetchers of a query must have the name of every tree | QueryModel | induction on fetchers | `C112_all_fetchers_have_the_name_of_the_trees`, `C112_two_names_never_give_a_result_refuted` |
| C113 | Matches tells nothing about a query | QueryModel | witness per combination | `C113_matches_tells_nothing_refuted` |
| C114 | Channels act between values only | AstModel, SpecPeg | induction on the values of a line | `C114_channels_between_values` |
| C115 | The grammar of grammars reads every text | GrammarModel | C42: the grammar is guarded (checked by computation), for every text | `C115_grammar_of_grammars_ends` |
| C116 | The grammar of grammars only reads assignments of values | GrammarModel | C89 and C114 for the shipped grammar, for every text | `C116_only_value_assignments_refuted` |
| C117 | What the shared tokens read | GrammarModel | C89 and induction on the text | `C117_characters`, `C117_names`, `C117_hashes` |
| C118 | Texts become the truncated code points | SpecText, GrammarTextProofs, PropText, GrammarModel | induction on the text, UTF-8 decoding as in Go's range loop | `C118_characters_truncated`, `C118_own_text`, `C118_every_string_has_code_points`, `C118_texts_are_truncated_code_points` |
| C119 | What channel conditions do | AstModel, SpecCond | induction on rounds and on the values of a line | `C119_channel_conditions` |
| C120 | A condition on the data before is never met at the end of the root | AstModel, SpecCond | for every grammar of that shape | `C120_previous_condition_fails_at_the_end_refuted` |
| C121 | A condition whose token is optional is no condition | AstModel, SpecCond | C119 and extensionality of rounds | `C121_optional_tokens_are_no_condition_refuted` |
| C122 | The history can be walked with CommitByHash | DbModel, DbHistoryProofs | induction on the place in the history; C22 | `C122_commit_by_hash_finds_a_listed_commit`, `C122_history_can_be_walked` |
| C123 | Reading many is reading each in order | DbModel | induction on the list; invariant | `C123_reading_many_is_reading_each`, `C123_many_hashes_are_read_back` |
| C124 | Changed data is not noticed | DbModel, SpecDb | the front of the file depends on hashes, kinds and lengths only; invariant of sessions | `C124_changed_data_is_noticed_refuted` |
| C125 | Heads are believed, commit hashes are recomputed | HashTreeModel, RefModel, DbModel | round trip of every well-formed tree; inversion of the decoders | `C125_decoded_head_is_checked_refuted`, `C125_decoded_commits_have_the_hash_of_their_fields`, `C125_opened_commits_have_the_hash_of_their_fields` |
| C126 | Open does not check the history | RefModel, DbModel | round trip of every reference (C20) | `C126_open_checks_the_history_refuted` |
| C127 | Written bytes are taken at Commit, not at Write | DbModel, DbShared | refinement: the pending list holds places in memory; induction on the session | `C127_commits_take_the_bytes_of_the_moment`, `C127_write_takes_the_bytes_given_refuted` |
| C128 | Building a hash tree can overwrite a block of the caller | HashBuilderModel | memory of arrays and slices; append in place or with a new array | `C128_building_leaves_the_caller_s_blocks_refuted`, `C128_otherwise_blocks_are_kept` |
| C129 | What the hash tree builder takes and repeats | HashBuilderModel | as C128, for any builder state | `C129_given_heads_are_checked_refuted`, `C129_building_again_gives_the_same`, `C129_building_again_after_a_panic` |
| C130 | Every builder keeps to its rule | BuilderModel, SpecBuilder | builders as programs; symbolic execution over the set of given fields, sound for every state, checked for every builder by computation | `C130_builders_follow_their_rules`, `C130_one_rule_each` |
| C131 | Builders only remember the last arguments | BuilderModel, SpecBuilder | C130; the rules depend on the last arguments only | `C131_only_the_last_arguments_matter` |
| C132 | A maximum below the minimum never matches | AstModel, SpecAst | corollary of C45 | `C132_maximum_below_minimum_never_matches` |
| C133 | Only the equality of names matters to the parser | AstModel, SpecRename | the whole parser commutes with the map; induction on the bound and on every loop | `C133_only_the_equality_of_names_matters` |
| C134 | Bytes have no meaning to the parser | AstModel, SpecRename | as C133 | `C134_bytes_have_no_meaning` |
| C135 | Test suites do not change parsing | AstModel, SpecRename | as C133, with suites erased | `C135_suites_do_not_change_parsing`, `C135_same_bytes` |
| C136 | Order neither notices missing blocks nor foreign ones | HashTreeModel | induction over the leaves of the tree | `C136_order_gives_what_it_was_given`, `C136_missing_blocks_are_noticed_refuted`, `C136_foreign_blocks_are_noticed_refuted` |
| C137 | Opening a database does not disturb a commit | DbModel, DbConcurrent | interleavings of two programs of system calls; Open changes nothing that others see | `C137_open_does_not_disturb_commit`, `C137_alone_as_in_one_process` |
| C138 | Before the file is replaced, Open shows the history before the commit | DbModel, DbConcurrent | C137; what the other sees is one of the crash states of the commit (C36) | `C138_open_before_the_file_is_replaced` |
| C139 | An Open during a Commit can fail or show bytes of the header as data | DbModel, DbConcurrent | invariant of Open over every sequence of crash states; explicit interleavings for every session | `C139_open_gives_one_of_four`, `C139_open_during_commit_reads_wrong_bytes_refuted`, `C139_open_during_commit_fails_refuted` |
| C140 | One commit at a time, until the file is replaced | DbModel, DbConcurrent | invariant: the lock on the file, and who has it, as long as the name stands for it | `C140_one_commit_at_a_time` |
| C141 | Two commits can destroy the database | DbModel, DbConcurrent | explicit interleavings for every session | `C141_two_commits_destroy_the_database_refuted` |
| C142 | New during a Commit can empty the database | DbModel, DbConcurrent | explicit interleaving for every session | `C142_new_during_commit_empties_the_database_refuted` |
| C143 | Tokens that refer to themselves once per line are recursive parsing expressions | AstModel, SpecRec | induction on the call bound; invariant on the stack map: what it records of a token is longer than what a recursive call gets | `C143_recursive_parsing_expression` |
| C144 | Exactly what tokens that refer to themselves match | AstModel, SpecRec | as C143, with the entry of the token in the stack map as the state of the line | `C144_recursion_as_implemented` |
| C145 | A later line that refers to an enclosing token after the same values never matches | AstModel, SpecRec | the stack map only loses entries; invariant before each line: what earlier lines refer to is gone, or the values before it do not match | `C145_later_reference_to_an_enclosing_token_refuted` |
| C146 | Rounding does not change the number of leaves | HashFloat | real analysis: bounds of the logarithm of 1+x, error of a rounded quotient | `C146_rounding_gives_the_next_power_of_two`, `C146_rounding_does_not_change_the_tree` |
| C147 | Any number of processes may open while one commits | DbCrowd, DbConcurrent | projection of a schedule of many processes to one of two; C137 - C139 | `C147_opens_do_not_disturb_commit`, `C147_each_open_as_if_there_were_no_others` |
| C148 | One commit at a time among any number of processes, until the file is replaced | DbCrowd, DbConcurrent | invariant over schedules of any number of processes: one commit runs alone under the lock, or the file is gone; readers watch the states in between | `C148_one_commit_at_a_time_among_any_number` |
| C149 | Commit returns unless the file ends where its data would start | DbModel, DbEndProofs | invariant of the source file under all system calls, the distance to its end as a measure; induction on the fuel for the hang | `C149_commit_returns`, `C149_commit_returns_in_sessions`, `C149_commit_after_a_lost_write_returns_refuted`, `C149_commit_on_a_cut_off_file_returns_refuted` |
| C150 | Which bytes the database decoders accept | RefModel, RefCanonProofs | inversion of every slice expression of the decoders, against the round trips; induction on the loops | `C150_items_have_one_encoding`, `C150_key_lists`, `C150_commits`, `C150_commit_lists`, `C150_references`, `C150_commit_encoding_is_unique_refuted`, `C150_key_list_depends_only_on_its_bytes_refuted` |
| C151 | The size of a database file | DbModel, DbSizeProofs | the shown history of a session; size of a perfect tree by induction on its depth, of the chain by induction on the batches | `C151_size_of_the_file` |
| C152 | Which file a database name stands for | PathModel, SpecPath, PathProofs | filepath.Clean as a loop over bytes with its output buffer, against walks through elements; invariant of the loop | `C152_where_names_lead`, `C152_where_names_lead_without_directory`, `C152_plain_names_are_files_of_the_directory`, `C152_names_stay_in_the_directory_refuted`, `C152_a_file_has_one_name_refuted` |
| C153 | A database application works only in its directory | PathModel, PathSimProofs, PathAliasProofs | simulation between the tree of all places and the single directory, system call by system call, then by induction on the calls | `C153_calls_in_a_directory`, `C153_every_directory`, `C153_new_makes_the_directory`, `C153_new_fails_otherwise` |
| C154 | One database opened under two names loses commits | PathModel, PathAliasProofs | the shown history of a session, carried along the simulation to a context opened under another name | `C154_one_application_keeps_all_commits_refuted` |
| C155 | A commit that succeeded can be lost when the power fails | DbModel, SpecPower, DbPowerProofs | invariant of the new file over all states of a commit; a disk made of several states; decoding of every prefix of a file | `C155_what_a_loss_of_power_leaves`, `C155_a_file_cut_short`, `C155_a_commit_survives_a_loss_of_power_refuted` |
| C156 | Calls of goroutines that never overlap act one after the other | DbThreads, SpecThreads, DbThreadProofs, DbThreadProofs2 | simulation of each call by the sequential model, field access by field access | `C156_calls_that_do_not_overlap`, `C156_every_application_has_a_memory` |
| C157 | Readers of other databases are not affected by a call in another goroutine | DbThreads, SpecThreads, DbThreadProofs2, DbThreadProofs3 | invariant of what a reader of another database sees, over all states of each call; induction on the schedule | `C157_readers_of_other_databases` |
| C158 | Any number of goroutines may read at the same time | DbThreads, SpecThreads, DbThreadProofs2 | induction on the schedule | `C158_readers_do_not_disturb_each_other` |
| C159 | A reader of a database during a Commit on it can get bytes that are no content | DbThreads, SpecThreads, DbThreadProofs3, DbThreadProofs4 | the states of a commit in four stages, and what a reader can put together from stages that only go up; an explicit schedule | `C159_readers_during_a_commit`, `C159_readers_of_several_during_a_commit`, `C159_keys_and_commits_during_a_commit`, `C159_a_reader_during_a_commit_gets_a_content_refuted` |
| C160 | Two goroutines that open two databases can get the same identifier | DbThreads, DbThreadProofs4 | an explicit schedule, from any memory | `C160_two_opens_get_two_identifiers_refuted` |
| C161 | A content written by one of two goroutines can be lost | DbThreads, DbThreadProofs4 | an explicit schedule, from any memory | `C161_both_writes_are_kept_refuted` |
| C162 | A Write during a Commit can spoil the database | DbThreads, DbThreadProofs4 | an explicit schedule; the commit with a reference from before the write and the pending contents from after it | `C162_a_write_during_a_commit_waits_refuted` |
| C163 | Readers of a database beside a Write, a Cancel or a Close of it | DbThreads, SpecThreads, DbThreadProofs5 | what one reader can see in any of the states of the call, with or without an error; induction on the schedule | `C163_readers_beside_a_write`, `C163_readers_beside_a_cancel`, `C163_readers_beside_a_close` |
| C164 | One of two Commits in two goroutines can be lost | DbThreads, DbThreadProofs4, DbThreadProofs5 | an explicit schedule: one Commit between the reference and the file of the other | `C164_both_commits_are_there_refuted` |
| C165 | A Cancel during a Commit can lose the contents that are committed | DbThreads, DbThreadProofs4, DbThreadProofs5, SpecPower | an explicit schedule: the Cancel between the reference and the file; the file is the beginning of the one of the history | `C165_a_cancel_during_a_commit_waits_refuted` |
| C166 | A token that starts with itself is repeated once at most | AstModel, SpecLeft, AstLeftProofs | what the stack map holds before each line: exactly the lines tried so far on the same data; the reference deletes it | `C166_left_recursion_as_implemented`, `C166_left_recursion_reads_lists_refuted` |
| C167 | File descriptors do not matter to calls that are made one at a time | DbDescriptors, SpecDescriptors, DbDescriptorProofs, DbDescriptorProofs2, DbDescriptorProofs4 | the numbers of the open connections as an invariant; each step with a number is the step without it | `C167_the_numbers_do_not_matter_to_one_call` |
| C168 | A Commit that is refused the lock can take the connection of the Commit that holds it | DbDescriptors, SpecDescriptors, DbDescriptorProofs3, DbDescriptorProofs5 | an explicit schedule: the second Commit between the Close of the old connection and the Open of the new one of the first | `C168_a_refused_commit_has_no_effect_refuted` |
| C169 | After that a database can read the file of another one, and close it | DbDescriptors, SpecDescriptors, DbDescriptorProofs4, DbDescriptorProofs5 | the lowest free number is the lost one, so the next Open gets it | `C169_a_database_reads_its_own_file_refuted` |
| C170 | A directory can be opened as a database that can never be committed | DbDirModel, SpecDir, PropDir | the context without a history as an invariant of the calls; the lock of a directory is refused | `C170_only_a_database_can_be_opened_refuted` |
| C171 | Parsing can take time exponential in the length of the input | SpecCount, AstCountProofs, PropCount | the parser with a count in the map it hands on; induction on the depth for the count, and a simulation for the tree | `C171_counting_changes_nothing`, `C171_parsing_takes_polynomial_time_refuted` |
| C172 | Grammars without recursion are parsed in polynomial time | SpecCount, AstCostProofs, PropCount | each match takes a byte, so loops are short; induction on the depth of the tokens with a bound for escapes, then the bound is compared with a power | `C172_non_recursive_grammars_take_polynomial_time` |
| C173 | Work can go on after a process dies in Commit | SpecRecover, DbRecoverProofs, PropRecover | the states of C36 meet the hypotheses of Open; a renamed side file does too; then the induction over sessions of C24 | `C173_work_goes_on_after_a_crash` |
| C174 | New after a process died in Commit loses the history | SpecRecover, DbRecoverProofs, PropRecover | the crash state without the name is a directory in which a session can start; C77 for the last commit of that session | `C174_new_after_a_crash_loses_the_history_refuted` |
| C175 | Each other kind of assignment, taken alone, reads exactly its texts | SpecAssign, GrammarAssignProofs, PropAssign | ordered choices by excluding the earlier lines on the byte where they fail; repetitions by induction; blanks and comments by the lemma of C116 | `C175_other_assignments` |
| C176 | Two names in a row in a line are read as one element | SpecAssign, GrammarAssignProofs, PropAssign | induction over the elements: a name is read up to the first byte that is not a letter, so another element can only start after a cardinality | `C176_names_in_a_row_refuted` |
| C177 | A token made of a text passes its own suite exactly for plain texts | SpecText, GrammarTextProofs, PropText | the suite spells the text; C118 for what the token makes of it; no container of the token has suites | `C177_own_suite` |
| C178 | Every part of a tree is of a token of the grammar | SpecOwn, AstOwnProofs, PropNames | mutual induction over the traces of the parser, with the grammar fixed and its roots and channels as invariant | `C178_trees_are_of_the_grammar` |
| C179 | The names in a parsed grammar follow a fixed table | SpecNames, GrammarNamesProofs, PropNames | C178 and the shape of each line (C45), with a check of every token of the grammar against the table | `C179_names_in_a_parsed_grammar` |
| C180 | Execute fails only for a reason in the program | InterpModel, SpecBlame, InterpBlameProofs, PropBlame | nested induction over values, applications, instructions and programs; each failure is traced to a part of the program | `C180_execute_fails_for_a_reason`, `C180_outputs_need_values` |
| C181 | Exactly which bytes make the database decoders panic | RefModel, HashTreeModel, SpecFault, RefFaultProofs, PropFault | one turn of each decoder loop is computed as a case distinction over the announced length; induction over the turns, and over the nesting for leaves | `C181_items_never_panic`, `C181_short_inputs_are_errors`, `C181_building_from_nothing_is_an_error`, `C181_trees_panic_exactly`, `C181_contents_panic_exactly`, `C181_keys_panic_exactly`, `C181_commit_panics_exactly`, `C181_commits_panic_exactly`, `C181_reference_panics_exactly` |
| C182 | The texts FromString accepts | HashModel, SpecHexText, HashTextProofs, PropHexText | the digits are compared as numbers; induction over the text, two characters at a time | `C182_accepted_texts`, `C182_one_text_for_each_hash_refuted` |
<!-- end of properties -->

All properties can be expressed in the model. None is left partial.

## What is modelled, and simplifications

**Hashes and hash trees.** All of both packages. The memory of the tree builder is in `HashBuilderModel.v`.
The padded length is the exact next power of two; the code computes it with floating point logarithms. C146 shows that
both are the same below 2^42 blocks, for every logarithm and division that round as float64 should (`HashFloat.v`).
`math.Ceil`, `math.Pow(2, k)` and the conversions are taken to be exact, which they are for these numbers.

**References and contents.** All adapters, lists and lookups. Maps keyed by hash text are modelled as lookups of the last entry.
A time is its `UnixNano` value. Its location is not modelled.

**File database.** All operations. The file system has a directory of distinct plain names (C153 shows that
this is what an application sees of a tree of directories, with `filepath.Join` and `MkdirAll` modelled and without symbolic links
or permissions), inodes with bytes, handles with
positions, `flock`-like locks and a list of writes that will fail. Opening a directory as a file is an error, except in C170
(`DbDirModel.v`), where it is an open file without bytes.
A crash is a stop of the process between two system calls, or in the middle of a write.
A loss of power (C155) leaves the directory of one state and each file's bytes of any state since the commit began: changes of the
directory reach the disk in order, as do the bytes of one file, but not with respect to each other. Other reordering is not modelled.
`make` with a length of 2^63 or more panics; smaller lengths can be allocated. `TryLock` is one step.
`io.Copy` reads its source at once.

**Goroutines.** `DbThreads.v` has goroutines that share one application value (C156 to C165). The map holds pointers to contexts on a heap.
A step is one access to the map, one access to a field of a context or one step on the file system. Steps happen in one order that all
goroutines agree on, which Go promises only without data races; the runtime may also stop a program when it notices that a map is
changed while it is used. The iteration over the map in Open is one step.
The lists of keys and commits of a reference are values: that two Commits append to the spare capacity of one slice, where the later
append wins, is not modelled. In the schedule that proves C164 the second Commit makes its reference after the first one, so with such a
shared capacity the entries of the first could be replaced by those of the second. With the two references made in the other order, before
anything else, the result is the stated one in both cases. Either way one of the two commits is lost.

**Descriptors.** `DbDescriptors.v` adds the descriptor table of the process (C167 to C169). A new descriptor gets the lowest free number,
close(2) of a number closes whatever it stands for, and the field `fd` of a lock is shared by the Commits of one context. Connections are
read through their number. Reading the field `fd` and the call of `flock` or `close` with it is one step, and the file that Open reads the
reference from has no number. Close of an `os.File` that another goroutine is reading is not delayed. Finalizers of `os.File` are not modelled:
the garbage collector may close a connection that nothing refers to any more.

**Several processes.** `DbConcurrent.v` has two programs of system calls, each with its own handles, over one file system.
Any step of any of them can be next. A write of n bytes is n steps, so the other process also sees parts of a write.
A step is one system call, except that `TryLock` (open and `flock`) is one step, as is the reading side of `io.Copy`.
The list of writes that will fail is common to both. `DbCrowd.v` has any number of such processes (C147, C148).

**Parser.** `Execute` with channels, channel conditions, externals, everythings, escapes, recursion and composes.
Counters are natural numbers, without wrap-around. Grammars are finite trees, so a token that contains itself is only
possible through a recursive reference, as values are only built from finished values. A maximum is a number, not a pointer to one.
Time is the number of calls of the function `token` (C171, C172).

**Coverages and Fetch.** All operations. Occurrences of a compose are unsigned 64-bit counters, as C52 needs.

**Interpreter.** Compile and Execute. Names are compared by their bytes. Values and the state of the modules are arbitrary types.
Unsigned numbers are natural numbers. Slices appended to are not shared, which is argued in `InterpModel.v`.
The remaining bytes an instruction list can carry are left out; nothing reads them.

**Queries.** All of `libs/queries`. User functions are arbitrary functions on a state, and do not write into the slices they get.

**Grammars.** All components, shared tokens, channels and the grammar of grammars. The test suites attached to tokens are
an arbitrary parameter. Where the code ranges over a map of suites, one order is taken; no property depends on it.

**Builders.** The setters and `Now` of all builders are in `BuilderModel.v`, as programs of a small language. The other
model files use records with all their mandatory fields. The functions `create...` called by `Now` store their arguments;
this is by reading.

**Memory shared with the caller.** Slices are values, except in `DbShared.v` (data given to Write) and
`HashBuilderModel.v` (blocks given to the tree builder).

**Not modelled.** Error texts, `sdk.go` interfaces, test helpers,
the React GUI (`guis/reactjs`), vendored code except the behaviour of `fslock`.

## Trusted base

* Coq's kernel.
* The correspondence between the model and the Go code. Every definition of a model file cites the lines it models.
* `Print Assumptions` follows each property theorem in the `Prop*.v` files. All of them print "Closed under the global context",
  except the two of C146, which are about real numbers. They print the axioms of the reals of the standard library:
  `ClassicalDedekindReals.sig_not_dec`, `ClassicalDedekindReals.sig_forall_dec`,
  `FunctionalExtensionality.functional_extensionality_dep` and `Classical_Prop.classic`.
* `coqchk -o` lists seven constants of `Coq.ssr.ssrunder`, and the constants of the modules `RbaseSymbolsImpl` and `RinvImpl`
  of `Coq.Reals.Rdefinitions` (`R`, `R0`, `R1`, `Rplus`, `Rmult`, `Ropp`, `Rlt`, `Rinv`, `Rabst`, `Rrepr`, `Rquot1`, `Rquot2` and their
  `_def` equations). They are fields of sealed modules of the standard library, loaded with it. No theorem depends on the
  first; the theorems of C146 use the second as the definition of the reals.
