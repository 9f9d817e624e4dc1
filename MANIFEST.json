{
 "claims": [
  {
   "property": "C01",
   "status": "proved",
   "theorems": [
    "C01_dependencies_finish_first",
    "C01_running_jobs",
    "C01_log_is_faithful"
   ],
   "note": "For every graph, schedule and job result; targets are numbered nodes, jobs are atomic start/finish events. For plain source-file nodes only pre/static dependencies are stated (they have none dynamic)."
  },
  {
   "property": "C02",
   "status": "proved",
   "theorems": [
    "C02_success_is_transitive",
    "C02_logged_deps_are_all",
    "C02_failed_dependency_blocks",
    "C02_failure_has_an_origin"
   ],
   "note": "Transitive success, blocking by failed dependencies, and every failure traced to a target whose own job or dynamic-dependency step failed."
  },
  {
   "property": "C03",
   "status": "proved",
   "theorems": [
    "C03_built_at_most_once"
   ],
   "note": "At most one job per target per build, and no target is both running and waiting."
  },
  {
   "property": "C04",
   "status": "proved",
   "theorems": [
    "C04_decision_exact",
    "C04_skip_is_sound",
    "C04_build_is_justified",
    "C04_includes_recorded",
    "C04_changed_include_rebuilds"
   ],
   "note": "Exact decision for every stamp assignment, plus soundness of skipping and completeness (every start has a reason) over whole builds."
  },
  {
   "property": "C05",
   "status": "proved",
   "theorems": [
    "C05_no_change_no_rebuild",
    "C05_without_include_stamps_refuted"
   ],
   "note": "Proved under the stated hypotheses that nothing changed; the hypothesis on compiler-reported include stamps is necessary (C05_without_include_stamps_refuted)."
  },
  {
   "property": "C06",
   "status": "proved",
   "theorems": [
    "C06_unfinished_is_retried",
    "C06_unfinished_is_rebuilt",
    "C06_non_file_include_refuted"
   ],
   "note": "Proved when compilers report only file nodes as includes; C06_non_file_include_refuted shows a failed target that is skipped next time otherwise. A dependency put back to its exact old stamp also allows a skip, and the theorem says so."
  },
  {
   "property": "C07",
   "status": "proved",
   "theorems": [
    "C07_cycle_check_exact",
    "C07_no_report_while_busy",
    "C07_fuel_irrelevant"
   ],
   "note": "Every finite graph; the recursion depth needed is bounded by the number of targets. The error text is not modelled."
  },
  {
   "property": "C08",
   "status": "proved",
   "theorems": [
    "C08_final_status_exact"
   ],
   "note": "Every finite graph, cyclic or not, and every assignment of states."
  },
  {
   "property": "C09",
   "status": "proved",
   "theorems": [
    "C09_passes_terminate",
    "C09_progress",
    "C09_builds_finish",
    "C09_rounds_can_be_made"
   ],
   "note": "Termination of passes, progress after each pass, and completion after at most one round per node, for every schedule without cancellation."
  },
  {
   "property": "C10",
   "status": "proved",
   "theorems": [
    "C10_once",
    "C10_one_place",
    "C10_all_finalized",
    "C10_all_deleted_partial",
    "C10_leak_refuted",
    "C10_remote_result"
   ],
   "note": "All interleavings of the critical sections: no use after free, one place, finalized at most once and, at rest, exactly once. Deletion at rest is proved for histories where no spoiled race occurs (C10_all_deleted_partial); C10_leak_refuted shows the two ways a job is never deleted."
  },
  {
   "property": "C11",
   "status": "proved",
   "theorems": [
    "C11_in_flight_within_limit",
    "C11_local_within_limit",
    "C11_held_back_jobs_are_kept",
    "C11_flush_is_maximal",
    "C11_remote_jobs_refuted"
   ],
   "note": "Local jobs never exceed the limit; when the limit is below the worker count all jobs in flight (local or remote) are bounded; held-back jobs are kept; a flush is maximal. C11_remote_jobs_refuted: with limit >= worker count the limit does not bound remote jobs."
  },
  {
   "property": "C12",
   "status": "proved",
   "theorems": [
    "C12_sorted_and_lossless",
    "C12_take_is_most_expensive"
   ],
   "note": "Every history of batches and takes; costs are fixed while queued (a queued node is in state BUILDING and is not revisited)."
  },
  {
   "property": "C13",
   "status": "proved",
   "theorems": [
    "C13_save_load",
    "C13_refresh_only_stamps"
   ],
   "note": "Byte level: header, configuration part, nodes with reflected members of every property type, dependency lists, paged stream and content hash. Loaded graph equals the saved one up to node addresses; source files carry only their name. The hash functions, path cleaning and path comparison are arbitrary functions (range and reflexivity are hypotheses). PostLoad of project generators and members that are not reflected are outside the model."
  },
  {
   "property": "C14",
   "status": "proved",
   "theorems": [
    "C14_bad_header",
    "C14_too_short",
    "C14_foreign",
    "C14_other_version",
    "C14_wrong_hash",
    "C14_truncated",
    "C14_altered",
    "C14_moved"
   ],
   "note": "All byte strings: anything without a good header is rejected without interpreting the rest and without memory error; truncation and alteration of a saved database are rejected unless the 64-bit content hashes collide (explicit disjunct)."
  },
  {
   "property": "C15",
   "status": "proved",
   "theorems": [
    "C15_crash",
    "C15_next_start",
    "C15_complete",
    "C15_other_version_refuted"
   ],
   "note": "Crash after any byte of the in-place overwrite (process kill: writes reach the file in order). Old database saved by the same version, or no old file. C15_other_version_refuted records the case of an old database of another version torn inside the header."
  },
  {
   "property": "C16",
   "status": "proved",
   "theorems": [
    "C16_parse_meaning",
    "C16_changes_noticed",
    "C16_each_change",
    "C16_unchanged_reused",
    "C16_edit_during_parse_refuted",
    "C16_lib_before_settings_refuted",
    "C16_other_root_refuted"
   ],
   "note": "database reuse implies that re-parsing would give the same result, given that stamps and hashes reveal changes; the side conditions are shown necessary by the _refuted theorems"
  },
  {
   "property": "C17",
   "status": "proved",
   "theorems": [
    "C17_clean_absolute",
    "C17_clean_relative_to_working_dir",
    "C17_clean_is_idempotent",
    "C17_clean_twice",
    "C17_clean_kept_relative",
    "C17_leading_backslash_refuted",
    "C17_root_working_dir_refuted",
    "C17_long_path_refuted"
   ],
   "note": "Linux and Windows slash conventions; no write outside the output buffer. Outside the stated domain the claim fails: C17_leading_backslash_refuted, C17_root_working_dir_refuted, C17_long_path_refuted. Windows UNC names and 'c:foo' are outside the domain."
  },
  {
   "property": "C18",
   "status": "proved",
   "theorems": [
    "C18_lookup_exact",
    "C18_names_unique",
    "C18_declare_then_found",
    "C18_hash_irrelevant"
   ],
   "note": "Every history of look-up-then-create calls, every hash function, table size and path cleaning. AddNode's ASSERT of uniqueness is not relied on: callers' look-up is modelled."
  },
  {
   "property": "C19",
   "status": "proved",
   "theorems": [
    "C19_relative_path_leads_to_file",
    "C19_result_is_relative"
   ],
   "note": "Linux (case-sensitive) version."
  },
  {
   "property": "C20",
   "status": "proved",
   "theorems": [
    "C20_match_exact",
    "C20_matchi_exact",
    "C20_star_matches_all",
    "C20_literal"
   ],
   "note": "Match and MatchI, every NUL-free pattern and text; termination and in-bounds reads included."
  },
  {
   "property": "C21",
   "status": "proved",
   "theorems": [
    "C21_extract_what_was_packed",
    "C21_failures_reported",
    "C21_untrusted_buffer_refuted",
    "C21_too_many_files_refuted"
   ],
   "note": "Every list of up to four files (the code's own limit kMaxFiles) and every index; failures name a bad file. Buffers not made by packing are outside the claim (C21_untrusted_buffer_refuted)."
  },
  {
   "property": "C22",
   "status": "partial",
   "theorems": [
    "C22_lz4_round_trip",
    "C22_zstd_round_trip",
    "C22_lz4_over_limit_refuted",
    "C22_stored_above_2GiB",
    "C22_validated_is_safe_partial",
    "C22_validated_overread_refuted"
   ],
   "note": "Round trip for LZ4 up to its input limit and for Zstd below 4 GiB, for any lossless codec; the safety part needs agreeing sizes in stored blocks (C22_validated_overread_refuted), and LZ4 loses data between its limit and 2 GiB (C22_lz4_over_limit_refuted)."
  },
  {
   "property": "C23",
   "status": "proved",
   "theorems": [
    "C23_in_order",
    "C23_four_gigabytes_refuted"
   ],
   "note": "For all messages below the 32-bit size bound, any fragmentation on either side and any failure. C23_four_gigabytes_refuted shows what happens at the bound."
  },
  {
   "property": "C24",
   "status": "proved",
   "theorems": [
    "C24_never_partial",
    "C24_old_none_or_new",
    "C24_success_is_visible",
    "C24_true_only_after_rename",
    "C24_concurrent_publishers_refuted"
   ],
   "note": "Every interleaving of system calls, failures and crashes of any number of publishers that do not overlap in time, from any earlier entry and any temporary file left behind. With overlapping publishers of one entry it is refuted: they share one temporary name. Crashes are process crashes; loss of unsynchronised file data on power failure is not modelled."
  },
  {
   "property": "C25",
   "status": "proved",
   "theorems": [
    "C25_trim"
   ],
   "note": "All file sets whose sizes sum below 2^64, any limit, any set of files that refuse deletion."
  },
  {
   "property": "C26",
   "status": "proved",
   "theorems": [
    "C26_sort_sorts",
    "C26_any_comparison_is_safe"
   ],
   "note": "Every array and comparison; out-of-bounds access is a distinct outcome of the model and is excluded."
  },
  {
   "property": "C27",
   "status": "proved",
   "theorems": [
    "C27_compiled_exactly_once",
    "C27_blocks_in_order",
    "C27_order_of_names",
    "C27_order_of_listing",
    "C27_isolation_moves_nothing",
    "C27_nounity_same_texts",
    "C27_inputs",
    "C27_isolated",
    "C27_pattern_without_star_refuted"
   ],
   "note": "All file lists, counts, isolation settings; the share of each unity file is computed with an exact model of binary32 arithmetic. The output pattern must contain '*': without one it is refuted (all unity files get the same name and all but the last are lost). Also proved: the result does not depend on the order of directory listing, isolation moves no file, -nounity changes no unity file."
  },
  {
   "property": "C28",
   "status": "proved",
   "theorems": [
    "C28_distance_is_minimal",
    "C28_distance_ignoring_case",
    "C28_long_strings_refuted"
   ],
   "note": "Both case modes, every pair whose shorter string is below 1024 (C28_long_strings_refuted beyond). 32-bit wrap of cell values is not modelled (values are bounded by the longer length)."
  },
  {
   "property": "C29",
   "status": "proved",
   "theorems": [
    "C29_suggestions_are_best",
    "C29_which_targets_pass",
    "C29_mistyped_letter_refuted"
   ],
   "note": "Every candidate list, limit and capacity; eligibility is characterised exactly (C29_which_targets_pass), and C29_mistyped_letter_refuted shows that a same-length typo is never suggested."
  },
  {
   "property": "C30",
   "status": "proved",
   "theorems": [
    "C30_tokens_are_fields",
    "C30_nothing_lost",
    "C30_quote_round_trip",
    "C30_trailing_backslash_refuted",
    "C30_strip_quotes"
   ],
   "note": "Every string and every separator other than the quote mark and the backslash. The round trip needs arguments that do not end in a backslash (C30_trailing_backslash_refuted)."
  },
  {
   "property": "C31",
   "status": "proved",
   "theorems": [
    "C31_finalize_exact",
    "C31_same_length",
    "C31_pieces_recoverable"
   ],
   "note": "Every sequence of builder calls, limit, mode and platform flag; the 32-bit total length must not wrap (strings are held in memory with 32-bit lengths)."
  },
  {
   "property": "C32",
   "status": "partial",
   "theorems": [
    "C32_round_trip_partial",
    "C32_no_raw_control",
    "C32_no_unescaped_quote",
    "C32_high_bytes_refuted"
   ],
   "note": "Round trip for every text of bytes below 128; no raw control character and no unescaped quote for every text. The full round trip is false (C32_high_bytes_refuted)."
  },
  {
   "property": "C33",
   "status": "proved",
   "theorems": [
    "C33_memory_stream",
    "C33_paged_stream",
    "C33_paged_size_refuted",
    "C33_const_stream",
    "C33_values_round_trip",
    "C33_reads_stay_inside",
    "C33_alignment"
   ],
   "note": "All splits, page sizes, seeks and reads; the size reported by the paged stream is exact below 4 GiB (C33_paged_size_refuted beyond)."
  },
  {
   "property": "C34",
   "status": "proved",
   "theorems": [
    "C34_pool_blocks",
    "C34_no_block_lost",
    "C34_small_blocks",
    "C34_free_decides",
    "C34_free_before_init",
    "C34_small_reuse"
   ],
   "note": "MemPoolBlock for every size and power-of-two alignment, and the small block allocator under every interleaving of its atomic parts"
  },
  {
   "property": "C35",
   "status": "proved",
   "theorems": [
    "C35_never_stranded",
    "C35_in_order",
    "C35_status_superseded_only",
    "C35_asleep_means_all_sent",
    "C35_sender_drains"
   ],
   "note": "Any number of posting threads; every interleaving of posts, signals, the sending thread's steps and a disconnection. A send is assumed to fail only after the quit flag is set (the code's own assertion)."
  },
  {
   "property": "C36",
   "status": "partial",
   "theorems": [
    "C36_started_complete",
    "C36_no_job_lost",
    "C36_moving_partial",
    "C36_at_rest_partial",
    "C36_lost_before_manifest_refuted",
    "C36_two_lost_refuted"
   ],
   "note": "Whatever is lost when, a job starts only when every file of its tool chain is there, and no job disappears while its client is there. If connections are lost only after the manifests they were asked for have arrived, and one at a time, every waiting job's tool chain is being worked on, and at rest no job waits. Both other cases are refuted: a connection lost before it sent the manifest leaves other clients' jobs waiting; two connections lost at once can leave the tool chain assigned for ever to a connection that is gone."
  },
  {
   "property": "C37",
   "status": "proved",
   "theorems": [
    "C37_bounded",
    "C37_worker_avoided",
    "C37_retry_or_fail"
   ],
   "note": "At most three system errors per job, on different workers, at most two retries, failure on the third; a worker with a system error gets no further job."
  },
  {
   "property": "C38",
   "status": "partial",
   "theorems": [
    "C38_one_value",
    "C38_read_innermost",
    "C38_write_here",
    "C38_text_value",
    "C38_copy_value",
    "C38_write_outer",
    "C38_proper",
    "C38_scope_restores",
    "C38_scope_shape",
    "C38_call_isolated",
    "C38_call_arguments_partial",
    "C38_call_arguments_refuted",
    "C38_no_out_of_range",
    "C38_loop_arrays_refuted",
    "C38_foreach",
    "C38_foreach_prints"
   ],
   "note": "Reads, writes with and without '^', scope exit, ForEach and calls, for all programs of the modelled statements. Two clauses are refuted as stated: an argument that names an earlier parameter gets that parameter's value (C38_call_arguments_refuted; C38_call_arguments_partial covers the other calls), and with 256 arrays in one ForEach the array can change under the loop (C38_loop_arrays_refuted; C38_foreach and C38_no_out_of_range are for at most four arrays per loop)."
  },
  {
   "property": "C39",
   "status": "proved",
   "theorems": [
    "C39_evaluated_as_written",
    "C39_headers_balanced",
    "C39_nothing_else_accepted_partial",
    "C39_integer_closes_bracket_refuted",
    "C39_parser_stops",
    "C39_string_order"
   ],
   "note": "Every condition built from literals, variables, comparisons, membership tests, '!', '==', '!=', '&&', '||' and brackets, of any size, with a grammar and a meaning defined separately from the parser. Conversely an accepted header is the text of a condition with that meaning, if it holds no integer whose low byte is the character ')'; with one it is refuted (such an integer closes a bracket)."
  },
  {
   "property": "C40",
   "status": "proved",
   "theorems": [
    "C40_gcc_markers",
    "C40_show_includes",
    "C40_line_one",
    "C40_recorded",
    "C40_hash_collision_refuted",
    "C40_last_line_refuted"
   ],
   "note": "All three parsers against a line-by-line specification, for every text whose line markers close their quotes on their line (otherwise parsing reports failure or runs on), and the recording of names. Recording needs the 32-bit hash to tell the names apart and not be 0: refuted otherwise for every 32-bit hash. cl.exe output whose last line is not ended is refuted for that line."
  },
  {
   "property": "C41",
   "status": "partial",
   "theorems": [
    "C41_only_colons",
    "C41_errors_hidden_partial",
    "C41_warnings_hidden_partial",
    "C41_mixed_refuted",
    "C41_double_colon_refuted",
    "C41_no_code_refuted",
    "C41_repeated_word_refuted"
   ],
   "note": "only pattern-ending colons are ever altered (all messages); patterns are hidden for messages of the usual shape; four families of messages for which the full claim fails are exhibited"
  },
  {
   "property": "C42",
   "status": "proved",
   "theorems": [
    "C42_calc_is_crc32",
    "C42_incremental",
    "C42_lower",
    "C42_range",
    "C42_detects"
   ],
   "note": "slicing-by-8, table update, incremental and lower-case forms; also 32-bit burst detection"
  },
  {
   "property": "C43",
   "status": "partial",
   "theorems": [
    "C43_one_file",
    "C43_covers",
    "C43_unknown_file",
    "C43_several_files",
    "C43_two_files_refuted"
   ],
   "note": "Proved for one source file (the whole of the statement). For two or more files refuted and characterised: the hint targets are always built, because visit marks are not reset between files."
  },
  {
   "property": "C44",
   "status": "proved",
   "theorems": [
    "C44_block_exact",
    "C44_block_read"
   ],
   "note": "exact contents, every write inside the allocation, and what a process reads back from the block"
  },
  {
   "property": "C45",
   "status": "partial",
   "theorems": [
    "C45_round_trip",
    "C45_truncated_partial",
    "C45_truncated_refuted",
    "C45_any_bytes"
   ],
   "note": "round trip and safety on any bytes proved; truncation is rejected except inside the variable count, where the code accepts a manifest without its variables (exhibited)"
  },
  {
   "property": "C46",
   "status": "partial",
   "theorems": [
    "C46_no_job_freed_twice",
    "C46_result_sent_once",
    "C46_others_unaffected",
    "C46_nothing_after_disconnect",
    "C46_right_client_partial",
    "C46_active_count_partial",
    "C46_address_reuse_refuted",
    "C46_dangling_client_refuted",
    "C46_aborted_counts_refuted"
   ],
   "note": "Every interleaving of arrivals, tool synchronisation, build threads, reporting and the four sections of a disconnection: each job is in one place or deleted once (no double free, no use after free, no leak), a result is sent at most once and is the one built, jobs of a connected client are unaffected by others, nothing is sent on a connection after its disconnection was dealt with. That a result only goes to the connection its job came from, and that the active count is exact, is proved when no client state is placed at the address of an earlier one; without that it is refuted (the failed list is not purged). Also refuted: in-flight jobs never hold the address of a deleted client; aborted jobs leave the active count."
  },
  {
   "property": "C47",
   "status": "partial",
   "theorems": [
    "C47_strips_last_extension_partial",
    "C47_no_dot_unchanged",
    "C47_directory_dot_refuted"
   ],
   "note": "Exact when the file name has an extension or the path has no dot; the full claim is false (C47_directory_dot_refuted)."
  },
  {
   "property": "C48",
   "status": "proved",
   "theorems": [
    "C48_recorded_once",
    "C48_imports_agree",
    "C48_exists_not_checked_refuted"
   ],
   "note": "for #import, up to 32-bit hash collisions; #if exists(..) ignores a changed variable (exhibited)"
  },
  {
   "property": "C49",
   "status": "proved",
   "theorems": [
    "C49_whole_name_only"
   ],
   "note": "exact characterisation; Linux (case sensitive) comparison"
  },
  {
   "property": "C50",
   "status": "proved",
   "theorems": [
    "C50_ends_in_native_slash",
    "C50_no_second_slash"
   ],
   "note": "both slash conventions"
  },
  {
   "property": "C51",
   "status": "partial",
   "theorems": [
    "C51_integer_stored_partial",
    "C51_nothing_else_stored",
    "C51_integer_opens_bracket_refuted"
   ],
   "note": "Proved for all integers whose low byte is not '[' or '{'; for the others refuted: `.X = 123` or `.X = 91` is taken for an opening bracket and rejected, because the bracket tests do not look at the token type."
  },
  {
   "property": "C52",
   "status": "proved",
   "theorems": [
    "C52_names_differ",
    "C52_entries_are_found",
    "C52_report_row"
   ],
   "note": "All keys in range."
  },
  {
   "property": "C53",
   "status": "partial",
   "theorems": [
    "C53_close_noticed_partial",
    "C53_close_not_noticed_refuted"
   ],
   "note": "Proved when no wait inside a message came before; C53_close_not_noticed_refuted shows the stale errno case on POSIX."
  },
  {
   "property": "C54",
   "status": "proved",
   "theorems": [
    "C54_one_result",
    "C54_assign",
    "C54_assign_only",
    "C54_assign_outer",
    "C54_print_text",
    "C54_if",
    "C54_block",
    "C54_struct_literal",
    "C54_members_distinct",
    "C54_using",
    "C54_using_errors",
    "C54_struct_sum",
    "C54_continue",
    "C54_continue_nothing"
   ],
   "note": "C54_assign and C54_assign_only together say which assignments are accepted and what they do; the only right hand side left out of the second is the literal '- {}', which changes nothing. Struct literals, '^', unnamed continuation, Using, If, function properties and printed texts have their own theorems."
  },
  {
   "property": "C55",
   "status": "proved",
   "theorems": [
    "C55_ends",
    "C55_sound",
    "C55_graph_kept",
    "C55_changed",
    "C55_same_decision",
    "C55_unchanged"
   ],
   "note": "C55_sound and C55_changed for every BFF edit, C55_unchanged for edits that change no definition, C55_same_decision for the later decision, C55_ends for termination. Node::Initialize is a parameter: the theorems assume that it only gives the new node dependencies of lower rank and adds source files (and, for C55_unchanged, that it prepares a copy of a node as that node was)."
  },
  {
   "property": "C56",
   "status": "proved",
   "theorems": [
    "C56_text",
    "C56_only",
    "C56_one_meaning",
    "C56_numbers_refuted",
    "C56_single_refuted"
   ],
   "note": "C56_text and C56_one_meaning for the grammar of S_Tok.v, C56_only for the converse. The two exceptions named in the property are shown to occur by C56_numbers_refuted and C56_single_refuted."
  },
  {
   "property": "C57",
   "status": "proved",
   "theorems": [
    "C57_document",
    "C57_untaken",
    "C57_many"
   ],
   "note": "C57_document for whole files, C57_untaken for the parts not taken, C57_many for the limit. Documents: every line ends in LF, and a '#' stands first on its line. The theorems assume that no variable's value has the 32-bit hash 0 and that clean file names contain '/' (Linux)."
  },
  {
   "property": "C58",
   "status": "proved",
   "theorems": [
    "C58_ends",
    "C58_one_result",
    "C58_cycle",
    "C58_once_met",
    "C58_once_stays",
    "C58_once_again"
   ],
   "note": "C58_ends and C58_one_result for all files; C58_cycle for a file that includes itself in its first line; C58_once_met, C58_once_stays and C58_once_again for #once."
  },
  {
   "property": "C59",
   "status": "proved",
   "theorems": [
    "C59_import",
    "C59_unset"
   ],
   "note": "C59_import composes the tokenizer with the substitution of variables in M_Scope; C59_unset."
  },
  {
   "property": "C60",
   "status": "proved",
   "theorems": [
    "C60_nothing_else",
    "C60_true"
   ],
   "note": "C60_nothing_else and C60_true. What becomes of the record afterwards is C16 and C48."
  },
  {
   "property": "C61",
   "status": "proved",
   "theorems": [
    "C61_includes",
    "C61_one_meaning",
    "C61_comment_refuted",
    "C61_next_refuted"
   ],
   "note": "C61_includes for every text of the grammar in S_Light; C61_one_meaning. C61_comment_refuted and C61_next_refuted show forms outside the grammar whose includes are missed."
  },
  {
   "property": "C62",
   "status": "proved",
   "theorems": [
    "C62_closed",
    "C62_macro",
    "C62_other_macro",
    "C62_roots",
    "C62_ends",
    "C62_search_refuted",
    "C62_macro_refuted",
    "C62_option_macro_refuted"
   ],
   "note": "C62_other_macro: a macro defined only as something else than a file name refuses the compilation. C62_closed, C62_macro, C62_roots and C62_ends. The proviso about other files of the same name beside listed files is necessary (C62_search_refuted), as is that of one definition (C62_macro_refuted); C62_option_macro_refuted: macros of the command line are ignored."
  },
  {
   "property": "C63",
   "status": "proved",
   "theorems": [
    "C63_key",
    "C63_same_files",
    "C63_reads"
   ],
   "note": "C63_key; C63_same_files and C63_reads for full names (rel = false) and includes by name. The list of include paths is the same on both sides, being part of the arguments that are hashed as well."
  },
  {
   "property": "C64",
   "status": "proved",
   "theorems": [
    "C64_others",
    "C64_error_refuted",
    "C64_relative_refuted"
   ],
   "note": "C64_others. C64_error_refuted and C64_relative_refuted show that both provisos are necessary."
  },
  {
   "property": "C65",
   "status": "proved",
   "theorems": [
    "C65_map",
    "C65_found",
    "C65_assert",
    "C65_sparse",
    "C65_few",
    "C65_stuck_refuted"
   ],
   "note": "C65_map, C65_found, C65_assert, C65_sparse, C65_few. Between an eighth and a half full a lookup of a new name can go on for ever (C65_stuck_refuted), for an unlikely pattern of hashes."
  },
  {
   "property": "C66",
   "status": "proved",
   "theorems": [
    "C66_arguments",
    "C66_separate_include_refuted",
    "C66_lone_quote_refuted",
    "C66_quoted_option_refuted",
    "C66_trailing_backslash_refuted"
   ],
   "note": "C66_arguments. The proviso about /I is necessary: C66_separate_include_refuted, C66_lone_quote_refuted. Oddities shown: C66_quoted_option_refuted, C66_trailing_backslash_refuted."
  },
  {
   "property": "C67",
   "status": "proved",
   "theorems": [
    "C67_same_arguments",
    "C67_option_as_argument_refuted"
   ],
   "note": "C67_same_arguments, for GCC and Clang without source mapping (which is local only). C67_option_as_argument_refuted: the proviso is necessary."
  },
  {
   "property": "C68",
   "status": "proved",
   "theorems": [
    "C68_one_argument",
    "C68_unquoted_refuted",
    "C68_second_placeholder_refuted"
   ],
   "note": "C68_one_argument; C68_unquoted_refuted and C68_second_placeholder_refuted show what happens outside it."
  },
  {
   "property": "C69",
   "status": "proved",
   "theorems": [
    "C69_directory_free",
    "C69_temporary_free",
    "C69_mapping",
    "C69_deoptimized_refuted",
    "C69_terminal_refuted"
   ],
   "note": "C69_directory_free, C69_temporary_free. C69_deoptimized_refuted: a file compiled with deoptimized options is looked up and stored under the optimized key. C69_terminal_refuted: the key depends on whether the output is a terminal."
  },
  {
   "property": "C70",
   "status": "proved",
   "theorems": [
    "C70_deoptimized"
   ],
   "note": "C70_deoptimized."
  },
  {
   "property": "C71",
   "status": "proved",
   "theorems": [
    "C71_cl",
    "C71_gcc",
    "C71_other",
    "C71_use",
    "C71_objective_refuted",
    "C71_deoptimized_options_refuted"
   ],
   "note": "C71_cl, C71_gcc, C71_other, C71_use. C71_objective_refuted: -x objective-c++ and -xobjective-c are not noticed. C71_deoptimized_options_refuted: the options of deoptimized compilations are not looked at."
  },
  {
   "property": "C72",
   "status": "proved",
   "theorems": [
    "C72_only_blanks",
    "C72_fixup"
   ],
   "note": "C72_only_blanks (any text) and C72_fixup (texts of the form Clang writes). C72_no_return shows that the form is needed."
  },
  {
   "property": "C73",
   "status": "proved",
   "theorems": [
    "C73_listing",
    "C73_any_order",
    "C73_absent",
    "C73_dots_refuted"
   ],
   "note": "C73_listing, C73_any_order, C73_absent. C73_dots_refuted: directories like ..data are skipped."
  },
  {
   "property": "C74",
   "status": "partial",
   "theorems": [
    "C74_stamp",
    "C74_stable",
    "C74_joined_refuted"
   ],
   "note": "C74_stamp, C74_stable. C74_joined_refuted: the names are hashed with nothing between them, so the files a and b in /d have the stamp of the file a/d/b. Missing from the full statement: directories whose full path occurs again in the names below them, for which it is false."
  },
  {
   "property": "C75",
   "status": "proved",
   "theorems": [
    "C75_only_listed",
    "C75_all",
    "C75_plain",
    "C75_many",
    "C75_excluded_refuted",
    "C75_fails_refuted"
   ],
   "note": "C75_only_listed, C75_all, C75_plain, C75_many. C75_excluded_refuted: excluded directories are deleted when empty. C75_fails_refuted: three settings with which the build always fails."
  },
  {
   "property": "C76",
   "status": "proved",
   "theorems": [
    "C76_objects",
    "C76_sources",
    "C76_succeeds",
    "C76_again",
    "C76_names",
    "C76_apart",
    "C76_case_refuted",
    "C76_again_refuted"
   ],
   "note": "C76_objects, C76_sources, C76_succeeds, C76_again, C76_names, C76_apart. C76_case_refuted: of files that differ only in case one is not compiled. C76_again_refuted: a named file in another case fails in the second build."
  },
  {
   "property": "C77",
   "status": "proved",
   "theorems": [
    "C77_copies",
    "C77_case_refuted"
   ],
   "note": "C77_copies. C77_case_refuted: of files that differ only in case one is not copied."
  },
  {
   "property": "C78",
   "status": "proved",
   "theorems": [
    "C78_histories",
    "C78_terminated",
    "C78_no_leak",
    "C78_all_given_back",
    "C78_own_text_refuted",
    "C78_reserve_zero_refuted",
    "C78_wrap_refuted"
   ],
   "note": "C78_histories, C78_terminated, C78_no_leak and C78_all_given_back cover every sequence of uses that is in order. Three refuted theorems show what lies outside: appending a pointer into the string itself, constructing with nothing reserved, and sums of lengths over 32 bits. Format, VFormat, Tokenize, Find and comparisons are not part of this model."
  },
  {
   "property": "C79",
   "status": "proved",
   "theorems": [
    "C79_settings",
    "C79_strings",
    "C79_scope",
    "C79_graph_kept",
    "C79_negative_refuted",
    "C79_server_refuted"
   ],
   "note": "C79_settings (set exactly by the rules of S_Props, both ways), C79_strings (texts and aliases), C79_scope (required settings were in scope; what is set was in scope; what was in scope is set), C79_graph_kept. Refuted: C79_negative_refuted (-1 becomes 4294967295 for settings without a range), C79_server_refuted (a relative file on a server loses a slash). CleanPath is a parameter (C17)."
  },
  {
   "property": "C80",
   "status": "proved",
   "theorems": [
    "C80_name",
    "C80_names",
    "C80_one_pass",
    "C80_no_alias",
    "C80_no_duplicates",
    "C80_duplicates_refuted",
    "C80_own_target_refuted"
   ],
   "note": "C80_name, C80_names, C80_one_pass, C80_no_alias, C80_no_duplicates (for one name). Refuted: C80_duplicates_refuted (several names: each starts a new search for duplicates), C80_own_target_refuted (an alias of itself is accepted, with no targets). Premise: names are unique (C18), aliases have no cycles."
  },
  {
   "property": "C81",
   "status": "proved",
   "theorems": [
    "C81_names",
    "C81_history",
    "C81_nested_refuted",
    "C81_nested_nameless_refuted"
   ],
   "note": "C81_names (when no function is called within a call of the same function), C81_history. Without that premise refuted: C81_nested_refuted (the outer alias is lost), C81_nested_nameless_refuted (the outer target has no name)."
  },
  {
   "property": "C82",
   "status": "proved",
   "theorems": [
    "C82_counters",
    "C82_ask",
    "C82_bound",
    "C82_calm",
    "C82_race_refuted",
    "C82_never_stuck",
    "C82_ends",
    "C82_served"
   ],
   "note": "C82_counters, C82_ask, C82_bound, C82_calm, C82_never_stuck, C82_ends, C82_served. The bound without the term for the clients is refuted: C82_race_refuted (a job being received is counted neither as requested nor as active)."
  },
  {
   "property": "C83",
   "status": "proved",
   "theorems": [
    "C83_told",
    "C83_quiet",
    "C83_true_figures",
    "C83_connecting_refuted",
    "C83_gone_refuted"
   ],
   "note": "C83_told, C83_quiet, C83_true_figures. Without the premise that the connection had been greeted refuted: C83_connecting_refuted (a stale status of 0 is sent after the greeting and is not corrected while the number of jobs stays the same). C83_gone_refuted: after the last job was given the worker is not told 0."
  },
  {
   "property": "C84",
   "status": "proved",
   "theorems": [
    "C84_program_inputs",
    "C84_nothing_missing",
    "C84_library_inputs",
    "C84_resources",
    "C84_linker",
    "C84_librarian",
    "C84_libpath_refuted"
   ],
   "note": "C84_program_inputs, C84_nothing_missing, C84_library_inputs, C84_resources, C84_linker, C84_librarian. C84_libpath_refuted: /LIBPATH: with its directory in the next argument is given to the linker as an empty directory."
  },
  {
   "property": "C85",
   "status": "proved",
   "theorems": [
    "C85_found",
    "C85_value_missing",
    "C85_past_end_refuted",
    "C85_absolute_refuted",
    "C85_default_twice_refuted",
    "C85_libraries"
   ],
   "note": "C85_found (default libraries given once), C85_value_missing, C85_libraries. Refuted: C85_past_end_refuted (an option without its value at the end makes the loop run past the end), C85_absolute_refuted (full paths on Linux and macOS), C85_default_twice_refuted."
  },
  {
   "property": "C86",
   "status": "proved",
   "theorems": [
    "C86_by_name",
    "C86_by_type",
    "C86_msvc",
    "C86_shared",
    "C86_wl_refuted",
    "C86_implib"
   ],
   "note": "C86_by_name, C86_by_type, C86_msvc, C86_shared, C86_implib. C86_wl_refuted: -Wl,--oformat=prx is never recognised."
  },
  {
   "property": "C87",
   "status": "proved",
   "theorems": [
    "C87_limit",
    "C87_once",
    "C87_polite",
    "C87_pass",
    "C87_fair",
    "C87_same_address_refuted",
    "C87_at_once_refuted"
   ],
   "note": "C87_limit, C87_once, C87_polite, C87_pass, C87_fair. Refuted readings: C87_same_address_refuted (an address that is twice in the list), C87_at_once_refuted (no pause after a connection that was made and lost)."
  },
  {
   "property": "C88",
   "status": "partial",
   "theorems": [
    "C88_jobs",
    "C88_worker_refuted",
    "C88_numbers_partial",
    "C88_order_refuted"
   ],
   "note": "C88_jobs: each job once, in order, its thread with a heading. The worker's name is wrong as soon as there are two workers: C88_worker_refuted. C88_numbers_partial: right if workers had numbers of their own and turned up in their order; C88_order_refuted: without that order there is no name."
  },
  {
   "property": "C89",
   "status": "proved",
   "theorems": [
    "C89_includes",
    "C89_forced",
    "C89_defines",
    "C89_total",
    "C89_language",
    "C89_twice_refuted",
    "C89_stolen_refuted",
    "C89_quote_refuted",
    "C89_language_refuted",
    "C89_gcc_forced_refuted"
   ],
   "note": "C89_includes, C89_forced, C89_defines, C89_total, C89_language. Without the condition on values: C89_twice_refuted, C89_stolen_refuted. Also refuted: C89_quote_refuted (a quote alone is undefined behaviour), C89_language_refuted, C89_gcc_forced_refuted (-include is not seen by the light cache)."
  },
  {
   "property": "C90",
   "status": "proved",
   "theorems": [
    "C90_database",
    "C90_isolate_refuted"
   ],
   "note": "C90_database, for names and options of 7-bit text (C32 has what happens to others). What is not a source but is in the database: C90_isolate_refuted."
  },
  {
   "property": "C91",
   "status": "proved",
   "theorems": [
    "C91_published",
    "C91_withdrawn",
    "C91_address",
    "C91_orphans",
    "C91_client",
    "C91_restart_refuted",
    "C91_retry_refuted",
    "C91_local_refuted",
    "C91_self_refuted",
    "C91_twice_refuted"
   ],
   "note": "C91_published, C91_withdrawn, C91_address, C91_orphans and C91_client, for a file server that does as it is told and one clock; C91_published and C91_withdrawn for workers that have not been killed. What happens else: C91_restart_refuted, C91_retry_refuted. What is found although it should not be: C91_local_refuted, C91_self_refuted, C91_twice_refuted."
  },
  {
   "property": "C92",
   "status": "proved",
   "theorems": [
    "C92_forwarded",
    "C92_values",
    "C92_settings",
    "C92_ranges",
    "C92_sourcefile_refuted",
    "C92_backslash_refuted",
    "C92_dangling_refuted",
    "C92_wsl_refuted",
    "C92_report_refuted"
   ],
   "note": "C92_settings, C92_values, C92_ranges and C92_forwarded; the last for command lines in which only paths, database files and targets have spaces, no argument has a quote, none of them ends in a backslash, and each option has its value. What happens else: C92_sourcefile_refuted, C92_backslash_refuted, C92_dangling_refuted, C92_wsl_refuted, C92_report_refuted."
  },
  {
   "property": "C93",
   "status": "proved",
   "theorems": [
    "C93_tree",
    "C93_identifiers",
    "C93_place",
    "C93_values",
    "C93_arguments",
    "C93_name",
    "C93_name_refuted",
    "C93_group_refuted"
   ],
   "note": "C93_tree, C93_identifiers (exactly for at most a hundred configurations), C93_place (for folders whose names need no quotes, and paths with one kind of slash), C93_values, C93_arguments, C93_name. What happens else: C93_group_refuted, C93_name_refuted."
  },
  {
   "property": "C94",
   "status": "proved",
   "theorems": [
    "C94_whole",
    "C94_part",
    "C94_children",
    "C94_ends",
    "C94_timeout",
    "C94_no_early_timeout",
    "C94_timeout_refuted",
    "C94_leftover_refuted"
   ],
   "note": "C94_whole, C94_part, C94_children, C94_ends, C94_timeout and C94_no_early_timeout, for Linux and macOS. What does not hold: C94_timeout_refuted, C94_leftover_refuted."
  },
  {
   "property": "C95",
   "status": "proved",
   "theorems": [
    "C95_exec",
    "C95_test",
    "C95_aborted",
    "C95_unstarted",
    "C95_arguments",
    "C95_quoted",
    "C95_disk_refuted"
   ],
   "note": "C95_exec, C95_test, C95_aborted, C95_arguments (for arguments whose spaces are inside quotes) and C95_quoted. What does not hold: C95_disk_refuted."
  },
  {
   "property": "C96",
   "status": "proved",
   "theorems": [
    "C96_files",
    "C96_order",
    "C96_folder",
    "C96_declared",
    "C96_identifiers",
    "C96_declared_refuted",
    "C96_value",
    "C96_no_value",
    "C96_name",
    "C96_name_refuted",
    "C96_spelling_refuted",
    "C96_order_refuted"
   ],
   "note": "C96_files, C96_order, C96_folder, C96_declared (if the hashes of the folders differ), C96_identifiers, C96_value, C96_no_value and C96_name. What does not hold: C96_declared_refuted, C96_name_refuted, C96_spelling_refuted, C96_order_refuted."
  },
  {
   "property": "C97",
   "status": "proved",
   "theorems": [
    "C97_made",
    "C97_projects",
    "C97_folders",
    "C97_items",
    "C97_configurations",
    "C97_nested",
    "C97_flat",
    "C97_name",
    "C97_parents_listed",
    "C97_nested_refuted",
    "C97_dependency_refuted",
    "C97_name_refuted"
   ],
   "note": "C97_made, C97_projects, C97_folders, C97_items (if no two folders differ only in case), C97_configurations, C97_nested (on Windows), C97_parents_listed and C97_name. What does not hold: C97_nested_refuted and C97_flat (not on Windows), C97_dependency_refuted, C97_name_refuted."
  },
  {
   "property": "C98",
   "status": "partial",
   "theorems": [
    "C98_order",
    "C98_once",
    "C98_busy",
    "C98_rests",
    "C98_rest",
    "C98_returns",
    "C98_all_run_partial",
    "C98_lost_refuted",
    "C98_lost_max_refuted"
   ],
   "note": "C98_order, C98_once, C98_busy, C98_rests, C98_rest, C98_returns and C98_all_run_partial. Missing, since it does not hold: none is left when the destructor returns (C98_lost_refuted, C98_lost_max_refuted); C98_all_run_partial proves it when none was waiting at the call."
  },
  {
   "property": "C99",
   "status": "proved",
   "theorems": [
    "C99_copied",
    "C99_targets",
    "C99_where",
    "C99_refused",
    "C99_made",
    "C99_case_refuted"
   ],
   "note": "C99_copied, C99_targets, C99_where, C99_refused and C99_made. C99_case_refuted: on Linux files whose names differ only in case cannot be copied into one folder."
  },
  {
   "property": "C100",
   "status": "partial",
   "theorems": [
    "C100_counts",
    "C100_times",
    "C100_dearest",
    "C100_shown",
    "C100_totals",
    "C100_light_partial",
    "C100_light_misses_refuted",
    "C100_total_failed_refuted"
   ],
   "note": "C100_counts, C100_times, C100_dearest, C100_shown, C100_totals and C100_light_partial. C100_light_misses_refuted: light misses leave out what is stored afterwards and count what was never looked for. C100_total_failed_refuted: the totals have neither failures nor processor time. Numbers are of 32 bits and wrap."
  },
  {
   "property": "C101",
   "status": "partial",
   "theorems": [
    "C101_limit",
    "C101_modes",
    "C101_becomes_idle",
    "C101_not_early",
    "C101_becomes_busy",
    "C101_stays_idle",
    "C101_share",
    "C101_settings_partial",
    "C101_other_file",
    "C101_memory_refuted",
    "C101_junk_refuted",
    "C101_mode_refuted"
   ],
   "note": "C101_limit, C101_modes, C101_becomes_idle, C101_not_early, C101_becomes_busy, C101_stays_idle, C101_share, C101_settings_partial and C101_other_file. C101_memory_refuted: the free memory to leave is not saved. C101_junk_refuted: of a file that ends after its header the mode is read from memory that was never set. C101_mode_refuted: a mode that does not exist is taken for dedicated. Floats are exact fractions or no number; how the use of CPUs is measured is not modelled."
  },
  {
   "property": "C102",
   "status": "proved",
   "theorems": [
    "C102_lines",
    "C102_text",
    "C102_no_descent"
   ],
   "note": "C102_lines, C102_text and C102_no_descent. That names in a graph differ without case is C18; matching a pattern is any function here (C20)."
  },
  {
   "property": "C103",
   "status": "partial",
   "theorems": [
    "C103_made_partial",
    "C103_for_file_partial",
    "C103_kept",
    "C103_only",
    "C103_succeeds",
    "C103_file_refuted",
    "C103_special_refuted",
    "C103_root_refuted",
    "C103_file_succeeds"
   ],
   "note": "C103_made_partial, C103_for_file_partial, C103_kept, C103_only, C103_succeeds and C103_file_succeeds. The full statement fails: true is also returned where a file, a socket or a block device has the name (C103_file_refuted, C103_special_refuted), and false for every file in the root (C103_root_refuted)."
  },
  {
   "property": "C104",
   "status": "partial",
   "theorems": [
    "C104_written",
    "C104_running",
    "C104_writes",
    "C104_forever_refuted",
    "C104_read",
    "C104_read_ends",
    "C104_read_all",
    "C104_built",
    "C104_lines"
   ],
   "note": "C104_written, C104_running, C104_writes, C104_read, C104_read_ends, C104_read_all, C104_built and C104_lines. That writing returns fails if the system takes nothing and reports no error (C104_forever_refuted). The result of close is not looked at by the code."
  },
  {
   "property": "C105",
   "status": "partial",
   "theorems": [
    "C105_one_partial",
    "C105_each",
    "C105_refused",
    "C105_waits",
    "C105_one_refuted",
    "C105_hang_refuted"
   ],
   "note": "C105_one_partial (if no main process of a wrapper is killed while it waits), C105_each, C105_refused and C105_waits. The full statement fails: after the main process was killed its final process goes on, and another process without wrapper builds at the same time (C105_one_refuted). If a final process ends before it says that it started, the main process waits for ever (C105_hang_refuted)."
  }
 ]
}