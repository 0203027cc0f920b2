{
 "claims": [
  {
   "property": "C01",
   "status": "proved",
   "theorems": [
    "C01_normalize_canonical",
    "C01_normalize_same_iff",
    "C01_normalize_idempotent"
   ],
   "note": ""
  },
  {
   "property": "C02",
   "status": "proved",
   "theorems": [
    "C02_optimize_lexical"
   ],
   "note": ""
  },
  {
   "property": "C03",
   "status": "proved",
   "theorems": [
    "C03_join_location",
    "C03_join_assoc",
    "C03_join_empty_tail",
    "C03_join_paths"
   ],
   "note": ""
  },
  {
   "property": "C04",
   "status": "proved",
   "theorems": [
    "C04_relative_leads_back"
   ],
   "note": ""
  },
  {
   "property": "C05",
   "status": "partial",
   "theorems": [
    "C05_is_subpath_prefix_partial",
    "C05_dot_base_refuted"
   ],
   "note": "holds for every absolute base and every base with at least one component; false for the base '.' (C05_dot_base_refuted)"
  },
  {
   "property": "C06",
   "status": "proved",
   "theorems": [
    "C06_dirname_basename",
    "C06_no_component"
   ],
   "note": ""
  },
  {
   "property": "C07",
   "status": "proved",
   "theorems": [
    "C07_destdir_confined"
   ],
   "note": ""
  },
  {
   "property": "C08",
   "status": "proved",
   "theorems": [
    "C08_range",
    "C08_reflexive",
    "C08_antisymmetric",
    "C08_transitive"
   ],
   "note": ""
  },
  {
   "property": "C09",
   "status": "proved",
   "theorems": [
    "C09_segment_rule"
   ],
   "note": ""
  },
  {
   "property": "C10",
   "status": "partial",
   "theorems": [
    "C10_requirement",
    "C10_requirements_partial",
    "C10_empty_list_refuted"
   ],
   "note": "every single requirement and every non-empty list; the empty list, which every version meets, is rejected (C10_empty_list_refuted)"
  },
  {
   "property": "C11",
   "status": "partial",
   "theorems": [
    "C11_finite_map",
    "C11_iteration",
    "C11_string_keys_partial",
    "C11_nul_keys_refuted"
   ],
   "note": "C11_finite_map and C11_iteration hold for every hash function and every key comparison that decides equality; the string comparison actually used decides equality only without NUL bytes (C11_string_keys_partial, C11_nul_keys_refuted)"
  },
  {
   "property": "C12",
   "status": "partial",
   "theorems": [
    "C12_probing_terminates",
    "C12_string_hash_partial",
    "C12_string_hash_refuted"
   ],
   "note": "probing always terminates (C12_probing_terminates); the string hash itself never finishes on keys of 65536 bytes or more (C12_string_hash_refuted)"
  },
  {
   "property": "C13",
   "status": "proved",
   "theorems": [
    "C13_finite_map",
    "C13_slots"
   ],
   "note": ""
  },
  {
   "property": "C14",
   "status": "proved",
   "theorems": [
    "C14_search_tree",
    "C14_path_buffer"
   ],
   "note": ""
  },
  {
   "property": "C15",
   "status": "proved",
   "theorems": [
    "C15_arena_regions"
   ],
   "note": ""
  },
  {
   "property": "C16",
   "status": "partial",
   "theorems": [
    "C16_bucket_arr_is_a_list",
    "C16_addresses_are_stable",
    "C16_regions",
    "C16_clear_refuted"
   ],
   "note": "push, index, set, clear-free histories: the bucket array is a list with stable addresses; after clear the tail bucket is stale (C16_clear_refuted)"
  },
  {
   "property": "C17",
   "status": "proved",
   "theorems": [
    "C17_memmem",
    "C17_one_answer"
   ],
   "note": "memmem as a whole: the three short-needle loops with their 16- and 32-bit words, the byte table, both maximal-suffix loops and the two-way search loop. The proof is the correctness of the two-way algorithm: maximal suffixes, their smallest periods, critical factorisation and the remembered prefix. Termination and in-range reads are part of the theorem."
  },
  {
   "property": "C18",
   "status": "proved",
   "theorems": [
    "C18_split",
    "C18_join_split",
    "C18_empty_separator_diverges"
   ],
   "note": ""
  },
  {
   "property": "C19",
   "status": "partial",
   "theorems": [
    "C19_whitespace_split_partial",
    "C19_whitespace_split",
    "C19_nul_refuted"
   ],
   "note": "whitespace splitting for texts without NUL; NUL is taken for white space (C19_nul_refuted)"
  },
  {
   "property": "C20",
   "status": "proved",
   "theorems": [
    "C20_replace",
    "C20_empty_find_diverges"
   ],
   "note": ""
  },
  {
   "property": "C21",
   "status": "proved",
   "theorems": [
    "C21_strip"
   ],
   "note": ""
  },
  {
   "property": "C22",
   "status": "partial",
   "theorems": [
    "C22_format_partial",
    "C22_keys",
    "C22_plain_text",
    "C22_open_at_refuted"
   ],
   "note": "holds unless an escaped '@' comes while an unescaped one is still open, where text is duplicated (C22_open_at_refuted); C22_keys says what a key stands for"
  },
  {
   "property": "C23",
   "status": "partial",
   "theorems": [
    "C23_substring_partial",
    "C23_substring_defaults",
    "C23_start_before_begin",
    "C23_out_of_range_refuted"
   ],
   "note": "holds for bounds within -len..len; outside, the result is wrong or memory outside the text is read (C23_out_of_range_refuted)"
  },
  {
   "property": "C24",
   "status": "proved",
   "theorems": [
    "C24_case",
    "C24_prefix_suffix",
    "C24_prefix_suffix_nocase"
   ],
   "note": ""
  },
  {
   "property": "C25",
   "status": "partial",
   "theorems": [
    "C25_glob_partial",
    "C25_single_star_partial",
    "C25_glob_refuted"
   ],
   "note": "star-free patterns, and one trailing star; false for other patterns (C25_glob_refuted)"
  },
  {
   "property": "C26",
   "status": "proved",
   "theorems": [
    "C26_paths",
    "C26_build_statement",
    "C26_exclusions_are_needed"
   ],
   "note": ""
  },
  {
   "property": "C27",
   "status": "partial",
   "theorems": [
    "C27_shell_line_partial",
    "C27_build_variable_partial",
    "C27_unquoted_refuted"
   ],
   "note": "arguments that contain one of the obviously special characters, or only harmless characters; other shell syntax is not quoted and newlines are lost in build files (C27_unquoted_refuted)"
  },
  {
   "property": "C28",
   "status": "proved",
   "theorems": [
    "C28_node_path_is_one_word",
    "C28_path_list_words"
   ],
   "note": ""
  },
  {
   "property": "C29",
   "status": "proved",
   "theorems": [
    "C29_argv",
    "C29_environment"
   ],
   "note": ""
  },
  {
   "property": "C30",
   "status": "proved",
   "theorems": [
    "C30_plain_text",
    "C30_line_by_line"
   ],
   "note": ""
  },
  {
   "property": "C31",
   "status": "proved",
   "theorems": [
    "C31_template_rules",
    "C31_always_ends"
   ],
   "note": ""
  },
  {
   "property": "C32",
   "status": "partial",
   "theorems": [
    "C32_unquote_partial",
    "C32_c_literal_partial",
    "C32_quoting_refuted"
   ],
   "note": "unquoting holds without double quotes, the C literal without backslashes and newlines; otherwise false (C32_quoting_refuted)"
  },
  {
   "property": "C33",
   "status": "partial",
   "theorems": [
    "C33_verdict_partial",
    "C33_accepted_failures_refuted"
   ],
   "note": "holds for output without NUL and bail-out and with no more points than planned; extra failing points and bail-outs are accepted (C33_accepted_failures_refuted)"
  },
  {
   "property": "C34",
   "status": "partial",
   "theorems": [
    "C34_lines_partial",
    "C34_exact_buffer_partial",
    "C34_lines_cover",
    "C34_nul_and_overrun_refuted"
   ],
   "note": "texts without NUL in terminated buffers, or ending in a newline; otherwise text is skipped or memory outside the buffer is read (C34_nul_and_overrun_refuted)"
  },
  {
   "property": "C35",
   "status": "partial",
   "theorems": [
    "C35_ini_partial",
    "C35_bad_line_partial",
    "C35_overrun_refuted"
   ],
   "note": "files ending in a newline; otherwise the parser reads past its buffer (C35_overrun_refuted)"
  },
  {
   "property": "C36",
   "status": "partial",
   "theorems": [
    "C36_histories_partial",
    "C36_out_of_range",
    "C36_shrunk_pair_refuted",
    "C36_tail_refuted"
   ],
   "note": "deleting the first of two elements leaves the tail dangling and obj_array_tail keeps the whole length (both shown as refuted theorems); sorting and flattening joins are not modelled"
  },
  {
   "property": "C37",
   "status": "partial",
   "theorems": [
    "C37_histories_partial",
    "C37_string_keys_partial",
    "C37_big_delete_refuted"
   ],
   "note": "deleting from a hashed dictionary (15 or more entries) leaves its key list and length: refuted; keys with NUL bytes excluded; self-merge and integer-keyed dictionaries are not modelled"
  },
  {
   "property": "C38",
   "status": "proved",
   "theorems": [
    "C38_equality",
    "C38_equivalence",
    "C38_membership",
    "C38_exclusions_are_needed"
   ],
   "note": "the statement's restriction to finitely nested values is needed: == on two cyclic arrays diverges (C38_exclusions_are_needed)"
  },
  {
   "property": "C39",
   "status": "proved",
   "theorems": [
    "C39_assigned_values_independent"
   ],
   "note": "assignment of arrays and dictionaries: later += to one name leaves the value of the other; nested containers are shared (see C79)"
  },
  {
   "property": "C40",
   "status": "partial",
   "theorems": [
    "C40_indexing_partial",
    "C40_in_bounds_iff",
    "C40_below_refuted"
   ],
   "note": "accepted with a value exactly for -len..len-1; below -len the bounds check passes and an assertion (or wild read) follows instead of an error (C40_below_refuted)"
  },
  {
   "property": "C41",
   "status": "proved",
   "theorems": [
    "C41_and",
    "C41_or",
    "C41_short_circuit",
    "C41_truth_table"
   ],
   "note": ""
  },
  {
   "property": "C42",
   "status": "partial",
   "theorems": [
    "C42_operators",
    "C42_binary",
    "C42_builtin",
    "C42_kernel",
    "C42_method_argument",
    "C42_user_call",
    "C42_abort_refuted"
   ],
   "note": "refuted for indexing by a disabler and for some kernel functions, which abort (C42_abort_refuted); proved for operators, built-ins, kernel functions, method arguments and user calls otherwise"
  },
  {
   "property": "C43",
   "status": "partial",
   "theorems": [
    "C43_array_partial",
    "C43_dict_partial",
    "C43_range_partial",
    "C43_variable",
    "C43_empty_body_refuted",
    "C43_growing_refuted"
   ],
   "note": "refuted for an empty body (only the first element is taken) and for a body that appends to the array it runs over (never ends); proved for all other arrays, dictionaries and ranges"
  },
  {
   "property": "C44",
   "status": "partial",
   "theorems": [
    "C44_calls_partial",
    "C44_toplevel_partial",
    "C44_reachable",
    "C44_plusassign_refuted"
   ],
   "note": "refuted for += on an array or dictionary captured from the caller; proved for bodies without +="
  },
  {
   "property": "C45",
   "status": "partial",
   "theorems": [
    "C45_range_partial",
    "C45_wrap_refuted"
   ],
   "note": "refuted near 2^32, where the counter wraps and the loop never ends; proved for stop + step <= 2^32"
  },
  {
   "property": "C46",
   "status": "partial",
   "theorems": [
    "C46_expressions_parse_back_partial",
    "C46_refuted",
    "C46_programs_parse_back_partial"
   ],
   "note": "Expressions and whole programs of any shape; the only exception is the limit of 4096 nested expressions, beyond which the parser rejects (C46_refuted)."
  },
  {
   "property": "C47",
   "status": "proved",
   "theorems": [
    "C47_grouping_by_the_table"
   ],
   "note": "Any sequence of operands and operators without parentheses; the table is in S_Print.v (strength). Arithmetic operators each have a level of their own: 6 * 3 / 2 is 6 * (3 / 2) and 5 % 3 * 2 is 5 % (3 * 2). Comparisons do not chain."
  },
  {
   "property": "C48",
   "status": "partial",
   "theorems": [
    "C48_escaped_strings",
    "C48_literals_denote",
    "C48_raw_strings",
    "C48_unicode_partial",
    "C48_refuted"
   ],
   "note": "M_Lexer models lexer.c. Escaped, general and raw literals are proved for all strings. Refuted for \\u escapes of surrogates (accepted, invalid UTF-8); proved for all characters (_partial)."
  },
  {
   "property": "C49",
   "status": "partial",
   "theorems": [
    "C49_matching_calls_partial",
    "C49_one_reading_partial",
    "C49_no_disablers",
    "C49_refuted"
   ],
   "note": "M_Types models interp_args: positional, glob, optional and keyword parameters, kwargs: dictionaries. The call is accepted exactly when it binds in the separate specification. Missing: more than 16 compound types (list[file] parameters then depend on the table index), glob[..] of compound types; C49_refuted shows the failures."
  },
  {
   "property": "C50",
   "status": "partial",
   "theorems": [
    "C50_type_check_partial",
    "C50_disablers_partial",
    "C50_refuted"
   ],
   "note": "M_Types models type tags, the table of compound types and typecheck. Missing: disablers given to list[..]/dict[..] types (abort), void in unions (refused), no value given to func (assert); see C50_refuted."
  },
  {
   "property": "C51",
   "status": "partial",
   "theorems": [
    "C51_highest_source_wins_partial",
    "C51_lower_sources_lose_partial",
    "C51_order_does_not_matter_partial",
    "C51_configuration_partial",
    "C51_refuted",
    "C51_rejected_settings_count"
   ],
   "note": "Refuted: a value rejected by an option another one was renamed to is accepted silently and makes later settings from weaker sources ignored. Proved for options nothing was renamed to, for sequences of accepted settings (_partial), with order independence for distinct sources and the whole configuration of a project (command line, then default_options)."
  },
  {
   "property": "C52",
   "status": "partial",
   "theorems": [
    "C52_values_conform_partial",
    "C52_refuted"
   ],
   "note": "Refuted: an array option accepts a text of the language that evaluates to a disabler. Proved for every history of declarations, settings, command lines, yields, default and override options if no such text is given (_partial); also after rejected settings."
  },
  {
   "property": "C53",
   "status": "proved",
   "theorems": [
    "C53_option_strings",
    "C53_one_reading",
    "C53_anything_else_is_rejected"
   ],
   "note": ""
  },
  {
   "property": "C54",
   "status": "proved",
   "theorems": [
    "C54_states_as_documented",
    "C54_chains_as_documented",
    "C54_disabled_is_never_turned_on"
   ],
   "note": "Every method as documented for every chain of calls and every value of auto_features. Evaluation of error_message: (which uses .set for the string, finding 34) is not modelled."
  },
  {
   "property": "C55",
   "status": "proved",
   "theorems": [
    "C55_environments_replay_their_operations",
    "C55_exclusions_are_needed"
   ],
   "note": "Down to the variables of the child process. Names without = and strings without NUL are assumed, and at least one operation; C55_exclusions_are_needed shows that each of these matters."
  },
  {
   "property": "C56",
   "status": "partial",
   "theorems": [
    "C56_apply_selects_partial",
    "C56_frozen_sets_never_change",
    "C56_used_sets_are_frozen",
    "C56_strict_application_needs_the_keys",
    "C56_refuted"
   ],
   "note": "Refuted: a missing key in a nested set is not reported by strict application, and a set added to itself recurses for ever. Proved for sets that are not nested in a cycle (_partial)."
  },
  {
   "property": "C57",
   "status": "proved",
   "theorems": [
    "C57_permissions"
   ],
   "note": ""
  },
  {
   "property": "C58",
   "status": "partial",
   "theorems": [
    "C58_no_failure_partial",
    "C58_target_partial",
    "C58_false_only_if_unopened_partial",
    "C58_failures_reported_refuted"
   ],
   "note": "Refuted: install_run drops the results of both loops and returns true after a failed copy, a failed script or an unreadable manifest. Proved: each target reports success only when in place; if no action fails everything is installed; false is returned only if the manifest cannot be opened."
  },
  {
   "property": "C59",
   "status": "proved",
   "theorems": [
    "C59_serial_tests_alone"
   ],
   "note": ""
  },
  {
   "property": "C60",
   "status": "proved",
   "theorems": [
    "C60_each_test_once"
   ],
   "note": ""
  },
  {
   "property": "C61",
   "status": "partial",
   "theorems": [
    "C61_rule",
    "C61_verdict_partial",
    "C61_verdict_refuted"
   ],
   "note": "Refuted: a should_fail test that passes counts as success, the exit status of TAP tests is ignored, and a should_fail test killed by a signal counts as failure. Proved: the exact rule for all tests, and the documented rule for tests that are neither should_fail nor TAP."
  },
  {
   "property": "C62",
   "status": "partial",
   "theorems": [
    "C62_round_trip_partial",
    "C62_refuted"
   ],
   "note": "Model of obj_clone, serial_dump and serial_load down to the bytes of the file. Round trip for every value without a string of 4095 bytes (aborts), without an auto feature option that auto_features resolves, without an option whose field kind is set (not copied), below 4 GiB; the excluded cases are shown in C62_refuted."
  },
  {
   "property": "C63",
   "status": "partial",
   "theorems": [
    "C63_truncated_dumps_are_rejected",
    "C63_other_files_are_rejected",
    "C63_reading_ends",
    "C63_refuted"
   ],
   "note": "Every proper prefix of a dump, and every file without the header, is rejected; reading the file ends. C63_refuted: unchecked length of big strings reads outside, offset at the end of a bucket fails an assertion, an array that contains itself never ends, trailing bytes are ignored."
  },
  {
   "property": "C64",
   "status": "proved",
   "theorems": [
    "C64_inputs_are_ready"
   ],
   "note": "One build phase (samu_buildadd of the targets followed by samu_build); the rebuilding of the manifest before it is not modelled."
  },
  {
   "property": "C65",
   "status": "proved",
   "theorems": [
    "C65_at_most_once"
   ],
   "note": "One build phase. Across the two phases (manifest rebuild, then targets) the claim is not covered: buildreset clears FLAG_WORK only."
  },
  {
   "property": "C66",
   "status": "proved",
   "theorems": [
    "C66_limits"
   ],
   "note": ""
  },
  {
   "property": "C67",
   "status": "proved",
   "theorems": [
    "C67_all_work_is_done",
    "C67_no_endless_build",
    "C67_the_loop_ends_when_nothing_can_happen"
   ],
   "note": "Also: no run is longer than two steps per edge, and the loop is left exactly when nothing more can happen. Needs job and failure limits above 0 and no dry run."
  },
  {
   "property": "C68",
   "status": "proved",
   "theorems": [
    "C68_dependents_are_not_started",
    "C68_nothing_starts_after_too_many_failures",
    "C68_failures_are_reported"
   ],
   "note": ""
  },
  {
   "property": "C69",
   "status": "proved",
   "theorems": [
    "C69_out_of_date_outputs"
   ],
   "note": ""
  },
  {
   "property": "C70",
   "status": "partial",
   "theorems": [
    "C70_complete_records_are_recovered",
    "C70_nothing_else_is_recovered_partial",
    "C70_nothing_else_is_recovered_refuted",
    "C70_what_is_written"
   ],
   "note": "Complete records of a well-formed log are recovered exactly, for every cut point. Refuted in one respect: when the log is written anew, the entry of a node that is only a dependency is stale, so that an output can get the dependencies of another output; proved without that case (_partial)."
  },
  {
   "property": "C71",
   "status": "partial",
   "theorems": [
    "C71_damage_is_limited",
    "C71_never_another_output_partial",
    "C71_never_another_output_refuted",
    "C71_whole_log",
    "C71_the_log_is_kept"
   ],
   "note": "Exact characterisation of what a cut log gives. Refuted: the record that was cut can change the time stamp of another output whose path is a proper prefix; proved if no path is a proper prefix of another (_partial). Whole logs and rewritten logs are exact."
  },
  {
   "property": "C72",
   "status": "partial",
   "theorems": [
    "C72_canonical_partial",
    "C72_too_deep_is_fatal",
    "C72_same_node_partial",
    "C72_root_refuted",
    "C72_idempotent"
   ],
   "note": "canonical form of every path with at most 60 components except '/' itself, which becomes the empty path (C72_root_refuted)"
  },
  {
   "property": "C73",
   "status": "proved",
   "theorems": [
    "C73_definitions_are_stored",
    "C73_lookup",
    "C73_cycles_are_reported"
   ],
   "note": ""
  },
  {
   "property": "C74",
   "status": "proved",
   "theorems": [
    "C74_sha256"
   ],
   "note": ""
  },
  {
   "property": "C75",
   "status": "partial",
   "theorems": [
    "C75_hex_partial",
    "C75_short_bytes",
    "C75_refuted"
   ],
   "note": "refuted: the result ends at the first digest byte below 16 (exact result proved in C75_short_bytes); reading the file is not modelled"
  },
  {
   "property": "C76",
   "status": "partial",
   "theorems": [
    "C76_contains",
    "C76_contains_empty_refuted"
   ],
   "note": "true exactly for occurrences, except that the empty text does not contain the empty text (C76_contains_empty_refuted)"
  },
  {
   "property": "C77",
   "status": "partial",
   "theorems": [
    "C77_to_string_to_int",
    "C77_to_int_partial",
    "C77_quirks_refuted"
   ],
   "note": "round trip for every 64-bit number; blank texts are read as 0 and larger numbers as the nearest 64-bit number (C77_quirks_refuted)"
  },
  {
   "property": "C78",
   "status": "proved",
   "theorems": [
    "C78_header"
   ],
   "note": ""
  },
  {
   "property": "C79",
   "status": "partial",
   "theorems": [
    "C79_scalars_partial",
    "C79_arrays_refuted"
   ],
   "note": "refuted for arrays nested in another variable's value and for set_variable aliases; proved for scalars"
  },
  {
   "property": "C80",
   "status": "partial",
   "theorems": [
    "C80_arguments_partial",
    "C80_nested_call_refuted"
   ],
   "note": "refuted when an argument expression itself calls a user function (static argument table); proved for argument expressions without user calls"
  },
  {
   "property": "C81",
   "status": "partial",
   "theorems": [
    "C81_mode_list_partial",
    "C81_empty_list_refuted"
   ],
   "note": "An empty install_mode list trips an assertion (refuted); proved for every non-empty list."
  },
  {
   "property": "C82",
   "status": "partial",
   "theorems": [
    "C82_selection_partial",
    "C82_selection_refuted"
   ],
   "note": "Refuted for several projects: tests are filtered with the project name of a previous project. Proved for a single project. Suites are not modelled."
  },
  {
   "property": "C83",
   "status": "partial",
   "theorems": [
    "C83_independent_work_is_done_partial",
    "C83_independent_work_is_done_refuted"
   ],
   "note": "Refuted: a command that cannot be started (jobstart fails) keeps its place in its pool, so independent edges of that pool never run. Proved when every command can be started."
  },
  {
   "property": "C84",
   "status": "proved",
   "theorems": [
    "C84_only_needed_commands_run"
   ],
   "note": ""
  },
  {
   "property": "C85",
   "status": "proved",
   "theorems": [
    "C85_refused_builds",
    "C85_no_late_refusal"
   ],
   "note": ""
  },
  {
   "property": "C86",
   "status": "partial",
   "theorems": [
    "C86_the_log_is_updated_partial",
    "C86_the_log_is_updated_refuted"
   ],
   "note": "Refuted: an output that got its number in this run is compared with unset memory or the entry of another output, so its record can be lost. Proved for outputs that had a record (_partial)."
  },
  {
   "property": "C87",
   "status": "partial",
   "theorems": [
    "C87_everything_is_listed_partial",
    "C87_refuted"
   ],
   "note": "Refuted: a rule whose dependency was not found has its sources left out of all_sources(). Proved when all dependencies in conditions are found (_partial)."
  },
  {
   "property": "C88",
   "status": "partial",
   "theorems": [
    "C88_environment_lists_partial",
    "C88_malformed_strings_are_rejected",
    "C88_refuted"
   ],
   "note": "Refuted: an empty name is accepted in a list. Proved for lists of strings with names (_partial), and that the other malformed strings are rejected."
  },
  {
   "property": "C89",
   "status": "partial",
   "theorems": [
    "C89_passing_a_list_changes_nothing_partial",
    "C89_refuted"
   ],
   "note": "Refuted: a dictionary or environment object passed as env: gets the default variables added. Proved for lists and for no argument (_partial)."
  },
  {
   "property": "C90",
   "status": "proved",
   "theorems": [
    "C90_requirements"
   ],
   "note": ""
  },
  {
   "property": "C91",
   "status": "partial",
   "theorems": [
    "C91_renamed_options_partial",
    "C91_refuted",
    "C91_cycles_do_not_end"
   ],
   "note": "Refuted: the result of setting the other option is ignored; options renamed to each other recurse without end (C91_cycles_do_not_end). Proved that an acceptable string reaches the other option (_partial)."
  },
  {
   "property": "C92",
   "status": "partial",
   "theorems": [
    "C92_subprojects_are_isolated_partial",
    "C92_refuted"
   ],
   "note": "Refuted: default_options of a subproject can set global options. Proved for command lines and for default_options naming only the own options, without renamed options (_partial)."
  },
  {
   "property": "C93",
   "status": "partial",
   "theorems": [
    "C93_override_options_partial",
    "C93_refuted"
   ],
   "note": "Refuted: a renamed option in override_options sets the option of the project. Proved without renamed options (_partial)."
  },
  {
   "property": "C94",
   "status": "proved",
   "theorems": [
    "C94_yielding_options"
   ],
   "note": ""
  },
  {
   "property": "C95",
   "status": "partial",
   "theorems": [
    "C95_accepted_exactly_partial",
    "C95_refuted"
   ],
   "note": "Refuted: a text of the language that is no array aborts if the option has deprecated values. Proved if such texts are arrays, for options that are not renamed (_partial)."
  },
  {
   "property": "C96",
   "status": "partial",
   "theorems": [
    "C96_writes_in_buffer_partial",
    "C96_refuted"
   ],
   "note": "Refuted in the formatter's mode (muon fmt on 'a''b' overflows the buffer). Proved in the other modes (_partial)."
  },
  {
   "property": "C97",
   "status": "proved",
   "theorems": [
    "C97_lexing_ends"
   ],
   "note": ""
  },
  {
   "property": "C98",
   "status": "proved",
   "theorems": [
    "C98_tokens_as_spelled"
   ],
   "note": ""
  },
  {
   "property": "C99",
   "status": "partial",
   "theorems": [
    "C99_accepted_programs_partial",
    "C99_programs_accepted",
    "C99_one_meaning",
    "C99_refuted"
   ],
   "note": "Completeness and uniqueness are proved without exception. What is accepted is in the grammar, except that the parser drops a `not` after an operand that is not followed by `in` (C99_refuted: x = a not)."
  },
  {
   "property": "C100",
   "status": "partial",
   "theorems": [
    "C100_parsing_ends_partial",
    "C100_refuted"
   ],
   "note": "Never out of fuel, and the only way to abort is an index whose expression is missing, a[] (C100_refuted)."
  },
  {
   "property": "C101",
   "status": "partial",
   "theorems": [
    "C101_format_strings_partial",
    "C101_refuted"
   ],
   "note": "Proved where the format string is the whole right-hand side of an assignment; as an operand of a stronger operator only its last piece is the operand (C101_refuted)."
  },
  {
   "property": "C102",
   "status": "partial",
   "theorems": [
    "C102_dependency_files_partial",
    "C102_one_reading_partial",
    "C102_refuted"
   ],
   "note": "Proved for all files whose names consist of the characters the reader knows; other names are rejected, and a file that is cut off before the colon is accepted (C102_refuted)."
  },
  {
   "property": "C103",
   "status": "partial",
   "theorems": [
    "C103_reading_ends_partial",
    "C103_refuted"
   ],
   "note": "Proved for files without vertical tab, form feed and lone carriage return; those loop for ever (C103_refuted)."
  },
  {
   "property": "C104",
   "status": "partial",
   "theorems": [
    "C104_plain_patterns",
    "C104_one_star_partial",
    "C104_beginnings",
    "C104_matching_ends",
    "C104_refuted"
   ],
   "note": "Patterns without star and with a star at the end are exact; with one star nothing wrong is selected; names in which the part after the star occurs twice are missed, and patterns with several stars go wrong both ways (C104_refuted). Matching always ends."
  },
  {
   "property": "C105",
   "status": "proved",
   "theorems": [
    "C105_manifest_is_read_as_written",
    "C105_exclusions_are_needed"
   ],
   "note": "Proved for every non-empty manifest with an independent grammar (spelling) and meaning; an empty file is an error (C105_exclusions_are_needed). include and subninja are not modelled."
  },
  {
   "property": "C106",
   "status": "partial",
   "theorems": [
    "C106_reading_ends_partial",
    "C106_scanner_ends",
    "C106_refuted"
   ],
   "note": "No loop runs for ever on a manifest whose last line is complete; a comment in the last line without line end is read for ever (C106_refuted)."
  },
  {
   "property": "C107",
   "status": "proved",
   "theorems": [
    "C107_mistakes_are_errors"
   ],
   "note": "Every mistake listed in the specification (wrong), at any place after correct statements, ends the program with an error."
  },
  {
   "property": "C108",
   "status": "partial",
   "theorems": [
    "C108_targets_are_written_partial",
    "C108_dependency_files_partial",
    "C108_project_name_refuted",
    "C108_alias_of_run_target_refuted"
   ],
   "note": "Proved for every workspace of custom, run and alias targets (ok_workspace) through the manifest reader of C105. Excluded: names with control characters or bars, two targets that produce the same file, a dependency file whose path has blanks or dollar signs, line ends in the project's name (C108_project_name_refuted: they change the file). An alias of a run target in a subproject depends on a name nothing produces (C108_alias_of_run_target_refuted)."
  },
  {
   "property": "C109",
   "status": "partial",
   "theorems": [
    "C109_commands_are_run_as_given_partial",
    "C109_carriage_return_refuted",
    "C109_data_files_refuted",
    "C109_commands_beside_build_targets_partial"
   ],
   "note": "Proved from meson arguments to the started program: build file, manifest reader, shell words, muon internal exe, data files. Excluded: arguments that the shell writer leaves unquoted (C27), carriage returns (C109_carriage_return_refuted) and target names ending in a digit, whose data files can collide (C109_data_files_refuted). C109_commands_beside_build_targets_partial is the same for build files that contain executables and libraries too."
  },
  {
   "property": "C110",
   "status": "partial",
   "theorems": [
    "C110_regeneration_partial",
    "C110_dollar_refuted"
   ],
   "note": "Proved for source directories, options and build files without dollar signs; with one the command that is run differs (C110_dollar_refuted)."
  },
  {
   "property": "C111",
   "status": "partial",
   "theorems": [
    "C111_commands_partial",
    "C111_index_refuted",
    "C111_negative_index_refuted"
   ],
   "note": "Exact both ways for the words and the dependencies of a command: it is accepted exactly if every argument stands for something. Excluded: texts in which an escaped '@' comes while a '@' is open (C22). An index on missing inputs and a negative index out of range abort rather than being reported (C111_index_refuted, C111_negative_index_refuted)."
  },
  {
   "property": "C112",
   "status": "partial",
   "theorems": [
    "C112_outputs_partial",
    "C112_at_sign_refuted",
    "C112_custom_target_partial",
    "C112_refused_partial",
    "C112_generators_partial",
    "C112_process",
    "C112_preserve_root_refuted"
   ],
   "note": "Proved for directories without '@' (C112_at_sign_refuted: with two of them every custom target fails) and for preserve_path_from other than '/' (C112_preserve_root_refuted: outputs land beside the source). Installation of custom targets is not modelled."
  },
  {
   "property": "C113",
   "status": "partial",
   "theorems": [
    "C113_formatting_keeps_the_program_partial",
    "C113_comment_in_an_empty_list_refuted",
    "C113_comment_after_a_keyword_refuted",
    "C113_comment_after_an_option_refuted",
    "C113_long_lines_refuted",
    "C113_space_array_refuted"
   ],
   "note": "From the formatter's syntax tree: the specification S_Fmt says which trees stand for which programs; that muon's parser makes such a tree from the source (its mode pm_keep_formatting) is not modelled. Excluded by stands_file, each with a counterexample: comments in empty brackets, after the colon of a keyword argument and after options in lists; expression lines with operators outside of brackets, and with space_array such operators anywhere outside of brackets. Comments inside expressions elsewhere than after the whole argument, element or line, comments over 4000 bytes and function definitions are excluded without one."
  },
  {
   "property": "C114",
   "status": "partial",
   "theorems": [
    "C114_a_request_answers_the_same_whatever_was_asked_before_partial",
    "C114_a_silenced_request_answers_nothing_refuted"
   ],
   "note": "Full statement refuted: C114_a_silenced_request_answers_nothing_refuted shows for which requests, and that these are never answered again. The partial theorem holds for all other requests after all histories."
  },
  {
   "property": "C115",
   "status": "partial",
   "theorems": [
    "C115_a_name_reaches_the_command_line_whole_partial",
    "C115_long_names_are_cut_refuted"
   ],
   "note": "Full statement refuted for names that are joined to their flag and longer than 254 bytes with it; names that are words of their own have no limit."
  },
  {
   "property": "C116",
   "status": "partial",
   "theorems": [
    "C116_the_flags_of_a_target_are_those_of_its_options_partial",
    "C116_every_target_gets_the_flags_of_its_options_partial",
    "C116_levels_without_a_flag_refuted"
   ],
   "note": "Missing: optimization=plain with buildtype custom or default (aborts), and targets after one with a level that has no flag (C114), both shown by C116_levels_without_a_flag_refuted. The 68 flags of warning_level=everything with gcc are not spelled out in the specification."
  },
  {
   "property": "C117",
   "status": "proved",
   "theorems": [
    "C117_every_source_goes_where_its_name_says"
   ],
   "note": "Proved for all lists of absolute paths without .. other than the build directory itself. The include directories that headers add are not modelled."
  },
  {
   "property": "C118",
   "status": "partial",
   "theorems": [
    "C118_the_object_is_named_after_its_source",
    "C118_the_object_of_a_source_outside",
    "C118_different_sources_have_different_objects_partial",
    "C118_sources_can_share_an_object_refuted"
   ],
   "note": "Proved: the name of every object, and that two sources seen from the same directory have different objects. Missing because false: sources seen from different directories, such as 'b.c' and '../b.c', can share an object (C118_sources_can_share_an_object_refuted). Compilers that use .obj are not covered."
  },
  {
   "property": "C119",
   "status": "partial",
   "theorems": [
    "C119_the_language_of_linking_partial",
    "C119_the_order_of_sources_decides_refuted"
   ],
   "note": "Missing because false: with assembly the order of sources decides, Objective-C++ counts as C, and an object without an ending is undefined behaviour (C119_the_order_of_sources_decides_refuted)."
  },
  {
   "property": "C120",
   "status": "partial",
   "theorems": [
    "C120_build_targets_are_written_partial",
    "C120_rule_names_refuted"
   ],
   "note": "Proved for all workspaces with compilers of the cc kind (posix, gcc, clang, nasm, yasm) whose files can be written (ok_cworkspace) through the manifest reader of C105. Excluded: two targets that produce the same file, cl, a target whose name ends like that of a linker's rule (C120_rule_names_refuted: two rules get one name and the file cannot be read)."
  },
  {
   "property": "C121",
   "status": "partial",
   "theorems": [
    "C121_sources_are_compiled_partial",
    "C121_targets_are_linked_partial",
    "C121_libraries_are_archived_partial",
    "C121_compiler_commands_refuted"
   ],
   "note": "Proved for all flags that the shell's quoting preserves (C27) and all names that can be written. The flags themselves (b_flags, b_link_flags) are given: C116 has those of the options. Missing because false: words of a compiler's command that need quoting (C121_compiler_commands_refuted)."
  },
  {
   "property": "C122",
   "status": "partial",
   "theorems": [
    "C122_what_is_used_reaches_targets",
    "C122_shared_libraries_are_found_partial",
    "C122_partial_dependencies_refuted"
   ],
   "note": "Proved for all sequences of declarations whose sources are absolute clean paths (ok_project). Found dependencies (packages, libraries) are given. Missing because false: partial_dependency(links: true) keeps the libraries, but neither the directories in which shared libraries are looked for, nor the generated headers, nor the language of linking (C122_partial_dependencies_refuted)."
  },
  {
   "property": "C123",
   "status": "proved",
   "theorems": [
    "C123_arguments_stay_together",
    "C123_as_system"
   ],
   "note": "Proved for all sequences of declarations; blocks with -pthread, which is deduplicated by design, are excluded by the statement."
  },
  {
   "property": "C124",
   "status": "partial",
   "theorems": [
    "C124_what_a_target_is_compiled_with_partial",
    "C124_what_include_directories_mean_partial",
    "C124_all_directories_exist",
    "C124_system_directories_of_cl_refuted",
    "C124_directories_outside_by_dots_refuted"
   ],
   "note": "Proved for all compilers that take include directories, with every history that C114 allows; system directories are lost with cl (refuted), and paths with \"..\" that leave the source directory are misjudged (refuted).  Whether a directory exists is a parameter."
  },
  {
   "property": "C125",
   "status": "partial",
   "theorems": [
    "C125_what_a_target_is_linked_with",
    "C125_link_whole_refuted"
   ],
   "note": "The exact words are proved for all six linkers and all histories; link_whole is without effect with three of them and has no end with a fourth (refuted).  Names of run paths and sonames up to the limit of C115."
  },
  {
   "property": "C126",
   "status": "partial",
   "theorems": [
    "C126_the_names_of_shared_libraries_partial",
    "C126_dlls_are_built_as_they_are_named_partial",
    "C126_dlls_with_a_suffix_refuted",
    "C126_long_names_are_cut_refuted"
   ],
   "note": "Proved for names that fit the buffers and have no slash; long names are cut, and DLLs with a suffix of their own are linked under another name (refuted)."
  },
  {
   "property": "C127",
   "status": "partial",
   "theorems": [
    "C127_links_lead_to_the_libraries_partial",
    "C127_installed_links_lead_to_the_library_partial",
    "C127_versions_on_darwin_refuted",
    "C127_links_of_earlier_configurations_refuted"
   ],
   "note": "Proved for the systems with .so, libraries with the usual prefix and suffix that differ in directory or name (one library with any prefix and suffix when installed); refuted on darwin and with links left from an earlier configuration of the same library.  Links in the directories above are not modelled, and creating a link does not fail."
  },
  {
   "property": "C128",
   "status": "partial",
   "theorems": [
    "C128_headers",
    "C128_headers_accepted",
    "C128_data",
    "C128_data_accepted",
    "C128_data_renamed_partial",
    "C128_renamed_accepted_partial",
    "C128_rename_bad_mode_refuted",
    "C128_outputs",
    "C128_installed_partial"
   ],
   "note": "Proved for data, headers and outputs of custom targets, with exact acceptance, and joined with C58; refuted for rename with a malformed mode, which is ignored together with the file."
  },
  {
   "property": "C129",
   "status": "partial",
   "theorems": [
    "C129_pages_partial",
    "C129_accepted",
    "C129_locale_refuted",
    "C129_empty_mandir_refuted"
   ],
   "note": "Acceptance is exact; destinations are proved without a locale and with one for names of two or three parts; refuted for names with more dots, for parts that only start like the locale, and for an empty mandir."
  },
  {
   "property": "C130",
   "status": "partial",
   "theorems": [
    "C130_symlink",
    "C130_emptydir",
    "C130_emptydir_accepted",
    "C130_subdir_partial",
    "C130_subdir_refuted"
   ],
   "note": "Proved for links, empty directories, strip_directory and directories of one or two parts; refuted for longer paths and a slash at the end."
  },
  {
   "property": "C131",
   "status": "partial",
   "theorems": [
    "C131_disabled",
    "C131_nofallback",
    "C131_no_fallback_partial",
    "C131_system_first_partial",
    "C131_fallback_partial",
    "C131_long_fallback",
    "C131_not_found",
    "C131_several_names_refuted",
    "C131_allow_fallback_false_refuted",
    "C131_forced_refuted",
    "C131_nofallback_refuted",
    "C131_empty_fallback_refuted"
   ],
   "note": "Proved for several names without fallbacks and for one name with one; refuted for several names with a fallback (it is used before the second name is looked for), for allow_fallback: false with a wrap file, for forced fallbacks on the subproject of the same name, for wrap_mode=nofallback with force_fallback_for, and for an empty list of fallbacks (aborts)."
  },
  {
   "property": "C132",
   "status": "partial",
   "theorems": [
    "C132_versions_partial",
    "C132_found",
    "C132_static_partial",
    "C132_required_partial",
    "C132_versions_refuted",
    "C132_subproject_versions_refuted",
    "C132_static_refuted",
    "C132_required_refuted",
    "C132_crash_refuted"
   ],
   "note": "Proved for all histories apart from dependencies that the project or subprojects offer; refuted for the versions of those and of subprojects, for static: true after a lookup without it, for dependencies overridden with one not found, and for a version asked of a name that threads were found for (aborts)."
  },
  {
   "property": "C133",
   "status": "partial",
   "theorems": [
    "C133_found_again_partial",
    "C133_not_configured_again",
    "C133_configured_once_partial",
    "C133_found_again_refuted",
    "C133_other_names_refuted",
    "C133_fallback_refuted",
    "C133_failing_subproject_refuted"
   ],
   "note": "Proved for one name whose dependency has a suitable version, with anything done in between with other names; refuted for overridden dependencies of other versions, for several names, for fallbacks after a cached lookup, and for subprojects that fail."
  },
  {
   "property": "C134",
   "status": "partial",
   "theorems": [
    "C134_holds_what_was_pushed_partial",
    "C134_never_past_a_fixed_buffer_partial",
    "C134_string_partial",
    "C134_formatted_refuted",
    "C134_nul_refuted",
    "C134_4095_refuted"
   ],
   "note": "Proved for all histories in which no formatted text ends exactly at a size that the buffer grows to; refuted there (one byte is written behind the memory). The string is the text unless it has a NUL or exactly 4095 bytes; refuted for these (aborts)."
  },
  {
   "property": "C135",
   "status": "partial",
   "theorems": [
    "C135_made_strings_stay",
    "C135_appending_partial",
    "C135_terminated",
    "C135_4095_refuted",
    "C135_exclusion_is_needed"
   ],
   "note": "Proved for all histories; an operation succeeds unless its result has exactly 4095 bytes, for which it is refuted (aborts)."
  },
  {
   "property": "C136",
   "status": "partial",
   "theorems": [
    "C136_libraries",
    "C136_requires",
    "C136_flags",
    "C136_dataonly",
    "C136_install_dir_refuted",
    "C136_names_refuted",
    "C136_exclusion_is_needed"
   ],
   "note": "Which words, requirements and subdirectories a file has is proved for all calls; refuted: with install_dir the directory of the file itself is searched for the library, a library called libfoo, versioned files and absolute subdirectories get wrong words."
  },
  {
   "property": "C137",
   "status": "partial",
   "theorems": [
    "C137_its_own_directories",
    "C137_references_are_declared_partial",
    "C137_variables_mean_partial",
    "C137_later_files_refuted",
    "C137_data_and_inner_references_refuted",
    "C137_absolute_directories_refuted"
   ],
   "note": "prefix, includedir and libdir are proved declared after all histories; other directories and what variables mean for values that are plain or begin with a reference, unless an earlier file has a variable of that name; refuted for later files, files for data only, references inside of values and absolute directories."
  },
  {
   "property": "C138",
   "status": "partial",
   "theorems": [
    "C138_name",
    "C138_stem_partial",
    "C138_stem_without_ending",
    "C138_stem_of_hidden_files_refuted",
    "C138_parent_partial",
    "C138_parent_of_up_refuted",
    "C138_replace_suffix_partial",
    "C138_replace_suffix_refuted",
    "C138_as_posix_partial",
    "C138_as_posix_refuted"
   ],
   "note": "Proved for all paths outside of the listed cases, which are refuted: stems of hidden files, parents of paths that end in .., names without an ending in directories with a dot, doubled backslashes."
  },
  {
   "property": "C139",
   "status": "partial",
   "theorems": [
    "C139_looks_at",
    "C139_reads",
    "C139_samepath_partial",
    "C139_samepath_above_root_refuted",
    "C139_home_partial",
    "C139_home_refuted",
    "C139_rejects",
    "C139_never_aborts"
   ],
   "note": "Where the functions look is proved for all paths without a tilde; refuted: a tilde followed by a slash leads to the root directory, paths above the root are not recognised as the same."
  },
  {
   "property": "C140",
   "status": "partial",
   "theorems": [
    "C140_frame",
    "C140_one_stays_partial",
    "C140_none_stays",
    "C140_two_stay_refuted",
    "C140_three_stay_refuted",
    "C140_long_entry_refuted"
   ],
   "note": "Proved for lists of which at most one entry stays, the frame for all lists; refuted: with two that stay the last character of the list is lost, with three the last two are joined, an entry of 4096 bytes is written beyond the buffer."
  },
  {
   "property": "C141",
   "status": "partial",
   "theorems": [
    "C141_not_elf",
    "C141_size",
    "C141_no_rpaths",
    "C141_one_stays_partial",
    "C141_none_stays",
    "C141_both_refuted",
    "C141_static_refuted"
   ],
   "note": "The length for all files, the effects for 64 bit ELF files with one list of rpaths; refuted: with two lists that become empty the wrong entry is removed; files without a dynamic section are an error."
  },
  {
   "property": "C142",
   "status": "partial",
   "theorems": [
    "C142_accepted",
    "C142_fields",
    "C142_no_kind_refuted"
   ],
   "note": "Refuted: a file without a kind is taken for a wrap-file."
  },
  {
   "property": "C143",
   "status": "partial",
   "theorems": [
    "C143_checksum_partial",
    "C143_allowed",
    "C143_present",
    "C143_git",
    "C143_done",
    "C143_not_hex_refuted",
    "C143_no_source_refuted"
   ],
   "note": "Proved for hexadecimal hashes; refuted: texts that are no hashes are accepted, a wrap-file without a source crashes."
  },
  {
   "property": "C144",
   "status": "partial",
   "theorems": [
    "C144_names_partial",
    "C144_applied",
    "C144_one_character_refuted"
   ],
   "note": "Proved if no name but the first has one character; refuted for those."
  },
  {
   "property": "C145",
   "status": "partial",
   "theorems": [
    "C145_loaded",
    "C145_provided",
    "C145_any_order_partial",
    "C145_any_order_refuted"
   ],
   "note": "Proved but for the order of files, which matters if several wraps provide the same name (refuted)."
  },
  {
   "property": "C146",
   "status": "partial",
   "theorems": [
    "C146_override_partial",
    "C146_place_partial",
    "C146_file_partial",
    "C146_fallback_partial",
    "C146_forced_partial",
    "C146_found",
    "C146_names_partial",
    "C146_not_found",
    "C146_no_subproject",
    "C146_hidden_refuted",
    "C146_python_refuted",
    "C146_empty_refuted",
    "C146_unknown_version_refuted"
   ],
   "note": "Proved for everything that is found, for names for which there is nothing and for each source of programs; refuted: a file with an unsuitable version hides later ones, overrides of unknown version meet every version, overrides by a python installation and the empty name abort. Subprojects that fail are not modelled."
  },
  {
   "property": "C147",
   "status": "partial",
   "theorems": [
    "C147_guess",
    "C147_no_version",
    "C147_dots_refuted"
   ],
   "note": "Proved; refuted: dots alone are taken for a version."
  },
  {
   "property": "C148",
   "status": "partial",
   "theorems": [
    "C148_calls",
    "C148_again",
    "C148_found",
    "C148_version_partial",
    "C148_required",
    "C148_complete",
    "C148_missing",
    "C148_depth",
    "C148_variables",
    "C148_version_refuted",
    "C148_version_again_refuted",
    "C148_disabled_refuted",
    "C148_once_refuted",
    "C148_order_refuted",
    "C148_circular_refuted"
   ],
   "note": "Proved for what is found, found again, required, optional and disabled, and for versions of required subprojects, and that those that succeed are found and those that fail are not; refuted: versions of optional subprojects and of those found before are not looked at, failing subprojects are evaluated again, a project that names itself is configured without end, what is found depends on the order, and a disabled feature finds what was configured before."
  },
  {
   "property": "C149",
   "status": "partial",
   "theorems": [
    "C149_words_partial",
    "C149_accepted_partial",
    "C149_dependencies_refuted",
    "C149_dropped_refuted",
    "C149_names_refuted",
    "C149_prefix_refuted"
   ],
   "note": "words_partial: if the languages of add_project_dependencies() are ones of the project. accepted_partial: for all calls but add_project_dependencies(), which is accepted whatever languages it is given (dependencies_refuted) and then drops what is behind an unknown one (dropped_refuted, and prefix_refuted for all calls). Muon's own names are accepted as languages (names_refuted)."
  }
 ]
}