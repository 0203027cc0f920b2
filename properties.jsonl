{"id": "C01", "title": "Path normalisation is canonical and keeps the named location", "statement": "Normalising a non-empty path yields a path that names the same location (same absolute/relative kind and the same sequence of non-empty, non-'.' components), contains no empty and no '.' component (except the lone path '.'), and has no trailing slash (except '/'); two non-empty paths normalise to the same text exactly when they have the same kind and components, and normalising twice equals normalising once.", "quantifier": "all byte strings used as paths", "why_tests_cant": "the input space is infinite; a test fixes one input while the claim is about all of them", "anchors": ["src/platform/path.c:_path_normalize", "src/platform/path.c:path_copy"]}
{"id": "C02", "title": "Optimising normalisation resolves '..' lexically", "statement": "The optimising normalisation used for relative paths removes every 'component/..' pair: the result names the same location under lexical resolution and '..' survives only as a leading run of components.", "quantifier": "all byte strings used as paths", "why_tests_cant": "the input space is infinite; a test fixes one input while the claim is about all of them", "anchors": ["src/platform/path.c:_path_normalize"]}
{"id": "C03", "title": "Joining paths", "statement": "Joining a and b yields b's location when b is absolute, and otherwise the location reached by following b's components after a's; joining is associative on relative tails, and joining with '' appends exactly one slash to the normalised path.", "quantifier": "all pairs/triples of path strings", "why_tests_cant": "the input space is infinite; a test fixes one input while the claim is about all of them", "anchors": ["src/platform/path.c:path_push", "src/platform/path.c:path_join", "src/functions/kernel.c:join_paths_iter"]}
{"id": "C04", "title": "A relative path leads back to its target", "statement": "For absolute base and path, the relative path computed from base to path, joined onto base, resolves lexically to the same location as path.", "quantifier": "all pairs of absolute paths", "why_tests_cant": "the input space is infinite; a test fixes one input while the claim is about all of them", "anchors": ["src/platform/path.c:path_relative_to"]}
{"id": "C05", "title": "Subpath test is component-prefix", "statement": "path_is_subpath(base, sub) holds exactly when the components of sub start with the components of base and both are of the same kind.", "quantifier": "all pairs of path strings", "why_tests_cant": "the input space is infinite; a test fixes one input while the claim is about all of them", "anchors": ["src/platform/path.c:path_is_subpath"]}
{"id": "C06", "title": "Basename and dirname decompose a path", "statement": "For every path with at least one component, joining dirname and basename gives the normalised path, and basename contains no slash.", "quantifier": "all path strings", "why_tests_cant": "the input space is infinite; a test fixes one input while the claim is about all of them", "anchors": ["src/platform/path.c:path_basename", "src/platform/path.c:path_dirname"]}
{"id": "C07", "title": "DESTDIR confines installation", "statement": "With DESTDIR set, the destination of every installed file whose configured destination has no '..' component lies under DESTDIR.", "quantifier": "all DESTDIR values and destinations", "why_tests_cant": "the input space is infinite; a test fixes one input while the claim is about all of them", "anchors": ["src/cmd_install.c:install_iter", "src/platform/path.c:path_join_absolute"]}
{"id": "C08", "title": "Version comparison is a total preorder", "statement": "rpmvercmp returns only -1, 0 or 1, is reflexive and transitive, and swapping its arguments negates its result.", "quantifier": "all pairs/triples of version strings", "why_tests_cant": "order laws relate triples of unbounded strings; pairwise tests cannot establish transitivity", "anchors": ["src/rpmvercmp.c:rpmvercmp"]}
{"id": "C09", "title": "Version comparison follows the documented segment rule", "statement": "Two versions compare by their alternating runs of digits and letters: the first differing segment decides (numbers by value, numbers above letters, letters bytewise); if one is exhausted first, the one with more left is newer.", "quantifier": "all pairs of version strings", "why_tests_cant": "the input space is infinite; a test fixes one input while the claim is about all of them", "anchors": ["src/rpmvercmp.c:rpmvercmp"]}
{"id": "C10", "title": "version_compare operators agree with the order", "statement": "'>=', '<=', '>', '<', '==', '=' and '!=' requirements hold exactly when the comparison of the two versions has the corresponding sign, and a requirement without operator means equality; a list of requirements holds exactly when every one does.", "quantifier": "all versions and requirement strings", "why_tests_cant": "the input space is infinite; a test fixes one input while the claim is about all of them", "anchors": ["src/functions/string.c:version_compare", "src/functions/string.c:version_compare_iter"]}
{"id": "C11", "title": "The hash table behaves as a finite map", "statement": "After any sequence of set and unset operations, looking up a key returns the value of the last set for that key, or nothing if it was never set or was unset afterwards; growing the table changes no lookup.", "quantifier": "all finite histories of set/unset over all keys, and every hash function", "why_tests_cant": "the claim is about histories of unbounded length with arbitrary collisions and resizes", "anchors": ["src/datastructures/hash.c:hash_set", "src/datastructures/hash.c:hash_get", "src/datastructures/hash.c:hash_unset", "src/datastructures/hash.c:resize"]}
{"id": "C12", "title": "Hash table probing always terminates", "statement": "Every lookup, insertion and removal on a table reachable from an empty one stops within capacity-many probes: there is always an empty slot.", "quantifier": "all finite histories, all hash functions", "why_tests_cant": "non-termination depends on adversarial collision patterns over unbounded histories", "anchors": ["src/datastructures/hash.c:probe"]}
{"id": "C13", "title": "The build graph's node table behaves as a finite map", "statement": "samurai's htab: after any sequence of insertions, lookup returns the slot of the key inserted, distinct keys have distinct slots, and probing terminates.", "quantifier": "all finite histories of htabput/htabget, all hash functions", "why_tests_cant": "unbounded histories with arbitrary collisions", "anchors": ["src/external/samurai/htab.c:samu_htabput", "src/external/samurai/htab.c:samu_htabget"]}
{"id": "C14", "title": "Build-variable trees stay searchable and balanced", "statement": "samurai's tree: after any sequence of insertions, find returns the last value inserted for a key, the tree is ordered and height-balanced, and its height never exceeds the fixed path buffer used by insertion for any tree that fits in memory.", "quantifier": "all finite sequences of insertions with arbitrary keys", "why_tests_cant": "balance is an invariant over unbounded insertion orders", "anchors": ["src/external/samurai/tree.c:samu_treeinsert", "src/external/samurai/tree.c:samu_treefind"]}
{"id": "C15", "title": "Arena allocations never overlap", "statement": "Every block handed out by samurai's arena lies inside the memory obtained for it, starts at a multiple of 8, and overlaps no other block handed out before.", "quantifier": "all finite sequences of allocation sizes", "why_tests_cant": "overlap can appear after any allocation history", "anchors": ["src/external/samurai/util.c:samu_arena_alloc"]}
{"id": "C16", "title": "Bucket arrays are stable indexed sequences", "statement": "After any sequence of pushes, element i is the i-th pushed value and never moves; restoring a save point forgets exactly what was pushed after it.", "quantifier": "all finite histories of push/save/restore", "why_tests_cant": "history-dependent", "anchors": ["src/datastructures/bucket_arr.c:bucket_arr_push", "src/datastructures/bucket_arr.c:bucket_arr_restore"]}
{"id": "C17", "title": "Substring search finds the first occurrence", "statement": "memmem returns the smallest offset at which the needle occurs in the haystack, or nothing when it does not occur.", "quantifier": "all haystacks and needles", "why_tests_cant": "the input space is infinite; a test fixes one input while the claim is about all of them; the two-way algorithm's shifts are only wrong on rare periodic inputs", "anchors": ["src/memmem.c:memmem", "src/memmem.c:twoway_memmem"]}
{"id": "C18", "title": "String split and join are inverse", "statement": "Splitting on a non-empty separator yields pieces that contain no separator and that joined with the separator give the original string.", "quantifier": "all strings and non-empty separators", "why_tests_cant": "the input space is infinite; a test fixes one input while the claim is about all of them", "anchors": ["src/lang/string.c:str_split", "src/lang/string.c:str_join"]}
{"id": "C19", "title": "Whitespace split", "statement": "Splitting without a separator yields exactly the maximal runs of non-whitespace bytes, in order.", "quantifier": "all strings", "why_tests_cant": "the input space is infinite; a test fixes one input while the claim is about all of them", "anchors": ["src/lang/string.c:str_split"]}
{"id": "C20", "title": "String replacement", "statement": "replace(find, with) for non-empty find replaces every leftmost non-overlapping occurrence of find and nothing else.", "quantifier": "all strings", "why_tests_cant": "the input space is infinite; a test fixes one input while the claim is about all of them", "anchors": ["src/functions/string.c:func_string_replace"]}
{"id": "C21", "title": "String strip", "statement": "strip removes the longest prefix and suffix made of the given characters (whitespace by default) and nothing from the middle.", "quantifier": "all strings and character sets", "why_tests_cant": "the input space is infinite; a test fixes one input while the claim is about all of them", "anchors": ["src/lang/string.c:str_strip"]}
{"id": "C22", "title": "String formatting", "statement": "'...'.format(args) replaces each @i@ by the i-th argument, unescapes \\@, and copies every other byte unchanged.", "quantifier": "all format strings and argument lists", "why_tests_cant": "the input space is infinite; a test fixes one input while the claim is about all of them", "anchors": ["src/functions/string.c:string_format"]}
{"id": "C23", "title": "Substring method", "statement": "substring(start, end) returns the bytes of the half-open range after Python-style normalisation of negative and out-of-range indices.", "quantifier": "all strings and integer pairs", "why_tests_cant": "the input space is infinite; a test fixes one input while the claim is about all of them", "anchors": ["src/functions/string.c:func_string_substring"]}
{"id": "C24", "title": "Case conversion, underscorify, startswith, endswith", "statement": "to_upper/to_lower change exactly ASCII letters, underscorify maps exactly the non-alphanumeric bytes to '_', startswith/endswith hold exactly for prefixes/suffixes.", "quantifier": "all strings", "why_tests_cant": "the input space is infinite; a test fixes one input while the claim is about all of them", "anchors": ["src/functions/string.c", "src/lang/string.c:str_startswith", "src/lang/string.c:str_endswith"]}
{"id": "C25", "title": "Test-name globbing", "statement": "A glob pattern matches a test name exactly when the name can be obtained by replacing each '*' with some string.", "quantifier": "all patterns and names", "why_tests_cant": "the input space is infinite; a test fixes one input while the claim is about all of them", "anchors": ["src/lang/string.c:str_eql_glob_impl", "src/cmd_test.c:test_matches_cmdline_tests"]}
{"id": "C26", "title": "Ninja escaping survives the ninja scanner", "statement": "A file name written to build.ninja with ninja_escape and read back by the embedded samurai scanner as a path is the same file name, for non-empty names without newline, carriage return, NUL, '|' and byte 255; whole build statements read back as the same outputs, rule and inputs.", "quantifier": "all file names", "why_tests_cant": "the input space is infinite; a test fixes one input while the claim is about all of them", "anchors": ["src/args.c:ninja_escape", "src/external/samurai/scan.c:samu_scanstring"]}
{"id": "C27", "title": "Shell escaping survives the shell", "statement": "A string passed through shell_escape and parsed by a POSIX shell is one word equal to the string.", "quantifier": "all argument strings", "why_tests_cant": "the input space is infinite; a test fixes one input while the claim is about all of them", "anchors": ["src/platform/posix/path.c:shell_escape", "src/args.c:join_args_shell"]}
{"id": "C28", "title": "Command-line paths are shell-quoted by the build tool", "statement": "The text samurai substitutes for $in/$out is a single shell word equal to the node's path.", "quantifier": "all node paths", "why_tests_cant": "the input space is infinite; a test fixes one input while the claim is about all of them", "anchors": ["src/external/samurai/graph.c:samu_nodepath"]}
{"id": "C29", "title": "Argument and environment vectors survive flattening", "statement": "The argv reconstructed from a flattened argument string equals the original non-empty argument list, and likewise for key/value environment strings, when no element contains NUL.", "quantifier": "all argument lists and environments", "why_tests_cant": "the input space is infinite; a test fixes one input while the claim is about all of them", "anchors": ["src/args.c:join_args_argstr", "src/platform/run_cmd.c:argstr_to_argv", "src/args.c:env_to_envstr"]}
{"id": "C30", "title": "Configuration templates: text without substitution markers is copied verbatim", "statement": "configure_file leaves every byte of a template unchanged outside @var@ references, #mesondefine lines and backslash-escaped markers.", "quantifier": "all templates and configuration dictionaries", "why_tests_cant": "the input space is infinite; a test fixes one input while the claim is about all of them", "anchors": ["src/functions/kernel/configure_file.c:substitute_config"]}
{"id": "C31", "title": "Configuration templates: variables and escapes", "statement": "Each @name@ with a defined name is replaced by its value, a marker preceded by an odd number of backslashes is literal, and each pair of backslashes before a marker yields one.", "quantifier": "all templates and configuration dictionaries", "why_tests_cant": "the input space is infinite; a test fixes one input while the claim is about all of them", "anchors": ["src/functions/kernel/configure_file.c:substitute_config"]}
{"id": "C32", "title": "Configuration data quoting", "statement": "get_unquoted(set_quoted(v)) returns v, and the quoted text is a C string literal denoting v.", "quantifier": "all string values", "why_tests_cant": "the input space is infinite; a test fixes one input while the claim is about all of them", "anchors": ["src/functions/configuration_data.c:func_configuration_data_set_quoted", "src/functions/configuration_data.c:func_configuration_data_get_unquoted"]}
{"id": "C33", "title": "TAP results", "statement": "A TAP stream is accepted exactly when the number of passing plus skipped points equals the plan, no point failed and there was no bail-out.", "quantifier": "all byte streams", "why_tests_cant": "the input space is infinite; a test fixes one input while the claim is about all of them", "anchors": ["src/formats/tap.c:tap_parse", "src/cmd_test.c:check_test_result_tap"]}
{"id": "C34", "title": "Line iteration visits every line once", "statement": "each_line calls its callback with the newline-separated pieces of the buffer in order, covering every byte.", "quantifier": "all buffers", "why_tests_cant": "the input space is infinite; a test fixes one input while the claim is about all of them", "anchors": ["src/formats/lines.c:each_line"]}
{"id": "C35", "title": "INI files", "statement": "Parsing the text of a list of sections and key=value pairs calls back with exactly those keys and values in order.", "quantifier": "all well-formed ini texts", "why_tests_cant": "the input space is infinite; a test fixes one input while the claim is about all of them", "anchors": ["src/formats/ini.c:ini_parse"]}
{"id": "C36", "title": "Arrays behave as sequences", "statement": "push, index, set, extend, join, slice, delete, pop, dedup and length on language arrays refine the corresponding list operations.", "quantifier": "all finite histories of array operations", "why_tests_cant": "history-dependent heap structure", "anchors": ["src/lang/object.c:obj_array_push", "src/lang/object.c:obj_array_index", "src/lang/object.c:obj_array_del"]}
{"id": "C37", "title": "Dictionaries behave as insertion-ordered finite maps", "statement": "set, index, delete, merge, iteration and length on language dictionaries refine an insertion-ordered finite map, including across the switch to the hashed representation.", "quantifier": "all finite histories of dictionary operations", "why_tests_cant": "history-dependent; representation switch", "anchors": ["src/lang/object.c:obj_dict_set", "src/lang/object.c:obj_dict_del", "src/lang/object.c:_obj_dict_index"]}
{"id": "C38", "title": "Object equality is an equivalence", "statement": "The language's == on scalars and finitely nested arrays and dictionaries is reflexive, symmetric and transitive and coincides with structural equality (dictionary order ignored).", "quantifier": "all object values", "why_tests_cant": "the input space is infinite; a test fixes one input while the claim is about all of them", "anchors": ["src/lang/object.c:obj_equal"]}
{"id": "C39", "title": "Assigned values are independent", "statement": "After 'b = a', changing a with += never changes the value of b, at any nesting depth.", "quantifier": "all programs and values", "why_tests_cant": "aliasing depends on the whole program history", "anchors": ["src/lang/interpreter.c:interp_assign", "src/lang/interpreter.c:interp_plusassign"]}
{"id": "C40", "title": "Array and string indexing stays in bounds", "statement": "Indexing accepts exactly the indices -len..len-1, and negative indices count from the end.", "quantifier": "all lengths and 64-bit indices", "why_tests_cant": "the input space is infinite; a test fixes one input while the claim is about all of them", "anchors": ["src/lang/interpreter.c:bounds_adjust", "src/functions/array.c:func_array_get"]}
{"id": "C41", "title": "and/or short-circuit", "statement": "The right operand of 'and'/'or' is evaluated only when the left one does not decide the result, and the result is the boolean conjunction/disjunction.", "quantifier": "all expressions and environments", "why_tests_cant": "the input space is infinite; a test fixes one input while the claim is about all of them", "anchors": ["src/lang/interpreter.c:interp_andor"]}
{"id": "C42", "title": "Disablers propagate", "statement": "Any operator or call applied to a disabler (other than is_disabler, set_variable, get_variable, is_variable and the found method) yields a disabler and has no other effect.", "quantifier": "all expressions and environments", "why_tests_cant": "the input space is infinite; a test fixes one input while the claim is about all of them", "anchors": ["src/lang/interpreter.c", "src/functions/common.c:builtin_run"]}
{"id": "C43", "title": "foreach runs its body once per element in order", "statement": "A foreach over an array, dict or range executes the body once per element in order; break stops, continue skips to the next element.", "quantifier": "all iterables and bodies", "why_tests_cant": "the input space is infinite; a test fixes one input while the claim is about all of them", "anchors": ["src/lang/interpreter.c:interp_foreach"]}
{"id": "C44", "title": "Function-local scope is isolated", "statement": "Assignments inside a user-defined function do not change the caller's variables.", "quantifier": "all programs", "why_tests_cant": "quantifies over all function bodies", "anchors": ["src/lang/interpreter.c:get_local_variable", "src/functions/common.c:func_obj_call"]}
{"id": "C45", "title": "Numeric ranges", "statement": "range(start, stop, step) terminates and lists start, start+step, ... strictly below stop.", "quantifier": "all admissible 32-bit triples", "why_tests_cant": "the input space is infinite; a test fixes one input while the claim is about all of them", "anchors": ["src/functions/kernel.c:func_range"]}
{"id": "C46", "title": "Printed programs parse back", "statement": "Rendering an expression with explicit parentheses and lexing+parsing it yields the same expression tree.", "quantifier": "all expression trees", "why_tests_cant": "the input space is infinite; a test fixes one input while the claim is about all of them", "anchors": ["src/lang/parser.c", "src/lang/lexer.c"]}
{"id": "C47", "title": "Operator precedence", "statement": "The parser groups unparenthesised operator sequences according to one fixed precedence table with left-associative arithmetic.", "quantifier": "all token sequences", "why_tests_cant": "the input space is infinite; a test fixes one input while the claim is about all of them", "anchors": ["src/lang/parser.c:parse_arith"]}
{"id": "C48", "title": "String literals denote their contents", "statement": "Escaping any byte string into a single-quoted literal and lexing it yields that byte string; \\uXXXX escapes yield valid UTF-8 of the code point.", "quantifier": "all byte strings and code points", "why_tests_cant": "the input space is infinite; a test fixes one input while the claim is about all of them", "anchors": ["src/lang/lexer.c:lex_string_char", "src/lang/lexer.c:write_utf8"]}
{"id": "C49", "title": "Argument validation", "statement": "A builtin is only run with arguments that match its declared signature: right number of positionals, every value of an accepted type, no unknown or repeated keyword, every required keyword present.", "quantifier": "all calls and signatures", "why_tests_cant": "the input space is infinite; a test fixes one input while the claim is about all of them", "anchors": ["src/functions/common.c:interp_args"]}
{"id": "C50", "title": "Type checking", "statement": "A value passes a declared type exactly when it belongs to the set of values the type describes (unions, nested array/dict element types, disablers always accepted).", "quantifier": "all values and types", "why_tests_cant": "the input space is infinite; a test fixes one input while the claim is about all of them", "anchors": ["src/lang/typecheck.c:typecheck_complex_type"]}
{"id": "C51", "title": "Option precedence is order-independent", "statement": "The final value of an option is the one set by the source of highest precedence (the latest among equals), whatever order the sources are applied in.", "quantifier": "all sequences of option settings", "why_tests_cant": "quantifies over all interleavings of settings", "anchors": ["src/options.c:set_option"]}
{"id": "C52", "title": "Option values respect their declaration", "statement": "After any sequence of accepted settings, an option's value has the declared type and lies within its choices / min..max.", "quantifier": "all sequences of option settings", "why_tests_cant": "invariant over histories", "anchors": ["src/options.c:set_option", "src/options.c:coerce_option_override"]}
{"id": "C53", "title": "Command-line option strings parse unambiguously", "statement": "'-D' strings of the form [sub:]key=value are split into exactly those parts; anything else is rejected.", "quantifier": "all strings", "why_tests_cant": "the input space is infinite; a test fixes one input while the claim is about all of them", "anchors": ["src/options.c:parse_config_string"]}
{"id": "C54", "title": "Feature options", "statement": "allowed/enabled/disabled/auto, require, disable_auto_if, enable_auto_if, enable_if and disable_if return the documented feature state for every state and condition, and a disabled feature is never turned on.", "quantifier": "all feature states, conditions and call chains", "why_tests_cant": "call chains are unbounded", "anchors": ["src/functions/feature_opt.c"]}
{"id": "C55", "title": "Environment objects replay their operations", "statement": "The environment passed to a command maps each variable to the result of applying its set/append/prepend operations in order, starting from the inherited value.", "quantifier": "all operation sequences", "why_tests_cant": "history-dependent", "anchors": ["src/functions/environment.c:evironment_to_dict_iter"]}
{"id": "C56", "title": "Source sets select by condition", "statement": "apply() returns exactly the sources/dependencies of rules whose conditions all hold plus the alternatives of the others, without duplicates; a frozen set never changes.", "quantifier": "all rule lists and configurations", "why_tests_cant": "the input space is infinite; a test fixes one input while the claim is about all of them", "anchors": ["src/functions/source_set.c:source_set_collect"]}
{"id": "C57", "title": "install_mode permission strings", "statement": "A nine-character rwx string is accepted exactly when it is the ls-style rendering of some mode, and yields that mode.", "quantifier": "all strings and all modes", "why_tests_cant": "the input space is infinite; a test fixes one input while the claim is about all of them", "anchors": ["src/install.c:rwx_to_perm"]}
{"id": "C58", "title": "Install reports failures", "statement": "muon install returns success only if every install target and script succeeded.", "quantifier": "all install manifests and file system outcomes", "why_tests_cant": "quantifies over failure points", "anchors": ["src/cmd_install.c:install_run"]}
{"id": "C59", "title": "Serial tests run alone", "statement": "While a non-parallel test is running no other test is running, and never more than the requested number of tests run at once.", "quantifier": "all test lists and completion schedules", "why_tests_cant": "depends on process completion schedule", "anchors": ["src/cmd_test.c:push_test", "src/cmd_test.c:collect_tests"]}
{"id": "C60", "title": "Every selected test is run exactly once and reported", "statement": "Unless fail-fast stops the run, each selected test is started exactly once and exactly one result is recorded for it.", "quantifier": "all test lists and completion schedules", "why_tests_cant": "depends on process completion schedule", "anchors": ["src/cmd_test.c:run_project_tests"]}
{"id": "C61", "title": "Test verdict", "statement": "The test command succeeds exactly when every test's outcome is as expected: exit status 0 or 77 for normal tests, failure for should_fail tests, and a clean TAP stream with exit status 0 for TAP tests.", "quantifier": "all outcomes", "why_tests_cant": "the input space is infinite; a test fixes one input while the claim is about all of them", "anchors": ["src/cmd_test.c:tests_run", "src/cmd_test.c:collect_tests"]}
{"id": "C62", "title": "Saved objects reload unchanged", "statement": "Serialising any object to the build directory and loading it in a fresh process gives a structurally equal object.", "quantifier": "all object values", "why_tests_cant": "the input space is infinite; a test fixes one input while the claim is about all of them", "anchors": ["src/lang/serial.c:serial_dump", "src/lang/serial.c:serial_load"]}
{"id": "C63", "title": "Corrupt dumps are rejected safely", "statement": "Loading a truncated or corrupted dump fails without reading outside the loaded data.", "quantifier": "all byte strings as dump files", "why_tests_cant": "the input space is infinite; a test fixes one input while the claim is about all of them", "anchors": ["src/lang/serial.c:serial_load"]}
{"id": "C64", "title": "No command starts before its inputs are ready", "statement": "A build edge's command is started only after every edge that produces one of its inputs and takes part in the build has finished or was found unnecessary.", "quantifier": "all build graphs and all completion schedules", "why_tests_cant": "schedules and graphs are unbounded", "anchors": ["src/external/samurai/build.c:samu_buildadd", "src/external/samurai/build.c:samu_nodedone"]}
{"id": "C65", "title": "Each command runs at most once per build", "statement": "During one build no edge's command is started twice.", "quantifier": "all build graphs and all completion schedules", "why_tests_cant": "schedules and graphs are unbounded", "anchors": ["src/external/samurai/build.c:samu_build"]}
{"id": "C66", "title": "Job and pool limits are respected", "statement": "At no time are more jobs running than the job limit, nor more jobs of a pool than its depth.", "quantifier": "all build graphs and all completion schedules", "why_tests_cant": "schedules and graphs are unbounded", "anchors": ["src/external/samurai/build.c:samu_queue", "src/external/samurai/build.c:samu_edgedone"]}
{"id": "C67", "title": "A build without failures finishes all out-of-date work", "statement": "If no command fails, the build ends with every out-of-date edge either run or pruned, and none left waiting.", "quantifier": "all acyclic build graphs and all completion schedules", "why_tests_cant": "liveness over schedules", "anchors": ["src/external/samurai/build.c:samu_build"]}
{"id": "C68", "title": "A failed command stops its dependents only", "statement": "No edge depending on a failed edge is started.", "quantifier": "all build graphs, schedules and failure points", "why_tests_cant": "crash/failure points", "anchors": ["src/external/samurai/build.c:samu_jobdone"]}
{"id": "C69", "title": "Out-of-date detection", "statement": "An edge is considered out of date exactly when one of its outputs is missing, older than an input that is not order-only (for restat edges: recorded as made before that input changed), not recorded in the build log or recorded with another command (generator edges are exempt from the last two), when its recorded header dependencies are lost, or when such an input is itself out of date.", "quantifier": "all time stamps and logs", "why_tests_cant": "the input space is infinite; a test fixes one input while the claim is about all of them", "anchors": ["src/external/samurai/build.c:samu_isdirty"]}
{"id": "C70", "title": "The dependency log survives truncation", "statement": "Loading the dependency log after it was cut at any byte recovers exactly the records completely written before that point.", "quantifier": "all logs and all crash points", "why_tests_cant": "quantifies over crash points", "anchors": ["src/external/samurai/deps.c:samu_depsinit", "src/external/samurai/deps.c:samu_depsrecord"]}
{"id": "C71", "title": "The build log survives truncation", "statement": "Loading the build log after it was cut at any byte never attributes a record to a different output.", "quantifier": "all logs and all crash points", "why_tests_cant": "quantifies over crash points", "anchors": ["src/external/samurai/log.c:samu_loginit"]}
{"id": "C72", "title": "Build path canonicalisation", "statement": "samurai's canonical path names the same location lexically, has no '.', empty or inner '..' component, and canonicalising twice changes nothing.", "quantifier": "all paths of at most 60 components", "why_tests_cant": "the input space is infinite; a test fixes one input while the claim is about all of them", "anchors": ["src/external/samurai/util.c:samu_canonpath"]}
{"id": "C73", "title": "Build variable lookup", "statement": "A variable on an edge evaluates to the edge's own binding, else the rule's binding, else the enclosing scopes from inside out; self-referential rule bindings are reported instead of looping.", "quantifier": "all environments", "why_tests_cant": "the input space is infinite; a test fixes one input while the claim is about all of them", "anchors": ["src/external/samurai/env.c:samu_edgevar", "src/external/samurai/env.c:samu_envvar"]}
{"id": "C74", "title": "SHA-256", "statement": "calc_sha_256 computes the FIPS 180-4 SHA-256 digest.", "quantifier": "all messages shorter than 2^61 bytes", "why_tests_cant": "the input space is infinite; a test fixes one input while the claim is about all of them", "anchors": ["src/sha_256.c:calc_sha_256"]}
{"id": "C75", "title": "fs.hash is the hex digest", "statement": "fs.hash(file, 'sha256') returns the 64-digit lowercase hexadecimal SHA-256 of the file.", "quantifier": "all file contents", "why_tests_cant": "the input space is infinite; a test fixes one input while the claim is about all of them", "anchors": ["src/functions/modules/fs.c:func_module_fs_hash"]}
{"id": "C76", "title": "String containment", "statement": "'s'.contains(x) is true exactly when x occurs in s.", "quantifier": "all strings", "why_tests_cant": "the input space is infinite; a test fixes one input while the claim is about all of them", "anchors": ["src/functions/string.c:func_string_contains"]}
{"id": "C77", "title": "Number conversion", "statement": "n.to_string().to_int() is n, and to_int accepts exactly the texts that are an integer with blanks around it.", "quantifier": "all 64-bit numbers and all strings", "why_tests_cant": "the input space is infinite; a test fixes one input while the claim is about all of them", "anchors": ["src/lang/string.c:str_to_i", "src/functions/number.c:func_number_to_string"]}
{"id": "C78", "title": "Generated configuration headers", "statement": "configure_file without a template writes exactly one define or undef line per configuration entry, in the order of the entries, and fails if an entry is not a string, number or boolean.", "quantifier": "all configuration dictionaries and both output formats", "why_tests_cant": "the input space is infinite; a test fixes one input while the claim is about all of them", "anchors": ["src/functions/kernel/configure_file.c:generate_config_iter"]}
{"id": "C79", "title": "Updating one variable leaves the others alone", "statement": "a += e changes the value of no variable but a.", "quantifier": "all programs states and all expressions e", "why_tests_cant": "the input space is infinite; a test fixes one input while the claim is about all of them", "anchors": ["src/lang/interpreter.c:interp_assign", "src/lang/interpreter.c:interp_plusassign"]}
{"id": "C80", "title": "Functions receive the arguments of the call", "statement": "A function defined in a build file receives exactly the values of the argument expressions of the call, in order.", "quantifier": "all argument lists, including nested calls", "why_tests_cant": "the input space is infinite; a test fixes one input while the claim is about all of them", "anchors": ["src/functions/common.c:func_obj_eval", "src/functions/common.c:interp_args"]}
{"id": "C81", "title": "install_mode lists", "statement": "An install_mode of one to three elements sets the mode its first element describes (or keeps the mode for a boolean); any other list is reported as an error.", "quantifier": "all install_mode values", "why_tests_cant": "the input space is infinite; a test fixes one input while the claim is about all of them", "anchors": ["src/install.c:push_install_target"]}
{"id": "C82", "title": "Tests are selected by project and name", "statement": "muon test with arguments of the form name or project:name runs exactly the tests some argument names, in every project.", "quantifier": "all projects, tests and argument lists", "why_tests_cant": "the input space is infinite; a test fixes one input while the claim is about all of them", "anchors": ["src/cmd_test.c:run_project_tests", "src/cmd_test.c:test_matches_cmdline_tests"]}
{"id": "C83", "title": "Failures do not keep independent work from being done", "statement": "When a command fails and more failures are allowed, every out-of-date edge that does not depend on a failed one is still run or found unnecessary.", "quantifier": "all build graphs, schedules and failure points", "why_tests_cant": "crash/failure points", "anchors": ["src/external/samurai/build.c:samu_build", "src/external/samurai/build.c:samu_jobdone", "src/external/samurai/build.c:samu_jobstart"]}
{"id": "C84", "title": "Only what is asked for and out of date is run", "statement": "A command is started only if it belongs to an out-of-date, non-phony edge needed for the requested targets; a dry run starts nothing.", "quantifier": "all build graphs, time stamps and schedules", "why_tests_cant": "schedules and graphs are unbounded", "anchors": ["src/external/samurai/build.c:samu_buildadd", "src/external/samurai/build.c:samu_build"]}
{"id": "C85", "title": "A build is refused exactly for cycles and missing sources", "statement": "Planning a build fails exactly when the edges needed for the targets contain a dependency cycle or a needed file neither exists nor is produced by an edge; once planning succeeded no later step fails for such a reason.", "quantifier": "all build graphs and targets", "why_tests_cant": "graphs are unbounded", "anchors": ["src/external/samurai/build.c:samu_buildadd"]}
{"id": "C86", "title": "Dependencies recorded by one run are what the dependency log holds for the next", "statement": "Whatever the dependency log contained when a run started, after the run has recorded the dependencies of some outputs the log file it leaves behind gives, when it is loaded again, every output recorded in this run exactly the dependencies recorded last for it, and every other output the dependencies it had before.", "quantifier": "all dependency logs a run can start from and all sequences of recordings of one run, of outputs and dependencies with any paths", "why_tests_cant": "the input space is infinite; a test fixes one input while the claim is about all of them", "anchors": ["src/external/samurai/deps.c:samu_depsinit", "src/external/samurai/deps.c:samu_depsrecord", "src/external/samurai/deps.c:recorddeps"]}
{"id": "C87", "title": "Everything in a source set is listed", "statement": "all_sources() and all_dependencies() list everything that was added to a source set and to the sets nested in it, whatever the conditions.", "quantifier": "all source sets and all nestings", "why_tests_cant": "the input space is infinite; a test fixes one input while the claim is about all of them", "anchors": ["src/functions/source_set.c:func_source_set_all_sources", "src/functions/source_set.c:func_source_set_all_dependencies"]}
{"id": "C88", "title": "Environment lists", "statement": "A command run with env: given as a list of 'NAME=value' strings has exactly these variables, the last of several for one name, next to the variables muon sets itself and the inherited ones; a list with a string that has no '=', an empty name or a NUL byte is rejected.", "quantifier": "all lists of strings and all inherited environments", "why_tests_cant": "the input space is infinite; a test fixes one input while the claim is about all of them", "anchors": ["src/coerce.c:coerce_key_value_dict", "src/coerce.c:coerce_environment_from_kwarg", "src/args.c:env_to_envstr", "src/platform/posix/run_cmd.c:run_cmd_internal"]}
{"id": "C89", "title": "Passing an environment does not change it", "statement": "Passing a value as env: changes neither that value nor any other value of the build file.", "quantifier": "all values accepted as env:", "why_tests_cant": "the input space is infinite; a test fixes one input while the claim is about all of them", "anchors": ["src/coerce.c:coerce_environment_from_kwarg"]}
{"id": "C90", "title": "The meaning of required:", "statement": "A look-up with the keyword required: is skipped exactly if it is a disabled feature, and has to succeed exactly if it is true, an enabled feature, or not given.", "quantifier": "all values of required: and of the option auto_features", "why_tests_cant": "the input space is infinite; a test fixes one input while the claim is about all of them", "anchors": ["src/coerce.c:coerce_requirement", "src/lang/object.c:get_obj_feature_opt"]}
{"id": "C91", "title": "Renamed options", "statement": "Setting an option that is deprecated in favour of another one sets the other one to the same string, unless the command line already set it, and is an error if the other one rejects the string.", "quantifier": "all options, strings and sources", "why_tests_cant": "the input space is infinite; a test fixes one input while the claim is about all of them", "anchors": ["src/options.c:check_deprecated_option", "src/options.c:set_option"]}
{"id": "C92", "title": "Configuring a subproject changes its own options only", "statement": "Applying the command line and the default_options of a subproject changes no option of another project and no global option.", "quantifier": "all workspaces, command lines and lists of default options", "why_tests_cant": "the input space is infinite; a test fixes one input while the claim is about all of them", "anchors": ["src/options.c:setup_project_options", "src/options.c:parse_and_set_default_options", "src/options.c:get_option"]}
{"id": "C93", "title": "override_options of a target are the target's own", "statement": "override_options: ['k=v'] gives the target an option k with the value v (unless a stronger source has set k) and changes no option of the project.", "quantifier": "all options and all lists of overrides", "why_tests_cant": "the input space is infinite; a test fixes one input while the claim is about all of them", "anchors": ["src/options.c:parse_and_set_override_options"]}
{"id": "C94", "title": "Yielding options", "statement": "An option declared with yield: true takes the value the option with the same name and type has in the main project, unless a stronger source has set it; all other options keep their values.", "quantifier": "all projects and options", "why_tests_cant": "the input space is infinite; a test fixes one input while the claim is about all of them", "anchors": ["src/options.c:set_yielding_project_options_iter"]}
{"id": "C95", "title": "An option accepts exactly the strings that stand for one of its values", "statement": "A string is accepted for an option exactly if it is a way to write a value of the option's type within its choices and bounds, and then that value is the option's value; otherwise an error is reported and the value stays.", "quantifier": "all options and all strings", "why_tests_cant": "the input space is infinite; a test fixes one input while the claim is about all of them", "anchors": ["src/options.c:coerce_option_override", "src/options.c:set_option", "src/options.c:check_deprecated_option_iter"]}
{"id": "C96", "title": "Lexing stays inside its buffer", "statement": "While a build file is lexed, nothing is written outside the buffer that was allocated for the texts of its tokens.", "quantifier": "all sources, in all modes of the lexer", "why_tests_cant": "the input space is infinite; a test fixes one input while the claim is about all of them", "anchors": ["src/lang/lexer.c:lexer_lex", "src/lang/lexer.c:copy_into_sdata"]}
{"id": "C97", "title": "Lexing ends", "statement": "Lexing any source ends, and the list of tokens ends with the end-of-file token.", "quantifier": "all sources, in all modes of the lexer", "why_tests_cant": "the input space is infinite; a test fixes one input while the claim is about all of them", "anchors": ["src/lang/lexer.c:tokenize", "src/lang/lexer.c:lexer_tokenize_one"]}
{"id": "C98", "title": "A text is read as the tokens it spells", "statement": "A text made of symbols, keywords, identifiers, numbers, strings, format strings, brackets, blanks, comments and newlines lexes to exactly the tokens it spells, with the numbers and strings denoted; newlines are tokens outside of brackets only.", "quantifier": "all such texts", "why_tests_cant": "the input space is infinite; a test fixes one input while the claim is about all of them", "anchors": ["src/lang/lexer.c:lexer_tokenize_one", "src/lang/lexer.c:number", "src/lang/lexer.c:keyword"]}
{"id": "C99", "title": "The parser accepts the programs of the grammar and nothing else", "statement": "A build file is accepted exactly if it is a program of the language's grammar, and then with the structure the grammar gives it, which is the only one; statements without effect and loop control outside loops are rejected.", "quantifier": "all source texts", "why_tests_cant": "the input space is infinite; a test fixes one input while the claim is about all of them", "anchors": ["src/lang/parser.c:parser_parse", "src/lang/parser.c:parse_block", "src/lang/parser.c:parse_line"]}
{"id": "C100", "title": "Parsing ends and does not crash", "statement": "Parsing any source text ends, with a program or with an error.", "quantifier": "all source texts", "why_tests_cant": "the input space is infinite; a test fixes one input while the claim is about all of them", "anchors": ["src/lang/parser.c:parser_parse", "src/lang/parser.c:parse_index"]}
{"id": "C101", "title": "A format string is one value", "statement": "f'...@name@...' denotes the string with the value of name in place of @name@, wherever a string can stand.", "quantifier": "all format strings", "why_tests_cant": "the input space is infinite; a test fixes one input while the claim is about all of them", "anchors": ["src/lang/lexer.c:lex_string_char", "src/lang/parser.c:parse_e6"]}
{"id": "C102", "title": "Dependency files are read as written", "statement": "A dependency file that a compiler writes gives exactly the names of the files that the compiler lists, whatever characters, blanks, continued lines and repeated rules it contains.", "quantifier": "all dependency files that compilers write", "why_tests_cant": "the input space is infinite; a test fixes one input while the claim is about all of them", "anchors": ["src/external/samurai/deps.c:samu_depsparse"]}
{"id": "C103", "title": "Reading a dependency file ends", "statement": "Whatever a dependency file contains, reading it comes to an end, with a list of names or an error.", "quantifier": "all file contents", "why_tests_cant": "the input space is infinite; a test fixes one input while the claim is about all of them", "anchors": ["src/external/samurai/deps.c:samu_depsparse", "src/external/samurai/deps.c:src_getc"]}
{"id": "C104", "title": "Glob patterns select tests", "statement": "An argument of muon test in which * stands for any string selects exactly the tests whose names match it.", "quantifier": "all patterns and test names", "why_tests_cant": "the input space is infinite; a test fixes one input while the claim is about all of them", "anchors": ["src/lang/string.c:str_eql_glob", "src/cmd_test.c:test_matches_cmdline_tests"]}
{"id": "C105", "title": "A build manifest is read as written", "statement": "A build.ninja made of variables, rules, pools, build statements, defaults, comments and blank lines, with continued lines and quoted characters, is read as exactly the edges, variables, pools and default targets its statements describe.", "quantifier": "all manifests without include and subninja, whatever their size, spacing and line ends", "why_tests_cant": "the input space is infinite; a test fixes one input while the claim is about all of them", "anchors": ["src/external/samurai/parse.c:samu_parse", "src/external/samurai/parse.c:parseedge", "src/external/samurai/scan.c:samu_scankeyword"]}
{"id": "C106", "title": "Reading a build manifest ends", "statement": "Whatever a build.ninja contains, reading it comes to an end, with a build graph or an error.", "quantifier": "all file contents", "why_tests_cant": "the input space is infinite; a test fixes one input while the claim is about all of them", "anchors": ["src/external/samurai/parse.c:samu_parse", "src/external/samurai/scan.c:samu_comment"]}
{"id": "C107", "title": "Mistakes in a build manifest are reported", "statement": "A build.ninja in which a rule, pool or output is defined twice, a rule, pool or default target is unknown, a rule has no command, a pool no depth, the pool of an edge is defined in terms of itself, or a newer version is required, is rejected.", "quantifier": "all manifests without include and subninja and all places of the mistake", "why_tests_cant": "the input space is infinite; a test fixes one input while the claim is about all of them", "anchors": ["src/external/samurai/parse.c:parserule", "src/external/samurai/parse.c:parseedge", "src/external/samurai/parse.c:parsepool", "src/external/samurai/parse.c:parsedefault"]}
{"id": "C108", "title": "The build file has one edge for each target", "statement": "The build.ninja written for a project of custom, run and alias targets is read by the build tool as one edge for each target, with exactly the target's outputs, inputs, dependencies, dependency file and pool, and what is built by default are the outputs of the targets that ask for it.", "quantifier": "all workspaces of custom, run and alias targets in any number of projects, with arbitrary names, paths and dependencies", "why_tests_cant": "the input space is infinite; a test fixes one input while the claim is about all of them", "anchors": ["src/backend/ninja.c:ninja_write_build", "src/backend/ninja/custom_target.c:ninja_write_custom_tgt", "src/backend/ninja/alias_target.c:ninja_write_alias_tgt", "src/external/samurai/parse.c:samu_parse"]}
{"id": "C109", "title": "A custom target's command runs with the arguments given", "statement": "When the build tool runs the command of a custom target, the program is started with exactly the arguments and environment variables given in meson.build, with its input taken from the first input file and its output captured in the first output file if asked for.", "quantifier": "all custom targets with arbitrary arguments and environments, in all workspaces", "why_tests_cant": "the input space is infinite; a test fixes one input while the claim is about all of them", "anchors": ["src/backend/ninja/custom_target.c:ninja_write_custom_tgt", "src/backend/ninja/custom_target.c:write_custom_target_dat", "src/main.c:cmd_exe", "src/args.c:join_args_shell_ninja"]}
{"id": "C110", "title": "The build file is made again with the same options", "statement": "build.ninja depends on the files it was made from, and the command that makes it again is muon setup with the source directory, the build directory and the options it was made with.", "quantifier": "all source and build directories, options and lists of build files", "why_tests_cant": "the input space is infinite; a test fixes one input while the claim is about all of them", "anchors": ["src/backend/ninja/rules.c:ninja_write_rules", "src/backend/common_args.c:regenerate_build_command"]}
{"id": "C111", "title": "The command of a custom target is what its placeholders stand for", "statement": "Each argument in the command of a custom target becomes the words it stands for: strings with @INPUT@, @OUTPUTn@, @OUTDIR@ and the other placeholders replaced by paths that lead, from the build directory, to exactly the files and directories meant; files, programs and other targets become paths to them, and the target depends on them. A placeholder that has no meaning for the target is an error.", "quantifier": "all commands, inputs, outputs and directories", "why_tests_cant": "the input space is infinite; a test fixes one input while the claim is about all of them", "anchors": ["src/functions/kernel/custom_target.c:process_custom_target_commandline", "src/functions/kernel/custom_target.c:custom_target_cmd_fmt_iter", "src/functions/kernel/custom_target.c:format_cmd_arg_cb", "src/coerce.c:coerce_executable"]}
{"id": "C112", "title": "Custom targets and generators make the files they name", "statement": "The outputs and the depfile of a custom target or generator lie in the target's directory under the names given, with @BASENAME@ and @PLAINNAME@ replaced; a generator makes one target for each source, in the sub-directory that preserve_path_from asks for; the target is always rebuilt, built by default, captured or fed exactly if asked for.", "quantifier": "all custom_target() calls, generators and lists of sources", "why_tests_cant": "the input space is infinite; a test fixes one input while the claim is about all of them", "anchors": ["src/functions/kernel/custom_target.c:make_custom_target", "src/functions/kernel/custom_target.c:func_custom_target", "src/functions/generator.c:generated_list_process_for_target_iter"]}
{"id": "C113", "title": "Formatting does not change the program", "statement": "muon fmt writes a build file that is read as the same program as before, apart from the order of the arguments of files() and a list around them, whatever the line length, the indentation and the other options are, and with its comments and blank lines wherever these can stand.", "quantifier": "all build files, options and orders that sorting may give to equal elements", "why_tests_cant": "the input space is infinite; a test fixes one input while the claim is about all of them", "anchors": ["src/lang/fmt.c:fmt", "src/lang/fmt.c:fmt_node", "src/lang/fmt.c:fmt_args", "src/lang/fmt.c:fmt_check", "src/lang/fmt.c:fmt_node_wrapped"]}
{"id": "C114", "title": "What a toolchain is passed for a request does not depend on earlier requests", "statement": "The flags passed to a compiler or linker for an optimization level, a warning level, a library or any other request are the same whatever was requested before for other targets.", "quantifier": "all requests to all kinds of compilers and linkers, after all histories of requests", "why_tests_cant": "the input space is infinite; a test fixes one input while the claim is about all of them", "anchors": ["src/compilers.c:COMPILER_ARGS", "src/compilers.c:compiler_gcc_args_optimization", "src/compilers.c:build_compilers", "src/compilers.c:build_linkers"]}
{"id": "C115", "title": "Names reach the command line whole", "statement": "A file, directory, standard, soname, run path or library that is given to a compiler or linker is passed whole, in the spelling of the toolchain.", "quantifier": "all names, toolchains and histories of requests", "why_tests_cant": "the input space is infinite; a test fixes one input while the claim is about all of them", "anchors": ["src/compilers.c:linker_gcc_args_rpath", "src/compilers.c:linker_gcc_args_soname", "src/compilers.c:compiler_gcc_args_set_std", "src/compilers.c:compiler_cl_args_output"]}
{"id": "C116", "title": "The flags of a target are those of its options", "statement": "The base flags of a target are those that its language standard, buildtype, optimization, debug, warning_level, werror and b_ options stand for, followed by the arguments given for its language; every combination of allowed option values gives such flags.", "quantifier": "all toolchains, all values of the options and all sequences of targets", "why_tests_cant": "the input space is infinite; a test fixes one input while the claim is about all of them", "anchors": ["src/backend/common_args.c:get_base_compiler_args", "src/backend/common_args.c:get_buildtype_args", "src/backend/common_args.c:get_warning_args", "src/backend/common_args.c:setup_optional_b_args_compiler"]}
{"id": "C117", "title": "Every source goes where its name says", "statement": "Of the files given as sources of a build target exactly those in a language that is compiled are compiled, each once and in order; libraries are linked, objects are linked as they are, and generated headers and other generated files are made before anything is compiled.", "quantifier": "all lists of source files and all build directories", "why_tests_cant": "the input space is infinite; a test fixes one input while the claim is about all of them", "anchors": ["src/functions/kernel/build_target.c:build_tgt_push_source_files_iter", "src/functions/kernel/build_target.c:process_source_include", "src/functions/file.c:file_is_linkable", "src/compilers.c:filename_to_compiler_language"]}
{"id": "C118", "title": "Objects are named after their sources", "statement": "The object of a source lies in the private directory of its target, under the name that the source has in the directory it is seen from; different sources of a target have different objects.", "quantifier": "all targets and all source files", "why_tests_cant": "the input space is infinite; a test fixes one input while the claim is about all of them", "anchors": ["src/functions/build_target.c:tgt_src_to_object_path"]}
{"id": "C119", "title": "The language that a target is linked as", "statement": "A target with a C++ source or object is linked as C++, whatever else it contains and in whatever order; one with C sources only is linked as C; one without sources that tell is linked as C or C++ if the project has such a compiler.", "quantifier": "all lists of sources, objects and compilers", "why_tests_cant": "the input space is infinite; a test fixes one input while the claim is about all of them", "anchors": ["src/functions/kernel/build_target.c:build_tgt_determine_linker", "src/functions/kernel/build_target.c:determine_linker_from_objects_iter", "src/compilers.c:coalesce_link_languages"]}
{"id": "C120", "title": "Executables and libraries are made from what they depend on", "statement": "The build.ninja written for executables and libraries is read by the build tool as one edge for each source, which makes its object from it, and one edge that makes the target from exactly its objects; each depends on what it is linked with and waits for all generated headers; beside these there are the edges of the custom, run and alias targets, and what is built by default is what asks for it.", "quantifier": "all workspaces of any number of projects, targets and sources", "why_tests_cant": "the input space is infinite; a test fixes one input while the claim is about all of them", "anchors": ["src/backend/ninja/build_target.c:ninja_write_build_tgt", "src/backend/ninja/build_target.c:write_tgt_sources_iter", "src/backend/ninja/rules.c:ninja_write_rules", "src/backend/ninja.c:ninja_write_build"]}
{"id": "C121", "title": "Compilers and linkers run with the flags of the target", "statement": "The command that makes an object is the compiler of the source's language, with exactly the flags of its target, that source and that object, and the file of dependencies is where the build tool looks for it; the command that makes an executable or shared library is the compiler of the target's language with exactly its objects and link flags; the command that makes a static library removes the old one and runs the archiver with exactly its objects.", "quantifier": "all workspaces, with flags and names of files of any characters", "why_tests_cant": "the input space is infinite; a test fixes one input while the claim is about all of them", "anchors": ["src/backend/ninja/rules.c:write_compiler_rule", "src/backend/ninja/rules.c:write_linker_rule_iter", "src/backend/ninja/rules.c:name_compiler_rule_iter", "src/backend/ninja/build_target.c:ninja_write_build_tgt", "src/main.c:cmd_exe"]}
{"id": "C122", "title": "What a target uses reaches it through any chain", "statement": "A build target is linked with, compiled with and waits for exactly what is given to it and what comes through its libraries and dependencies, through any chain of them: a dependency brings its libraries, arguments, include directories, sources, objects and generated headers; a static library brings what it must be linked with; a shared library brings its own directory to search and the generated headers; nothing comes from a dependency that was not found.", "quantifier": "all projects: all sequences of declarations of targets, both_libraries, custom targets, declared, found, missing, partial and system dependencies", "why_tests_cant": "the input space is infinite; a test fixes one input while the claim is about all of them", "anchors": ["src/functions/kernel/dependency.c:dep_process_link_with_iter", "src/functions/kernel/dependency.c:dep_process_deps_iter", "src/functions/kernel/dependency.c:merge_build_deps", "src/functions/kernel/dependency.c:func_declare_dependency", "src/functions/kernel/build_target.c:create_target", "src/functions/dependency.c:func_dependency_partial_dependency"]}
{"id": "C123", "title": "Arguments of dependencies stay together and in order", "statement": "The arguments that a dependency or a static library brings are a contiguous block, in their order, of the arguments of whatever uses it, so that an argument is never separated from the one that belongs to it; a target's own arguments come last; as_system changes only how include directories are given.", "quantifier": "all projects and all arguments other than -pthread", "why_tests_cant": "the input space is infinite; a test fixes one input while the claim is about all of them", "anchors": ["src/functions/kernel/dependency.c:dedup_link_args_iter", "src/functions/kernel/dependency.c:dedup_build_dep", "src/functions/kernel/dependency.c:merge_build_deps", "src/functions/dependency.c:func_dependency_as_system"]}
{"id": "C124", "title": "What a target is compiled with", "statement": "A target is compiled with the flags of its options, then every directory to search that exists, each once, in the given order and by a name that leads to it from the build directory, system directories as such, then the arguments of its dependencies and its own; include_directories() means each directory given, after the one at the same place in the build directory if it lies in the source directory, and fails exactly if one does not exist.", "quantifier": "all toolchains, options, lists of directories and arguments, and all histories of targets", "why_tests_cant": "the input space is infinite; a test fixes one input while the claim is about all of them", "anchors": ["src/backend/common_args.c:setup_compiler_args_iter", "src/backend/common_args.c:setup_compiler_args_includes_iter", "src/coerce.c:coerce_include_dirs", "src/lang/object.c:obj_array_dedup"]}
{"id": "C125", "title": "What a target is linked with", "statement": "A target is linked with the arguments that reach it, the flags of its options and its run paths, then each of its libraries once, in order and by a name that leads to it, those of link_whole wholly and no others, then those found by name; shared libraries are made with their soname.", "quantifier": "all linkers, options, lists of libraries and arguments, and all histories of targets", "why_tests_cant": "the input space is infinite; a test fixes one input while the claim is about all of them", "anchors": ["src/backend/common_args.c:setup_linker_args", "src/backend/common_args.c:setup_optional_b_args_linker", "src/backend/common_args.c:relativize_paths", "src/backend/ninja/build_target.c:ninja_write_build_tgt"]}
{"id": "C126", "title": "The names of shared libraries", "statement": "A shared library is built as <prefix><name>.<suffix> followed by its version or else its soversion, and its soname has the soversion or else the first part of the version, so that all versions that begin alike have the same soname; on Windows the file that is linked is the one that is expected.", "quantifier": "all names, versions, soversions, prefixes and suffixes, and all systems", "why_tests_cant": "the input space is infinite; a test fixes one input while the claim is about all of them", "anchors": ["src/functions/kernel/build_target.c:determine_target_build_name", "src/functions/kernel/build_target.c:setup_soname", "src/functions/kernel/build_target.c:setup_dllname"]}
{"id": "C127", "title": "The names of a shared library lead to it", "statement": "In the build directory, and when installed in the directory where it is installed, the name that one links with and the soname of each shared library lead to its file, whatever was there before and whatever other libraries are declared.", "quantifier": "all sequences of shared libraries in any directories, and all contents of the file system before", "why_tests_cant": "the input space is infinite; a test fixes one input while the claim is about all of them", "anchors": ["src/functions/kernel/build_target.c:setup_shared_object_symlinks", "src/functions/kernel/build_target.c:create_target", "src/install.c:push_install_target_install_dir", "src/platform/posix/filesystem.c:fs_make_symlink", "src/platform/posix/filesystem.c:fs_copy_file"]}
{"id": "C128", "title": "Where data and headers are installed", "statement": "install_data() and install_headers() install exactly the files given, each in the directory asked for or the default one below the prefix, under its own name, the path it was given with (preserve_path) or its new name (rename), with the mode asked for; outputs of custom targets go to their directories except those marked false; a missing file, an ambiguous path or a malformed mode is an error.", "quantifier": "all lists of files, directories, options, modes and names", "why_tests_cant": "the input space is infinite; a test fixes one input while the claim is about all of them", "anchors": ["src/functions/kernel/install.c:func_install_data", "src/functions/kernel/install.c:func_install_headers", "src/functions/kernel/install.c:install_data_rename_iter", "src/install.c:push_install_targets", "src/install.c:push_install_target", "src/coerce.c:coerce_files"]}
{"id": "C129", "title": "Where manual pages are installed", "statement": "install_man() accepts exactly files named <name>.<digit> and installs each in man<digit> below mandir and the locale, or in the directory asked for, under its own name from which the locale is taken off (name.locale.digit).", "quantifier": "all lists of pages, locales, directories and modes", "why_tests_cant": "the input space is infinite; a test fixes one input while the claim is about all of them", "anchors": ["src/functions/kernel/install.c:install_man_iter", "src/functions/kernel/install.c:func_install_man"]}
{"id": "C130", "title": "Where directories and links are installed", "statement": "install_subdir() installs a directory under its own name in the directory asked for, or only its contents with strip_directory; install_symlink() and install_emptydir() make links and directories where asked.", "quantifier": "all names, directories, modes and prefixes", "why_tests_cant": "the input space is infinite; a test fixes one input while the claim is about all of them", "anchors": ["src/functions/kernel/install.c:func_install_subdir", "src/functions/kernel/install.c:func_install_symlink", "src/functions/kernel/install.c:func_install_emptydir", "src/install.c:push_install_target"]}
{"id": "C131", "title": "Where dependencies are looked for", "statement": "dependency() looks for nothing if its feature is disabled; it takes the first of its names that the system has in a suitable version; only if there is none, or fallbacks are forced, it configures the fallback (the one given, the one a wrap file names or the subproject of that name) with its options and takes what that offers; without leave to fall back, or with wrap_mode=nofallback, no subproject is configured; if nothing is found it is an error exactly if the dependency is required.", "quantifier": "all worlds of packages, subprojects and wrap files, all calls and all histories of calls", "why_tests_cant": "the input space is infinite; a test fixes one input while the claim is about all of them", "anchors": ["src/functions/kernel/dependency.c:func_dependency", "src/functions/kernel/dependency.c:get_dependency", "src/functions/kernel/dependency.c:dependency_iter", "src/functions/kernel/dependency.c:handle_dependency_fallback", "src/functions/kernel/subproject.c:subproject"]}
{"id": "C132", "title": "What dependency() returns", "statement": "A dependency that is found is a package of the system with the version the system says, or built in, or offered by the project or a subproject; it has a version that was asked for and the kind of library that was asked for; a required dependency is found or the call fails; the call never aborts.", "quantifier": "all worlds, all calls and all histories of calls and overrides", "why_tests_cant": "the input space is infinite; a test fixes one input while the claim is about all of them", "anchors": ["src/functions/kernel/dependency.c:check_dependency_version", "src/functions/kernel/dependency.c:check_dependency_override", "src/functions/kernel/dependency.c:check_dependency_cache", "src/functions/kernel/dependency.c:get_dependency_pkgconfig", "src/functions/meson.c:func_meson_override_dependency"]}
{"id": "C133", "title": "Looking for a dependency again", "statement": "A dependency that was found is found again by the same call, whatever was done in between, without asking the system or configuring anything; each subproject is configured at most once; what a call finds does not depend on calls with other names.", "quantifier": "all worlds and all histories of calls and overrides", "why_tests_cant": "the input space is infinite; a test fixes one input while the claim is about all of them", "anchors": ["src/functions/kernel/dependency.c:set_dependency_cache_iter", "src/functions/kernel/dependency.c:check_dependency_cache", "src/functions/kernel/subproject.c:subproject"]}
{"id": "C134", "title": "String buffers hold what was pushed", "statement": "A string buffer holds exactly the text that was pushed since it was last cleared, however it was pushed and however often the buffer had to grow; the text is followed by a NUL; nothing is ever written or read outside of the buffer's memory; a buffer that must not grow ends the program before it would overflow; the string it is made into is that text.", "quantifier": "all histories of pushes and clears, of texts below 2 GiB, and all initial buffers", "why_tests_cant": "the input space is infinite; a test fixes one input while the claim is about all of them", "anchors": ["src/lang/string.c:sbuf_grow", "src/lang/string.c:sbuf_push", "src/lang/string.c:sbuf_pushn", "src/lang/string.c:sbuf_pushs", "src/lang/string.c:sbuf_pushf", "src/lang/string.c:sbuf_clear", "src/lang/string.c:sbuf_into_str"]}
{"id": "C135", "title": "Strings are values", "statement": "A string that was made keeps its text for ever, whatever is appended to it or to others later; appending gives a string of both texts and changes no other string; every string is followed by a NUL.", "quantifier": "all histories of making, cloning and appending strings below 2 GiB, other than appending a string to itself", "why_tests_cant": "the input space is infinite; a test fixes one input while the claim is about all of them", "anchors": ["src/lang/string.c:reserve_str", "src/lang/string.c:grow_str", "src/lang/string.c:_make_str", "src/lang/string.c:str_appn", "src/lang/string.c:str_clone_mutable", "src/datastructures/bucket_arr.c:bucket_arr_pushn"]}
{"id": "C136", "title": "What a generated pkg-config file names", "statement": "Libs of a file made by pkgconfig.generate() has exactly the words that link what is given publicly, through any chain of dependencies, each once and without libraries that are wholly part of others, and Libs.private exactly those that are needed privately and not among the former; a library of the project itself comes with the directory where it is installed; Requires and Requires.private name exactly the files of what is linked and those given; Cflags has exactly the words that are given, those of declared dependencies and those that search every subdirectory below the include directory, and none in a file for data only.", "quantifier": "all calls with all trees of targets and dependencies, other than required files whose names begin with a dash", "why_tests_cant": "the input space is infinite; a test fixes one input while the claim is about all of them", "anchors": ["src/functions/modules/pkgconfig.c:func_module_pkgconfig_generate", "src/functions/modules/pkgconfig.c:module_pkgconf_process_libs_iter", "src/functions/modules/pkgconfig.c:module_pkgconf_process_reqs_iter", "src/functions/modules/pkgconfig.c:module_pkgconf_lib_to_lname", "src/functions/modules/pkgconfig.c:module_pkgconf_remove_dups"]}
{"id": "C137", "title": "Variables of pkg-config files are declared and mean their directories", "statement": "Every directory variable that a generated file refers to is declared in it, whatever files were generated before; read as pkg-config reads it, prefix, libdir and includedir are the directories of the installation, and each variable given is the text given with the directory it refers to.", "quantifier": "all histories of calls and all values of the directory options", "why_tests_cant": "the input space is infinite; a test fixes one input while the claim is about all of them", "anchors": ["src/functions/modules/pkgconfig.c:module_pkgconf_declare_var", "src/functions/modules/pkgconfig.c:module_pkgconf_declare_builtin_dir_var", "src/functions/modules/pkgconfig.c:module_pkgconf_process_vars", "src/functions/modules/pkgconfig.c:func_module_pkgconfig_generate"]}
{"id": "C138", "title": "What the fs functions make of paths", "statement": "fs.name() is the last name of the place a path leads to and fs.stem() that name without its ending, fs.parent() leads to the directory that holds it, fs.replace_suffix() leads to the file beside it that has the new ending, fs.as_posix() writes the path with slashes.", "quantifier": "all paths as strings or files from all directories; the stem of names that begin with their only dot, the parent of paths that end above where they began, names without an ending in directories with one and doubled backslashes are not as said", "why_tests_cant": "the input space is infinite; a test fixes one input while the claim is about all of them", "anchors": ["src/functions/modules/fs.c:func_module_fs_name", "src/functions/modules/fs.c:func_module_fs_stem", "src/functions/modules/fs.c:func_module_fs_parent", "src/functions/modules/fs.c:func_module_replace_suffix", "src/functions/modules/fs.c:func_module_as_posix"]}
{"id": "C139", "title": "Which file the fs functions mean", "statement": "Every function of the fs module that looks at a file looks at the place that the path given leads to from the directory of the build file, whatever directory muon was started in; fs.is_samepath() is whether two paths lead to the same place; a tilde stands for the home directory; paths that are empty or have a NUL are errors, and no path makes muon abort.", "quantifier": "all paths, directories of build files and home directories; what follows a tilde and paths that climb above the root are not as said", "why_tests_cant": "the input space is infinite; a test fixes one input while the claim is about all of them", "anchors": ["src/functions/modules/fs.c:fix_file_path", "src/functions/modules/fs.c:func_module_fs_lookup_common", "src/functions/modules/fs.c:func_module_fs_is_samepath", "src/functions/modules/fs.c:func_module_fs_expanduser"]}
{"id": "C140", "title": "The rpaths of installed files", "statement": "When a file is installed its list of rpaths becomes the list of the entries that do not lie in the build directory, in their order; nothing but the list changes; it is found to be empty exactly if no entry is left.", "quantifier": "all lists of rpaths at all places of all files and all build directories; lists of which two or more entries stay and entries of 4096 bytes are not as said", "why_tests_cant": "the input space is infinite; a test fixes one input while the claim is about all of them", "anchors": ["src/platform/posix/rpath_fixer.c:remove_paths"]}
{"id": "C141", "title": "What installing changes in a file", "statement": "Installing a built file changes nothing in it but its list of rpaths and, if that becomes empty, the dynamic entry for it; its length never changes; files that are not ELF files and ELF files without rpaths are not changed at all.", "quantifier": "all files; the effects for ELF files of 64 bits with at most one list of rpaths; files with both kinds of lists and files without a dynamic section are not as said", "why_tests_cant": "the input space is infinite; a test fixes one input while the claim is about all of them", "anchors": ["src/platform/posix/rpath_fixer.c:fix_rpaths", "src/platform/posix/rpath_fixer.c:remove_path_entry", "src/platform/posix/rpath_fixer.c:parse_elf", "src/platform/posix/rpath_fixer.c:parse_elf_sections", "src/platform/posix/rpath_fixer.c:parse_elf_dynamic"]}
{"id": "C142", "title": "What a wrap file may say", "statement": "A wrap file is accepted exactly if it has no sections but wrap-file, wrap-git and provide, at most one of the first two, its fields are documented ones and none is given twice, and they fit the kind of wrap and each other; each field then has the value that is given, and the wrap is of the kind that is given.", "quantifier": "all wrap files, as the lines that the reader of ini files gives; a file without a kind is not as said", "why_tests_cant": "the input space is infinite; a test fixes one input while the claim is about all of them", "anchors": ["src/wrap.c:wrap_parse_cb", "src/wrap.c:validate_wrap", "src/wrap.c:wrap_parse"]}
{"id": "C143", "title": "What is fetched for a subproject is checked", "statement": "An archive is unpacked only if it is the local file of its name or was downloaded from its url, and only if its SHA-256 is the hash that the wrap file gives, if it gives one; nothing is downloaded or cloned unless allowed, and nothing that is there locally; a repository is cloned and checked out at the revision given before anything is patched; a subproject that is there is left alone.", "quantifier": "all wrap files, contents of the network and the file system, outcomes of all commands and all archives below 2^61 bytes; texts that are not hexadecimal and wrap-files without a source are not as said", "why_tests_cant": "the input space is infinite; a test fixes one input while the claim is about all of them", "anchors": ["src/wrap.c:checksum", "src/wrap.c:checksum_extract", "src/wrap.c:fetch_checksum_extract", "src/wrap.c:wrap_download_or_check_packagefiles", "src/wrap.c:wrap_handle", "src/wrap.c:wrap_handle_git", "src/wrap.c:wrap_handle_file", "src/wrap.c:wrap_apply_patch"]}
{"id": "C144", "title": "Which patches are applied to a subproject", "statement": "The patches that are applied are exactly those that diff_files lists between commas and blanks, in their order, from packagefiles, to the directory of the subproject; the memory behind the list is never read.", "quantifier": "all lists of names; names of one character after the first and empty lists are not as said", "why_tests_cant": "the input space is infinite; a test fixes one input while the claim is about all of them", "anchors": ["src/wrap.c:wrap_apply_diff_files"]}
{"id": "C145", "title": "What wrap files provide", "statement": "The wrap files of a project are loaded exactly if each is acceptable and no line of its section [provide] is without a key or a value; for every dependency and program there is then exactly what the last wrap file that mentions it says: that wrap, and the variable if one is given; for names that one wrap mentions this does not depend on the order in which files are listed.", "quantifier": "all directories of subprojects with all wrap files; for names that several wraps mention it depends on the order", "why_tests_cant": "the input space is infinite; a test fixes one input while the claim is about all of them", "anchors": ["src/wrap.c:wrap_parse_provides_cb", "src/wrap.c:wrap_load_all_iter", "src/wrap.c:wrap_load_all_provides", "src/lang/string.c:str_split_strip"]}
{"id": "C146", "title": "Which program find_program() finds", "statement": "find_program() finds, for the first of its names for which there is anything, the program the project overrides it with, else the first that is there of the files in the directories given, the file beside the build file and the executables in PATH or at that path, else, if it is required, what the subproject that provides it overrides it with, for which that subproject is configured once, else muon itself as samu; a version that is asked for is met by what is found; if nothing is found it is an error exactly if the program is required; without leave to fall back nothing is configured; the call never aborts.", "quantifier": "all names, directories, versions, contents of the file system, overrides, subprojects and values of PATH; a program behind one of the same name whose version is not what is asked for, overrides of unknown version, installations of python and the empty name are not as said", "why_tests_cant": "the input space is infinite; a test fixes one input while the claim is about all of them", "anchors": ["src/functions/kernel.c:find_program", "src/functions/kernel.c:find_program_check_override", "src/functions/kernel.c:find_program_check_fallback", "src/functions/kernel.c:func_find_program", "src/platform/posix/filesystem.c:fs_find_cmd", "src/functions/meson.c:func_meson_override_find_program"]}
{"id": "C147", "title": "The version a program says it has", "statement": "The version that is read from what a program prints is, of all words of digits and dots in it, the first of those with the most dots; none is read exactly if there is no dot; it is a version number.", "quantifier": "all texts; dots alone are taken for a version", "why_tests_cant": "the input space is infinite; a test fixes one input while the claim is about all of them", "anchors": ["src/guess.c:guess_version"]}
{"id": "C148", "title": "Which subprojects are configured and found", "statement": "subproject() finds the project in the directory of that name among the subprojects, or where its wrap file puts it, if its meson.build and everything that it requires succeeds and its version is what is asked for, and its variables are those that it set; it is configured once, and found again by every later call; a required subproject is found or the call fails, an optional one never makes it fail, and nothing is configured for a disabled feature; get_variable() is the variable, else the fallback, else an error.", "quantifier": "all trees of projects, file systems and outcomes of wrap files, and all histories of calls; versions of optional subprojects and of those found before, failing and circular subprojects and disabled features of subprojects that were found are not as said", "why_tests_cant": "the input space is infinite; a test fixes one input while the claim is about all of them", "anchors": ["src/functions/kernel/subproject.c:subproject", "src/functions/kernel/subproject.c:subproject_prepare", "src/functions/kernel/subproject.c:func_subproject", "src/functions/subproject.c:subproject_get_variable", "src/lang/eval.c:eval_project"]}
{"id": "C149", "title": "Arguments for all targets", "statement": "What is added to the command lines of a project for a language are the words that calls in the main project gave to all projects, then those that the project itself gave, in the order of the calls and as often as the language was named, and nothing that other projects or languages were given; a call is accepted exactly if all languages are known and those for all projects come from the main project.", "quantifier": "all histories of calls by all projects; unknown languages of add_project_dependencies() are not refused", "why_tests_cant": "the input space is infinite; a test fixes one input while the claim is about all of them", "anchors": ["src/functions/kernel.c:add_arguments_common", "src/functions/kernel.c:func_add_project_dependencies", "src/functions/kernel.c:func_add_global_arguments", "src/compilers.c:s_to_compiler_language", "src/backend/common_args.c"]}
