# Formal model of muon (annacrombie/muon) in Rocq/Coq

## What this is
A machine-checked model, in Coq 8.16.1, of the parts of muon whose behaviour users rely on for
*every* input, history or schedule.  `properties.jsonl` lists the claims (C01...), `MANIFEST.json`
maps each claim to the theorems that settle it, `seeded/LOG.jsonl` records the seeded bugs the
theorems were tested against, and this file says how everything was done and what is trusted.

## Layout (rocq/theories)
* `Base.v`            – bytes, strings and small list lemmas shared by everything.
* `M_<area>.v`        – *models*: Gallina transcriptions of C functions, one definition per C
                        function (or loop), each with a comment citing file and lines. No proofs.
* `S_<area>.v`        – *specifications*: short definitions independent of the model, written
                        from the English property.
* `L_<area>.v`        – lemmas and proofs.
* `P_<area>.v`        – *property theorems*, with the non-vacuity `Example` next to each and
                        `Print Assumptions` under it.

## Modelling conventions
* A C `char` buffer is a `list ascii`; a C string additionally has no NUL inside (stated where needed).
* Machine integers are unbounded `Z`/`nat`/`N` unless wrap-around matters, in which case `mod 2^32`
  or `2^64` is written out.
* Undefined behaviour, a read or write outside of an object, and an `assert`/`UNREACHABLE` are distinct
  outcomes of the model, never silently totalised.
* Loops become structural recursion, or recursion on explicit fuel; running out of fuel is a
  distinct outcome and the theorems exclude it (or exhibit it, when the C loop really diverges).
* Heap structures that matter (hash slots, linked arrays, AVL trees, arenas) are modelled as such,
  with indices as pointers; purely functional data otherwise.
* Concurrency (the build scheduler, the test runner) is a transition system whose environment
  (which job ends next, with which result, what is on disk) is arbitrary; theorems are about every
  run of it.

## Names of theorems
* `Cnn_something` – the property, or a part of it, without exception.
* `Cnn_something_partial` – proved under a hypothesis that the English property does not have; the
  MANIFEST note says what is missing.  In nearly all cases the hypothesis is missing because the
  property is *false* of the code without it:
* `Cnn_..._refuted` – a concrete witness, evaluated in the model, that the property fails.  These are
  findings about muon, listed below.
* `Cnn_exclusions_are_needed` – the same when the English statement itself lists the exclusions.

## How each property is modelled and proved
| Claims | Area | What is modelled | How it is proved |
|---|---|---|---|
| C01-C07 | paths | `_path_normalize` char by char (processed prefix / rest), push/join/relative/subpath/basename/dirname | refinement to component lists |
| C08-C10 | versions | `rpmvercmp` as the two-pointer scan; `version_compare` operators | segment-list order, equality of scan and list order |
| C11-C12 | hash table | slots array with metadata bytes, linear probing, tombstones, resize; the hash function is a parameter of every theorem | invariant + refinement to finite map over histories |
| C13-C15 | samurai htab/tree/arena | open addressing, AVL rotations, bump allocator | invariants by induction over histories |
| C16 | bucket arrays | bucket list with save/restore | refinement to lists |
| C17 | substring search | `memmem.c` completely: word-sized windows, byte table, maximal suffixes, two-way search | loop invariants; maximal suffixes, periods and critical factorisation over arbitrary words |
| C18-C25, C76 | strings | split/join, replace, strip, format, substring, case, glob | equality with declarative specs; counterexamples where the code deviates |
| C22, C40, C77 | formatting, numbers | `str_format`, `strtol`, index checks | declarative specs |
| C26-C29 | escaping | escape functions, samurai scanner, a small POSIX-shell word reader, argv/env flattening | round trips |
| C30-C32, C78 | configure_file, configuration data | `substitute_config` scan; header writer; set_quoted/get_unquoted | declarative segment spec; round trips; counterexamples |
| C33-C35 | formats | tap, lines, ini | counting specs, printers and round trips |
| C36-C39, C79 | objects | array/dict heap with ids, equality, aliasing | refinement over histories; counterexamples |
| C41-C45, C80 | interpreter | evaluation of expressions, assignment, if, foreach, functions, calls, disablers | monotone fuel semantics; effect and scope invariants |
| C46-C48, C96-C101 | lexer and parser | `lexer.c`, `parser.c` with the buffer and the token stream | independent grammar of texts and of token sequences; soundness, completeness, uniqueness, printing and reading back |
| C49, C50 | types and arguments | type tags, compound types, `interp_args` | equality with a declarative binding relation |
| C51-C54, C90-C95 | options, features | `options.c` with renames, deprecations, overrides, yields; feature methods | invariants over histories of settings |
| C55, C88, C89 | environments | actions, coercion, delivery to the command | replay semantics |
| C56, C87 | source sets | rules heap, apply, all_sources | declarative selection; counterexamples |
| C57, C58, C81 | install | `rwx_to_perm`, `install_run` over an abstract file system | exhaustive case proof, fold invariants |
| C59-C61, C82 | tests | test scheduler as a transition system, verdicts, selection | invariants over all schedules |
| C62-C63 | serialisation | byte layout of dump/load, `obj_clone` | round trip; counterexamples for corrupt input |
| C64-C69, C83-C85 | build scheduler | `build.c` as a transition system, dirtiness, pools, failures | invariants over all schedules |
| C70, C71, C86 | logs | `.ninja_deps` and `.ninja_log` down to the bytes, every cut point | parsing of prefixes; rewriting |
| C72, C73 | build paths and variables | canonpath, environments, rule variables | component lists; declarative lookup |
| C74-C75 | sha-256 | the C algorithm with rolling schedule vs FIPS text | equality |
| C102, C103 | dependency files | `samu_depsparse` with its character source | independent grammar of make rules and of escaped names; a measure for termination; counterexamples |
| C104 | globs | `str_eql_glob` with its match lengths and jumps | equality with declarative matching for at most one star; counterexamples for more |
| C105, C106, C107 | build manifests | `samu_parse` with the whole of scan.c except include and subninja | independent grammar and meaning of manifests; refinement statement by statement; the number of line ends as measure |
| C108, C109, C110 | the build file | `ninja_write_build` for custom, run and alias targets, `regenerate_build_command`, `cmd_exe` with getopt | composition with the manifest reader (C105), path theorems (C05), shell words (C27) and argument strings (C29); independent description of edges; counterexamples |
| C111, C112 | custom targets and generators | `process_custom_target_commandline`, `make_custom_target`, `func_custom_target`, generators | independent relation of placeholders to paths and of paths to places; both directions for commands; counterexamples |
| C113 | the formatter | `fmt` from the syntax tree to the text, with dry runs, line breaking, comments, sorting and all options | the written text is shown to spell tokens (S_Lexer.source) that derive the program in the parser's grammar; composition with the parser (C46, C99); counterexamples |
| C114, C115, C116 | compiler and linker flags | every argument function of `compilers.c` with its static variables, the three tables, `get_base_compiler_args` | invariant of the static variables over all histories; exact characterisation of the requests that break it; independent tables of spellings and of the flags of options |
| C117, C118, C119 | sources of build targets | `build_tgt_push_source_files_iter`, `tgt_src_to_object_path`, `build_tgt_determine_linker`, `coalesce_link_languages` | independent conditions on names; induction over the list of sources; path theorems; counterexamples |
| C120, C121 | the build file for executables and libraries | `ninja_write_rules` with the naming of rules, `ninja_write_build_tgt`, `write_tgt_sources_iter`, `ninja_write_build` for all kinds of targets | the file is shown to spell statements of S_Manifest, whose meaning the reader of C105 finds; independent words of commands, split by the shell of S_Escape; counterexamples |
| C122, C123 | what targets take from what they use | `declare_dependency`, `dep_process_link_with`, `dep_process_link_whole`, `dep_process_deps`, `merge_build_deps`, `dedup_build_dep`, `create_target`, `partial_dependency`, `as_system` | an inductive relation over declarations says what reaches a target; invariant over all histories that the lists have exactly this; contiguous blocks are kept by every step |
| C124, C125 | command lines of compilers and linkers | `coerce_include_dirs`, `setup_compiler_args_iter`, `setup_compiler_args_includes_iter`, `setup_linker_args`, `setup_optional_b_args_linker`, the shared library part of `ninja_write_build_tgt` | independent tables of words and a relation between directories and words; the invariant of C114 for all histories; path theorems; counterexamples |
| C126, C127 | names of and links to shared libraries | `determine_target_build_name`, `setup_soname`, `setup_dllname`, `setup_shared_object_symlinks`, the installation of links | a file system as a function of places and an inductive relation that follows links; induction over the declarations; counterexamples |
| C128, C129, C130 | where installed files go | the install functions, `push_install_target(s)`, `coerce_files` | destinations as lists of directory names passed through; acceptance characterised exactly; joined with C58 for what is copied; counterexamples |
| C131, C132, C133 | the search for dependencies | `func_dependency` and what it calls (`functions/kernel/dependency.c` 53-690), `subproject`, `override_dependency` | a world of packages and subprojects and a log of what is asked and configured; invariants over all histories of calls; lookups of new names computed; counterexamples |
| C134, C135 | string buffers and strings | `sbuf_*`, `reserve_str`, `grow_str`, `_make_str`, `str_appn`, `str_clone_mutable` (`lang/string.c` 72-250, 545-759) | memory as lists of bytes of the size asked for, writes outside of it an outcome of its own; invariants over all histories; counterexamples for all texts of a length |
| C136, C137 | generated pkg-config files | `func_module_pkgconfig_generate` and what it calls (`functions/modules/pkgconfig.c` 24-640, 711-917) | libraries as trees and an inductive relation of what they bring; nested induction; an independent reader of the variables; an invariant over all histories of calls; counterexamples |
| C138, C139 | the paths of the fs module | `fix_file_path` and the functions of `functions/modules/fs.c` that make paths of paths (22-399) | the place a path leads to as the specification; the theorems about normalisation; computed endings; counterexamples |
| C140, C141 | the rpaths of installed files | `fix_rpaths` and what it calls (`platform/posix/rpath_fixer.c` 31-362) | a file as bytes and a position; a frame invariant of the loop over the characters; ELF files of 64 bits described by the numbers at their offsets; counterexamples |
| C142, C143, C144 | wrap files | `wrap_parse_cb`, `validate_wrap`, `checksum`, `wrap_handle` and what it calls (`wrap.c` 26-692) | lines of ini files; the world (network, file system, commands) as any function of what was done before; an invariant over everything that is done; the theorem about SHA-256; counterexamples |
| C145 | what wrap files provide | `wrap_parse_provides_cb`, `wrap_load_all_provides` (`wrap.c` 124-220, 690-763) | an invariant over the lines and the files: tables refine lists of declarations of which the last counts; the theorems about splitting and stripping; permutations |
| C146, C147 | programs | `func_find_program`, `find_program` and what it calls (`functions/kernel.c` 475-812), `fs_find_cmd` (`platform/posix/filesystem.c` 363-412), `guess_version` (`guess.c` 13-47) | the file system, PATH, the versions programs say and what subprojects override as any functions; the search refined to the first of a list of places; induction over the names; words of a text; counterexamples |
| C148 | subprojects | `subproject`, `subproject_prepare` (`functions/kernel/subproject.c` 18-207), `subproject_get_variable` (`functions/subproject.c` 14-66), `eval_project` (`lang/eval.c` 25-78) | projects as trees of calls, evaluated with fuel whose exhaustion is an outcome of its own; what is found is kept by every history (induction over fuel and calls); where a subproject is as a relation; counterexamples, one of them for every fuel |
| C149 | arguments for all targets | `add_arguments_common` and the functions that use it, `add_project_dependencies` (`functions/kernel.c` 247-427), `s_to_compiler_language` (`compilers.c` 75-107), where they are used (`backend/common_args.c`) | an invariant over histories of calls: each dictionary holds what the calls so far gave; counterexamples |

## What is modelled
Every definition in an `M_` file cites the C lines it models and says where it simplifies.

* `M_Addargs.v` (20 definitions): Model of the arguments for all targets: add_project_arguments() and the like (src/functions/kernel.c 247-427), the names of languages (src/compilers.c 75-107) and the use that is made of them when command lines are made (src/backend/common_args.c 339-351, 386-388, 591-601).
* `M_Arena.v` (24 definitions): Models of samurai's arena (src/external/samurai/util.c 98-146) and of the bucket arrays (src/datastructures/bucket_arr.c).
* `M_Array.v` (50 definitions): Model of the language's arrays, src/lang/object.c 493-1041.
* `M_Backend.v` (36 definitions): Model of the build file that muon writes for projects made of custom, run and alias targets (src/backend/ninja.c, src/backend/ninja/rules.c, custom_target.c and alias_target.c, the path and argument helpers of src/backend/common_args.c and src/args.c), and of the command that runs them, muon internal exe (src/main.c).
* `M_Build.v` (48 definitions): Model of the build scheduler of the bundled ninja implementation: src/external/samurai/build.c lines 32-525, with the data structures of include/external/samurai/ctx.h lines 67-171.
* `M_Canon.v` (5 definitions): Model of samu_canonpath (src/external/samurai/util.c 229-287).
* `M_Compile.v` (62 definitions): Model of how muon sorts the sources of a build target and names their objects (src/compilers.c 74-184, src/functions/kernel/build_target.c 76-239, src/functions/build_target.c 21-80), and of the build file it writes for projects with build targets (src/backend/ninja/rules.c, build_target.c) beside custom, run and alias targets (M_Backend).
* `M_Config.v` (18 definitions): Model of configuration files: src/functions/kernel/configure_file.c 50-351 and src/functions/configuration_data.c 15-155.
* `M_Custom.v` (34 definitions): Model of how a custom target is made: src/functions/kernel/custom_target.c, with coerce_executable (src/coerce.c 233-280), the output mode of coerce_into_file (src/coerce.c 384-393), the generators of src/functions/generator.c 52-175 and func_run_target (src/functions/kernel.c 1092-1139).
* `M_Depfile.v` (14 definitions): Reading the dependency files that compilers write: src/external/samurai/deps.c 140-153, 345-475.
* `M_Deps.v` (34 definitions): The dependency log .ninja_deps: src/external/samurai/deps.c.
* `M_Dest.v` (27 definitions): Model of where the install functions put files: functions/kernel/install.c (install_subdir, install_man, install_symlink, install_emptydir, install_data, install_headers), install.c 82-258 (push_install_target, push_install_targets) and the part of coerce.c 345-480 that turns strings into files.
* `M_Dict.v` (35 definitions): Model of the language's dictionaries, src/lang/object.c 1043-1438.
* `M_Env.v` (12 definitions): Model of build variables: src/external/samurai/env.c (the search trees are modelled in M_Tree, parsed strings and the quoting of paths in M_Escape).
* `M_Environ.v` (30 definitions): Environment objects and how they reach a command: src/functions/environment.c, src/coerce.c 21-122, src/args.c 293-327, src/platform/posix/run_cmd.c 284-307.
* `M_Escape.v` (47 definitions): Model of argument escaping (src/args.c, src/platform/posix/path.c), of the build file writer's use of it (src/backend/ninja), and of the build tool's scanner (src/external/samurai/scan.c) that reads the text back.
* `M_Feature.v` (19 definitions): Feature options: src/functions/feature_opt.c, src/lang/object.c 136-163, src/options.c 175-194, src/coerce.c 282-319.
* `M_Findprog.v` (29 definitions): Model of find_program() (src/functions/kernel.c 475-812), of looking for commands (src/platform/posix/filesystem.c 363-412) and of guessing versions (src/guess.c 13-47).
* `M_Flags.v` (16 definitions): Model of the arguments of compilers and linkers beside those of options: include directories, arguments of dependencies, of targets, of libraries (src/backend/common_args.c 200-245, 346-625, 640-676; src/backend/ninja/build_target.c 147-150, 184-218; src/coerce.c 533-611).
* `M_Fmt.v` (69 definitions): The formatter of build files: src/lang/fmt.c 25-993, 1149-1151, from the syntax tree that the parser makes in the formatter's mode (pm_keep_formatting, without pm_functions: no function definitions and no types of arguments) to the text.
* `M_Format.v` (24 definitions): Model of string formatting: src/functions/string.c 79-212, and of the number parsing it uses (src/lang/string.c 394-419) and of index checks (src/lang/interpreter.c 63-82).
* `M_Formats.v` (23 definitions): Model of line iteration, TAP and ini parsing: src/formats/{lines,tap,ini}.c.
* `M_Fs.v` (16 definitions): Model of the path functions of the fs module (src/functions/modules/fs.c).
* `M_Glob.v` (5 definitions): Glob patterns of muon test: src/lang/string.c 258-308.
* `M_Hash.v` (33 definitions): Model of src/datastructures/hash.c.
* `M_Htab.v` (24 definitions): Model of src/external/samurai/htab.c.
* `M_Install.v` (30 definitions): Model of src/install.c (install_mode) and src/cmd_install.c (muon install).
* `M_Interp.v` (89 definitions): Model of the interpreter's core: src/lang/interpreter.c, the calling convention of src/functions/common.c, obj_equal (src/lang/object.c 395-491) and the kernel functions about variables, disablers and ranges (src/functions/kernel.c).
* `M_Lexer.v` (52 definitions): The lexer of build files: src/lang/lexer.c.
* `M_Link.v` (33 definitions): Model of what build targets and dependencies take from what they use: libraries to link with, arguments, include directories, generated headers, sources (src/functions/kernel/dependency.c 697-1197 declare_dependency, dep_process_*; src/functions/dependency.c 254-338 partial_dependency, as_system; src/functions/kernel/build_target.c 453-825 create_target).
* `M_Log.v` (16 definitions): The build log .ninja_log: src/external/samurai/log.c.
* `M_Lookup.v` (37 definitions): Model of how dependency() finds a dependency: functions/kernel/dependency.c 53-690 (func_dependency, dependency_iter, handle_special_dependency, get_dependency, handle_dependency_fallback, get_dependency_pkgconfig), subproject() (functions/kernel/subproject.c 83-169) as it is used for fallbacks, and meson.override_dependency (functions/meson.c 239-278).
* `M_Manifest.v` (31 definitions): Reading a build manifest: src/external/samurai/parse.c, with the rest of scan.c (the scanning of names, strings and paths is in M_Escape, variables in M_Env, search trees in M_Tree, paths in M_Canon).
* `M_Memmem.v` (23 definitions): Substring search: src/memmem.c.
* `M_Names.v` (23 definitions): Model of the names of build targets, the sonames of shared libraries and the symbolic links that are made and installed for them (src/functions/kernel/build_target.c 295-451, 702-720, 760-788; src/install.c 139-151; src/platform/posix/filesystem.c 294-309).
* `M_Options.v` (50 definitions): Project options: src/options.c, src/functions/kernel/options.c 18-235.
* `M_Parser.v` (67 definitions): The parser of build files: src/lang/parser.c, without the formatter's mode (pm_keep_formatting) and without function definitions (pm_functions).
* `M_Path.v` (25 definitions): Model of src/platform/path.c (POSIX build: src/platform/posix/path.c).
* `M_Pkgconf.v` (45 definitions): Model of pkgconfig.generate() (src/functions/modules/pkgconfig.c).
* `M_Provides.v` (11 definitions): Model of what wrap files provide: src/wrap.c 124-220, 690-763.
* `M_Rpath.v` (27 definitions): Model of how the rpaths of installed files are fixed (src/platform/posix/rpath_fixer.c).
* `M_Sbuf.v` (37 definitions): Model of string buffers (src/lang/string.c 545-759) and of the memory of strings (src/lang/string.c 72-250, src/datastructures/bucket_arr.c 94-126).
* `M_Serial.v` (67 definitions): Saving objects to files and loading them: src/lang/serial.c, and src/lang/object.c 1474-1697 obj_clone.
* `M_Sha.v` (23 definitions): SHA-256: src/sha_256.c, and the hash method of the fs module, src/functions/modules/fs.c.
* `M_SourceSet.v` (41 definitions): Source sets: src/functions/source_set.c.
* `M_Str.v` (29 definitions): Models of the string methods: src/lang/string.c and src/functions/string.c.
* `M_Subproject.v` (13 definitions): Model of subproject() (src/functions/kernel/subproject.c 18-207), of the objects it returns (src/functions/subproject.c 14-66) and of the configuring of projects in projects (src/lang/eval.c 25-78).
* `M_Test.v` (32 definitions): Model of the test runner: src/cmd_test.c.
* `M_Toolchain.v` (81 definitions): Model of the tables of compiler and linker arguments (src/compilers.c 596-1585) and of the flags that a target's options stand for (src/backend/common_args.c 29-195, 248-345).
* `M_Tree.v` (17 definitions): Model of src/external/samurai/tree.c: AVL trees with string keys.
* `M_Types.v` (56 definitions): Type checking: src/lang/typecheck.c, include/lang/typecheck.h, and the arguments of functions: src/functions/common.c 68-707.
* `M_Version.v` (11 definitions): Model of src/rpmvercmp.c and the version_compare functions of src/functions/string.c.
* `M_Wrap.v` (41 definitions): Model of wrap files (src/wrap.c): what they may say, and how a subproject is fetched.

Not modelled, and so not covered by any theorem:
* process creation and pipes (`platform/posix/run_cmd.c` apart from the argument and environment
  vectors), the file system calls themselves, time, terminals, downloads and archives
  (`external/*` apart from samurai), Windows code;
* the static analyser (`lang/analyze.c`), the formatter's reading of its syntax tree (the parser's and lexer's mode keep_formatting) and of its configuration, the language server, and the
  `muon` sub-commands apart from test and install;
* compiler detection (`compilers.c` 188-595) and the checks made with compilers (`functions/compiler.c`),
  the reading of installed pkg-config files;
* Visual Studio and Xcode output;
* error messages, warnings and source locations;
* the capacity limits of fixed-size tables and of memory, unless a property mentions them.

The build graph given to the scheduler is the parsed manifest; of samurai's manifest parser only `include`
and `subninja` are not modelled (C105-C107).
Of the writer of build files the other files it writes are not modelled (compile_commands.json, tests, install and summary data).

## Status of each property
| Property | Status | Theorems |
|---|---|---|
| C01 Path normalisation is canonical and keeps the named location | proved | `C01_normalize_canonical`, `C01_normalize_same_iff`, `C01_normalize_idempotent` |
| C02 Optimising normalisation resolves '..' lexically | proved | `C02_optimize_lexical` |
| C03 Joining paths | proved | `C03_join_location`, `C03_join_assoc`, `C03_join_empty_tail`, `C03_join_paths` |
| C04 A relative path leads back to its target | proved | `C04_relative_leads_back` |
| C05 Subpath test is component-prefix | partial | `C05_is_subpath_prefix_partial`, `C05_dot_base_refuted` |
| C06 Basename and dirname decompose a path | proved | `C06_dirname_basename`, `C06_no_component` |
| C07 DESTDIR confines installation | proved | `C07_destdir_confined` |
| C08 Version comparison is a total preorder | proved | `C08_range`, `C08_reflexive`, `C08_antisymmetric`, `C08_transitive` |
| C09 Version comparison follows the documented segment rule | proved | `C09_segment_rule` |
| C10 version_compare operators agree with the order | partial | `C10_requirement`, `C10_requirements_partial`, `C10_empty_list_refuted` |
| C11 The hash table behaves as a finite map | partial | `C11_finite_map`, `C11_iteration`, `C11_string_keys_partial`, `C11_nul_keys_refuted` |
| C12 Hash table probing always terminates | partial | `C12_probing_terminates`, `C12_string_hash_partial`, `C12_string_hash_refuted` |
| C13 The build graph's node table behaves as a finite map | proved | `C13_finite_map`, `C13_slots` |
| C14 Build-variable trees stay searchable and balanced | proved | `C14_search_tree`, `C14_path_buffer` |
| C15 Arena allocations never overlap | proved | `C15_arena_regions` |
| C16 Bucket arrays are stable indexed sequences | partial | `C16_bucket_arr_is_a_list`, `C16_addresses_are_stable`, `C16_regions`, `C16_clear_refuted` |
| C17 Substring search finds the first occurrence | proved | `C17_memmem`, `C17_one_answer` |
| C18 String split and join are inverse | proved | `C18_split`, `C18_join_split`, `C18_empty_separator_diverges` |
| C19 Whitespace split | partial | `C19_whitespace_split_partial`, `C19_whitespace_split`, `C19_nul_refuted` |
| C20 String replacement | proved | `C20_replace`, `C20_empty_find_diverges` |
| C21 String strip | proved | `C21_strip` |
| C22 String formatting | partial | `C22_format_partial`, `C22_keys`, `C22_plain_text`, `C22_open_at_refuted` |
| C23 Substring method | partial | `C23_substring_partial`, `C23_substring_defaults`, `C23_start_before_begin`, `C23_out_of_range_refuted` |
| C24 Case conversion, underscorify, startswith, endswith | proved | `C24_case`, `C24_prefix_suffix`, `C24_prefix_suffix_nocase` |
| C25 Test-name globbing | partial | `C25_glob_partial`, `C25_single_star_partial`, `C25_glob_refuted` |
| C26 Ninja escaping survives the ninja scanner | proved | `C26_paths`, `C26_build_statement`, `C26_exclusions_are_needed` |
| C27 Shell escaping survives the shell | partial | `C27_shell_line_partial`, `C27_build_variable_partial`, `C27_unquoted_refuted` |
| C28 Command-line paths are shell-quoted by the build tool | proved | `C28_node_path_is_one_word`, `C28_path_list_words` |
| C29 Argument and environment vectors survive flattening | proved | `C29_argv`, `C29_environment` |
| C30 Configuration templates: text without substitution markers is copied verbatim | proved | `C30_plain_text`, `C30_line_by_line` |
| C31 Configuration templates: variables and escapes | proved | `C31_template_rules`, `C31_always_ends` |
| C32 Configuration data quoting | partial | `C32_unquote_partial`, `C32_c_literal_partial`, `C32_quoting_refuted` |
| C33 TAP results | partial | `C33_verdict_partial`, `C33_accepted_failures_refuted` |
| C34 Line iteration visits every line once | partial | `C34_lines_partial`, `C34_exact_buffer_partial`, `C34_lines_cover`, `C34_nul_and_overrun_refuted` |
| C35 INI files | partial | `C35_ini_partial`, `C35_bad_line_partial`, `C35_overrun_refuted` |
| C36 Arrays behave as sequences | partial | `C36_histories_partial`, `C36_out_of_range`, `C36_shrunk_pair_refuted`, `C36_tail_refuted` |
| C37 Dictionaries behave as insertion-ordered finite maps | partial | `C37_histories_partial`, `C37_string_keys_partial`, `C37_big_delete_refuted` |
| C38 Object equality is an equivalence | proved | `C38_equality`, `C38_equivalence`, `C38_membership`, `C38_exclusions_are_needed` |
| C39 Assigned values are independent | proved | `C39_assigned_values_independent` |
| C40 Array and string indexing stays in bounds | partial | `C40_indexing_partial`, `C40_in_bounds_iff`, `C40_below_refuted` |
| C41 and/or short-circuit | proved | `C41_and`, `C41_or`, `C41_short_circuit`, `C41_truth_table` |
| C42 Disablers propagate | partial | `C42_operators`, `C42_binary`, `C42_builtin`, `C42_kernel`, `C42_method_argument`, `C42_user_call`, `C42_abort_refuted` |
| C43 foreach runs its body once per element in order | partial | `C43_array_partial`, `C43_dict_partial`, `C43_range_partial`, `C43_variable`, `C43_empty_body_refuted`, `C43_growing_refuted` |
| C44 Function-local scope is isolated | partial | `C44_calls_partial`, `C44_toplevel_partial`, `C44_reachable`, `C44_plusassign_refuted` |
| C45 Numeric ranges | partial | `C45_range_partial`, `C45_wrap_refuted` |
| C46 Printed programs parse back | partial | `C46_expressions_parse_back_partial`, `C46_refuted`, `C46_programs_parse_back_partial` |
| C47 Operator precedence | proved | `C47_grouping_by_the_table` |
| C48 String literals denote their contents | partial | `C48_escaped_strings`, `C48_literals_denote`, `C48_raw_strings`, `C48_unicode_partial`, `C48_refuted` |
| C49 Argument validation | partial | `C49_matching_calls_partial`, `C49_one_reading_partial`, `C49_no_disablers`, `C49_refuted` |
| C50 Type checking | partial | `C50_type_check_partial`, `C50_disablers_partial`, `C50_refuted` |
| C51 Option precedence is order-independent | partial | `C51_highest_source_wins_partial`, `C51_lower_sources_lose_partial`, `C51_order_does_not_matter_partial`, `C51_configuration_partial`, `C51_refuted`, `C51_rejected_settings_count` |
| C52 Option values respect their declaration | partial | `C52_values_conform_partial`, `C52_refuted` |
| C53 Command-line option strings parse unambiguously | proved | `C53_option_strings`, `C53_one_reading`, `C53_anything_else_is_rejected` |
| C54 Feature options | proved | `C54_states_as_documented`, `C54_chains_as_documented`, `C54_disabled_is_never_turned_on` |
| C55 Environment objects replay their operations | proved | `C55_environments_replay_their_operations`, `C55_exclusions_are_needed` |
| C56 Source sets select by condition | partial | `C56_apply_selects_partial`, `C56_frozen_sets_never_change`, `C56_used_sets_are_frozen`, `C56_strict_application_needs_the_keys`, `C56_refuted` |
| C57 install_mode permission strings | proved | `C57_permissions` |
| C58 Install reports failures | partial | `C58_no_failure_partial`, `C58_target_partial`, `C58_false_only_if_unopened_partial`, `C58_failures_reported_refuted` |
| C59 Serial tests run alone | proved | `C59_serial_tests_alone` |
| C60 Every selected test is run exactly once and reported | proved | `C60_each_test_once` |
| C61 Test verdict | partial | `C61_rule`, `C61_verdict_partial`, `C61_verdict_refuted` |
| C62 Saved objects reload unchanged | partial | `C62_round_trip_partial`, `C62_refuted` |
| C63 Corrupt dumps are rejected safely | partial | `C63_truncated_dumps_are_rejected`, `C63_other_files_are_rejected`, `C63_reading_ends`, `C63_refuted` |
| C64 No command starts before its inputs are ready | proved | `C64_inputs_are_ready` |
| C65 Each command runs at most once per build | proved | `C65_at_most_once` |
| C66 Job and pool limits are respected | proved | `C66_limits` |
| C67 A build without failures finishes all out-of-date work | proved | `C67_all_work_is_done`, `C67_no_endless_build`, `C67_the_loop_ends_when_nothing_can_happen` |
| C68 A failed command stops its dependents only | proved | `C68_dependents_are_not_started`, `C68_nothing_starts_after_too_many_failures`, `C68_failures_are_reported` |
| C69 Out-of-date detection | proved | `C69_out_of_date_outputs` |
| C70 The dependency log survives truncation | partial | `C70_complete_records_are_recovered`, `C70_nothing_else_is_recovered_partial`, `C70_nothing_else_is_recovered_refuted`, `C70_what_is_written` |
| C71 The build log survives truncation | partial | `C71_damage_is_limited`, `C71_never_another_output_partial`, `C71_never_another_output_refuted`, `C71_whole_log`, `C71_the_log_is_kept` |
| C72 Build path canonicalisation | partial | `C72_canonical_partial`, `C72_too_deep_is_fatal`, `C72_same_node_partial`, `C72_root_refuted`, `C72_idempotent` |
| C73 Build variable lookup | proved | `C73_definitions_are_stored`, `C73_lookup`, `C73_cycles_are_reported` |
| C74 SHA-256 | proved | `C74_sha256` |
| C75 fs.hash is the hex digest | partial | `C75_hex_partial`, `C75_short_bytes`, `C75_refuted` |
| C76 String containment | partial | `C76_contains`, `C76_contains_empty_refuted` |
| C77 Number conversion | partial | `C77_to_string_to_int`, `C77_to_int_partial`, `C77_quirks_refuted` |
| C78 Generated configuration headers | proved | `C78_header` |
| C79 Updating one variable leaves the others alone | partial | `C79_scalars_partial`, `C79_arrays_refuted` |
| C80 Functions receive the arguments of the call | partial | `C80_arguments_partial`, `C80_nested_call_refuted` |
| C81 install_mode lists | partial | `C81_mode_list_partial`, `C81_empty_list_refuted` |
| C82 Tests are selected by project and name | partial | `C82_selection_partial`, `C82_selection_refuted` |
| C83 Failures do not keep independent work from being done | partial | `C83_independent_work_is_done_partial`, `C83_independent_work_is_done_refuted` |
| C84 Only what is asked for and out of date is run | proved | `C84_only_needed_commands_run` |
| C85 A build is refused exactly for cycles and missing sources | proved | `C85_refused_builds`, `C85_no_late_refusal` |
| C86 Dependencies recorded by one run are what the dependency log holds for the next | partial | `C86_the_log_is_updated_partial`, `C86_the_log_is_updated_refuted` |
| C87 Everything in a source set is listed | partial | `C87_everything_is_listed_partial`, `C87_refuted` |
| C88 Environment lists | partial | `C88_environment_lists_partial`, `C88_malformed_strings_are_rejected`, `C88_refuted` |
| C89 Passing an environment does not change it | partial | `C89_passing_a_list_changes_nothing_partial`, `C89_refuted` |
| C90 The meaning of required: | proved | `C90_requirements` |
| C91 Renamed options | partial | `C91_renamed_options_partial`, `C91_refuted`, `C91_cycles_do_not_end` |
| C92 Configuring a subproject changes its own options only | partial | `C92_subprojects_are_isolated_partial`, `C92_refuted` |
| C93 override_options of a target are the target's own | partial | `C93_override_options_partial`, `C93_refuted` |
| C94 Yielding options | proved | `C94_yielding_options` |
| C95 An option accepts exactly the strings that stand for one of its values | partial | `C95_accepted_exactly_partial`, `C95_refuted` |
| C96 Lexing stays inside its buffer | partial | `C96_writes_in_buffer_partial`, `C96_refuted` |
| C97 Lexing ends | proved | `C97_lexing_ends` |
| C98 A text is read as the tokens it spells | proved | `C98_tokens_as_spelled` |
| C99 The parser accepts the programs of the grammar and nothing else | partial | `C99_accepted_programs_partial`, `C99_programs_accepted`, `C99_one_meaning`, `C99_refuted` |
| C100 Parsing ends and does not crash | partial | `C100_parsing_ends_partial`, `C100_refuted` |
| C101 A format string is one value | partial | `C101_format_strings_partial`, `C101_refuted` |
| C102 Dependency files are read as written | partial | `C102_dependency_files_partial`, `C102_one_reading_partial`, `C102_refuted` |
| C103 Reading a dependency file ends | partial | `C103_reading_ends_partial`, `C103_refuted` |
| C104 Glob patterns select tests | partial | `C104_plain_patterns`, `C104_one_star_partial`, `C104_beginnings`, `C104_matching_ends`, `C104_refuted` |
| C105 A build manifest is read as written | proved | `C105_manifest_is_read_as_written`, `C105_exclusions_are_needed` |
| C106 Reading a build manifest ends | partial | `C106_reading_ends_partial`, `C106_scanner_ends`, `C106_refuted` |
| C107 Mistakes in a build manifest are reported | proved | `C107_mistakes_are_errors` |
| C108 The build file has one edge for each target | partial | `C108_targets_are_written_partial`, `C108_dependency_files_partial`, `C108_project_name_refuted`, `C108_alias_of_run_target_refuted` |
| C109 A custom target's command runs with the arguments given | partial | `C109_commands_are_run_as_given_partial`, `C109_carriage_return_refuted`, `C109_data_files_refuted`, `C109_commands_beside_build_targets_partial` |
| C110 The build file is made again with the same options | partial | `C110_regeneration_partial`, `C110_dollar_refuted` |
| C111 The command of a custom target is what its placeholders stand for | partial | `C111_commands_partial`, `C111_index_refuted`, `C111_negative_index_refuted` |
| C112 Custom targets and generators make the files they name | partial | `C112_outputs_partial`, `C112_at_sign_refuted`, `C112_custom_target_partial`, `C112_refused_partial`, `C112_generators_partial`, `C112_process`, `C112_preserve_root_refuted` |
| C113 Formatting does not change the program | partial | `C113_formatting_keeps_the_program_partial`, `C113_comment_in_an_empty_list_refuted`, `C113_comment_after_a_keyword_refuted`, `C113_comment_after_an_option_refuted`, `C113_long_lines_refuted`, `C113_space_array_refuted` |
| C114 What a toolchain is passed for a request does not depend on earlier requests | partial | `C114_a_request_answers_the_same_whatever_was_asked_before_partial`, `C114_a_silenced_request_answers_nothing_refuted` |
| C115 Names reach the command line whole | partial | `C115_a_name_reaches_the_command_line_whole_partial`, `C115_long_names_are_cut_refuted` |
| C116 The flags of a target are those of its options | partial | `C116_the_flags_of_a_target_are_those_of_its_options_partial`, `C116_every_target_gets_the_flags_of_its_options_partial`, `C116_levels_without_a_flag_refuted` |
| C117 Every source goes where its name says | proved | `C117_every_source_goes_where_its_name_says` |
| C118 Objects are named after their sources | partial | `C118_the_object_is_named_after_its_source`, `C118_the_object_of_a_source_outside`, `C118_different_sources_have_different_objects_partial`, `C118_sources_can_share_an_object_refuted` |
| C119 The language that a target is linked as | partial | `C119_the_language_of_linking_partial`, `C119_the_order_of_sources_decides_refuted` |
| C120 Executables and libraries are made from what they depend on | partial | `C120_build_targets_are_written_partial`, `C120_rule_names_refuted` |
| C121 Compilers and linkers run with the flags of the target | partial | `C121_sources_are_compiled_partial`, `C121_targets_are_linked_partial`, `C121_libraries_are_archived_partial`, `C121_compiler_commands_refuted` |
| C122 What a target uses reaches it through any chain | partial | `C122_what_is_used_reaches_targets`, `C122_shared_libraries_are_found_partial`, `C122_partial_dependencies_refuted` |
| C123 Arguments of dependencies stay together and in order | proved | `C123_arguments_stay_together`, `C123_as_system` |
| C124 What a target is compiled with | partial | `C124_what_a_target_is_compiled_with_partial`, `C124_what_include_directories_mean_partial`, `C124_all_directories_exist`, `C124_system_directories_of_cl_refuted`, `C124_directories_outside_by_dots_refuted` |
| C125 What a target is linked with | partial | `C125_what_a_target_is_linked_with`, `C125_link_whole_refuted` |
| C126 The names of shared libraries | partial | `C126_the_names_of_shared_libraries_partial`, `C126_dlls_are_built_as_they_are_named_partial`, `C126_dlls_with_a_suffix_refuted`, `C126_long_names_are_cut_refuted` |
| C127 The names of a shared library lead to it | partial | `C127_links_lead_to_the_libraries_partial`, `C127_installed_links_lead_to_the_library_partial`, `C127_versions_on_darwin_refuted`, `C127_links_of_earlier_configurations_refuted` |
| C128 Where data and headers are installed | partial | `C128_headers`, `C128_headers_accepted`, `C128_data`, `C128_data_accepted`, `C128_data_renamed_partial`, `C128_renamed_accepted_partial`, `C128_rename_bad_mode_refuted`, `C128_outputs`, `C128_installed_partial` |
| C129 Where manual pages are installed | partial | `C129_pages_partial`, `C129_accepted`, `C129_locale_refuted`, `C129_empty_mandir_refuted` |
| C130 Where directories and links are installed | partial | `C130_symlink`, `C130_emptydir`, `C130_emptydir_accepted`, `C130_subdir_partial`, `C130_subdir_refuted` |
| C131 Where dependencies are looked for | partial | `C131_disabled`, `C131_nofallback`, `C131_no_fallback_partial`, `C131_system_first_partial`, `C131_fallback_partial`, `C131_long_fallback`, `C131_not_found`, `C131_several_names_refuted`, `C131_allow_fallback_false_refuted`, `C131_forced_refuted`, `C131_nofallback_refuted`, `C131_empty_fallback_refuted` |
| C132 What dependency() returns | partial | `C132_versions_partial`, `C132_found`, `C132_static_partial`, `C132_required_partial`, `C132_versions_refuted`, `C132_subproject_versions_refuted`, `C132_static_refuted`, `C132_required_refuted`, `C132_crash_refuted` |
| C133 Looking for a dependency again | partial | `C133_found_again_partial`, `C133_not_configured_again`, `C133_configured_once_partial`, `C133_found_again_refuted`, `C133_other_names_refuted`, `C133_fallback_refuted`, `C133_failing_subproject_refuted` |
| C134 String buffers hold what was pushed | partial | `C134_holds_what_was_pushed_partial`, `C134_never_past_a_fixed_buffer_partial`, `C134_string_partial`, `C134_formatted_refuted`, `C134_nul_refuted`, `C134_4095_refuted` |
| C135 Strings are values | partial | `C135_made_strings_stay`, `C135_appending_partial`, `C135_terminated`, `C135_4095_refuted`, `C135_exclusion_is_needed` |
| C136 What a generated pkg-config file names | partial | `C136_libraries`, `C136_requires`, `C136_flags`, `C136_dataonly`, `C136_install_dir_refuted`, `C136_names_refuted`, `C136_exclusion_is_needed` |
| C137 Variables of pkg-config files are declared and mean their directories | partial | `C137_its_own_directories`, `C137_references_are_declared_partial`, `C137_variables_mean_partial`, `C137_later_files_refuted`, `C137_data_and_inner_references_refuted`, `C137_absolute_directories_refuted` |
| C138 What the fs functions make of paths | partial | `C138_name`, `C138_stem_partial`, `C138_stem_without_ending`, `C138_stem_of_hidden_files_refuted`, `C138_parent_partial`, `C138_parent_of_up_refuted`, `C138_replace_suffix_partial`, `C138_replace_suffix_refuted`, `C138_as_posix_partial`, `C138_as_posix_refuted` |
| C139 Which file the fs functions mean | partial | `C139_looks_at`, `C139_reads`, `C139_samepath_partial`, `C139_samepath_above_root_refuted`, `C139_home_partial`, `C139_home_refuted`, `C139_rejects`, `C139_never_aborts` |
| C140 The rpaths of installed files | partial | `C140_frame`, `C140_one_stays_partial`, `C140_none_stays`, `C140_two_stay_refuted`, `C140_three_stay_refuted`, `C140_long_entry_refuted` |
| C141 What installing changes in a file | partial | `C141_not_elf`, `C141_size`, `C141_no_rpaths`, `C141_one_stays_partial`, `C141_none_stays`, `C141_both_refuted`, `C141_static_refuted` |
| C142 What a wrap file may say | partial | `C142_accepted`, `C142_fields`, `C142_no_kind_refuted` |
| C143 What is fetched for a subproject is checked | partial | `C143_checksum_partial`, `C143_allowed`, `C143_present`, `C143_git`, `C143_done`, `C143_not_hex_refuted`, `C143_no_source_refuted` |
| C144 Which patches are applied to a subproject | partial | `C144_names_partial`, `C144_applied`, `C144_one_character_refuted` |
| C145 What wrap files provide | partial | `C145_loaded`, `C145_provided`, `C145_any_order_partial`, `C145_any_order_refuted` |
| C146 Which program find_program() finds | partial | `C146_override_partial`, `C146_place_partial`, `C146_file_partial`, `C146_fallback_partial`, `C146_forced_partial`, `C146_found`, `C146_names_partial`, `C146_not_found`, `C146_no_subproject`, `C146_hidden_refuted`, `C146_python_refuted`, `C146_empty_refuted`, `C146_unknown_version_refuted` |
| C147 The version a program says it has | partial | `C147_guess`, `C147_no_version`, `C147_dots_refuted` |
| C148 Which subprojects are configured and found | partial | `C148_calls`, `C148_again`, `C148_found`, `C148_version_partial`, `C148_required`, `C148_complete`, `C148_missing`, `C148_depth`, `C148_variables`, `C148_version_refuted`, `C148_version_again_refuted`, `C148_disabled_refuted`, `C148_once_refuted`, `C148_order_refuted`, `C148_circular_refuted` |
| C149 Arguments for all targets | partial | `C149_words_partial`, `C149_accepted_partial`, `C149_dependencies_refuted`, `C149_dropped_refuted`, `C149_names_refuted`, `C149_prefix_refuted` |

## Findings
Behaviour of the code, found while proving, that contradicts a property.  Each is a theorem
(`_refuted`, `_exclusions_are_needed`) unless marked (read), which means that it was seen in the code
but is outside the model.

Language
* A bounds check accepts indices below `-len` (C40, C23).
* `foreach` over an array that its body extends with `+=` never ends; an empty body stops the loop after the first element (C43).
* `+=` changes arrays shared with other variables, and arrays captured by functions (C79, C44, C38).
* Arguments of user functions are kept in a static table: a nested call overwrites them (C80).
* A disabler as index, or as argument of some kernel functions, aborts (C42).
* `range` near 2^32 wraps and never ends (C45).
* The parser drops a stray `not` (`x = a not`, C99) and aborts on `a[]` (C100); expressions nested more than 4096 deep are rejected (C46); `6*3/2` groups as `6*(3/2)` and `5%3*2` as `5%(3*2)` (C47).
* A format string expands to an unparenthesised sum, so that in `f'@d@' / w` only the last piece is divided (C101).
* `\8`, `\9`, `\999` in strings give wrong bytes; `\u` accepts surrogates (C48). `'a''b'` in the formatter's mode writes outside of the buffer (C96).
* `list[file]` parameters refuse a one-file list depending on an index in the type table; `kwargs: disabler()` aborts; `glob[list[..]]` refuses lists (C49); `void|str` refuses void; disablers checked against `list[..]` abort (C50).
* Negative or large bounds in `substring` read outside of the text (C23); texts with NUL bytes are cut (C19, C34, C11).
* `format` duplicates text after an escaped `@` inside an open one (C22).
* `'' in ''`-like containment with `contains('')` is false for the empty text (C76).
* The empty list of version requirements is rejected (C10).
* A disabler inside a dictionary is not detected; functions without a declared type must return void; `listify[str]|list[str]` fails an assertion; the type name `typeinfo` in a signature fails an assertion (read).

Data structures
* Deleting the first of two array elements leaves the tail dangling; `obj_array_tail` keeps the whole length (C36). Deleting from a dictionary of 15 or more entries leaves its key list (C37).
* The string hash never ends on keys of 65536 bytes (C12). A cleared bucket array has a stale tail (C16).
* `is_subpath('.', x)` (C05).

Options, environments, source sets
* A value rejected by the option another one is renamed to is accepted silently, and raises the precedence (C51, C91); cyclic renames recurse for ever (C91); a subproject's `default_options` set global options (C92); `override_options` through a rename changes the project (C93); a non-array value of an array option with deprecated values aborts (C95, C52).
* A dictionary or environment passed as `env:` is changed (C89); an empty name is accepted in lists (C88).
* Strict application of a source set misses keys of nested sets; a set added to itself recurses for ever (C56); `all_sources` leaves out rules with missing dependencies (C87).

Files and formats
* `fs.hash` ends at the first digest byte below 16 (C75).
* A string of 4095 bytes cannot be saved, option kinds are not saved, auto features are resolved (C62). Corrupt dumps read outside of memory, fail assertions or never end (C63).
* Ini and line readers run past buffers that do not end in a newline (C34, C35). TAP output with extra failing points or a bail-out is accepted (C33).
* Quoting of configuration data ignores quotes, backslashes and newlines (C32). Shell quoting misses syntax characters (C27). Test-name globs are wrong with inner stars (C25).

Install, tests, build
* `muon install` reports success after failures (C58); an empty `install_mode` list aborts (C81).
* A should_fail test that passes counts as success; the exit status of TAP tests is ignored (C61); tests of later projects are filtered with an earlier project's name (C82).
* A command that cannot be started keeps its pool slot for ever (C83).
* Dependency log: stale and unset entries give an output the dependencies of another (C70, C86). Build log: a cut record can change another output's time stamp (C71). The path `/` becomes empty (C72).
* Pools of negative depth are unlimited; a failed start of a serial test leaves the runner in serial mode; fail-fast can start one more test (read).
* Dependency files: a lone carriage return, vertical tab or form feed after the colon makes the reader loop for ever (C103); names that begin with `#` or contain `=`, `~`, `(`, `:` or non-ASCII bytes are rejected, and a file cut off before its colon counts as one without dependencies (C102).
* Test name patterns: `*_ok` does not select `is_ok_ok`, `*a*` does not select `a`, `a*b*c` does not select `abc`, and `*a*a` selects `aab` (C104).
* Build manifests: one whose last line is a comment without line end is read for ever (C106); an empty one is an error (C105). `pool =` with an empty value is the unknown pool '' rather than no pool, byte 255 ends the file, and a line of blanks ends a block so that following indented lines are errors (read).
* Build file: the command that runs muon setup again is quoted for the shell but not for ninja, so a `$` in the source directory or an option is lost (C110). A newline in the project's name ends the comment it is written in (C108). An alias of a run target in a subproject depends on `name` although the target is called `sub@@name` (C108); aliases of subprojects are not prefixed at all, so two of the same name collide (read).
* Custom targets: the data files of two targets can be the same file, for example those of the first target `a1` and the eleventh target `a` (C109), and a target with an absolute name writes its data file outside the private directory (read). A carriage return in an argument makes build.ninja unreadable, or is lost at the end of the command (C109). The dependency file's path is written unescaped (read).
* Custom targets: `@INPUT0@` without inputs and `@INPUT-5@` with fewer inputs abort instead of being reported (C111); an output with `@BASENAME@` and no input, and a run target as argument of a command, abort too (read). Outputs are formatted as absolute paths, so that a build directory with two `@` in its path makes every custom target fail (C112). `preserve_path_from: '/'` puts the outputs of a generator beside the source file (C112).

Formatter
* Comments can swallow code: one in an empty list (`[ # c` before `]` becomes `[ # c]`), one between the name and the value of a keyword argument (`a:  # cb`), one after an element such as `'-a'` of a `command` list when the next element is kept on the line (C113). By reading also: a comment inside an operand of `not` or of an operator in an argument list swallows the comma; comments on inner links of a chain, after `else`, and on the last line of a file without newline are lost; a comment after an opening bracket is repeated after the brackets of the calls in the list; comments longer than 4 KiB are cut; sorting files() moves comment lines and blank lines away from their files.
* A line that is an expression with an operator is broken after the operator without brackets when it is too long, which is no longer a program; so is an assignment with the option space_array, whose blanks are not counted when it is decided whether brackets are needed (C113).

Compiler and linker flags
* The argument functions keep their number of words in a static variable, and some set it to 0 without setting it back: after one target with `override_options: ['buildtype=plain']` no later target of gcc or clang is compiled with `-O...` (C114, C116); likewise after optimization g or s with the assemblers, and after warning_level 0 with cl.
* The allowed value `optimization=plain` runs into an unreachable case and aborts, unless a buildtype other than custom is set (C116).
* Words made of a flag and a name are cut after 254 bytes: run paths, sonames, language standards, sanitizers and cl's output files (C115).
* `pie:` on any target reads an object that is not a boolean and aborts; an `objects:` file without a dot in its name dereferences a null pointer; a source in a language for which the project has no compiler aborts or gives an edge without a rule (read).

Build targets
* Different sources of a target can have the same object: `files('b.c', '../b.c')` in a subdirectory, a generated `foo.c` and one in the source directory, `/a/b.c` and `/a_b.c` outside of the project (C118). The build tool then rejects the build file.
* Which language a target with assembly and C sources is linked as depends on the order of the sources; Objective-C++ sources are linked as C (C119). An object without a dot in its name makes muon write outside of a buffer (C119).
* The words of a compiler's, linker's or archiver's command are written into the rules as they are: a command with a space or another special character is run as something else (C121).
* The rule for a target with more than two sources can get the name of the linker rule of another project, and then the build file cannot be read (C120): names of linker rules are not compared with the others.
* The ending of objects is that of the main project's compilers when the build file is written, and that of the current project's in `extract_objects` (read).
* `partial_dependency(links: true)` keeps the libraries of a dependency, but neither the directories to search for shared ones, nor generated headers, nor the language to link as: a C program that uses a C++ library in this way is linked as C (C122).
* Linking with a static library of assembly makes a C program's link language assembly, so that the project's and the command line's link arguments for C are dropped (read).
* On darwin the symlinks of a versioned shared library make a loop: soname -> library and library -> soname (C127).
* With msvc and clang-cl a system include directory (`include_type: 'system'`, `as_system`) gives no words at all and is not searched (C124).
* `include_directories('../../x')` from a subdirectory, which leaves the source directory, is taken to lie in it: the directory `../x` of the build directory, whatever it is, is searched first (C124).
* `link_whole:` does the same as `link_with:` with the posix, apple and msvc linkers; with lld-link `/whole-archive` is never switched off and so holds for all libraries that follow; the posix and apple linkers get no run paths and no sonames (C125).
* Links that are left in the build directory from an earlier configuration are not removed: when the version and the soversion of a library are exchanged, a loop is left where the library is to be built (C127).
* On Windows a shared library with a `name_suffix` of its own is linked as `...dll` and expected under its other name (C126). A version of 1023 bytes or more is read from a buffer without an end (read).
* Installing a library over a link, as when a library loses its version, writes through the link to the old library's file (read).
* `install_data(..., rename: ..., install_mode: 'malformed')` succeeds and installs nothing, while the same without `rename` is an error (C128).
* `install_man` with a locale: `nsswitch.conf.fr.5` keeps its locale, since only the part after the first dot is looked at; `git.frotz.1` with the locale `fr` is installed as `git.1`, over the translated page (C129). With an empty `mandir` pages go to `/man1`, outside of the prefix (C129).
* `install_subdir('a/b/c')` is installed as `b/c`, and `install_subdir('a/')` spills its contents into the directory: only the first part of the path is taken off (C130).
* `dependency('a', 'b', fallback: 'sub')` configures the fallback before it looks for `b` on the system (C131). `allow_fallback: false` does not keep the fallback of a wrap file from being used (C131). `wrap_mode=forcefallback` and `force_fallback_for` have no effect on a subproject that has the name of the dependency and no `fallback:` (C131). With `wrap_mode=nofallback` a package named in `force_fallback_for` is not looked for at all (C131). `fallback: []` for a required dependency aborts (C131).
* The version asked for is not compared with that of an overridden dependency, nor with that of a subproject if the dependency is not required or the subproject is configured already (C132). `static: true` gives the shared library if there was a lookup without it before, and the other way round (C132). A required dependency that is overridden with one that was not found is not an error (C132). `dependency('x', 'threads')` and then `dependency('x', version: '>=1')` aborts (C132).
* `dependency('x', version: '>=3')` with an override of another version is found the first time and not found the second time; after `dependency('a', 'b')` `dependency('a')` gives `b`; a package that is too old for a second call keeps it from using its fallback (C133). A subproject that fails is configured again by the same call, and a dependency that it overrode before it failed is used (C133).

Strings
* `sbuf_pushf` asks for room for the text but not for its NUL: when the text ends exactly at the size that the buffer grows to (2048, 4096, ... bytes), the NUL is written one byte behind the memory (C134).
* Making a string of exactly 4095 bytes, for instance by a string literal of that length in a build file, fails an assertion and aborts: `reserve_str` takes the bucket for 4096 bytes, `bucket_arr_pushn` requires less than that (C134, C135).
* A text with a NUL that has outgrown a string buffer's first 1024 bytes aborts when it is made into a string; a shorter one does not (C134).

pkg-config files
* `pkgconfig.generate(install_dir: ...)` says where the file goes, but is also written as the directory of the libraries: `-L${prefix}/share/pkgconfig` (C136). A library called `libfoo` (file `liblibfoo.so`) is linked as `-lfoo`, the file `libfoo.so.1.2` as `-lfoo.so.1`; an absolute subdirectory is written into Cflags without `-I` (C136).
* A file that declares a variable `bindir` keeps `${bindir}` from being declared in all files that are generated later, which pkg-config then rejects (C137). Files for data only declare none of the directories they refer to, and references after the beginning of a value are not seen (C137). `sysconfdir=/etc` is written as `${prefix}//etc` (C137).

fs module
* `fs.expanduser('~/x')`, `fs.exists('~/x')` and the others look at `/x` instead of `x` in the home directory, because the rest of the path begins with a slash and is joined as an absolute path; `~you` is taken for `you` in one's own home (C139).
* `fs.is_samepath('/../a', '/a')` is false (C139). The stem of `.bashrc` is empty; the parent of `..` is `.`; `fs.replace_suffix('lib.d/foo', '.c')` gives `lib.c` and `'../foo'` gives `..c`; `fs.as_posix('\\server\share')` gives `/server/share` (C138).

Installed rpaths
* If two rpaths stay, the last character of the list is cut off: `/opt/a/lib:/opt/b/lib` becomes `/opt/a/lib:/opt/b/li`, because separators are not counted in `copy_to`; after an entry that was removed, the third that stays is glued to the second: `/opt/a:/opt/b/opt/` (C140). An entry of exactly 4096 bytes is terminated one byte behind the buffer, longer ones fail an assertion (C140).
* If a file has both DT_RPATH and DT_RUNPATH and both become empty, the index of the second is that before the first was removed, so that the entry behind it is removed instead, for example DT_STRTAB (C141). A statically linked executable has no dynamic section, so that installing it fails (C141).

Wrap files
* A hash may have any two characters that are no digits where the real one has `00`, and `-1` for `ff`, because the errors of `strtol` are ignored (C143). A wrap-file without `source_filename` is accepted, but a null pointer is followed when it is used (C143). `source_fallback_url` and `patch_fallback_url` are accepted and never used (read).
* A wrap file without a section that says its kind is taken for a wrap-file (C142).
* In `diff_files` a name of one character that is not the first is joined with the next one; if it is the last, or the list is empty, the memory behind the value is searched for an end and written to (C144).
* If two wrap files provide the same dependency, which one is used depends on the order in which the file system lists them (C145). A comma at the end of `dependency_names` provides a dependency without a name (C145).

Programs
* If a file in `dirs:` or beside the build file has a version that is not asked for, or says none, a suitable program of the same name in PATH is not found (C146). `meson.override_find_program('p', import('python').find_installation())` makes `find_program('p')` abort, because the object is taken for an external program; `find_program('')` fails an assertion in `fs_find_cmd` (C146). An override by a file or target of a project without a version is found whatever version is asked for (C146).
* Three dots in what a program prints are taken for its version before `2.1` (C147).

Subprojects
* `subproject('b', version: '>3', required: false)` finds version 2.0, because the comparison only counts if the subproject is required; after the first call no version is looked at at all, and a disabled feature finds what was configured before (C148).
* An optional subproject that fails is evaluated again by each call for it; `subproject('/path/of/the/project')` configures the project without end (C148). A subproject looks for its own subprojects in its own directory only, so that whether one beside it is found depends on whether it was configured before (C148).

Arguments
* `add_project_dependencies()` with a language that is unknown or not one of the project's says so and succeeds, and adds nothing for the languages behind it (C149). `null`, `c_hdr`, `cpp_hdr` and `c_obj` are accepted as languages by `add_project_arguments()` (C149).

## Trusted base
* Coq's kernel (8.16.1) and the OCaml runtime, operating system and hardware under it.  No kernel
  check is switched off, there are no axioms, parameters, admitted proofs or open obligations in
  rocq/theories, and `coqchk` accepts the compiled files.
* `Print Assumptions` stands under every property theorem.  For each of the 499 theorems listed above
  it prints `Closed under the global context`: no axiom at all is used.  (Loading the standard library
  makes seven declarations of `Coq.ssr.ssrunder`, `Under_rel` and its companions, visible to a tool that
  lists the axioms of loaded libraries; they come with `ssreflect`, which the standard library loads,
  and no theorem here depends on them.)
* The faithfulness of the `M_*.v` transcriptions to the cited C lines.  It was checked by reading, by
  evaluating examples in the model, and by the seeded-bug experiments in `seeded/LOG.jsonl`
  (1282 entries): each edits the model as a realistic bug would
  change the program and lists the theorems that fail.
* The specifications in `S_*.v` and in the statements of the theorems say what the English says.
* C is taken as on an LP64 little-endian POSIX machine, in the C locale.
