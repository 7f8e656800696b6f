{"claims": [
 {"property": "C01", "status": "proved", "theorems": ["C01_label_roundtrip", "C01_distinct_targets_print_differently"], "note": "For well-formed targets; a main-project target read in an external context takes the context's project, hence the side condition."},
 {"property": "C02", "status": "proved", "theorems": ["C02_canonicalize_same_target", "C02_empty_spelling_refuted", "C02_tilde_project_refuted"], "note": "Side conditions shown necessary by the two refutations."},
 {"property": "C03", "status": "proved", "theorems": ["C03_recursive_pattern", "C03_toplevel_pattern", "C03_here", "C03_all_here", "C03_dots_all_refuted"], "note": "The spelling //foo/...:all is refuted."},
 {"property": "C04", "status": "proved", "theorems": ["C04_package_filter_is_safe"], "note": ""},
 {"property": "C05", "status": "proved", "theorems": ["C05_name_glob", "C05_dots", "C05_regex_tail", "C05_name_glob_refuted", "C05_operators_refuted"], "note": "Exactly the glob without operators after the last star; exactly glob followed by regular expression with them (without |); witnesses for the rest."},
 {"property": "C06", "status": "proved", "theorems": ["C06_visibility", "C06_package_groups_are_permissive"], "note": ""},
 {"property": "C07", "status": "proved", "theorems": ["C07_tokens_tile", "C07_token_is_substring"], "note": ""},
 {"property": "C08", "status": "proved", "theorems": ["C08_eof_reached", "C08_eof_stays", "C08_next_and_peek"], "note": ""},
 {"property": "C09", "status": "proved", "theorems": ["C09_token_positions", "C09_position_unique", "C09_line_starts_increase", "C09_not_in_across_lines_refuted"], "note": "For inputs whose 'not in' operators are not broken across lines; refuted otherwise."},
 {"property": "C10", "status": "proved", "theorems": ["C10_words_maximal", "C10_not_in_refuted"], "note": "For every word token; the two-word operator 'not in' is refuted."},
 {"property": "C11", "status": "proved", "theorems": ["C11_string_value", "C11_triple_single_quotes_refuted"], "note": "All literals except triple single quotes, which are refuted."},
 {"property": "C12", "status": "proved", "theorems": ["C12_decimal", "C12_octal", "C12_hexadecimal", "C12_no_wrap_around", "C12_other_numbers_refuted"], "note": "Other number tokens (0o78, 1.5) are silently cut off: refuted."},
 {"property": "C13", "status": "proved", "theorems": ["C13_get_pos", "C13_injective"], "note": ""},
 {"property": "C14", "status": "proved", "theorems": ["C14_surrounding_line"], "note": ""},
 {"property": "C15", "status": "proved", "theorems": ["C15_parse_terminates", "C15_parser_sees_scanner", "C15_no_error_means_all_read"], "note": "termination, no UB, parser reads the scanner's tokens, no silent stop"},
 {"property": "C16", "status": "proved", "theorems": ["C16_complete_tree", "C16_elaboration_defined", "C16_queries_defined"], "note": "The whole tree of an accepted file is present; elaboration and queries on it are defined (no null dereference). The side condition, that no called function has the name of an assigned variable, is C22's counterexample."},
 {"property": "C17", "status": "proved", "theorems": ["C17_only_last", "C17_others", "C17_tolerated", "C17_project", "C17_exceptions_refuted", "C17_queries", "C17_count"], "note": "All statements before the faulty one are complete and unaffected; a faulty last statement is harmless unless something is missing in one of the listed places, and each of those places has a witness. The error count is exact."},
 {"property": "C18", "status": "proved", "theorems": ["C18_tree_is_located"], "note": ""},
 {"property": "C19", "status": "proved", "theorems": ["C19_trees", "C19_files", "C19_places", "C19_output", "C19_exceptions_refuted"], "note": "Full statement with its exceptions; each exception has a witness in C19_exceptions_refuted."},
 {"property": "C20", "status": "proved", "theorems": ["C20_assigned_value", "C20_argument_value"], "note": "For expressions of strings, lists, names and '+', given the assignments before; calls of select/glob are C21 and C37."},
 {"property": "C21", "status": "proved", "theorems": ["C21_select_default", "C21_select_any"], "note": "Literal maps, and any arguments via the elaborated arguments."},
 {"property": "C22", "status": "proved", "theorems": ["C22_statement_count", "C22_statement_kept", "C22_untouched", "C22_function_name_refuted"], "note": "Statement count, kind and names kept; untouched if nothing to elaborate is mentioned; the exception (variable named like a called function) is shown to be undefined behaviour."},
 {"property": "C23", "status": "proved", "theorems": ["C23_calls_proper", "C23_exactly_once", "C23_C24_attributes", "C23_total"], "note": ""},
 {"property": "C24", "status": "proved", "theorems": ["C24_visibility", "C23_C24_attributes"], "note": ""},
 {"property": "C25", "status": "proved", "theorems": ["C25_always_ends", "C25_finitely_many_rounds", "C25_defined"], "note": "Termination, convergence when labels are finite, and absence of crashes under the stated conditions."},
 {"property": "C26", "status": "proved", "theorems": ["C26_converse"], "note": ""},
 {"property": "C27", "status": "proved", "theorems": ["C27_limited", "C27_unlimited", "C27_dependencies"], "note": ""},
 {"property": "C28", "status": "proved", "theorems": ["C28_lookup", "C28_file", "C28_file_top", "C28_package", "C28_package_here", "C28_roundtrip", "C28_top_refuted", "C28_dot_refuted", "C28_unknown"], "note": "Stated with its exceptions, which are proved to be exceptions."},
 {"property": "C29", "status": "proved", "theorems": ["C29_exact", "C29_best", "C29_index"], "note": ""},
 {"property": "C30", "status": "proved", "theorems": ["C30_providers", "C30_defined"], "note": ""},
 {"property": "C31", "status": "proved", "theorems": ["C31_minimize"], "note": "For all families of non-empty sets: covered, non-empty, part of an input, pairwise disjoint; both CHECKs hold."},
 {"property": "C32", "status": "proved", "theorems": ["C32_kept", "C32_swap_refuted"], "note": "Under the stated condition; C32_swap_refuted gives the project that shows it is needed."},
 {"property": "C33", "status": "proved", "theorems": ["C33_removed", "C33_complete"], "note": "Both directions for one target; C60 relates the run to the targets. Providers of a header are those of the index of C29/C30."},
 {"property": "C34", "status": "proved", "theorems": ["C34_satisfied"], "note": ""},
 {"property": "C35", "status": "proved", "theorems": ["C35_added", "C35_ambiguous", "C35_self_refuted"], "note": "With the exception stated, C35_self_refuted."},
 {"property": "C36", "status": "proved", "theorems": ["C36_includes", "C36_comment_refuted"], "note": "Exact characterisation; C36_comment_refuted is the exception stated."},
 {"property": "C37", "status": "proved", "theorems": ["C37_selected", "C37_plain", "C37_order", "C37_empty_refuted"], "note": "For every sequence of calls and every non-empty path; the quirk for the empty path is shown by C37_empty_refuted."},
 {"property": "C38", "status": "proved", "theorems": ["C38_complete", "C38_exact", "C38_directories_refuted", "C38_trailing_refuted"], "note": "Relative to an independent segment-wise definition of Bazel's patterns; the two deviations are witnessed."},
 {"property": "C39", "status": "proved", "theorems": ["C39_no_match_pruned", "C39_entered", "C39_newline_refuted"], "note": "C39_newline_refuted shows why newlines are excluded."},
 {"property": "C40", "status": "proved", "theorems": ["C40_regions", "C40_stable", "C40_count", "C40_alignment_refuted"], "note": "Fresh memory from operator new is a hypothesis (an oracle that never hands out memory in use)."},
 {"property": "C41", "status": "proved", "theorems": ["C41_list", "C41_stale_end_refuted"], "note": ""},
 {"property": "C42", "status": "proved", "theorems": ["C42_sound", "C42_complete", "C42_insert", "C42_empty_refuted"], "note": ""},
 {"property": "C43", "status": "proved", "theorems": ["C43_csv", "C43_sexpr", "C43_plist", "C43_json", "C43_json_refuted"], "note": "Readers of the three formats as specification; JSON with exact characterisation of the rows that give valid JSON, and a witness for one that does not."},
 {"property": "C44", "status": "proved", "theorems": ["C44_columns", "C44_words", "C44_columns_checked", "C44_repeated_below"], "note": "Column starts given by the widths; also words of a line, CHECK failures, alignment of repeated values."},
 {"property": "C45", "status": "proved", "theorems": ["C45_ends", "C45_inodes", "C45_deterministic", "C45_unlimited_refuted"], "note": "One step per directory; the limit on path lengths stands for ELOOP/PATH_MAX."},
 {"property": "C46", "status": "proved", "theorems": ["C46_sound", "C46_complete", "C46_links", "C46_paths", "C46_is_directory", "C46_unwanted_refuted"], "note": ""},
 {"property": "C47", "status": "proved", "theorems": ["C47_all_or_nothing", "C47_content", "C47_length", "C47_failure", "C47_size_refuted"], "note": ""},
 {"property": "C48", "status": "proved", "theorems": ["C48_found", "C48_not_found", "C48_at", "C48_augment", "C48_augment_lookup", "C48_directory", "C48_at_refuted"], "note": "Stated with its exception."},
 {"property": "C49", "status": "proved", "theorems": ["C49_lookup", "C49_names", "C49_words"], "note": "Property C69 is about the options."},
 {"property": "C50", "status": "proved", "theorems": ["C50_exclusion", "C50_guarded", "C50_order", "C50_once", "C50_cancelled", "C50_reason", "C50_end", "C50_all", "C50_progress", "C50_terminates", "C50_busy", "C50_rest", "C50_leaves", "C50_prewarm"], "note": "Interleaving model of mutex, condition variable and threads; std::condition_variable by its documentation."},
 {"property": "C51", "status": "proved", "theorems": ["C51_script", "C51_command", "C51_quote_refuted"], "note": "Reader of shell commands as specification; a BUILD file with a quote in a label is the witness of the exception."},
 {"property": "C52", "status": "proved", "theorems": ["C52_options", "C52_dirs", "C52_dirs_unique", "C52_reason", "C52_complete", "C52_protobuf", "C52_defined", "C52_database", "C52_once", "C52_sources", "C52_flags", "C52_command", "C52_crash_refuted", "C52_run"], "note": "Reworded from 'never crashes', which is false (C52_crash_refuted: include_prefix in the main project throws); C52_defined has the exact condition. The exception for directories called like a project is needed (C52_clash_refuted). C52_run is about the whole program in a file system."},
 {"property": "C53", "status": "proved", "theorems": ["C53_aliases"], "note": ""},
 {"property": "C54", "status": "proved", "theorems": ["C54_history", "C54_graph"], "note": ""},
 {"property": "C55", "status": "proved", "theorems": ["C55_token_kinds"], "note": "All contents, all tokens."},
 {"property": "C56", "status": "proved", "theorems": ["C56_parser_is_grammar", "C56_unambiguous"], "note": "Both directions: soundness and completeness with respect to the inductive grammar in S_Grammar.v, for all contents."},
 {"property": "C57", "status": "proved", "theorems": ["C57_reported", "C57_within", "C57_queries"], "note": "within states the place and the text found there (the text itself, '+' or glob)."},
 {"property": "C58", "status": "proved", "theorems": ["C58_rule_label", "C58_no_name", "C58_file_path"], "note": "For well-formed packages and names."},
 {"property": "C59", "status": "proved", "theorems": ["C59_first", "C59_defined"], "note": ""},
 {"property": "C60", "status": "proved", "theorems": ["C60_matching", "C60_only", "C60_defined", "C60_possible"], "note": "C60_possible: for projects of files that parsed without error, using C57; C60_defined is the same under a weaker condition on the trees."},
 {"property": "C61", "status": "proved", "theorems": ["C61_glob", "C61_defined", "C61_call", "C61_subpackages_refuted", "C61_run"], "note": "Uses what C37-C39 say about patterns. C61_run is about the whole program in a file system."},
 {"property": "C62", "status": "proved", "theorems": ["C62_where", "C62_found", "C62_link_refuted", "C62_run"], "note": "C62_run is about the whole program in a file system."},
 {"property": "C63", "status": "proved", "theorems": ["C63_edits", "C63_order", "C63_invalid", "C63_same_target"], "note": ""},
 {"property": "C64", "status": "proved", "theorems": ["C64_needed", "C64_all"], "note": "Read back from the CSV format (C43, C44 for the others)."},
 {"property": "C65", "status": "proved", "theorems": ["C65_rows", "C65_possible"], "note": "Rows read back from CSV; definedness for every format."},
 {"property": "C66", "status": "proved", "theorems": ["C66_rules", "C66_grep", "C66_colour", "C66_command", "C66_empty_match_refuted", "C66_unbalanced_refuted", "C66_possible"], "note": "For files below 2 GB without a 'not in' split over lines (C09). The two exceptions are refutations with a witness."},
 {"property": "C67", "status": "proved", "theorems": ["C67_no_workspace", "C67_depends_on", "C67_has_dependents", "C67_lib_headers", "C67_genrule_outputs", "C67_aliased_by", "C67_list_packages", "C67_list_targets", "C67_workspace", "C67_dwyu", "C67_canonicalize", "C67_parse"], "note": "The file system, glob() and the search for BUILD files (C61, C62) are parameters."},
 {"property": "C68", "status": "proved", "theorems": ["C68_status", "C68_numbers"], "note": "For command lines whose pattern is within the modelled regular expressions and whose run is defined."},
 {"property": "C69", "status": "proved", "theorems": ["C69_unique", "C69_meaning_unique", "C69_reading", "C69_order", "C69_zero", "C69_only_errors_refuted", "C69_program", "C69_status", "C69_flags", "C69_formats", "C69_number", "C69_signed"], "note": "Any file system (change of directory, opening of the output) and any search syntax. -E is refuted: no command line sets it."},
 {"property": "C70", "status": "proved", "theorems": ["C70_load", "C70_possible", "C70_run"], "note": "C70_run is about the whole program in a file system."},
 {"property": "C71", "status": "proved", "theorems": ["C71_jobs", "C71_roundtrip", "C71_once", "C71_arguments", "C71_order", "C71_bound", "C71_unique_refuted"], "note": "Uniqueness of the name for the arguments is refuted."},
 {"property": "C72", "status": "proved", "theorems": ["C72_walk", "C72_glob", "C72_runs", "C72_packages", "C72_exceptions_refuted"], "note": "The whole program is put together in M_System.v: commands, walks, glob() and compilation flags over one file system. C72_exceptions_refuted shows each condition is needed."},
 {"property": "C73", "status": "proved", "theorems": ["C73_runs", "C73_walks", "C73_program", "C73_commands", "C73_exceptions_refuted"], "note": "The whole program of M_System.v: no undefined behaviour and no endless loop, with the exceptions that the statement names. C73_exceptions_refuted has a witness for each condition."},
 {"property": "C74", "status": "proved", "theorems": ["C74_converges", "C74_reads_back", "C74_label_refuted"], "note": "For any way to carry out the edits (S_Converge.project_edited); reads_back holds for well-formed names except main-project targets used in another project, which is the witness of C74_label_refuted."},
 {"property": "C75", "status": "proved", "theorems": ["C75_tokens", "C75_tree", "C75_values", "C75_rules", "C75_self", "C75_commands", "C75_dwyu", "C75_program"], "note": "Words and gaps are given explicitly (S_Layout); the scanner finds the same tokens, the parser runs in step on them, and elaboration and queries look at texts only, hence so do the commands, on whole file systems. Boundary cases are refuted by examples."},
 {"property": "C76", "status": "proved", "theorems": ["C76_commands", "C76_dwyu", "C76_follow", "C76_once"], "note": "C76_commands: over file systems (M_System) with BUILD files respelled; C76_dwyu: events pairwise the same up to spelling; C76_follow and C76_once: renames of canonicalize carried out"},
 {"property": "C77", "status": "proved", "theorems": ["C77_edits", "C77_possible", "C77_verbosity", "C77_color", "C77_messages", "C77_unreadable", "C77_unprovided", "C77_unsure", "C77_silent_refuted", "C77_invisible_refuted"], "note": "messages as they are written, except with -q; hypotheses: files and sources below 2^31 bytes, and (for places) no 'not in' over two lines"},
 {"property": "C78", "status": "proved", "theorems": ["C78_messages", "C78_about_a_token", "C78_text_before", "C78_token_at_fault", "C78_advice", "C78_square_refuted", "C78_slice_refuted"], "note": "All complaints and messages; the two places where the advice is wrong are refuted with witnesses for all continuations (C78_square_refuted, C78_slice_refuted). Places assume no 'not in' broken over lines (C09)."},
 {"property": "C79", "status": "proved", "theorems": ["C79_same", "C79_verbosity", "C79_run", "C79_failure", "C79_files", "C79_possible", "C79_program", "C79_projects_refuted"], "note": "Stated over the run with its messages (M_Told.v), which is proved to give the same output as the run of C67-C69. C79_run has everything said in order, C79_program the options and -q. C79_possible: for the file systems of C73. C79_projects_refuted: an unextracted project of only one kind of workspace is not mentioned. Not covered: statistics of -v, the text of the usage page, what getopt prints itself, messages for patterns in visibility attributes."},
 {"property": "C80", "status": "proved", "theorems": ["C80_missing", "C80_mentioned"], "note": "Exact characterisation by reachability within the depth (the relation of C25), for every project and disk."},
 {"property": "C81", "status": "proved", "theorems": ["C81_order", "C81_same", "C81_nothing", "C81_read", "C81_walk", "C81_elaborated", "C81_rounds", "C81_dwyu", "C81_canon", "C81_lines"], "note": "For every run; what is counted by glob() and the walk are parameters (how many entries a walk looks at), times and speeds too. A second BUILD file of a package counts as parsed, with the size of the first."},
 {"property": "C82", "status": "proved", "theorems": ["C82_crash", "C82_items", "C82_end", "C82_goes_on", "C82_twins_refuted"], "note": "Model of the threads as a machine with one step per access to the queue or the result directory; invariant of all schedules. The exception (two files of the same name and hash) is proved as a refutation with two schedules."},
 {"property": "C83", "status": "proved", "theorems": ["C83_results", "C83_report", "C83_like_new", "C83_again", "C83_work", "C83_fresh"], "note": "Induction on histories of sessions, each stopped anywhere. That results of the same name are interchangeable is a hypothesis of C83_like_new; C84 says when it can fail."},
 {"property": "C84", "status": "proved", "theorems": ["C84_name", "C84_header", "C84_own", "C84_source", "C84_same", "C84_unnoticed_refuted"], "note": "For every hash function to 64 bits. The exceptions in the statement are exact (if and only if), with a witness from bant's own files."},
 {"property": "C85", "status": "proved", "theorems": ["C85_report", "C85_order", "C85_uncounted_refuted"], "note": "Counts against the number of occurrences in the texts; the exception has a witness."},
 {"property": "C86", "status": "proved", "theorems": ["C86_files", "C86_includes", "C86_lines", "C86_checkout", "C86_version", "C86_directory", "C86_command", "C86_start", "C86_place", "C86_shared"], "note": "The regular expressions are related to a specification by parts of the text, the command to the shell's reading of words (S_Shell.v)."},
 {"property": "C87", "status": "proved", "theorems": ["C87_same", "C87_others"], "note": "For every command, file system and format; readers of the formats are specifications of their own (S_Table)."},
 {"property": "C88", "status": "proved", "theorems": ["C88_packages", "C88_part", "C88_hidden_refuted"], "note": "For CSV; with C87 for all formats. The exception is a theorem of its own (C88_hidden_refuted)."},
 {"property": "C89", "status": "proved", "theorems": ["C89_deeper", "C89_generated", "C89_generated_refuted"], "note": "In CSV, which lists rows one by one (C87 relates the other formats). C89_generated_refuted shows the exception: //a/b:g is replaced by //a:g as the rule of a/b/x."},
 {"property": "C90", "status": "proved", "theorems": ["C90_list_targets", "C90_depends_on", "C90_headers_refuted"], "note": "For whole file systems (M_System). C90_headers_refuted is the exception of lib-headers."},
 {"property": "C91", "status": "proved", "theorems": ["C91_commands", "C91_flags", "C91_dwyu", "C91_program", "C91_new_files", "C91_glob_refuted"], "note": "For whole runs (M_System). C91_glob_refuted: with glob() a new file changes the output, as it should."},
 {"property": "C92", "status": "proved", "theorems": ["C92_list_targets", "C92_list_packages", "C92_print", "C92_canonicalize", "C92_depends_on", "C92_aliased_by", "C92_deeper_refuted"], "note": "C92_deeper_refuted shows why dependencies must not be followed."},
 {"property": "C93", "status": "proved", "theorems": ["C93_commands", "C93_dwyu", "C93_program"], "note": "Attribute order is described on the statements the parser returns (C56 relates these to the grammar); C93_twice_refuted shows why an attribute must not be given twice."},
 {"property": "C94", "status": "proved", "theorems": ["C94_depends_on", "C94_has_dependents_ends", "C94_has_dependents"], "note": "Examples beside the theorems: C94_texts and C94_case meet the conditions; C94_same_name_refuted and C94_variable_refuted show that rules of the same name, and variables, may not change places."},
 {"property": "C95", "status": "proved", "theorems": ["C95_depends_on", "C95_has_dependents", "C95_list_packages", "C95_list_targets", "C95_lib_headers", "C95_aliased_by", "C95_genrule_outputs"], "note": "Examples beside the theorems meet the conditions (C95_texts, C95_case, C95_headers_texts, C95_headers_case, C95_outputs_texts, C95_outputs_case); C95_front_refuted shows that rules added in front of the others do change what is listed. Runs that succeed before and after."},
 {"property": "C96", "status": "proved", "theorems": ["C96_list_packages", "C96_list_targets", "C96_lib_headers", "C96_genrule_outputs"], "note": "Both directions; the column of locations of list-targets is C65's. Which of several genrules with the same output is listed is in C67."}
]}
