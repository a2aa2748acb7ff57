{"claims":[
{"property": "C01", "status": "proved", "theorems": ["C01_hash_refines_map", "C01_small_hash_refines_map"], "note": "hash table refines a finite map for every client and history; small tables under the insert bound"},
{"property": "C02", "status": "proved", "theorems": ["C02_hash_fill_and_termination", "C02_small_table_loops_refuted"], "note": "fill count and lookup termination for tables of 16 or more slots; smaller tables can loop forever (refutation = finding)"},
{"property": "C03", "status": "proved", "theorems": ["C03_strcache_interns"], "note": "Holds for every USHRT_MAX>0 and BUFSIZE<=USHRT_MAX, any hash functions, any NUL-free strings; strings of USHRT_MAX bytes or more are stored but not shared, as in the code."},
{"property": "C04", "status": "proved", "theorems": ["C04_words_count", "C04_word_nth", "C04_word_bad_index", "C04_first_last", "C04_wordlist", "C04_wordlist_backwards", "C04_word_of_words_is_last"], "note": "func_words/word/firstword/lastword/wordlist against an independent whitespace splitter; indices up to INT_MAX (atoi overflow is undefined behaviour in C and excluded)"},
{"property": "C05", "status": "proved", "theorems": ["C05_strip"], "note": ""},
{"property": "C06", "status": "proved", "theorems": ["C06_subst", "C06_subst_same_or_absent"], "note": "leftmost non-overlapping replacement as a relation, shown functional"},
{"property": "C07", "status": "proved", "theorems": ["C07_patsubst_percent", "C07_word_result_unique", "C07_patsubst_literal", "C07_suffix_reference", "C07_pattern_reference", "C07_patsubst_empty_pattern", "C07_suffix_reference_quoted_refuted", "C07_patsubst_empty_stem_space_refuted"], "note": "literal %-free patterns, % patterns, empty pattern, substitution references; refuted corner cases recorded as findings"},
{"property": "C08", "status": "proved", "theorems": ["C08_filter"], "note": "for every pair of hash functions, linear and hashed strategy"},
{"property": "C09", "status": "proved", "theorems": ["C09_sort", "C09_byte_order_refuted", "C09_sort_reads_past_end_refuted"], "note": "qsort is an explicit hypothesis (permutation, sorted by alpha_compare), shown satisfiable by insertion sort; two refutations recorded as findings"},
{"property": "C10", "status": "proved", "theorems": ["C10_dir_notdir", "C10_basename_suffix", "C10_splits_unique"], "note": ""},
{"property": "C11", "status": "proved", "theorems": ["C11_abspath", "C11_abspath_idempotent", "C11_func_abspath", "C11_no_cwd_refuted"], "note": "starting_directory canonical absolute (what getcwd returns) as hypothesis; failure of getcwd is a finding"},
{"property": "C12", "status": "proved", "theorems": ["C12_doubled_dollars", "C12_plain_text", "C12_quoted_prefix"], "note": "For every function table, variable environment and expansion state."},
{"property": "C13", "status": "proved", "theorems": ["C13_expansion_ends", "C13_outcome_independent_of_depth", "C13_check_is_transparent", "C13_report_iff_endless", "C13_foreach_overreported_refuted", "C13_call_never_ends_refuted"], "note": "Endless expansion through $(call) and a premature report through $(foreach) are proved as refutations of the unguarded claim."},
{"property": "C14", "status": "proved", "theorems": ["C14_strongest_definition_stands", "C14_weaker_definition_changes_nothing"], "note": "define_variable_in_set/undefine_variable_in_set over any history from any set; env_overrides constant during the history"},
{"property": "C15", "status": "proved", "theorems": ["C15_innermost_visible_definition", "C15_leaving_a_scope_restores", "C15_inner_scope_hides_only"], "note": "lookup over any chain of sets with distinct names; push/define/pop sequences"},
{"property": "C16", "status": "proved", "theorems": ["C16_exported_value", "C16_no_other_names", "C16_makelevel", "C16_private_leaks_refuted", "C16_outer_value_refuted"], "note": "guarded form (innermost definition visible and exported); the unguarded claim is refuted by two witnesses"},
{"property": "C17", "status": "proved", "theorems": ["C17_matching_definitions_in_order", "C17_most_specific_wins"], "note": "create_pattern_var with its last-insert cache, lookup_pattern_var, and the resulting set for = and := definitions"},
{"property": "C18", "status": "proved", "theorems": ["C18_collapse_joins_lines", "C18_single_line_unchanged", "C18_all_continued_gives_one_line", "C18_only_blanks_backslashes_newlines_change"], "note": "collapse_continuations equals the line-based specification, with consequences"},
{"property": "C19", "status": "proved", "theorems": ["C19_search_halves_backslashes", "C19_quote_then_search", "C19_quoted_prefix_then_special", "C19_references_are_opaque", "C19_unescape_quote"], "note": "quoting/searching round trips for find_char_unquote, find_map_unquote, find_percent(_cached), unescape_char"},
{"property": "C20", "status": "proved", "theorems": ["C20_one_branch_is_read", "C20_ignored_text", "C20_conditions", "C20_malformed_else_if_refuted", "C20_ignored_nested_define_refuted", "C20_two_elses_refuted", "C20_odd_syntax_refuted"], "note": "side effects of expanding a condition are not modelled"},
{"property": "C21", "status": "proved", "theorems": ["C21_recipe_lines", "C21_every_recipe_has_lines", "C21_nothing_lost", "C21_many_lines_refuted", "C21_one_shell", "C21_flags", "C21_chop_commands"], "note": "for recipes of fewer than 65536 lines; the wrap-around of the line counter is proved as a refutation"},
{"property": "C22", "status": "proved", "theorems": ["C22_words", "C22_command", "C22_rest", "C22_fits", "C22_plain", "C22_empty_argument_refuted", "C22_last_backslash_refuted", "C22_newline_refuted", "C22_nothing", "C22_check", "C22_plain_check"], "note": "Proved for every line cut at newlines (and for texts without a newline), except an empty word before a continuation and a lone last backslash, where witnesses show the difference."},
{"property": "C23", "status": "proved", "theorems": ["C23_verbatim", "C23_whole", "C23_ends", "C23_one_shell", "C23_one_shell_whole", "C23_newline_refuted", "C23_shell_word_refuted", "C23_empty_refuted", "C23_one_shell_cut_refuted", "C23_empty", "C23_defaults", "C23_empty_check"], "note": "Proved for every line, every SHELL without quotes, backslashes or newlines whose first word is an ordinary command, and every plain flags text; also .ONESHELL; witnesses where it fails."},
{"property": "C24", "status": "proved", "theorems": ["C24_job_limit", "C24_tokens_conserved", "C24_no_token_created", "C24_all_tokens_back", "C24_no_internal_error", "C24_no_deadlock", "C24_waits_for_jobs", "C24_lost_tokens_refuted", "C24_failed_start_refuted", "C24_quit_use_after_free_refuted", "C24_quit_leaves_jobs_refuted"], "note": "transition system of a tree of makes sharing a pipe; limits, conservation, no internal errors, no deadlock; four refutations"},
{"property": "C25", "status": "proved", "theorems": ["C25_slots", "C25_one_at_a_time", "C25_load_refuted", "C25_failed_start_refuted"], "note": "same transition system without jobserver; two refutations"},
{"property": "C26", "status": "proved", "theorems": ["C26_order_preserved", "C26_no_special_value", "C26_round_trip", "C26_late_times_clamped", "C26_never_reversed", "C26_before_1970_refuted", "C26_low_resolution_collides_refuted", "C26_printed_fraction", "C26_links_newest"], "note": "both resolutions; two refutations for times before 1970"},
{"property": "C27", "status": "proved", "theorems": ["C27_ends", "C27_once", "C27_order", "C27_needed", "C27_drops", "C27_complete", "C27_double_colon_order_refuted", "C27_twice_refuted", "C27_question_refuted", "C27_present", "C27_check"], "note": "Files are numbered; implicit rules are taken as found; no also_make, no target with several double-colon rules (witnesses show what goes wrong there); -q and -t with -k only (witness without); existing intermediate files need a recipe (witness)."},
{"property": "C28", "status": "proved", "theorems": ["C28_second", "C28_secondary_refuted", "C28_check"], "note": "For graphs without intermediate files and circles; witness for .SECONDARY."},
{"property": "C29", "status": "proved", "theorems": ["C29_contained", "C29_stop", "C29_keep_going", "C29_double_colon_refuted"], "note": "Under the same limits as C27; witness for double-colon rules."},
{"property": "C30", "status": "proved", "theorems": ["C30_choice", "C30_plan", "C30_stem", "C30_specific", "C30_nothing", "C30_ends", "C30_complete", "C30_entered", "C30_leftover_refuted", "C30_other_target_refuted", "C30_empty_stem_refuted", "C30_incomplete_refuted", "C30_timely", "C30_check", "C30_complete_check", "C30_timely_check"], "note": "Second expansion is not modelled; the division of a prerequisite into names is a parameter. Witnesses where parts fail: leftover prerequisites for a rule without any, other targets with a directory, empty stems, chains lost to a stale mark."},
{"property": "C31", "status": "proved", "theorems": ["C31_definitions", "C31_several_targets_refuted", "C31_check"], "note": "For rules with one target; with several it fails, with witnesses."},
{"property": "C32", "status": "proved", "theorems": ["C32_lists", "C32_memory", "C32_fits", "C32_overflow_refuted", "C32_twice_refuted", "C32_at", "C32_star", "C32_less"], "note": "The second expansion's own calls are not modelled. Witnesses: the overflow of the buffer of $? and the effect of setting the variables twice."},
{"property": "C33", "status": "proved", "theorems": ["C33_only", "C33_old", "C33_made", "C33_modes", "C33_said", "C33_all", "C33_waits", "C33_reached", "C33_signal", "C33_source_refuted", "C33_phony_refuted", "C33_default_goal_refuted", "C33_precious_refuted"], "note": "What is deleted is intermediate and not to be kept; nothing that existed before (with a recipe, not phony, not removed by other recipes) is deleted, so its recipe was run; nothing in the modes -n -q -t or with an empty .SECONDARY; make names what it deletes; everything to be deleted is (when the goals were walked to the end); make waits for its children before the sweep, and the sweep is reached however the build ends unless a child fails at a good end without -k. Witnesses where the English claim fails: sources and phony names in .INTERMEDIATE, the default goal, precious files under -include. Signals arriving in the middle of the engine are not modelled; double-colon chains are not either."},
{"property": "C34", "status": "proved", "theorems": ["C34_list", "C34_numbers_never_reused", "C34_stops_only_for_listed", "C34_stops_exactly", "C34_second_breakpoint_refuted", "C34_delete_disarms_others_refuted", "C34_temporary_stays_listed_refuted", "C34_finish_stays_refuted", "C34_break_modifiers", "C34_continue_modifiers_refuted", "C34_stops_while_stepping"], "note": "Positive part for all histories; the unrestricted claim is refuted by witnesses."},
{"property": "C35", "status": "proved", "theorems": ["C35_position", "C35_moves_to_frame", "C35_impossible_reported", "C35_failed_up_refuted", "C35_failed_up_always_refuted", "C35_overflow_refuted"], "note": "Numbers below 2^30; a failed up or frame loses the current frame (refuted)."},
{"property": "C36", "status": "proved", "theorems": ["C36_command_and_argument", "C36_words", "C36_two_blanks_refuted", "C36_abbreviation"], "note": "Single blanks; two blanks refuted."},
{"property": "C37", "status": "proved", "theorems": ["C37_lookup", "C37_line_after_last_refuted", "C37_break_far_line_refuted", "C37_build_overrun_refuted"], "note": "All lines but one; that one refuted."},
{"property": "C38", "status": "proved", "theorems": ["C38_splits_by_grammar", "C38_round_trip", "C38_shell_quotes_refuted"], "note": "allocation failures and the null pointer are not modelled"},
{"property": "C39", "status": "proved", "theorems": ["C39_options_reach_the_sub_make", "C39_options_with_e", "C39_options_are_reasonable", "C39_variables_reach_the_sub_make", "C39_dollar_in_argument_refuted", "C39_environment_overrides_refuted", "C39_tilde_refuted", "C39_simple_variable_refuted", "C39_operator_in_name_refuted"], "note": "Round trip through export, import, expansion, word splitting and getopt. Dollar signs in option arguments, tildes, -e with command variables, and dollar signs in simply expanded variables are refuted by witnesses. The oracle for double formatting is assumed to round-trip for the load average at hand."},
{"property": "C40", "status": "proved", "theorems": ["C40_first_place", "C40_always_meaningful", "C40_absolute_name", "C40_gpath", "C40_root_directory_refuted", "C40_double_slash_refuted", "C40_quoted_percent_refuted", "C40_unterminated_refuted", "C40_check", "C40_gpath_check"], "note": "Directives are read by an independent grammar (S_Vpath). Excluded by hypothesis, each with a witness of failure: directories that end in a slash, names with two adjacent slashes, literal patterns containing a percent. The file table, directory listing and stat are arbitrary functions."},
{"property": "C41", "status": "proved", "theorems": ["C41_add_and_join", "C41_join_dir_notdir"], "note": ""},
{"property": "C42", "status": "proved", "theorems": ["C42_findstring"], "note": ""},
{"property": "C43", "status": "proved", "theorems": ["C43_call_gets_its_arguments", "C43_arguments_are_the_text", "C43_long_name_refuted"], "note": "Arguments that need no expansion themselves; names shorter than 256 characters (longer ones: refuted)."},
{"property": "C44", "status": "proved", "theorems": ["C44_expansion_follows_the_rules", "C44_checked_expansion_follows_the_rules", "C44_checked_expansion_gives_the_value", "C44_value_unique"], "note": "Natural semantics in S_Eval.v, including values accumulated by += across scopes (but not through $(call) and substitution references)."},
{"property": "C45", "status": "proved", "theorems": ["C45_environment_passes_through", "C45_malformed_entry_refuted"], "note": "an entry without an equals sign is read past its end: refuted separately"},
{"property": "C46", "status": "proved", "theorems": ["C46_find_command", "C46_full_names", "C46_short_aliases_refuted"], "note": "One character aliases refuted."},
{"property": "C47", "status": "proved", "theorems": ["C47_step_counts"], "note": "Targets without breakpoints."},
{"property": "C48", "status": "proved", "theorems": ["C48_line_is_read_as_written", "C48_global_definition", "C48_target_append", "C48_rejected_definition_refuted"], "note": "reading of the line characterised exactly; effect of each operator; the claim that a rejected target-specific definition changes nothing is refuted"},
{"property": "C49", "status": "proved", "theorems": ["C49_earliest_library", "C49_check"], "note": "Same exclusions as C40; the number of directives is less than the largest unsigned int minus the number of standard directories."},
{"property": "C50", "status": "proved", "theorems": ["C50_suffix_rules", "C50_check"], "note": ""},
{"property": "C51", "status": "proved", "theorems": ["C51_still", "C51_runs_nothing", "C51_touch", "C51_foreseen"], "note": "For every makefile of the model, without the limits of C27; lines with + are not modelled."},
{"property": "C52", "status": "proved", "theorems": ["C52_file", "C52_buffer", "C52_string", "C52_same", "C52_numbers", "C52_whole", "C52_nul_refuted", "C52_cr_refuted"], "note": "For texts without NULs; the witnesses show what a NUL does and that  keeps carriage returns."},
{"property": "C53", "status": "proved", "theorems": ["C53_fits", "C53_tidy", "C53_plain", "C53_outside", "C53_text", "C53_again", "C53_shell_refuted", "C53_doubled_refuted", "C53_again_refuted"], "note": "The exact result and its stability hold for lines without two backslashes before a newline; the witnesses show that they fail there, and that a substitution of the shell is changed."},
{"property": "C54", "status": "proved", "theorems": ["C54_fold", "C54_no_newline", "C54_line", "C54_nul_refuted"], "note": "For output without NULs."},
{"property": "C55", "status": "proved", "theorems": ["C55_prefix", "C55_twice_refuted"], "note": "What is done when one command is run; the witness shows that commands from the same line of the recipe lose more than one prefix."},
{"property": "C56", "status": "proved", "theorems": ["C56_parent", "C56_variables", "C56_overflow_refuted", "C56_dash_refuted"], "note": "Level, process and target survive the way through the environment. Refuted for target names of 200 and more characters (array overrun) and names that begin with a dash."},
{"property": "C57", "status": "proved", "theorems": ["C57_document", "C57_one_reading", "C57_names", "C57_times", "C57_numbers", "C57_makefile_refuted", "C57_directory_refuted", "C57_control_refuted", "C57_null_refuted"], "note": "The file is a JSON document for exactly one value, the one the profile describes, if names have no unknown control characters and the unescaped texts (directory, status, makefiles) no quotes, backslashes or control characters. Refuted outside of that."},
{"property": "C58", "status": "proved", "theorems": ["C58_names", "C58_one_reading", "C58_buffer", "C58_quoted", "C58_order_only", "C58_archive", "C58_wildcard", "C58_quoted_stop_refuted", "C58_newline_refuted", "C58_second_bar_refuted", "C58_wildcard_archive_refuted", "C58_member_dot_refuted", "C58_meaning", "C58_stands", "C58_prereqs", "C58_check", "C58_prereqs_check", "C58_wildcard_check"], "note": "Any text in which no quoted stop character occurs together with an archive group; buffer safety for every text. Witnesses for five deviations."},
{"property": "C59", "status": "proved", "theorems": ["C59_single", "C59_first_and_all", "C59_double", "C59_stops", "C59_warned", "C59_suffixes", "C59_default", "C59_special_kept", "C59_grouped", "C59_patterns", "C59_only", "C59_static_blank_refuted", "C59_stem_blank_refuted", "C59_percent_refuted", "C59_twice_refuted"], "note": "Single and double colon rules, static pattern rules, grouped targets, .SUFFIXES and .DEFAULT, warnings and stops. Stems with blanks and quoted percent signs among prerequisites: see the refuted theorems. The warning about a target that joins a second group and the effects of special targets are not modelled."},
{"property": "C60", "status": "proved", "theorems": ["C60_described", "C60_one_reading", "C60_text", "C60_last", "C60_tasks", "C60_tasks_order", "C60_two_refuted", "C60_skipped_refuted", "C60_eval_refuted", "C60_included_refuted", "C60_later_rule_refuted", "C60_space_refuted"], "note": "Proved for makefiles with at most one description between a rule and the statement that ends it, none left unused in an included makefile and none pending when another makefile or an eval is read; the refuted theorems show that each of these conditions is needed. Lines are classified (recipe, rule, other statement) outside the model."},
{"property": "C61", "status": "proved", "theorems": ["C61_unchanged_kept", "C61_protected_kept", "C61_only_failed", "C61_interrupted", "C61_failed", "C61_finished", "C61_dying", "C61_not_found_refuted", "C61_unseen_refuted", "C61_late_refuted"], "note": "proved for every sequence of events; the refuted theorems show a half-made target kept when a later command is not found, an untouched grouped target deleted, and a file written after the signal kept"},
{"property": "C62", "status": "proved", "theorems": ["C62_rule", "C62_expanded", "C62_refused", "C62_quoted", "C62_no_colon", "C62_safe", "C62_semicolon_refuted", "C62_blank_refuted", "C62_equals_refuted", "C62_colon_refuted", "C62_shift_refuted", "C62_comment_refuted"], "note": "expansion is a parameter that leaves text without dollar signs alone; the witnesses show where quoting of semicolons, blanks, equals signs and colons goes wrong"},
{"property": "C63", "status": "proved", "theorems": ["C63_first", "C63_again", "C63_user", "C63_strong", "C63_safe", "C63_undefine_refuted", "C63_percent_refuted"], "note": "Proved for all sequences of events: which target becomes the goal, when the search starts again, what a user's value means, and that no freed memory is read as long as the variable is not undefined. Refuted parts: undefining .DEFAULT_GOAL leaves a dangling pointer that is read; a quoted percent sign makes a target look like a pattern and hides the targets behind it."},
{"property": "C64", "status": "proved", "theorems": ["C64_scan", "C64_date", "C64_touch", "C64_glob", "C64_damaged", "C64_glob_plain", "C64_safe", "C64_hang_refuted", "C64_negative_refuted", "C64_arfilenames_refuted", "C64_stack_refuted", "C64_prefix_refuted", "C64_symbols_refuted", "C64_touch_1970_refuted"], "note": "Proved for all archives in GNU's and BSD's format, mixed at will; safety for all files without negative sizes, tables that start with an empty line, and lengths of ten digits. Refuted parts: a size of -60 is scanned for ever; a negative size of the table, or a file called ARFILENAMES that starts with an empty line, touches memory outside of the buffers; many BSD names use up any stack; a name of 15 characters answers to longer names; the table of symbols answers to lib(x/) and lib(*); touching with a time before 1970 writes over the owner."},
{"property": "C65", "status": "proved", "theorems": ["C65_prefix", "C65_complete", "C65_held", "C65_one_block", "C65_line", "C65_direct", "C65_blocks", "C65_blocks_so_far", "C65_entering", "C65_ends", "C65_unlocked_refuted", "C65_where", "C65_next", "C65_check"], "note": "C65_prefix, C65_complete: nothing is lost, reordered or doubled, and all is there at the end. C65_held, C65_one_block: -Otarget and -Orecurse; C65_line: -Oline; C65_direct: lines that run another make. C65_blocks, C65_blocks_so_far: each release of the lock ends one whole block. C65_entering: -w without -O and with -Orecurse. C65_where: where the lines about directories are. C65_next: what make and commands can do next, from what they have done alone. C65_ends: no deadlock. C65_check: the computed instances of W_Output follow from the theorems. C65_unlocked_refuted: if fcntl fails, blocks mix. All makes have the same options and streams; the temporary files can be created; commands leave nothing behind that writes."},
{"property": "C66", "status": "proved", "theorems": ["C66_exists", "C66_directory", "C66_marked", "C66_glob", "C66_open", "C66_static", "C66_split", "C66_split_total", "C66_directory_refuted", "C66_order_refuted", "C66_check", "C66_check_split"], "note": "Marked files are those make has looked for in vain (careful); without that the order matters (C66_order_refuted). That a directory exists depends on marks (C66_directory, C66_directory_refuted)."},
{"property": "C67", "status": "proved", "theorems": ["C67_expand", "C67_total", "C67_done", "C67_none", "C67_extra_hidden", "C67_extra", "C67_extra_none", "C67_later_refuted", "C67_percent_refuted", "C67_extra_refuted", "C67_check", "C67_check_extra"], "note": "Second expansion of the prerequisites of one target, and its extra prerequisites; expansion and splitting are parameters"},
{"property": "C68", "status": "proved", "theorems": ["C68_result", "C68_modes", "C68_done", "C68_order", "C68_ends", "C68_next", "C68_changed", "C68_argv", "C68_stdin", "C68_restarts", "C68_environment", "C68_level", "C68_long_refuted", "C68_crash_refuted", "C68_goals_refuted", "C68_stdin_refuted", "C68_question_refuted", "C68_stop_refuted", "C68_twice_refuted", "C68_check_chain", "C68_check_next", "C68_check_words", "C68_check_stdin"], "note": "update_file, times and results are parameters"},
{"property": "C69", "status": "proved", "theorems": ["C69_lookup", "C69_result", "C69_same", "C69_safe", "C69_merge", "C69_frame", "C69_fatal", "C69_warning", "C69_rename", "C69_variables", "C69_freed", "C69_freed_exact", "C69_shared", "C69_freed_refuted", "C69_message_refuted", "C69_abort_refuted", "C69_breakpoint_refuted", "C69_double_refuted", "C69_check", "C69_check_vars", "C69_check_shared"], "note": "for tables in which each file has its name and is not renamed; the _refuted theorems are findings"},
{"property": "C70", "status": "proved", "theorems": ["C70_ends", "C70_value", "C70_missing", "C70_fits", "C70_verbatim", "C70_warning", "C70_name", "C70_empty", "C70_comment_refuted", "C70_override_refuted", "C70_hash_refuted", "C70_check"], "note": "lines are what readline gives (C52); the _refuted theorems are findings"},
{"property": "C71", "status": "proved", "theorems": ["C71_exists", "C71_found", "C71_gpath", "C71_gpath_merge", "C71_inside", "C71_result", "C71_skew", "C71_skew_complete", "C71_bounds_refuted", "C71_library_gpath_refuted", "C71_check", "C71_check_skew"], "note": "f_mtime without archive members; findings: C71_bounds_refuted, C71_library_gpath_refuted. C71_gpath and C71_gpath_merge are for a new name that no other file has and for one that another has. C71_inside says when no byte outside of the name is read, C71_result when there is a result."},
{"property": "C72", "status": "proved", "theorems": ["C72_plain", "C72_newest", "C72_links_unique", "C72_result", "C72_bounds", "C72_dangling", "C72_directory_refuted", "C72_end_refuted", "C72_check"], "note": "name_mtime, POSIX part; findings: C72_directory_refuted, C72_end_refuted"}
]}
