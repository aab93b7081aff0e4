{
 "claims": [
  {
   "property": "C01",
   "status": "proved",
   "theorems": [
    "C01_start_after_dependencies"
   ],
   "note": ""
  },
  {
   "property": "C02",
   "status": "proved",
   "theorems": [
    "C02_at_most_once",
    "C02_all_on_success",
    "C02_success_means_no_failure",
    "C02_transient_deleted_after_users",
    "C02_reports_success",
    "C02_progress",
    "C02_terminates",
    "C02_no_internal_error"
   ],
   "note": "A transient file's node is visited a second time for deletion; commands are visited at most once. Termination assumes that each command terminates."
  },
  {
   "property": "C03",
   "status": "partial",
   "theorems": [
    "C03_parallel_bound",
    "C03_zero_jobs_refuted"
   ],
   "note": "Proved for every job count >= 1; the witness shows what -j0, which the command line accepts, does."
  },
  {
   "property": "C04",
   "status": "proved",
   "theorems": [
    "C04_failure_blocks_dependents",
    "C04_failure_reported",
    "C04_stops_after_failure",
    "C04_keep_going_runs_the_rest",
    "C04_failure_noticed_promptly_refuted"
   ],
   "note": "As stated (a failure counts once it was collected). The stronger reading, that a failure is noticed promptly, is refuted with a witness."
  },
  {
   "property": "C05",
   "status": "proved",
   "theorems": [
    "C05_terminates",
    "C05_exactly_affected",
    "C05_exactly_links",
    "C05_flagged_not_skipped",
    "C05_ready_to_execute"
   ],
   "note": "For update graphs of any database whose links stay in a finite node set; attach_transient_nodes (re-creating deleted transient files) is not modelled."
  },
  {
   "property": "C06",
   "status": "partial",
   "theorems": [
    "C06_cycle_never_starts",
    "C06_cycle_never_succeeds",
    "C06_reported_is_real",
    "C06_cycle_is_always_noticed",
    "C06_group_check_exact",
    "C06_build_detects_refuted"
   ],
   "note": "A reported cycle is real, and a cycle is never executed or reported as success, whether the construction sees it or not. That the construction itself sees every cycle is refuted with a witness. The group check is exact."
  },
  {
   "property": "C07",
   "status": "proved",
   "theorems": [
    "C07_selected_part_is_current",
    "C07_keeps_exactly_what_is_needed",
    "C07_rest_stays_flagged",
    "C07_ready_to_execute"
   ],
   "note": "Targets are node ids; resolving command line words to nodes is not part of this theorem."
  },
  {
   "property": "C08",
   "status": "partial",
   "theorems": [
    "C08_resumed",
    "C08_resumed_caret_o_partial"
   ],
   "note": "Proved for all histories when no command has ^o; with ^o under the restriction that a failing ^o command does not create an output that was not there before. The unrestricted statement is refuted (C09_caret_o_stale_output_refuted)."
  },
  {
   "property": "C09",
   "status": "partial",
   "theorems": [
    "C09_incremental_is_full",
    "C09_incremental_is_full_caret_o_partial",
    "C09_caret_o_stale_output_refuted",
    "C09_changed_rule_flagged"
   ],
   "note": "Same scope as C08: proved for projects without ^o, and with ^o for tidy failures; refuted otherwise."
  },
  {
   "property": "C10",
   "status": "proved",
   "theorems": [
    "C10_run_iff_reason",
    "C10_skipped_is_up_to_date"
   ],
   "note": "Run iff flagged, or uses something changed in this update; skipped commands are up to date."
  },
  {
   "property": "C11",
   "status": "proved",
   "theorems": [
    "C11_accepted_created_exactly_the_outputs",
    "C11_failed_created_no_others",
    "C11_agreement_is_accepted",
    "C11_undeclared_is_blocked_and_named",
    "C11_sets_must_agree",
    "C11_undeclared_not_published"
   ],
   "note": "For ids below 2^31 (see C14). Hidden files and declared exclusions do not count; renames only of files the command created (what the FUSE server enforces)."
  },
  {
   "property": "C12",
   "status": "proved",
   "theorems": [
    "C12_accepted_is_ordered",
    "C12_ordered_is_accepted",
    "C12_rejection_is_justified"
   ],
   "note": "For ids below 2^31, for the database state at the time of the check."
  },
  {
   "property": "C13",
   "status": "proved",
   "theorems": [
    "C13_read_set",
    "C13_links_are_the_reads",
    "C13_links_after_failure",
    "C13_lost_links_are_noticed"
   ],
   "note": "Assumes that none of the command's own outputs was stored as its input before (such a 2-cycle is refused when the graph is built)."
  },
  {
   "property": "C14",
   "status": "partial",
   "theorems": [
    "C14_compare_exact",
    "C14_insert_exact",
    "C14_search_exact",
    "C14_wide_ids_refuted"
   ],
   "note": "Exact for ids below 2^31; refuted for wider ids, whose difference is cut down to an int."
  },
  {
   "property": "C15",
   "status": "partial",
   "theorems": [
    "C15_written_iff_own",
    "C15_read_is_input",
    "C15_input_was_read",
    "C15_read_then_removed_refuted",
    "C15_foreign_rename_refuted"
   ],
   "note": "Writes: proved for every event sequence in which only the command's own files are renamed; refuted otherwise. Reads: proved for files that are not removed or renamed afterwards; refuted in general."
  },
  {
   "property": "C16",
   "status": "proved",
   "theorems": [
    "C16_one_producer",
    "C16_steps_covered",
    "C16_owned_rejected",
    "C16_other_kind_rejected",
    "C16_old_commands",
    "C16_recorded_as_declared",
    "C16_disjoint_rules",
    "C16_free_output_accepted_refuted"
   ],
   "note": "No history of parses, takeovers, restarts and other graph steps makes two commands produce one file; an owned output is rejected; an accepted rule's outputs are exactly the recorded ones. Variants, exclusions and refactoring mode are not in the model. The converse (free outputs are accepted) is refuted."
  },
  {
   "property": "C17",
   "status": "proved",
   "theorems": [
    "C17_removed_exactly",
    "C17_terminates",
    "C17_kept_for_a_reason"
   ],
   "note": "For every consistent database and queue of ghosts: exactly the entries that nothing needs are removed with their links and flags (C17_removed_exactly), the loop ends (C17_terminates), and what stays is still needed (C17_kept_for_a_reason). Failing to remove a directory from the disk is an error that ends the update."
  },
  {
   "property": "C18",
   "status": "partial",
   "theorems": [
    "C18_changed_file",
    "C18_appeared_file",
    "C18_removed_file",
    "C18_removed_output",
    "C18_dropped_output",
    "C18_removed_tup_config_refuted"
   ],
   "note": "For files, generated files and ghosts: changed and removed files schedule their users and the parse of dependent directories. Refuted for a removed tup.config that is read as a file. Directories that are removed or replaced by files are not modelled."
  },
  {
   "property": "C19",
   "status": "partial",
   "theorems": [
    "C19_config_read_as_written",
    "C19_other_lines_rejected",
    "C19_lines_unambiguous",
    "C19_round_trip",
    "C19_last_line_refuted",
    "C19_trailing_blank_refuted"
   ],
   "note": "Accepted lines, rejected lines and the round trip are proved for all files that end with a newline. Refuted: a last line without newline is read out of bounds; trailing blanks of unquoted values are cut."
  },
  {
   "property": "C20",
   "status": "partial",
   "theorems": [
    "C20_lookup_partial",
    "C20_never_wrong",
    "C20_lookup_refuted"
   ],
   "note": "Exact for ASCII names; for all names a hit is right and reads stay in bounds; completeness is refuted for other names (signed char)."
  },
  {
   "property": "C21",
   "status": "proved",
   "theorems": [
    "C21_exactly_the_changed_variables",
    "C21_differs_is_difference"
   ],
   "note": ""
  },
  {
   "property": "C22",
   "status": "partial",
   "theorems": [
    "C22_block_semantics",
    "C22_accepted_is_nested",
    "C22_nested_is_accepted",
    "C22_second_else_rejected_refuted"
   ],
   "note": "Block semantics and nesting proved for every directive sequence up to the nesting limit of 8; the rejection of a second else is refuted (the code accepts it)."
  },
  {
   "property": "C23",
   "status": "proved",
   "theorems": [
    "C23_path_total",
    "C23_path_normal",
    "C23_path_relative_denotes",
    "C23_path_outside_denotes",
    "C23_path_double_separator",
    "C23_path_dot"
   ],
   "note": ""
  },
  {
   "property": "C24",
   "status": "partial",
   "theorems": [
    "C24_inside_iff_prefix_refuted",
    "C24_inside_missed_refuted",
    "C24_inside_complete_partial",
    "C24_inside_sound_partial"
   ],
   "note": "Both directions of the literal statement are refuted with witnesses (prefix comparison without a component boundary; dot-dot above the root). The partial theorems give the guards under which each direction holds."
  },
  {
   "property": "C25",
   "status": "proved",
   "theorems": [
    "C25_relative_path_leads",
    "C25_relative_path_exists",
    "C25_outside_refuted"
   ],
   "note": "For all directory trees inside the project. The entry that stands for the system's root is not part of such a tree; C25_outside_refuted shows the text for it."
  },
  {
   "property": "C26",
   "status": "partial",
   "theorems": [
    "C26_escape_appends",
    "C26_single_quotes",
    "C26_double_quotes_refuted",
    "C26_double_quotes_partial"
   ],
   "note": "Single quotes: all names. Double quotes: refuted for names with backslash, proved for names without backslash, dollar, backquote."
  },
  {
   "property": "C27",
   "status": "partial",
   "theorems": [
    "C27_estring_append",
    "C27_estring_unbounded_refuted"
   ],
   "note": "Proved for totals up to 2^30-1 bytes; undefined behaviour beyond that is proved as the refutation of the unbounded statement."
  },
  {
   "property": "C28",
   "status": "partial",
   "theorems": [
    "C28_flags_partial",
    "C28_two_parts_partial",
    "C28_text_unchanged",
    "C28_foreach_extension",
    "C28_quoted_inputs_are_words",
    "C28_bin_stem_refuted",
    "C28_output_stem_refuted",
    "C28_numbers_refuted"
   ],
   "note": "Proved (result and error cases, both directions) for all texts and lists, except for the flags listed in clear_flag; each of those, and %B for bins and external files, has a counterexample."
  },
  {
   "property": "C29",
   "status": "partial",
   "theorems": [
    "C29_expansion",
    "C29_missing_parenthesis",
    "C29_text_unchanged",
    "C29_nodes_resolved",
    "C29_names",
    "C29_concatenation",
    "C29_value_resolved_again_refuted",
    "C29_escaped_ampersand_refuted"
   ],
   "note": "The expansion is proved both ways for all texts and all variable lookups. Refuted: an escaped &( keeps the backslash and is expanded; a value that looks like a node reference is resolved again."
  },
  {
   "property": "C30",
   "status": "partial",
   "theorems": [
    "C30_split_partial",
    "C30_quotes_round_trip_partial",
    "C30_backslashes_round_trip_partial",
    "C30_order_only_partial",
    "C30_long_name_refuted",
    "C30_quoted_bar_refuted"
   ],
   "note": "For names shorter than PATH_MAX that the check of a single path accepts; longer names overrun a buffer, and a quoted | still divides the list (refuted)."
  },
  {
   "property": "C31",
   "status": "partial",
   "theorems": [
    "C31_exclusive",
    "C31_never_missed_partial",
    "C31_no_deadlock_partial",
    "C31_bounded",
    "C31_handed_back_partial",
    "C31_killed_no_deadlock_refuted",
    "C31_killed_handed_back_refuted"
   ],
   "note": "Exclusion is proved for every schedule and every kill; a bound on the number of steps for every schedule; never missed and deadlock freedom for every schedule with kills that are cleaned up at once; the hand-back without kills. With kills cleaned up step by step, deadlock freedom is refuted."
  },
  {
   "property": "C32",
   "status": "partial",
   "theorems": [
    "C32_existing_recorded",
    "C32_same_as_plain_partial",
    "C32_lost_deletion_refuted",
    "C32_renamed_twice_refuted",
    "C32_freed_event_refuted"
   ],
   "note": "Existing files: proved for every batch of operations. Removals and changed marks: equal to recording each operation alone unless a name that came with a rename is removed or renamed again in the batch; that case, and the freed event read in a later batch, are refuted."
  },
  {
   "property": "C33",
   "status": "partial",
   "theorems": [
    "C33_server_hidden",
    "C33_server_hides_ignored_names",
    "C33_server_agrees_refuted",
    "C33_path_hidden"
   ],
   "note": "Parser and scanner agree; the file server hides a superset, characterised exactly; agreement is refuted."
  },
  {
   "property": "C34",
   "status": "proved",
   "theorems": [
    "C34_precedence",
    "C34_accepted",
    "C34_broken",
    "C34_values_allowed",
    "C34_known",
    "C34_flag",
    "C34_jobs",
    "C34_jobs_bounds",
    "C34_jobs_argument_refuted",
    "C34_double_dash_refuted",
    "C34_long_line_refuted",
    "C34_big_jobs_refuted",
    "C34_empty_number_refuted"
   ],
   "note": "Precedence for all arguments and all files made of lines of at most 198 bytes without NUL; whatever the bytes of the files, values are allowed ones or defaults. display.width as of the start. Defaults themselves are parameters."
  },
  {
   "property": "C35",
   "status": "proved",
   "theorems": [
    "C35_recorded",
    "C35_environment",
    "C35_current",
    "C35_flagged",
    "C35_settled",
    "C35_scheduled",
    "C35_ccache_refuted",
    "C35_export_assignment_refuted"
   ],
   "note": "For environments and names without '=' and NUL in names; the two variables tup adds itself are part of the statement."
  },
  {
   "property": "C36",
   "status": "partial",
   "theorems": [
    "C36_job_starts_with_the_real_files",
    "C36_request_as_on_plain_fs_partial",
    "C36_allowed_request_succeeds_partial",
    "C36_listing_partial",
    "C36_published",
    "C36_running_jobs_see_published",
    "C36_accepted_files_are_the_outputs",
    "C36_rename_directory_refuted",
    "C36_rename_over_directory_refuted",
    "C36_rename_real_file_refuted",
    "C36_rename_over_real_file_refuted",
    "C36_open_for_writing_refuted",
    "C36_truncate_refuted",
    "C36_root_listing_refuted"
   ],
   "note": "Refinement to a plain file system for all interleaved requests of all jobs, and publishing, except for the requests that the refuted theorems name (renames of non-empty directories and over real files, opening real files for writing), special names, and the listing of the root."
  },
  {
   "property": "C37",
   "status": "partial",
   "theorems": [
    "C37_round_trip",
    "C37_concurrent_writers",
    "C37_reported",
    "C37_killed_between_records",
    "C37_cut_short_rejected",
    "C37_too_long_rejected",
    "C37_killed_writer_refuted",
    "C37_negative_length_refuted"
   ],
   "note": "round trip for all records, all schedules of concurrent writers, kills between records, cut-off and over-long records rejected; refuted for processes killed within a record"
  },
  {
   "property": "C38",
   "status": "proved",
   "theorems": [
    "C38_unique_inputs",
    "C38_each_file_once"
   ],
   "note": ""
  },
  {
   "property": "C39",
   "status": "partial",
   "theorems": [
    "C39_varsed_partial",
    "C39_result_unique",
    "C39_mark_refuted"
   ],
   "note": "Exact for files without a byte-order mark; the mark is dropped (refuted for such files)."
  },
  {
   "property": "C40",
   "status": "proved",
   "theorems": [
    "C40_users_part",
    "C40_again",
    "C40_removed",
    "C40_text_kept",
    "C40_text_kept_removed",
    "C40_ignores",
    "C40_last_line_refuted",
    "C40_again_refuted",
    "C40_lookalike_refuted",
    "C40_star_refuted",
    "C40_backslash_refuted"
   ],
   "note": "For every file whose user's part consists of whole lines without the marker; without that: text before the first marker is kept. Refutations for a missing last newline."
  },
  {
   "property": "C41",
   "status": "partial",
   "theorems": [
    "C41_star_partial",
    "C41_one_byte_partial",
    "C41_star_in_name_refuted",
    "C41_unset_length_refuted"
   ],
   "note": "For names whose matched part does not start with the wildcard itself; the other cases, ** and duplicate inputs are refuted with witnesses."
  },
  {
   "property": "C42",
   "status": "proved",
   "theorems": [
    "C42_command_parts",
    "C42_unterminated",
    "C42_plain_unchanged"
   ],
   "note": ""
  },
  {
   "property": "C43",
   "status": "proved",
   "theorems": [
    "C43_rule_line_split",
    "C43_two_separators"
   ],
   "note": ""
  },
  {
   "property": "C44",
   "status": "partial",
   "theorems": [
    "C44_compare_exact",
    "C44_any_reads_sound",
    "C44_short_reads_refuted",
    "C44_long_link_refuted",
    "C44_changed_outputs_found",
    "C44_restored"
   ],
   "note": "Exact for reads that fill the buffer (permissions are compared too) and sound for all chunkings; refuted: an unchanged file may be reported as changed when reads are short, and links longer than 4096 bytes are not told apart. Directories are not modelled."
  },
  {
   "property": "C45",
   "status": "partial",
   "theorems": [
    "C45_dictionary_current_partial",
    "C45_dictionary_current_refuted"
   ],
   "note": "Proved for histories without aborted updates; refuted with one."
  },
  {
   "property": "C46",
   "status": "partial",
   "theorems": [
    "C46_full_path_leads",
    "C46_fits_buffer",
    "C46_overflow_refuted"
   ],
   "note": "The text is right whenever it fits; the overflow of longer paths is refuted with a witness."
  },
  {
   "property": "C47",
   "status": "partial",
   "theorems": [
    "C47_every_text_has_items",
    "C47_obeyed_as_written_partial",
    "C47_accepted_partial",
    "C47_byte_order_mark",
    "C47_end_of_file_refuted",
    "C47_first_byte_refuted",
    "C47_rule_after_break_refuted"
   ],
   "note": "For all texts without NUL bytes that do not end in a backslash; the refuted theorems say what happens otherwise. The byte order mark is covered by its own theorem."
  },
  {
   "property": "C48",
   "status": "partial",
   "theorems": [
    "C48_assignments_in_order_partial",
    "C48_only_the_named_variable",
    "C48_config_cannot_be_assigned",
    "C48_node_variables",
    "C48_import",
    "C48_condition",
    "C48_operator_in_value_refuted",
    "C48_spaces_kept_refuted",
    "C48_append_to_empty_refuted",
    "C48_directive_name_refuted"
   ],
   "note": "For names without white space and = + :, and values without += and := (refuted otherwise); white space after a space in a value is lost (refuted). Names are evaluated too. &-variables, import and ifeq have their own theorems."
  },
  {
   "property": "C49",
   "status": "partial",
   "theorems": [
    "C49_definition_partial",
    "C49_inputs_rejected",
    "C49_bin_rejected",
    "C49_alias",
    "C49_self_alias_refuted",
    "C49_rule",
    "C49_rule_text_partial",
    "C49_written_out",
    "C49_foreach_word_refuted",
    "C49_tab_refuted"
   ],
   "note": "proved for names below PATH_MAX (C49_definition_partial, C49_rule_text_partial); foreach as a prefix, tabs and self aliases are refuted. What is done with one job is a parameter."
  },
  {
   "property": "C50",
   "status": "partial",
   "theorems": [
    "C50_include_rules",
    "C50_include",
    "C50_place_kept",
    "C50_one_result",
    "C50_no_nested_rules",
    "C50_cycle_refuted",
    "C50_lua_refuted"
   ],
   "note": "include and include_rules are characterised exactly for runs that succeed; that include cycles are rejected and that every name ending in .lua is Lua are refuted. Variants and symbolic links are not modelled."
  },
  {
   "property": "C51",
   "status": "proved",
   "theorems": [
    "C51_recorded",
    "C51_reads_kept",
    "C51_members",
    "C51_flagged",
    "C51_cycle_check",
    "C51_circular_rejected",
    "C51_again"
   ],
   "note": "for one command with consistent rows (the invariant is shown to be kept); cycle checks among groups are C06."
  },
  {
   "property": "C52",
   "status": "partial",
   "theorems": [
    "C52_rule",
    "C52_directory",
    "C52_harmless",
    "C52_only_displays",
    "C52_display_refuted"
   ],
   "note": "`C52_directory` gives the exact acceptance for a directory with display texts compared too, `C52_harmless` and `C52_only_displays` that nothing else changes; for display texts alone the claim is false (`C52_display_refuted`); missing: several directories in one refactoring and the reading of the Tupfile (C47-C50)."
  },
  {
   "property": "C53",
   "status": "partial",
   "theorems": [
    "C53_directory",
    "C53_others",
    "C53_accepted",
    "C53_choice",
    "C53_rerun",
    "C53_unchanged",
    "C53_order_refuted"
   ],
   "note": "all but the last sentence is proved for one directory; order independence is false (`C53_order_refuted`); missing: several directories parsed in turn."
  },
  {
   "property": "C54",
   "status": "proved",
   "theorems": [
    "C54_split",
    "C54_unclosed",
    "C54_one_meaning"
   ],
   "note": "all command strings, in both directions."
  },
  {
   "property": "C55",
   "status": "partial",
   "theorems": [
    "C55_walk_agrees_partial",
    "C55_scan_agrees_partial",
    "C55_change_noticed_partial",
    "C55_generated_noticed_partial",
    "C55_new_file_noticed_partial",
    "C55_kept_partial",
    "C55_unchanged_quiet",
    "C55_scan_completes_refuted",
    "C55_scan_ends_refuted",
    "C55_group_file_refuted",
    "C55_command_kept_refuted",
    "C55_special_file_refuted",
    "C55_fifo_refuted",
    "C55_generated_directory_refuted",
    "C55_config_directory_refuted",
    "C55_ghost_in_generated_directory_refuted"
   ],
   "note": "all parts are proved when no file has the name of a command or group of its directory, no directory is called tup.config and no device replaces a file; the walk then never fails; the end of the transaction can (`C55_scan_completes_refuted`), so the other parts say what holds if it ends well. Without these conditions the claim is false (other `_refuted`). Missing: variants, files outside of the tree, changes during the scan."
  },
  {
   "property": "C56",
   "status": "partial",
   "theorems": [
    "C56_only_stale_partial",
    "C56_stale_removed_partial",
    "C56_edited_kept_partial",
    "C56_declared_kept_partial",
    "C56_sources_kept_partial",
    "C56_unparsed_kept_partial",
    "C56_commands_left_partial",
    "C56_users_flagged_partial",
    "C56_edited_file_refuted"
   ],
   "note": "all parts are proved for runs that end well, with edited meaning that the file is in the modify list; for a removed directory edited files are lost (`C56_edited_file_refuted`). Missing: variants, .gitignore files, directories that become generated, and that a run ends well."
  },
  {
   "property": "C57",
   "status": "partial",
   "theorems": [
    "C57_one_user_partial",
    "C57_no_deadlock_partial",
    "C57_all_finish_partial",
    "C57_monitor_between_partial",
    "C57_edits_seen_partial",
    "C57_killed_refuted",
    "C57_overflow_refuted",
    "C57_early_exit_refuted"
   ],
   "note": "mutual exclusion holds also with crashes and lost events; the other parts are proved for any number of processes and any schedule, as long as no process that is not the monitor is killed, no notification about the lock file is lost to a full queue and a monitor in the background does not exit before its parent has seen it; each of these three can make everybody wait for ever (the refuted theorems). Missing: two monitors at a time (a restart by a second `tup monitor`), errors of system calls."
  },
  {
   "property": "C58",
   "status": "partial",
   "theorems": [
    "C58_complete_partial",
    "C58_history",
    "C58_once",
    "C58_succeeds",
    "C58_reported_real",
    "C58_noticed_partial",
    "C58_unnoticed_refuted",
    "C58_stuck_refuted",
    "C58_changed_refuted"
   ],
   "note": "proved: after any history in which generated files are not changed by others, each Tupfile that is not on a circle has exactly the generated files it should have; without circles the result is independent of history and order; each Tupfile is parsed once; a reported circle is real. Refuted: a circle is always reported (it is if the first popped directory that depends on it is on it), an update succeeds after a circle is removed, and independence when a generated file was changed. Missing: failing rules, variants, generated directories."
  },
  {
   "property": "C59",
   "status": "partial",
   "theorems": [
    "C59_graph",
    "C59_inputs_there_partial",
    "C59_inputs_there",
    "C59_changes_run",
    "C59_deleted_at_end",
    "C59_never_lost",
    "C59_nothing_else_deleted",
    "C59_only_on_demand",
    "C59_inputs_there_refuted",
    "C59_missing_delete_refuted",
    "C59_removed_refuted",
    "C59_torn_refuted",
    "C59_group_refuted",
    "C59_touched_refuted",
    "C59_stale_refuted"
   ],
   "note": "proved: exact nodes, edges and skip flags of the graph, and failure only for cycles and torn commands (outputs that are plain files); without ^o, temporary inputs are there while a command runs; with ^o, if no change makes the ^t command take part; without ^o, all that depends on a change is run; temporary files are gone after success and recorded otherwise; nothing else is deleted; ^t commands run only on demand. Refuted: torn commands, groups, files made by hand, ^o before ^t, leftovers removed by hand, stale readers of leftovers."
  },
  {
   "property": "C60",
   "status": "partial",
   "theorems": [
    "C60_own_status",
    "C60_every_call_returns_partial",
    "C60_status_meaning",
    "C60_every_call_returns_refuted",
    "C60_pid_reuse_refuted"
   ],
   "note": "proved for all schedules: own child, own status, exact request, once; what wait statuses mean; all calls return and both processes end if no child ends, or gets a pid still in the tree, between fork and its entry in the tree. Refuted without that."
  },
  {
   "property": "C61",
   "status": "partial",
   "theorems": [
    "C61_one_reading",
    "C61_expansion_partial",
    "C61_accepts_only",
    "C61_own_file",
    "C61_resource_file_in_variant_refuted",
    "C61_other_group_refuted",
    "C61_words_refuted"
   ],
   "note": "proved for all texts, groups, trees and sequences of commands, except .res in variants and group names with > inside, which are refuted."
  },
  {
   "property": "C62",
   "status": "partial",
   "theorems": [
    "C62_script_partial",
    "C62_builddir_refuted",
    "C62_blank_refuted",
    "C62_comment_refuted",
    "C62_symlink_refuted"
   ],
   "note": "proved for all graphs, trees and schedules when names and commands are harmless for the shell and generated directories are not in a --builddir; the rest is refuted."
  },
  {
   "property": "C63",
   "status": "partial",
   "theorems": [
    "C63_compiledb_partial",
    "C63_variants_refuted",
    "C63_tab_refuted",
    "C63_name_refuted",
    "C63_name2_refuted",
    "C63_overrun_refuted"
   ],
   "note": "proved for all trees, commands and variant lists when only the first variant with entries is looked at and names and commands have no control characters, file names no quotes; the rest is refuted. %<group> in commands is not expanded by tup compiledb."
  },
  {
   "property": "C64",
   "status": "partial",
   "theorems": [
    "C64_mirrors_partial",
    "C64_one_dir",
    "C64_replaced_refuted",
    "C64_moved_refuted",
    "C64_generated_dir_refuted"
   ],
   "note": "proved for all trees, variants and changed directories if variants are not in each other and no flagged directory that lost its source has the path of another source directory; that case, moved directories and generated directories are refuted."
  },
  {
   "property": "C65",
   "status": "partial",
   "theorems": [
    "C65_same_commands_partial",
    "C65_update",
    "C65_output",
    "C65_wildcard",
    "C65_explicit",
    "C65_order_refuted",
    "C65_far_output_refuted",
    "C65_reserved_refuted",
    "C65_preserve_twice_refuted",
    "C65_preserve_fails_refuted"
   ],
   "note": "proved for all histories, with the order of inputs left open, if !tup_preserve and reserved output names are not used, outputs in other directories are not source files and generated files are not written over; the order, far outputs, reserved names and !tup_preserve are refuted."
  },
  {
   "property": "C66",
   "status": "partial",
   "theorems": [
    "C66_outputs_partial",
    "C66_works_partial",
    "C66_nested_removed_refuted",
    "C66_nested_again_refuted",
    "C66_nested_new_refuted",
    "C66_back_empty_refuted",
    "C66_back_scanned_refuted",
    "C66_output_name_refuted"
   ],
   "note": "proved for all histories in which variants are directories of the top, outputs are not named like variants or source directories, and a variant directory that was removed and noticed comes back only with its tup.config and a successful update as next scan; success is proved for empty new variants; the excluded cases are refuted."
  },
  {
   "property": "C67",
   "status": "partial",
   "theorems": [
    "C67_own_variables",
    "C67_quiet",
    "C67_append",
    "C67_rule",
    "C67_same_as_text_partial",
    "C67_rejected",
    "C67_file",
    "C67_base",
    "C67_ext",
    "C67_table_twice_refuted",
    "C67_alias_refuted",
    "C67_globals_refuted",
    "C67_extension_refuted",
    "C67_macro_text_refuted",
    "C67_nested_refuted"
   ],
   "note": "the equivalence with rule lines is proved for names without references, of less than PATH_MAX bytes, and commands without text after the name of a macro (refuted there); independence of Tupfiles is proved up to _G, which import and tup.ext change (refuted there)."
  },
  {
   "property": "C68",
   "status": "partial",
   "theorems": [
    "C68_shows",
    "C68_completes",
    "C68_covers",
    "C68_up_to_date",
    "C68_exact_partial",
    "C68_transient_refuted",
    "C68_changes_nothing_refuted"
   ],
   "note": "what is shown, the order, the number and that it covers the update are proved for all databases and targets; that what is shown is run, for databases without ^t commands to be run on demand and without ^o, for commands to which a change leads by files (refuted for ^t). That tup todo changes nothing is refuted with targets; without them nothing is recorded (C68_shows)."
  },
  {
   "property": "C69",
   "status": "partial",
   "theorems": [
    "C69_ends",
    "C69_exact",
    "C69_users_left",
    "C69_links",
    "C69_ghosts",
    "C69_gitignore",
    "C69_parents",
    "C69_phase_kept",
    "C69_phase_deletes",
    "C69_reader_refuted",
    "C69_own_file_refuted",
    "C69_user_dir_refuted",
    "C69_hidden_refuted"
   ],
   "note": "the loop is characterised exactly for all databases of in-place trees; that the user's files and directories with files in them survive the whole phase is proved for rules that make no .gitignore file. That Tupfiles stay valid, that tup's directories hold no file of the user, that the user's empty directories stay and that updates do not fail for hidden entries is refuted. Variants are left out."
  },
  {
   "property": "C70",
   "status": "partial",
   "theorems": [
    "C70_detects",
    "C70_committed",
    "C70_history",
    "C70_table",
    "C70_ends",
    "C70_named",
    "C70_rollback",
    "C70_harmless",
    "C70_named_exact_refuted",
    "C70_files_refuted"
   ],
   "note": "that the check finds exactly the cycles among groups is proved for all histories of updates. That all cycles of rules are refused, also those through files, and that only groups on cycles are named is refuted."
  },
  {
   "property": "C71",
   "status": "partial",
   "theorems": [
    "C71_apart",
    "C71_inside",
    "C71_alloc",
    "C71_reuse",
    "C71_clear",
    "C71_blocks",
    "C71_large_refuted",
    "C71_4gb_refuted"
   ],
   "note": "proved for all histories in which records fit into the first block and no pool gets 4 GB; without either of these it is refuted."
  },
  {
   "property": "C72",
   "status": "partial",
   "theorems": [
    "C72_table",
    "C72_events",
    "C72_miss_refuted",
    "C72_stale_refuted",
    "C72_crash_refuted",
    "C72_twice_refuted"
   ],
   "note": "events are attributed correctly in all histories in which no directory gets a second watch, and the table is exact if also no watch in it is dropped. Without these conditions it is refuted."
  },
  {
   "property": "C73",
   "status": "partial",
   "theorems": [
    "C73_accepts",
    "C73_error",
    "C73_failed",
    "C73_same_as_tupfile",
    "C73_nul_refuted",
    "C73_continued_refuted"
   ],
   "note": "proved for all outputs without NUL bytes and any parse_rule; with NUL bytes it is refuted, and so is the equality with Tupfiles for continued or indented lines."
  },
  {
   "property": "C74",
   "status": "partial",
   "theorems": [
    "C74_exact",
    "C74_range",
    "C74_forward",
    "C74_unknown",
    "C74_bar",
    "C74_overflow_refuted",
    "C74_approximate_refuted",
    "C74_milliseconds",
    "C74_nearest_refuted",
    "C74_delta"
   ],
   "note": "proved if a hundred times the sum of the recorded times fits into an int; beyond that it is refuted, and so are the mark for approximate figures and the rounding to the nearest millisecond. The estimate of the remaining time is not modelled."
  }
 ]
}
