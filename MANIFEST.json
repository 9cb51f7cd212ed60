{"claims": [
 {"property": "C01", "status": "proved", "theorems": ["C01_write_then_read", "C01_bytes_unchanged", "C01_extra_headers", "C01_cut_anywhere", "C01_reading_terminates"], "note": ""},
 {"property": "C02", "status": "proved", "theorems": ["C02_fifo_nothing_lost_or_repeated", "C02_consumer_never_left_asleep", "C02_end_only_after_terminate"], "note": "Two consumers on one queue could strand an item (C02_two_consumers_refuted); the code uses one consumer per queue."},
 {"property": "C03", "status": "proved", "theorems": ["C03_each_server_in_order_exactly_once", "C03_global_order", "C03_one_at_a_time", "C03_worker_not_left_asleep"], "note": ""},
 {"property": "C04", "status": "proved", "theorems": ["C04_only_superseded_started_cancelled", "C04_only_superseded_cancelled_running", "C04_finish_cancels_others_refuted", "C04_superseded_means", "C04_change_cancels"], "note": "finish_server_requests cancels the running request of any server; the running case therefore excludes it (refuted without the proviso)."},
 {"property": "C05", "status": "proved", "theorems": ["C05_finish_leaves_server_idle_refuted", "C05_idle_exactly", "C05_finish_leaves_server_idle", "C05_finish_returns", "C05_finishing_cancels"], "note": "Exact condition for an idle server on return (an early return on an empty queue does not wait for the running request: refuted without the proviso), stability, termination of the call, and the cancellation flag while it runs."},
 {"property": "C06", "status": "proved", "theorems": ["C06_client_shows_newest_round", "C06_local_files", "C06_backslash_file_names_refuted"], "note": "Provided different ones of the files involved have different URIs; C06_local_files shows this for the URIs of the server, C06_backslash_file_names_refuted shows the proviso is needed: path_to_uri maps a backslash to a slash."},
 {"property": "C07", "status": "proved", "theorems": ["C07_array_decodes_to_tokens", "C07_distinct_tokens_all_shown", "C07_highlighting_reaches_client", "C07_closed_files_have_no_tokens"], "note": "Single-line well-formed ranges, or continued ranges between columns 15 and 71; std::sort is any sorted permutation."},
 {"property": "C08", "status": "proved", "theorems": ["C08_result_is_characters", "C08_result_exact", "C08_utf8_unchanged", "C08_good_parts_survive", "C08_idempotent", "C08_result_is_utf8_refuted"], "note": "The result is not always UTF-8 in the sense of RFC 3629: C08_result_is_utf8_refuted."},
 {"property": "C09", "status": "proved", "theorems": ["C09_line_table_exact", "C09_position_exact", "C09_any_column", "C09_lines_beyond_the_last", "C09_column_beyond_line_end_refuted"], "note": "Columns beyond the end of the line run into the next lines instead of being cut (C09_column_beyond_line_end_refuted)."},
 {"property": "C10", "status": "proved", "theorems": ["C10_edits_exact", "C10_session_exact", "C10_edits_keep_utf8", "C10_crlf_cut_refuted", "C10_range_beyond_last_line_refuted"], "note": "For ranges given by positions of the document; both provisos are needed: C10_crlf_cut_refuted, C10_range_beyond_last_line_refuted."},
 {"property": "C11", "status": "proved", "theorems": ["C11_pattern_selects_what_it_says", "C11_plus_is_a_wildcard", "C11_windows_slash", "C11_never_misses", "C11_plus_refuted", "C11_line_break_refuted"], "note": "C11_plus_refuted: the documented meaning (only ? and *) fails for patterns containing '+', which is passed on to the regular expression; C11_line_break_refuted: names with line breaks are missed. '?' stands for one byte of UTF-8."},
 {"property": "C12", "status": "proved", "theorems": ["C12_selection", "C12_selection_any_history", "C12_half_load_refuted"], "note": "C12_half_load_refuted: after a load that replaces the groups but fails on the program file, looking a configured program up throws; C12_selection_any_history says exactly what holds then."},
 {"property": "C13", "status": "proved", "theorems": ["C13_first_library", "C13_found_is_provided", "C13_missing_is_not_provided", "C13_determined", "C13_ambiguity_reported", "C13_stable_until_refresh", "C13_extension_order_refuted", "C13_case_collision_refuted"], "note": "C13_extension_order_refuted: which of A.hlasm and A.asm is used depends on the iteration order of a hash table; C13_case_collision_refuted: files differing in case only collide silently."},
 {"property": "C14", "status": "proved", "theorems": ["C14_open_documents", "C14_only_the_editor_changes"], "note": "Analyses are arbitrary (oracle per operation)."},
 {"property": "C15", "status": "proved", "theorems": ["C15_longest_prefix", "C15_determined", "C15_removed", "C15_covered", "C15_serves", "C15_outside_refuted", "C15_removal_refuted", "C15_same_name_refuted", "C15_root_uri_refuted", "C15_sibling_refuted"], "note": "Findings: C15_outside_refuted (documents outside every folder are served by a folder with a short name), C15_removal_refuted (folders with a display name are never removed), C15_same_name_refuted, C15_root_uri_refuted (with rootUri no document is served), C15_sibling_refuted (/ws1 serves /ws10)."},
 {"property": "C16", "status": "proved", "theorems": ["C16_new_address", "C16_add", "C16_add_integer", "C16_subtract_integer", "C16_negate", "C16_subtract", "C16_results_flat", "C16_subtract_refuted", "C16_resolved_multiplicity_refuted"], "note": "Subtraction without the count condition, and spaces resolved after being mentioned several times, give wrong results (the two _refuted theorems)."},
 {"property": "C17", "status": "proved", "theorems": ["C17_plus", "C17_minus", "C17_negation", "C17_kind_plus", "C17_kind_minus", "C17_kind_negation", "C17_kind_label", "C17_label_difference", "C17_times_and_divide", "C17_only_overflow_is_undefined", "C17_absolute_minus_relocatable_refuted"], "note": "5 - A is computed as A - 5 (C17_absolute_minus_relocatable_refuted)."},
 {"property": "C18", "status": "proved", "theorems": ["C18_reserved_area", "C18_areas_follow_each_other", "C18_below_high_water_mark", "C18_align_with_displacement", "C18_alignment_space", "C18_resolution_moves_nothing", "C18_pending_area_refuted", "C18_displaced_space_refuted"], "note": "locations under any assignment of final lengths; provisos in the statement with refuted witnesses"},
 {"property": "C19", "status": "proved", "theorems": ["C19_location_and_high_water_mark", "C19_org_without_address", "C19_maximum", "C19_negative_displacement_refuted", "C19_later_counter_refuted", "C19_next_counter_refuted"], "note": "simulation of the counter's data list by a (location, high-water mark) pair; provisos in the statement with refuted witnesses"},
 {"property": "C20", "status": "proved", "theorems": ["C20_confluent", "C20_sound_runs_are_runs", "C20_values_are_definitions", "C20_symbols_are_arithmetic", "C20_attributes", "C20_lengths", "C20_definitions_are_kept", "C20_resolution_ends", "C20_order_matters_refuted"], "note": "Guarded by the form of differences (C16); C20_order_matters_refuted shows a program outside the guard whose result depends on the order."},
 {"property": "C21", "status": "proved", "theorems": ["C21_reports_exactly_cycles", "C21_check_ends", "C21_stays_acyclic", "C21_cyclic_symbol_is_zero", "C21_symbol_programs", "C21_length_cycle_refuted", "C21_attribute_cycle_refuted", "C21_duplicate_label_refuted"], "note": "Exactness without guard, termination for acyclic tables; the refuted theorems show two programs for which the check never ends and one for which registration throws."},
 {"property": "C22", "status": "proved", "theorems": ["C22_add", "C22_sub", "C22_mul", "C22_div", "C22_div_zero", "C22_no_internal_overflow", "C22_minus", "C22_minus_refuted"], "note": "Unary minus of -2^31 is undefined behaviour (C22_minus_refuted)."},
 {"property": "C23", "status": "proved", "theorems": ["C23_SLL", "C23_SRL", "C23_SRA", "C23_SLA", "C23_SLA_multiplies", "C23_zero_refuted", "C23_SRA_refuted", "C23_SLA_refuted"], "note": "Findings: a shift by zero returns the count, SRA by 32 or more of a non-negative number gives -1, SLA can change the sign (the _refuted theorems)."},
 {"property": "C24", "status": "proved", "theorems": ["C24_accepted", "C24_nothing_lost", "C24_grouped", "C24_grouped_simple", "C24_only_grouping", "C24_functions", "C24_operators_known", "C24_grouped_refuted", "C24_comparisons_refuted", "C24_not_between_refuted"], "note": "Findings: (A OR B AND C AND D) and (A EQ B OR C EQ D AND E EQ F) are grouped against priority; NOT is accepted between two operands and AND_NOT as one word (the _refuted theorems)."},
 {"property": "C25", "status": "proved", "theorems": ["C25_substring", "C25_substring_rest", "C25_substring_diagnosed", "C25_substring_rest_diagnosed", "C25_substring_rest_refuted", "C25_characters_refuted", "C25_duplicate", "C25_duplicate_diagnosed", "C25_term", "C25_term_plain", "C25_bounded", "C25_concatenation", "C25_functions_bounded"], "note": "Findings: the omitted-length form overflows for the most negative positions, and positions count UTF-8 bytes rather than characters (the _refuted theorems)."},
 {"property": "C26", "status": "proved", "theorems": ["C26_B2A", "C26_X2A", "C26_D2A", "C26_rejected", "C26_A2B", "C26_A2X", "C26_A2D", "C26_A2C", "C26_round_trips", "C26_C2A_A2C", "C26_C2A_A2C_refuted", "C26_C2A", "C26_B2X", "C26_X2B", "C26_X2B_B2X", "C26_B2X_X2B", "C26_X2C", "C26_B2C", "C26_C2X_X2C", "C26_X2C_C2X", "C26_B2C_C2B", "C26_X2C_refuted", "C26_C2X_refuted", "C26_ISBIN", "C26_ISHEX", "C26_ISDEC", "C26_FIND", "C26_INDEX", "C26_DOUBLE", "C26_DCLEN", "C26_through_number", "C26_through_number_rejected", "C26_BYTE", "C26_case", "C26_ISSYM", "C26_DEQUOTE", "C26_self_defining"], "note": "Findings: C2A counts UTF-8 bytes and refuses what A2C wrote, X2C ignores a wrong second digit, C2X/C2B of a split character read past the end (the _refuted theorems)."},
 {"property": "C27", "status": "proved", "theorems": ["C27_tables", "C27_table_sizes", "C27_code_page", "C27_to_text", "C27_from_text", "C27_round_trip", "C27_round_trip_zero_refuted", "C27_split_character_refuted", "C27_no_growth"], "note": "Findings: a zero byte ends the text, a split character is read past its end (the _refuted theorems)."},
 {"property": "C28", "status": "proved", "theorems": ["C28_behaviour", "C28_reads", "C28_elements", "C28_scalar", "C28_others", "C28_default", "C28_K", "C28_omitted_refuted", "C28_rejected_creates_refuted"], "note": "C28_behaviour and C28_reads: the implementation with its maps and shared pointers behaves like a world in which every symbol is the history of its assignments. The others spell out single statements. Refuted: an omitted operand does not skip an element; a rejected SET still creates the symbol."},
 {"property": "C29", "status": "proved", "theorems": ["C29_prototype", "C29_operands", "C29_reports", "C29_bound", "C29_read", "C29_syslist", "C29_subscripts", "C29_syslist_refuted", "C29_unknown_refuted"], "note": "The claim without its provisos is refuted by a parameter named SYSLIST and by X=&V for an unknown keyword X (C29_syslist_refuted, C29_unknown_refuted)."},
 {"property": "C30", "status": "proved", "theorems": ["C30_parsed", "C30_single", "C30_text", "C30_text_refuted", "C30_items", "C30_subscripts", "C30_lost", "C30_items_refuted", "C30_item_number"], "note": "The unguarded text claim is false for (A,) which reads (A), and ((A)B,,C) loses its second item (C30_text_refuted, C30_items_refuted); C30_lost gives the exact outcome."},
 {"property": "C31", "status": "proved", "theorems": ["C31_innermost", "C31_new_call", "C31_values", "C31_first_refuted", "C31_assigned_refuted"], "note": "Guard: the program does not assign the two symbols (nothing prevents it: C31_assigned_refuted). The first call has 0000 (C31_first_refuted)."},
 {"property": "C32", "status": "proved", "theorems": ["C32_history", "C32_runs", "C32_total", "C32_given", "C32_deleted", "C32_others", "C32_rejected", "C32_macro_refuted", "C32_operand_refuted", "C32_deleted_refuted"], "note": "Macro definitions after an OPSYN of the same name are ignored, a non-symbol operand deletes the label, and a deleted macro is called again through a library member of its name: witnesses in the _refuted theorems. Attributes (T'/O' via get_opcode_attr) do not follow OPSYN and are not covered."},
 {"property": "C33", "status": "proved", "theorems": ["C33_stops", "C33_passes", "C33_order", "C33_end", "C33_breakpoints", "C33_visible", "C33_continue_refuted"], "note": "The debugger and the loop that drives it are a transition system of the analysis thread and the command thread; statements are the parameter. C33_continue_refuted: a continue sent while a step over is running does not cancel the step over, so the analysis stops where there is no breakpoint; hence the proviso about the client."},
 {"property": "C34", "status": "proved", "theorems": ["C34_standstill", "C34_resumes", "C34_continue", "C34_continue_refuted", "C34_disconnect", "C34_close", "C34_unlock_refuted", "C34_mute", "C34_launch_refuted", "C34_next_refuted"], "note": "inevitable: whichever thread moves, the goal is reached within the stated number of steps. C34_continue_refuted: continue sets its flag without the mutex, so its notification can be lost just before the analysis falls asleep (hence the proviso). C34_unlock_refuted: disconnect while the analysis is about to stop makes it unlock a mutex it does not hold. C34_launch_refuted, C34_next_refuted: a second launch, and next before the start or after the end."},
 {"property": "C35", "status": "proved", "theorems": ["C35_lsp_handler_needs_request", "C35_lsp_config_handler_once", "C35_dap_numbers_distinct", "C35_dap_numbers_increase", "C35_dap_numbers_follow", "C35_dap_numbers_increase_refuted", "C35_dap_response_names_request", "C35_dap_answered", "C35_dap_session"], "note": "Numbers on the wire may be out of order across threads (refuted); distinct, increasing per thread and across non-overlapping sends are proved."},
 {"property": "C36", "status": "proved", "theorems": ["C36_orderly_session_exits_zero", "C36_code_exactly", "C36_lost_input_exits_one_refuted", "C36_exit_without_shutdown_refuted", "C36_loop_result_refuted", "C36_lsp_part_means"], "note": "Exact condition for code 1; that a lost connection or an exit without shutdown always gives 1 is refuted."},
 {"property": "C37", "status": "proved", "theorems": ["C37_terminates", "C37_program_ends", "C37_limit", "C37_counter", "C37_exhausted", "C37_nesting"], "note": "COPY, AREAD/AINSERT and attribute lookahead are outside this model."},
 {"property": "C38", "status": "proved", "theorems": ["C38_aif", "C38_aif_error", "C38_ago", "C38_ago_error", "C38_label_refuted"], "note": "Labels on macro calls, LCLx/GBLx and MEXIT in open code are not registered by ordinary processing: C38_label_refuted."},
 {"property": "C39", "status": "proved", "theorems": ["C39_line", "C39_start", "C39_end", "C39_exact", "C39_highlight", "C39_start_refuted", "C39_first_refuted", "C39_highlight_refuted"], "note": "Proved for all texts with the proviso on astral characters; the exact deviation is C39_exact; witnesses show that the proviso is needed."},
 {"property": "C40", "status": "proved", "theorems": ["C40_queue", "C40_empty", "C40_whole", "C40_records_first", "C40_forgets", "C40_comment_refuted", "C40_blank_refuted", "C40_front_refuted", "C40_last_refuted", "C40_return_refuted"], "note": "Refinement to two queues, for any interleaving of AREAD and AINSERT after any lexing of the file; with lexing of records in between, AREAD still gives whole records and records come first (C40_whole, C40_records_first). Witnesses: lookahead eats a comment or empty line, FRONT during lookahead into a record, unended last line, lone carriage return."},
 {"property": "C41", "status": "proved", "theorems": ["C41_conforming_messages_are_survived", "C41_survived_exactly", "C41_error_without_id_refuted", "C41_bad_configuration_result_refuted", "C41_conforming_input_is_survived", "C41_goes_on_accepting", "C41_missing_uri_refuted", "C41_dap_exactly", "C41_dap_initialize_refuted"], "note": "Exact characterisation of the messages that take message handling down, survival and progress for conforming input; the refuted theorems exhibit the excluded messages. The parser library behind the features is an oracle assumed free of undefined behaviour."},
 {"property": "C42", "status": "proved", "theorems": ["C42_responses_exactly", "C42_responses_match_requests", "C42_every_request_answered_refuted", "C42_unknown_request_refuted", "C42_notification_unanswered_refuted"], "note": "Exact list of responses; unknown requests and requests without params get none, notifications named like requests get one (refuted without the provisos)."},
 {"property": "C43", "status": "proved", "theorems": ["C43_lines_read_exactly", "C43_line_up_to_cursor", "C43_range_text", "C43_character_before_cursor", "C43_no_character_before_line_start", "C43_empty_last_line_refuted"], "note": "An empty last line throws (C43_empty_last_line_refuted), hence the proviso."},
 {"property": "C44", "status": "proved", "theorems": ["C44_from_disk", "C44_closed_dependency_refuted", "C44_watched_change_refuted"], "note": "C44_closed_dependency_refuted: a dependency closed with unsaved changes keeps the discarded text; C44_watched_change_refuted: a loaded file rewritten on disk is not read again even when a watched-file notification arrives."},
 {"property": "C45", "status": "proved", "theorems": ["C45_analyses_are_current", "C45_open_dependency", "C45_loaded_only_refuted"], "note": "C45_loaded_only_refuted: files that were read but not recorded as visited are not tracked."},
 {"property": "C46", "status": "proved", "theorems": ["C46_answered", "C46_open_answered", "C46_close_defined", "C46_config_refuted", "C46_cancelled_refuted"], "note": "C46_config_refuted: a feature request about proc_grps.json or pgm_conf.json dereferences a null analyzer; C46_cancelled_refuted: so does one about a document whose opening was cancelled."},
 {"property": "C47", "status": "proved", "theorems": ["C47_numbers", "C47_numbers_refuted", "C47_strings", "C47_strings_refuted", "C47_bitwise", "C47_boolean"], "note": "Findings: comparing numbers whose difference does not fit overflows, texts with NUL or non-Latin-1 characters may compare equal although different (the _refuted theorems)."},
 {"property": "C48", "status": "proved", "theorems": ["C48_local_private", "C48_global_shared", "C48_call_starts_empty", "C48_declared_global", "C48_type_refuted"], "note": "Refuted: a GBLx with a different type is accepted and binds to the existing symbol (C48_type_refuted)."},
 {"property": "C49", "status": "proved", "theorems": ["C49_text", "C49_unique", "C49_defined", "C49_defined_refuted"], "note": "std::abs of the smallest number overflows (C49_defined_refuted)."},
 {"property": "C50", "status": "proved", "theorems": ["C50_stopped", "C50_viewed", "C50_empty", "C50_exclusive", "C50_stable"], "note": "Same transition system; the views are one atomic read between taking and releasing the mutex, their content is the statement."},
 {"property": "C51", "status": "proved", "theorems": ["C51_next", "C51_ends", "C51_record_refuted", "C51_continued_refuted"], "note": "For the file's text; witnesses show endless loops with AINSERT records."},
 {"property": "C52", "status": "proved", "theorems": ["C52_chain", "C52_all", "C52_once"], "note": ""},
 {"property": "C53", "status": "proved", "theorems": ["C53_seen", "C53_unseen", "C53_exactly"], "note": "The specification of lines (sort) is written on lines, independently of the lexer."},
 {"property": "C54", "status": "proved", "theorems": ["C54_sound", "C54_exact", "C54_open_code", "C54_safe", "C54_unclosed_refuted", "C54_member_mend_refuted", "C54_member_refuted"], "note": "Definitions in one file, closed by MEND; the refuted theorems show an out-of-range read for definitions that are not closed or closed in a fresh COPY member, and the wrong scope of a COPY member's first line."},
 {"property": "C55", "status": "proved", "theorems": ["C55_references", "C55_total", "C55_symmetric", "C55_in_macro", "C55_nested_mend_refuted"], "note": "Positions at which one symbol is recorded. Refuted: the label of a nested MEND is listed for the outer macro."},
 {"property": "C56", "status": "proved", "theorems": ["C56_variable", "C56_sequence", "C56_macro", "C56_open_code", "C56_completion", "C56_completion_open", "C56_cancelled_refuted"], "note": "Macros closed in one file, after the end of the analysis. Refuted: after a cancelled analysis completion uses a null pointer."},
 {"property": "C57", "status": "proved", "theorems": ["C57_found", "C57_complete", "C57_safe", "C57_copy", "C57_string_refuted", "C57_subscript_refuted", "C57_list_refuted", "C57_null_refuted", "C57_copy_refuted"], "note": "Refuted theorems: symbols in strings, subscripts and lists are not found; &() and COPY with an operand that is not an expression use a null pointer."},
 {"property": "C58", "status": "proved", "theorems": ["C58_read", "C58_only", "C58_safe", "C58_exponent_refuted", "C58_value_refuted"], "note": "FE3'1' (exponent taken for an extension) and FLS3'1' (modifier without value dropped) in C58_*_refuted."},
 {"property": "C59", "status": "proved", "theorems": ["C59_one_layout", "C59_storage", "C59_length", "C59_rejected", "C59_boundary_refuted", "C59_factor_refuted"], "note": "Later operands are laid out relative to the first (C59_boundary_refuted); a relocatable or undefined duplication factor counts as 0 (C59_factor_refuted)."},
 {"property": "C60", "status": "proved", "theorems": ["C60_accepts", "C60_no_type", "C60_honest", "C60_statement", "C60_unseen_refuted", "C60_overflow_refuted"], "note": "DS AL1000 and overflowing lengths are accepted when there is no nominal value (C60_unseen_refuted, C60_overflow_refuted)."},
 {"property": "C61", "status": "proved", "theorems": ["C61_attributes", "C61_scale", "C61_space_refuted", "C61_decimals_refuted", "C61_throw_refuted", "C61_null_refuted"], "note": "Spaces in X'12 34', decimals of P without a scale modifier, P(1) with a label (exception), empty first operand: C61_*_refuted."},
 {"property": "C62", "status": "proved", "theorems": ["C62_tables", "C62_accepted_exactly", "C62_faults_named", "C62_wrong_number", "C62_undefined", "C62_mnemonic_exactly", "C62_mnemonic_faults", "C62_mnemonic_number", "C62_mnemonic_undefined", "C62_verdict", "C62_memory_refuted", "C62_optional_mnemonic_refuted", "C62_single_index_refuted", "C62_vector_register_refuted", "C62_vzero_refuted"], "note": "The refuted theorems give the exceptions named in the statement: a single index or length is not checked, mnemonics of instructions with optional operands are always rejected, vector registers 16-31 are rejected (the table gives the field four bits), VZERO replaces the wrong operand, and six mnemonics write behind the operand vector."},
 {"property": "C63", "status": "proved", "theorems": ["C63_lengths", "C63_storage", "C63_star", "C63_star_refuted", "C63_encodable", "C63_encodable_refuted", "C63_shapes", "C63_bassm_refuted"], "note": "The tables are transcribed entry by entry (generated from the source text); the formats of the architecture are a separate table in Mach_Spec.v. The refuted theorems give the exceptions named in the statement."},
 {"property": "C64", "status": "proved", "theorems": ["C64_from", "C64_to", "C64_kept", "C64_reported", "C64_redefinition", "C64_frame", "C64_resume", "C64_sect", "C64_loctr", "C64_unique", "C64_label", "C64_interrupted", "C64_extrn_refuted", "C64_extrn_list_refuted", "C64_unnamed_refuted", "C64_loctr_refuted"], "note": "Sect_Props.v. The refuted theorems are findings: EXTRN of a defined symbol interrupts the analysis, only the first EXTRN operand is defined, unlabelled DSECT then CSECT, LOCTR without a label."},
 {"property": "C65", "status": "proved", "theorems": ["C65_equ_reports", "C65_equ_defines", "C65_org_wrong", "C65_org_free", "C65_org_to", "C65_org_cut", "C65_org_label", "C65_equ_silent_refuted", "C65_equ_length_refuted", "C65_org_cut_refuted", "C65_org_difference_refuted"], "note": "Sect_Props.v. The refuted theorems are findings: EQU without a value, lengths not known yet, ORG with a non-expression, ORG to a difference."},
 {"property": "C66", "status": "proved", "theorems": ["C66_expansion", "C66_nested", "C66_safe", "C66_lines", "C66_definition", "C66_definition_unique", "C66_macro", "C66_safe_refuted", "C66_operand_refuted", "C66_lines_refuted"], "note": "Refuted without the provisos: a COPY with a name that is looked for makes the next lookahead read in front of the member; COPY 'A' in a lookahead or macro definition dereferences a null operand; a lookahead started by an instruction field sets the line counter back too far."},
 {"property": "C67", "status": "proved", "theorems": ["C67_repeated", "C67_lookahead", "C67_order", "C67_branch", "C67_known", "C67_once", "C67_hang_refuted", "C67_skip_refuted", "C67_labelled_refuted"], "note": "Refuted without the provisos: a named statement without attributes in the member that asks for it repeats the lookahead for ever; after a branch back text in front of the end of the last lookahead is not searched; a COPY with a sequence symbol in open code is not entered by lookaheads."},
 {"property": "C68", "status": "proved", "theorems": ["C68_one_report", "C68_reported", "C68_codes", "C68_silent_refuted", "C68_accepted_refuted", "C68_twice_refuted", "C68_place_refuted", "C68_undefined_refuted"], "note": "Refuted without the exceptions: rejected silently, accepted with a report, two reports, a report without a place, undefined behaviour. The codes are limited to a list per instruction."},
 {"property": "C69", "status": "proved", "theorems": ["C69_accepts", "C69_names", "C69_title_length", "C69_cnop_values", "C69_punch_length", "C69_rejected_refuted", "C69_accepted_refuted"], "note": "The two refuted theorems list source on which the descriptions differ from the assembler's manual."},
 {"property": "C70", "status": "proved", "theorems": ["C70_placed", "C70_in_source", "C70_place_refuted"], "note": "Refuted without the last case: composite parts lose their range."},
 {"property": "C71", "status": "proved", "theorems": ["C71_skipped", "C71_read", "C71_accepts", "C71_title", "C71_process_refuted"], "note": "C71_process_refuted: *PROCESS options are skipped because they look like undefined symbols."},
 {"property": "C72", "status": "proved", "theorems": ["C72_counts", "C72_iseq", "C72_range_refuted"], "note": "Refuted without the exceptions: EQU without operands, START with a comma."},
 {"property": "C73", "status": "proved", "theorems": ["C73_attribute", "C73_total", "C73_reported", "C73_definition_counts"], "note": "Attributes of ordinary symbols."},
 {"property": "C74", "status": "proved", "theorems": ["C74_type_of_scalar", "C74_type_of_parameter", "C74_type_of_operand", "C74_type_of_list", "C74_type_of_list_unknown", "C74_type_of_number", "C74_type_of_element_refuted", "C74_type_of_element", "C74_type_of_element_unknown", "C74_type_undefined", "C74_length_of_set", "C74_length_of_parameter", "C74_length_of_operand", "C74_length_of_system_refuted", "C74_number_of_parameter", "C74_number_of_operands", "C74_number_of_operand", "C74_number_unchecked", "C74_misread", "C74_unknown"], "note": "With the two refuted readings (array elements, unsubscripted SYSLIST/SYSMAC) replaced by what holds."},
 {"property": "C75", "status": "proved", "theorems": ["C75_symbol", "C75_no_symbol", "C75_number", "C75_misread", "C75_undefined", "C75_empty_refuted", "C75_front", "C75_unique"], "note": "The undefined case is stated exactly; C75_empty_refuted shows it occurs."},
 {"property": "C76", "status": "proved", "theorems": ["C76_only_unknown", "C76_name_settled", "C76_variable_settled", "C76_variable_settled_refuted"], "note": "With the proviso about the text; C76_variable_settled_refuted shows that it is needed."},
 {"property": "C77", "status": "proved", "theorems": ["C77_joined", "C77_end", "C77_start", "C77_continued_refuted", "C77_spanning_refuted", "C77_found", "C77_other", "C77_union"], "note": "Exact under the provisos; the two deviations are proved as _refuted theorems."},
 {"property": "C78", "status": "proved", "theorems": ["C78_exact", "C78_regex", "C78_offered", "C78_only", "C78_comment", "C78_operand_refuted", "C78_missing_refuted", "C78_request", "C78_new_line_refuted"], "note": "Exact characterization; deviations as _refuted theorems."},
 {"property": "C79", "status": "proved", "theorems": ["C79_documentation", "C79_no_exception", "C79_unfinished_refuted", "C79_signature"], "note": "Exact under the proviso; the exception is proved as _refuted."},
 {"property": "C80", "status": "proved", "theorems": ["C80_hover", "C80_unknown", "C80_labels_distinct", "C80_offered", "C80_operands", "C80_inserted", "C80_all_covered", "C80_two_optional_refuted", "C80_mnemonic", "C80_mnemonics_covered", "C80_needed_refuted", "C80_operand_text", "C80_filled"], "note": "Exact for at most one optional operand and for mnemonics of instructions without optional operands; deviations as _refuted theorems."},
 {"property": "C81", "status": "proved", "theorems": ["C81_expression", "C81_one_reading", "C81_left_to_right", "C81_precedence", "C81_operands", "C81_one_list"], "note": "Reading by recursive descent with the actions of the grammar; syntax error recovery, variable symbols and the building of lexemes from lexer tokens are outside the model."},
 {"property": "C82", "status": "proved", "theorems": ["C82_operands", "C82_one_list", "C82_one_operand", "C82_parentheses"], "note": "As for C81; the upper-case text kept beside an expression operand is left out."},
 {"property": "C83", "status": "proved", "theorems": ["C83_read", "C83_one_reading", "C83_value", "C83_text", "C83_items", "C83_keyword_list", "C83_keyword", "C83_keyword_text", "C83_keyword_refuted"], "note": "C83_keyword_refuted shows why the proviso is needed: K=(A(')'))(B('(')) is taken as a list of one item, the same positional text is one value."},
 {"property": "C84", "status": "proved", "theorems": ["C84_layout", "C84_lines", "C84_operands", "C84_cut", "C84_trailing"], "note": "Tokens of the second reading are those of the first with the commas put back."},
 {"property": "C85", "status": "proved", "theorems": ["C85_one_end", "C85_defined", "C85_branch", "C85_unclosed", "C85_library", "C85_blank_refuted", "C85_empty_refuted"], "note": "blank prototypes and members without prototype: C85_blank_refuted, C85_empty_refuted"},
 {"property": "C86", "status": "proved", "theorems": ["C86_balanced", "C86_unbalanced"], "note": ""},
 {"property": "C87", "status": "proved", "theorems": ["C87_operands", "C87_same_meaning", "C87_at_once", "C87_operands_refuted", "C87_conditional_refuted"], "note": "without the provisos: C87_operands_refuted, C87_conditional_refuted; how a text is read in one kind is a parameter here (see C81-C84, C88)"},
 {"property": "C88", "status": "proved", "theorems": ["C88_sound", "C88_accepted", "C88_as_written", "C88_one_reading", "C88_left", "C88_unreadable_refuted", "C88_duplicated_refuted", "C88_touching_refuted"], "note": "exact under the proviso; without it C88_duplicated_refuted, C88_touching_refuted; unreadable fields are not reported: C88_unreadable_refuted"},
 {"property": "C89", "status": "proved", "theorems": ["C89_exact", "C89_text", "C89_accepted", "C89_apostrophes_refuted", "C89_before_refuted"], "note": "The operand grammar is modelled with ordered choice and backtracking over tokens; the two _refuted theorems show the losses named in the statement."},
 {"property": "C90", "status": "proved", "theorems": ["C90_text", "C90_label", "C90_accepted", "C90_symbol", "C90_name", "C90_argument", "C90_empty_refuted"], "note": "Labels that begin with an apostrophe: the text is kept (C90_text), where they end is not characterised. C90_empty_refuted shows the different treatment of empty results."},
 {"property": "C91", "status": "proved", "theorems": ["C91_read", "C91_resolved", "C91_trimmed_one"], "note": "C91_trimmed_one shows that trimming determines the result."},
 {"property": "C92", "status": "proved", "theorems": ["C92_shown", "C92_complete", "C92_unique", "C92_hidden_refuted", "C92_overflow_refuted", "C92_answered", "C92_unanswered_refuted"], "note": "C92_hidden_refuted: a macro parameter with the name of a SET symbol of the scope (SYSNDX) is shown with a value no statement reads. C92_overflow_refuted: an array element at key 2^31-1 overflows an int. C92_unanswered_refuted: a value cut within a UTF-8 character by a substring leaves the request unanswered."},
 {"property": "C93", "status": "proved", "theorems": ["C93_again", "C93_fresh", "C93_stale", "C93_idle", "C93_frames", "C93_safe"], "note": "The hash table is an association list; see DESIGN.md on the iterator used behind an insertion."},
 {"property": "C94", "status": "proved", "theorems": ["C94_shown", "C94_complete", "C94_scale_refuted"], "note": "C94_scale_refuted: without the proviso a scale is shown where reading it is an error."},
 {"property": "C95", "status": "proved", "theorems": ["C95_stack", "C95_innermost", "C95_report", "C95_some_place", "C95_postponed", "C95_call", "C95_lookahead_refuted", "C95_copy_in_macro_refuted"], "note": "Two refutations show why the proviso is needed: an attribute lookahead started in a macro, and COPY produced by substitution in a macro (out-of-range read)."},
 {"property": "C96", "status": "proved", "theorems": ["C96_next", "C96_macro", "C96_member", "C96_lookahead", "C96_read_again", "C96_jump"], "note": ""},
 {"property": "C97", "status": "proved", "theorems": ["C97_nests", "C97_own", "C97_inner_refuted", "C97_left_refuted"], "note": "Two refutations show the cases of the proviso."},
 {"property": "C98", "status": "proved", "theorems": ["C98_operands", "C98_one_list", "C98_one_operand", "C98_strings", "C98_literal_refuted"], "note": "C98_literal_refuted: the rule is also used behind = in a machine operand, where an index in parentheses may follow; there the end of the definition is not determined by its tokens alone. Operand fields of DC and DS are not affected."},
 {"property": "C99", "status": "proved", "theorems": ["C99_read", "C99_field", "C99_only", "C99_one_definition", "C99_safe"], "note": ""},
 {"property": "C100", "status": "proved", "theorems": ["C100_shown", "C100_one_reading", "C100_absolute", "C100_relocatable", "C100_attributes", "C100_subtracted_refuted", "C100_pending_refuted"], "note": "The refuted theorems are the findings about subtracted sections and pending spaces; the provisos are in the statement."},
 {"property": "C101", "status": "proved", "theorems": ["C101_first", "C101_type", "C101_global_refuted", "C101_rejected_refuted", "C101_agrees", "C101_answered", "C101_kinds"], "note": "The refuted theorems are the findings about global types and rejected statements; the provisos are in the statement. The kind of definitions inside macros and the texts of macros and instructions are given by functions."},
 {"property": "C102", "status": "proved", "theorems": ["C102_seen", "C102_start", "C102_all", "C102_back", "C102_return", "C102_again", "C102_further", "C102_further_refuted"], "note": "Refinement of a reader of a list for all sequences of actions. C102_further_refuted: a finding, see DESIGN.md."},
 {"property": "C103", "status": "proved", "theorems": ["C103_reset", "C103_rewound", "C103_dropped", "C103_rewound_refuted"], "note": "For all tokens. C103_rewound_refuted shows that the proviso is needed: a finding, see DESIGN.md."},
 {"property": "C104", "status": "proved", "theorems": ["C104_statement", "C104_ahead", "C104_ahead_refuted", "C104_shown_refuted", "C104_history"], "note": "Proved for open code in full and for looking ahead over lines whose operation is read; the two _refuted theorems are the exceptions named in the statement."},
 {"property": "C105", "status": "proved", "theorems": ["C105_message", "C105_unique", "C105_part", "C105_mismatch", "C105_once", "C105_sign_refuted", "C105_empty_refuted", "C105_silent_refuted"], "note": "Proved for all tokens. The _refuted theorems show that messages can be wrong in the usual sense (numbers behind signs, nothing left of the statement) and that some errors are not reported; the statement says so."},
 {"property": "C106", "status": "proved", "theorems": ["C106_value", "C106_silent", "C106_part", "C106_kinds", "C106_numeric_refuted", "C106_attribute_refuted", "C106_functions_refuted", "C106_truth_refuted", "C106_left_refuted"], "note": "Exp_Model.v/Exp_Spec.v/Exp_Props.v. A compositional meaning of expressions per kind wanted; evaluation after a silent resolution gives it or reports. The provisos are needed: C106_numeric_refuted, C106_attribute_refuted, C106_functions_refuted; further oddities C106_truth_refuted, C106_left_refuted."},
 {"property": "C107", "status": "proved", "theorems": ["C107_processed", "C107_lookahead", "C107_needed", "C107_rounds", "C107_rounds_unique", "C107_string_refuted"], "note": "The references in the text of strings are not searched (C107_string_refuted); the statement says so. The value of a variable symbol is a parameter."},
 {"property": "C108", "status": "proved", "theorems": ["C108_refused", "C108_setc", "C108_assigned", "C108_record", "C108_text", "C108_clockb", "C108_clockd", "C108_cut_refuted"], "note": "Built on the models of variables (C28) and of the lexer (C40). That the text is always UTF-8 is refuted (C108_cut_refuted); C108_text says when it is."},
 {"property": "C109", "status": "proved", "theorems": ["C109_groups_accepted", "C109_programs_accepted", "C109_one_meaning", "C109_round_trip", "C109_others_ignored", "C109_limit_refuted"], "note": "Limits that an unsigned int does not hold, and Booleans, are taken (C109_limit_refuted). Not modelled: the parser and printer of nlohmann::json."},
 {"property": "C110", "status": "proved", "theorems": ["C110_limit", "C110_shown", "C110_told", "C110_reload_refuted", "C110_huge_refuted"], "note": "A reload of the configuration disregards the limit (C110_reload_refuted); a limit above int64_t is zero (C110_huge_refuted)."},
 {"property": "C111", "status": "proved", "theorems": ["C111_dates", "C111_time_refuted", "C111_nest", "C111_sysmac_refuted", "C111_sysndx", "C111_section"], "note": "The language reference has hh.mm for SYSTIME (C111_time_refuted); SYSMAC without subscript is the whole list (C111_sysmac_refuted)."},
 {"property": "C112", "status": "proved", "theorems": ["C112_backspace", "C112_delete_selection", "C112_delete_key", "C112_delete_key_selection", "C112_plain_backspace", "C112_plain_delete", "C112_join", "C112_type", "C112_type_over", "C112_type_no_room", "C112_insert_continuation", "C112_insert_continued", "C112_insert_further", "C112_remove_continuation", "C112_remove_nothing", "C112_insert_remove", "C112_type_refuted", "C112_backspace_margin_refuted", "C112_backspace_end_refuted", "C112_selection_margin_refuted", "C112_delete_across_refuted", "C112_type_over_refuted", "C112_insert_refuted"], "note": "Editor semantics (positions before the command, clamping, refusal of overlapping edits) are part of the trusted environment. One cursor. The _refuted theorems are witnesses for the provisos in the statement."},
 {"property": "C113", "status": "proved", "theorems": ["C113_read", "C113_read_steps", "C113_write", "C113_round_trip", "C113_different", "C113_debugger", "C113_unsaved", "C113_other", "C113_percent_refuted", "C113_percent_end_refuted", "C113_host_refuted"], "note": "Percent coding, the parts of a URI and lexically_normal follow the documentation of the libraries (not in the repository). The _refuted theorems are witnesses for the provisos in the statement."},
 {"property": "C114", "status": "proved", "theorems": ["C114_reads", "C114_none", "C114_one_reading", "C114_apart", "C114_qualifier_refuted", "C114_long_refuted", "C114_overflow"], "note": "Joins Lex_Model and Gram_Model; C114_qualifier_refuted and C114_long_refuted show what the provisos exclude."},
 {"property": "C115", "status": "proved", "theorems": ["C115_delivery", "C115_served", "C115_names", "C115_one", "C115_reopen", "C115_apart", "C115_replies", "C115_rest", "C115_ignored", "C115_forgets", "C115_ended_refuted", "C115_negative_refuted"], "note": "Provisos witnessed by C115_ended_refuted (messages to an ended session pile up) and C115_negative_refuted (a negative number opens a session nobody can name by it)."},
 {"property": "C116", "status": "proved", "theorems": ["C116_chunks", "C116_frames", "C116_session", "C116_end_to_end", "C116_answers", "C116_other_header_refuted", "C116_no_number_refuted", "C116_negative_refuted"], "note": "Proved for every conversion of header texts to numbers that gives no negative number, every JSON reader and every JSON printer; refuted without the proviso on lengths, for frames that start with another header field (never read again), and for lengths that are no number (an exception at every later chunk)."},
 {"property": "C117", "status": "proved", "theorems": ["C117_patterns", "C117_patterns_start", "C117_in_force", "C117_language", "C117_untracked_refuted", "C117_stale_refuted", "C117_missing", "C117_broken", "C117_server_agrees", "C117_server_unit_refuted", "C117_returns_refuted"], "note": "Proved with the provisos of the statement; refuted without them: 'Do not track' ends all recognition, removing the groups file leaves old patterns in force, ? stands for a code unit in the editor and for a byte in the server, CRLF line ends make empty lines count."},
 {"property": "C118", "status": "proved", "theorems": ["C118_values", "C118_remark", "C118_reported", "C118_not_refuted", "C118_minus_refuted"], "note": "From characters to values, composing the models of C26, C22, C87/C88 and C114. C118_not_refuted: (NOT) alone has no value although the symbol has; C118_minus_refuted: minus of -2147483648 is undefined behaviour."},
 {"property": "C119", "status": "proved", "theorems": ["C119_branch", "C119_spelling", "C119_values", "C119_grouping_refuted", "C119_compare_refuted", "C119_number_refuted", "C119_empty_refuted", "C119_refused"], "note": "From characters to decision; provisos in the statement are needed (the _refuted theorems are their witnesses)"},
 {"property": "C120", "status": "proved", "theorems": ["C120_run", "C120_silent", "C120_end", "C120_reported", "C120_lost", "C120_created_refuted", "C120_overwritten_refuted"], "note": "From source lines to variables and control, composing the models of C118, C119, SET symbols and branching. The provisos are in the statement; C120_created_refuted: &A SETA &A+1 with &A undefined gives 1 without a report; C120_overwritten_refuted: a SETA in error still assigns 0."},
 {"property": "C121", "status": "proved", "theorems": ["C121_received", "C121_all", "C121_settles", "C121_delivered", "C121_written", "C121_native", "C121_order_refuted", "C121_number_refuted", "C121_negative_refuted"], "note": "Over all chunkings and interleavings, on the queue model of C02; C121_native composes with C01. Provisos in the statement; the three _refuted theorems are their witnesses (header order, length not a number, negative length)."},
 {"property": "C122", "status": "proved", "theorems": ["C122_colours", "C122_others", "C122_characters", "C122_applied", "C122_empty_refuted", "C122_language_refuted"], "note": "For every run of the extension's decoration code in which documents keep their language; VS Code's part by its documentation. The composition with C07 goes from highlighted symbols to coloured characters. The two _refuted theorems are the cases the statement leaves out."},
 {"property": "C123", "status": "proved", "theorems": ["C123_relative", "C123_absolute", "C123_member", "C123_same_file", "C123_configuration", "C123_windows_relative", "C123_windows_absolute", "C123_windows_member", "C123_windows_configuration", "C123_above_refuted", "C123_drive_refuted"], "note": "std::filesystem with / as its only separator and directory listings by their documentation. The two _refuted theorems are the exceptions the statement names."},
 {"property": "C124", "status": "proved", "theorems": ["C124_name", "C124_different", "C124_entry", "C124_opened", "C124_windows_name", "C124_windows_different", "C124_windows_entry", "C124_drives_refuted"], "note": "For all folders, files and entries; on Windows for files with the root of the workspace, other drives refuted with a witness."},
 {"property": "C125", "status": "proved", "theorems": ["C125_files", "C125_same_document"], "note": "Linux; every library freshly loaded (C13 covers lookups between refreshes); a file in no normal form or on Windows is not claimed here."}
]}
