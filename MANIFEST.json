{
 "claims": [
  {
   "property": "C01",
   "status": "proved",
   "theorems": [
    "C01_session_follows_spec",
    "C01_closed_session_reads_back",
    "C01_reading_unique",
    "C01_write_first_refuted"
   ],
   "note": "Sessions that start by reading (all users in the code base do); writing first on a valid database loses the version line, shown by the _refuted theorem."
  },
  {
   "property": "C02",
   "status": "proved",
   "theorems": [
    "C02_crash_in_session",
    "C02_crash_in_close",
    "C02_unclosed_is_noticed"
   ],
   "note": "Process-crash model: any byte prefix of the output reaches the file."
  },
  {
   "property": "C03",
   "status": "proved",
   "theorems": [
    "C03_expect",
    "C03_interrupted_update_is_redone"
   ],
   "note": ""
  },
  {
   "property": "C04",
   "status": "partial",
   "theorems": [
    "C04_skip_true_means_readable_to_the_end",
    "C04_skip_complete_without_blank_lines",
    "C04_skip_agrees_with_read_refuted"
   ],
   "note": "The full equivalence is false of the code: skip() rejects a database with an empty last line."
  },
  {
   "property": "C05",
   "status": "proved",
   "theorems": [
    "C05_close_to_reopen",
    "C05_crash_after_reopen"
   ],
   "note": ""
  },
  {
   "property": "C06",
   "status": "proved",
   "theorems": [
    "C06_read_only"
   ],
   "note": ""
  },
  {
   "property": "C07",
   "status": "proved",
   "theorems": [
    "C07_escaped_path_reads_back",
    "C07_rendered_path_reads_back"
   ],
   "note": ""
  },
  {
   "property": "C08",
   "status": "proved",
   "theorems": [
    "C08_declaration_parses",
    "C08_accepted_is_a_declaration",
    "C08_line_loop_terminates"
   ],
   "note": ""
  },
  {
   "property": "C09",
   "status": "proved",
   "theorems": [
    "C09_members_report_the_worst_state",
    "C09_direction_does_not_matter",
    "C09_order_does_not_matter",
    "C09_merge",
    "C09_recipe"
   ],
   "note": "The per-member outcome of execute_impl() is an input; the theorems are about how outcomes are combined."
  },
  {
   "property": "C10",
   "status": "partial",
   "theorems": [
    "C10_outer_action_unpacks",
    "C10_inner_action_unpacks",
    "C10_equality_is_identity",
    "C10_mixed_right",
    "C10_mixed_left_refuted"
   ],
   "note": "Everything holds except operator!= (action_id, action), which answers equality: shown by the _refuted theorem."
  },
  {
   "property": "C39",
   "status": "proved",
   "theorems": [
    "C39_up_to_date_decision",
    "C39_direction_does_not_matter"
   ],
   "note": "Postponed prerequisites are not compared, as documented in the code."
  },
  {
   "property": "C11",
   "status": "proved",
   "theorems": [
    "C11_reader_sees_contents",
    "C11_open_provides_contents",
    "C11_no_assertion_fails",
    "C11_next_build_sees_contents"
   ],
   "note": "LZ4 is any lossless pair of functions."
  },
  {
   "property": "C12",
   "status": "proved",
   "theorems": [
    "C12_crash_loses_nothing"
   ],
   "note": "Covers every operation other than opening a compressed entry."
  },
  {
   "property": "C13",
   "status": "partial",
   "theorems": [
    "C13_crash_while_decompressing_refuted",
    "C13_failed_decompression_refuted",
    "C13_compressed_copy_intact_partial"
   ],
   "note": "The property is false of the code: refuted for every compressor and contents. The compressed copy itself stays intact."
  },
  {
   "property": "C41",
   "status": "proved",
   "theorems": [
    "C41_temporary_entry_leaves_nothing",
    "C41_permanent_entry_is_kept"
   ],
   "note": ""
  },
  {
   "property": "C14",
   "status": "proved",
   "theorems": [
    "C14_queue_is_a_deque",
    "C14_no_task_lost_or_repeated"
   ],
   "note": "any interleaving of owner and helper operations; the mutex makes each queue operation atomic"
  },
  {
   "property": "C15",
   "status": "partial",
   "theorems": [
    "C15_owner_runs_only_tasks_of_the_level",
    "C15_owner_gets_every_task_of_the_level_partial",
    "C15_owner_gets_every_task_of_the_level_refuted"
   ],
   "note": "safety holds with helpers; completeness is proved without helpers and refuted with them (stale mark after a synchronous execution)"
  },
  {
   "property": "C19",
   "status": "proved",
   "theorems": [
    "C19_subphases_hide_and_restore"
   ],
   "note": "push_phase is atomic in the model; each queue is locked separately in the code"
  },
  {
   "property": "C16",
   "status": "proved",
   "theorems": [
    "C16_active_limit"
   ],
   "note": "threads allocated by allocate()/serialize() and jobserver clients are counted; a thread that shutdown() interrupts is outside the claim"
  },
  {
   "property": "C17",
   "status": "proved",
   "theorems": [
    "C17_counters"
   ],
   "note": "the sum is 1 + helpers + allocated + jobserver jobs, as in the code"
  },
  {
   "property": "C18",
   "status": "proved",
   "theorems": [
    "C18_wait_returns_when_dropped",
    "C18_all_tasks_finished",
    "C18_no_lost_wakeup",
    "C18_nobody_sleeps_after_completion",
    "C18_without_agreement_refuted"
   ],
   "note": "the documented condition on start counts is a hypothesis and is shown to be needed"
  },
  {
   "property": "C42",
   "status": "proved",
   "theorems": [
    "C42_no_stall",
    "C42_ready_thread_not_forgotten",
    "C42_spare_capacity_is_used_refuted"
   ],
   "note": "the stronger property that spare capacity is always used is refuted"
  },
  {
   "property": "C43",
   "status": "proved",
   "theorems": [
    "C43_deadlock_is_noticed"
   ],
   "note": ""
  },
  {
   "property": "C20",
   "status": "proved",
   "theorems": [
    "C20_phase_agreement"
   ],
   "note": ""
  },
  {
   "property": "C21",
   "status": "proved",
   "theorems": [
    "C21_load_is_exclusive"
   ],
   "note": ""
  },
  {
   "property": "C22",
   "status": "proved",
   "theorems": [
    "C22_no_stranded_thread"
   ],
   "note": "includes that a thread sleeping for the current phase has a pending notification"
  },
  {
   "property": "C23",
   "status": "proved",
   "theorems": [
    "C23_failed_load_is_seen"
   ],
   "note": ""
  },
  {
   "property": "C44",
   "status": "proved",
   "theorems": [
    "C44_subphases_balanced",
    "C44_subphases_balanced_refuted"
   ],
   "note": "without the stated discipline the balance is refuted"
  },
  {
   "property": "C24",
   "status": "proved",
   "theorems": [
    "C24_runs_at_most_once",
    "C24_same_result",
    "C24_no_assertion",
    "C24_no_assertion_refuted"
   ],
   "note": "the last one shows that the exclusion in the statement is needed"
  },
  {
   "property": "C25",
   "status": "proved",
   "theorems": [
    "C25_last_after_all_asked",
    "C25_last_not_forgotten"
   ],
   "note": ""
  },
  {
   "property": "C26",
   "status": "proved",
   "theorems": [
    "C26_mutual_exclusion",
    "C26_no_lost_wakeup",
    "C26_progress_is_kept",
    "C26_everyone_resumed_refuted"
   ],
   "note": "the last one shows that the exclusion in the statement is needed"
  },
  {
   "property": "C27",
   "status": "proved",
   "theorems": [
    "C27_strings_survive",
    "C27_string_survives",
    "C27_names_survive",
    "C27_empty_name_keeps_project_refuted",
    "C27_directory_and_value_refuted"
   ],
   "note": "the refuted ones show which forms of names are not read back the same"
  },
  {
   "property": "C28",
   "status": "proved",
   "theorems": [
    "C28_weak_order",
    "C28_equality",
    "C28_less_is_strict_weak"
   ],
   "note": "given that project names and directories are ordered"
  },
  {
   "property": "C45",
   "status": "proved",
   "theorems": [
    "C45_lexer_makes_progress",
    "C45_states",
    "C45_continuation_in_word",
    "C45_line_continuation_refuted"
   ],
   "note": ""
  },
  {
   "property": "C29",
   "status": "proved",
   "theorems": [
    "C29_combine_split",
    "C29_split_result",
    "C29_split_combine_split",
    "C29_no_assertion",
    "C29_trailing_dot_refuted"
   ],
   "note": "the last one: a name that ends with a dot and has another lone dot is not escaped enough"
  },
  {
   "property": "C30",
   "status": "proved",
   "theorems": [
    "C30_order",
    "C30_equal",
    "C30_same",
    "C30_kinds",
    "C30_numbers",
    "C30_null",
    "C30_arrays",
    "C30_objects",
    "C30_member_order",
    "C30_absent_member",
    "C30_absent_member_refuted"
   ],
   "note": "for values without duplicate members and with numbers in range, which C32_well_formed shows to be kept; the last one refutes the documented rule for absent members in general"
  },
  {
   "property": "C31",
   "status": "partial",
   "theorems": [
    "C31_sum_partial",
    "C31_sum_or_rejected_refuted",
    "C31_hexadecimal_refuted"
   ],
   "note": "the sum is right whenever it is representable and the right operand is not a negative hexadecimal number; the rest of the property is refuted"
  },
  {
   "property": "C32",
   "status": "proved",
   "theorems": [
    "C32_append_object",
    "C32_prepend_object",
    "C32_others",
    "C32_incompatible",
    "C32_well_formed",
    "C32_prepend_order_refuted"
   ],
   "note": "the last one: prepended new members end up in the reversed order"
  },
  {
   "property": "C33",
   "status": "proved",
   "theorems": [
    "C33_meaning",
    "C33_only_expressions",
    "C33_always_ends",
    "C33_unambiguous",
    "C33_short_circuit"
   ],
   "note": "Whether an evaluation context is accepted, its value and the side effects (in order) are exactly those of the expression that the grammar gives to the tokens, for any values, conversions and comparisons."
  },
  {
   "property": "C34",
   "status": "proved",
   "theorems": [
    "C34_lookup",
    "C34_lookup_scope",
    "C34_visibility",
    "C34_visibility_outside",
    "C34_innermost",
    "C34_nowhere",
    "C34_specific_first",
    "C34_depth",
    "C34_depth_scope",
    "C34_target_own",
    "C34_target_group",
    "C34_target_scopes",
    "C34_target_limit",
    "C34_most_specific",
    "C34_specific_order",
    "C34_null_of_target_refuted"
   ],
   "note": "the last one: a NULL value of a target, unlike that of a scope, does not hide outer values"
  },
  {
   "property": "C35",
   "status": "proved",
   "theorems": [
    "C35_value",
    "C35_value_and_place",
    "C35_no_overrides",
    "C35_defined",
    "C35_defined_refuted",
    "C35_place_of_target_refuted",
    "C35_scope_order_refuted"
   ],
   "note": "the refuted ones show that the exclusions in the statement are needed: a null pointer is dereferenced, the location for targets is wrong, and scope overrides depend on the order of unrelated ones"
  },
  {
   "property": "C46",
   "status": "partial",
   "theorems": [
    "C46_cache_partial",
    "C46_cache_refuted",
    "C46_cache_patterns_refuted"
   ],
   "note": "proved for overrides of the whole amalgamation and originals whose version identifies the value; refuted with project overrides and with pattern-specific append"
  },
  {
   "property": "C36",
   "status": "proved",
   "theorems": [
    "C36_match",
    "C36_longest",
    "C36_unqualified",
    "C36_best",
    "C36_retro",
    "C36_parse",
    "C36_new_must_match",
    "C36_new_fallback",
    "C36_new_unmatched",
    "C36_existing",
    "C36_overridable",
    "C36_star_refuted",
    "C36_retro_unqualified_refuted"
   ],
   "note": "'*' wins over '**' only if inserted orderly, since the order of patterns is not a strict weak order (C36_star_refuted); patterns are applied to existing unqualified variables contrary to the documentation (C36_retro_unqualified_refuted)"
  },
  {
   "property": "C37",
   "status": "proved",
   "theorems": [
    "C37_int64",
    "C37_uint64",
    "C37_int64_survives",
    "C37_uint64_survives",
    "C37_string_uint64",
    "C37_string_int64",
    "C37_string_width",
    "C37_string_base"
   ],
   "note": "given that stoll(), stoull() and to_string() of the standard library do what the C and C++ standards say"
  },
  {
   "property": "C47",
   "status": "proved",
   "theorems": [
    "C47_sequence",
    "C47_sequence_refuted",
    "C47_zero_step_refuted"
   ],
   "note": "the refuted ones show that the exclusions in the statement are needed: an overflow can make it go on forever and the zero step divides by zero"
  },
  {
   "property": "C38",
   "status": "proved",
   "theorems": [
    "C38_last_rule_decides",
    "C38_default_rule",
    "C38_invalid_rule",
    "C38_unused",
    "C38_unused_fails",
    "C38_saved_once",
    "C38_order",
    "C38_fate_of_each",
    "C38_own_values_written",
    "C38_abandoned_values_written",
    "C38_previously_inherited",
    "C38_written_as_decided",
    "C38_warned_once_refuted",
    "C38_saved_once_in_any_order_refuted",
    "C38_base_refuted"
   ],
   "note": "refuted: registering a module after a variable can save the variable twice; a dropped variable that is also overridden is warned about twice; configuring fails with a global override of config.config.environment if the outer project is not being configured"
  },
  {
   "property": "C40",
   "status": "proved",
   "theorems": [
    "C40_shards"
   ],
   "note": "numbers are unbounded in the model"
  },
  {
   "property": "C48",
   "status": "proved",
   "theorems": [
    "C48_accepted",
    "C48_accepted_v1",
    "C48_written",
    "C48_written_v1",
    "C48_runs",
    "C48_outcome"
   ],
   "note": "what lines do is an oracle; parsing of lines is not modelled"
  },
  {
   "property": "C49",
   "status": "partial",
   "theorems": [
    "C49_unique_partial",
    "C49_unique_refuted",
    "C49_position",
    "C49_name"
   ],
   "note": "indexes are unique only if no if-else in a for-loop has elif or tests for null or empty, otherwise refuted"
  },
  {
   "property": "C50",
   "status": "proved",
   "theorems": [
    "C50_value",
    "C50_diagnostics"
   ],
   "note": "pipes are oracles"
  },
  {
   "property": "C51",
   "status": "proved",
   "theorems": [
    "C51_nothing_ignored",
    "C51_characters",
    "C51_lines",
    "C51_numbers",
    "C51_files"
   ],
   "note": ""
  },
  {
   "property": "C52",
   "status": "proved",
   "theorems": [
    "C52_same_records",
    "C52_same_tokens",
    "C52_directive_refuted",
    "C52_directive_comment_refuted"
   ],
   "note": "refuted: the end of a directive is not hashed, so what is returned may differ if there are directives; collisions of the hash function itself are out of scope"
  },
  {
   "property": "C53",
   "status": "proved",
   "theorems": [
    "C53_accepted",
    "C53_one_reading",
    "C53_layout",
    "C53_layout_only"
   ],
   "note": ""
  },
  {
   "property": "C54",
   "status": "proved",
   "theorems": [
    "C54_declared",
    "C54_one_reading"
   ],
   "note": ""
  },
  {
   "property": "C55",
   "status": "proved",
   "theorems": [
    "C55_substitution",
    "C55_one_output",
    "C55_escape",
    "C55_lax",
    "C55_escape_refuted",
    "C55_lax_refuted"
   ],
   "note": "C55_escape_refuted and C55_lax_refuted: what the manual says literally is false in two cases"
  },
  {
   "property": "C56",
   "status": "proved",
   "theorems": [
    "C56_up_to_date",
    "C56_succeeds",
    "C56_no_more"
   ],
   "note": "hashes are assumed to tell the values used apart"
  },
  {
   "property": "C57",
   "status": "proved",
   "theorems": [
    "C57_up_to_date",
    "C57_as_far",
    "C57_progress",
    "C57_no_more",
    "C57_any_schedule",
    "C57_interrupted_refuted"
   ],
   "note": "recipes that are killed while writing their output are the exception: C57_interrupted_refuted"
  },
  {
   "property": "C58",
   "status": "proved",
   "theorems": [
    "C58_called",
    "C58_unmatched",
    "C58_ambiguous",
    "C58_total",
    "C58_arguments",
    "C58_any_order",
    "C58_family",
    "C58_total_refuted"
   ],
   "note": "for overloads with a type entry for each parameter, as all of those in the code except for tests; C58_total_refuted: otherwise an assertion can fail"
  },
  {
   "property": "C59",
   "status": "proved",
   "theorems": [
    "C59_registered",
    "C59_names_unique",
    "C59_hint_name",
    "C59_hint",
    "C59_rule",
    "C59_recipe",
    "C59_outcome",
    "C59_order_irrelevant",
    "C59_action",
    "C59_action_eq",
    "C59_action_ne_refuted"
   ],
   "note": "for targets with at most one recipe for an action and at most one that can stand for its reverse, as the parser makes sure; C59_action_ne_refuted: one comparison operator (unused) is wrong"
  },
  {
   "property": "C60",
   "status": "partial",
   "theorems": [
    "C60_delegate_partial",
    "C60_delegate_refuted"
   ],
   "note": "false: an ambiguity can be reported if the rule to skip is the other one that matches (C60_delegate_refuted); proved: that is the only exception"
  },
  {
   "property": "C61",
   "status": "proved",
   "theorems": [
    "C61_sound",
    "C61_never_silent",
    "C61_failed",
    "C61_terminates",
    "C61_deadlock",
    "C61_acyclic",
    "C61_nothing_left",
    "C61_final",
    "C61_serial",
    "C61_always_diagnosed_refuted"
   ],
   "note": "C61_always_diagnosed_refuted: in a parallel build a cycle can be a deadlock instead of being reported, as the code says"
  },
  {
   "property": "C62",
   "status": "proved",
   "theorems": [
    "C62_total",
    "C62_innermost",
    "C62_found",
    "C62_scopes",
    "C62_parent",
    "C62_root",
    "C62_any_order",
    "C62_all",
    "C62_weak",
    "C62_sub_root",
    "C62_parent_scope"
   ],
   "note": ""
  },
  {
   "property": "C63",
   "status": "proved",
   "theorems": [
    "C63_atomic",
    "C63_unique",
    "C63_asked",
    "C63_same",
    "C63_inserted_once",
    "C63_stable",
    "C63_kept",
    "C63_one_extension",
    "C63_steps",
    "C63_progress",
    "C63_meaning_refuted"
   ],
   "note": "C63_meaning_refuted: with several extensions, what the name without one refers to depends on the order"
  },
  {
   "property": "C64",
   "status": "proved",
   "theorems": [
    "C64_line",
    "C64_after",
    "C64_cycle_sound",
    "C64_cycle_found",
    "C64_cycle_none",
    "C64_terminates",
    "C64_safe",
    "C64_undefined_refuted",
    "C64_undefined_without_refuted",
    "C64_hashed",
    "C64_order_hashed_refuted"
   ],
   "note": "C64_undefined_*refuted: without the proviso the range of a library can be left open, and moving it is undefined behavior; C64_order_hashed_refuted: the order is not part of what is hashed"
  },
  {
   "property": "C65",
   "status": "proved",
   "theorems": [
    "C65_sound",
    "C65_unique",
    "C65_same",
    "C65_complete",
    "C65_update",
    "C65_terminates",
    "C65_deferred",
    "C65_failed",
    "C65_consistent",
    "C65_history",
    "C65_stale_error_refuted"
   ],
   "note": "C65_stale_error_refuted: the proviso on the compiler is necessary"
  },
  {
   "property": "C66",
   "status": "proved",
   "theorems": [
    "C66_install",
    "C66_again",
    "C66_uninstall",
    "C66_no_empty",
    "C66_round_trip",
    "C66_dry_run",
    "C66_resolve",
    "C66_resolve_plain",
    "C66_resolve_ends",
    "C66_named_refuted",
    "C66_order_refuted",
    "C66_parent_refuted",
    "C66_cycle_refuted"
   ],
   "note": "Without '..' in install.* variables and without files in place of directories; C66_*_refuted show that these provisos and rooted are necessary"
  },
  {
   "property": "C67",
   "status": "proved",
   "theorems": [
    "C67_filter",
    "C67_negated_refuted",
    "C67_left_refuted"
   ],
   "note": "C67_negated_refuted and C67_left_refuted: filters of directories and of files in them need not agree, see Findings"
  },
  {
   "property": "C68",
   "status": "proved",
   "theorems": [
    "C68_flow",
    "C68_one",
    "C68_ends",
    "C68_nested_refuted",
    "C68_recipe_refuted"
   ],
   "note": "For bodies that are blocks or single-line statements and recipes whose lines with a sole brace are balanced; C68_nested_refuted and C68_recipe_refuted show that both provisos are necessary"
  },
  {
   "property": "C69",
   "status": "proved",
   "theorems": [
    "C69_result",
    "C69_invalid",
    "C69_trailing_dot_refuted",
    "C69_values_refuted",
    "C69_special_refuted",
    "C69_specific_refuted"
   ],
   "note": "For files whose name without the extension does not end with a dot and target types whose extension does not depend on the name; C69_*_refuted show that these provisos are necessary"
  },
  {
   "property": "C70",
   "status": "proved",
   "theorems": [
    "C70_plan",
    "C70_executed",
    "C70_balanced",
    "C70_hidden_refuted",
    "C70_assertion_refuted"
   ],
   "note": "If no project of another target has a meta-operation with the name of an operation; C70_hidden_refuted and C70_assertion_refuted show that this is necessary"
  },
  {
   "property": "C71",
   "status": "proved",
   "theorems": [
    "C71_parse",
    "C71_read_back",
    "C71_targets"
   ],
   "note": "From names and tokens"
  },
  {
   "property": "C72",
   "status": "proved",
   "theorems": [
    "C72_target",
    "C72_id",
    "C72_alias",
    "C72_reachable_target",
    "C72_reachable_test",
    "C72_inside",
    "C72_value_refuted",
    "C72_union_refuted"
   ],
   "note": "For values whose untyped targets are directories; C72_value_refuted and C72_union_refuted: see Findings"
  },
  {
   "property": "C73",
   "status": "proved",
   "theorems": [
    "C73_executed",
    "C73_order",
    "C73_progress",
    "C73_ends",
    "C73_skipped_refuted"
   ],
   "note": "C73_executed is for scripts where no chain with conditions starts with an empty test block; C73_skipped_refuted shows that otherwise commands may be skipped and the script passes."
  },
  {
   "property": "C74",
   "status": "proved",
   "theorems": [
    "C74_only",
    "C74_tree",
    "C74_clean",
    "C74_succeeds",
    "C74_all",
    "C74_progress",
    "C74_ends",
    "C74_undo",
    "C74_member_refuted"
   ],
   "note": "C74_clean assumes that directories of all files of a target are its prerequisites; C74_member_refuted shows that otherwise a directory may be left behind."
  },
  {
   "property": "C75",
   "status": "proved",
   "theorems": [
    "C75_survives",
    "C75_reachable",
    "C75_order",
    "C75_equal",
    "C75_name_pair_refuted"
   ],
   "note": "For name, name_pair and process_path C75_survives is for the values in TypedSpec.v, for others C75_reachable covers all; C75_name_pair_refuted: see Findings"
  },
  {
   "property": "C76",
   "status": "partial",
   "theorems": [
    "C76_names",
    "C76_vector",
    "C76_set",
    "C76_map_partial",
    "C76_pairs_partial",
    "C76_string",
    "C76_int64",
    "C76_uint64",
    "C76_bool",
    "C76_set_elements",
    "C76_map_elements",
    "C76_vector_elements",
    "C76_vector_one",
    "C76_append_value",
    "C76_map_append_value_refuted",
    "C76_map_prepend_refuted",
    "C76_pairs_prepend_refuted"
   ],
   "note": "False in general for maps with repeated keys in what is prepended and for prepending to vectors of pairs (the refuted theorems); the partial theorems exclude these"
  },
  {
   "property": "C77",
   "status": "proved",
   "theorems": [
    "C77_success",
    "C77_complete",
    "C77_report",
    "C77_recipes",
    "C77_keep_going",
    "C77_same",
    "C77_quiet",
    "C77_progress",
    "C77_ends"
   ],
   "note": "First execution mode."
  },
  {
   "property": "C78",
   "status": "partial",
   "theorems": [
    "C78_same_partial",
    "C78_collected",
    "C78_type_refuted",
    "C78_project_refuted",
    "C78_adhoc_refuted",
    "C78_unmatch_refuted",
    "C78_function_refuted",
    "C78_append_refuted"
   ],
   "note": "C78_same_partial: for plain values whose types are not changed, prerequisites that stay ad hoc or not and are not update=unmatch, path-based targets, no computed function names and no appending to variables that are not expanded; false without these (the refuted theorems). What the depdb preamble does is not covered, only the body after it."
  },
  {
   "property": "C79",
   "status": "proved",
   "theorems": [
    "C79_resolved",
    "C79_deterministic",
    "C79_same",
    "C79_targets",
    "C79_source",
    "C79_finishes",
    "C79_absolute_refuted",
    "C79_project_refuted"
   ],
   "note": "For prerequisites of one project, except undeclared ones with an absolute directory in the out tree that have a source file (the refuted theorems), with the extension being the same for the same target."
  },
  {
   "property": "C80",
   "status": "proved",
   "theorems": [
    "C80_scripts",
    "C80_simple",
    "C80_neither",
    "C80_fails",
    "C80_success",
    "C80_result",
    "C80_clean",
    "C80_kept",
    "C80_fresh",
    "C80_complete",
    "C80_refuse",
    "C80_ends",
    "C80_dry_run",
    "C80_working_dir",
    "C80_same_name_refuted",
    "C80_working_dir_refuted"
   ],
   "note": "Excluded cases refuted: testscripts with the same name (C80_same_name_refuted), targets that differ only in type (C80_working_dir_refuted; C80_working_dir is what holds). Matching, backlinks, errors of the file system and timeouts are not modelled; what a script does is given by its outcome and what it leaves."
  },
  {
   "property": "C81",
   "status": "proved",
   "theorems": [
    "C81_project",
    "C81_specified",
    "C81_bases",
    "C81_place",
    "C81_nearest",
    "C81_implied",
    "C81_stdin",
    "C81_one_src",
    "C81_ends",
    "C81_directory_diverges",
    "C81_in_source",
    "C81_in_output",
    "C81_ends_refuted"
   ],
   "note": "C81_ends_refuted: with a directory in the name of buildfile the search does not end if it is not there. What the bootstrap files contain is given; targets with relative directories are made absolute before."
  },
  {
   "property": "C82",
   "status": "partial",
   "theorems": [
    "C82_history",
    "C82_forced",
    "C82_asserts_partial",
    "C82_invalid",
    "C82_foreign",
    "C82_current_partial",
    "C82_stdout",
    "C82_roundtrip",
    "C82_cut",
    "C82_read",
    "C82_filter_name",
    "C82_filter_partial",
    "C82_current_refuted",
    "C82_asserts_refuted",
    "C82_filter_refuted"
   ],
   "note": "C82_current_partial: if every change is followed by execution in the same build; otherwise false (C82_current_refuted). C82_asserts_partial: for a session of its own process; false for two match-only operations (C82_asserts_refuted). C82_filter_partial: in terms of the tests of types, of which that for the input type S is wrong (C82_filter_refuted). Serialization of commands is given."
  },
  {
   "property": "C83",
   "status": "partial",
   "theorems": [
    "C83_configured",
    "C83_explicit",
    "C83_searched",
    "C83_local",
    "C83_nearest",
    "C83_discovered",
    "C83_discovered_fails",
    "C83_discovered_order",
    "C83_listed",
    "C83_amalgamated",
    "C83_amalgamation_set",
    "C83_cached_partial",
    "C83_loaded_partial",
    "C83_listed_refuted",
    "C83_amalgamated_refuted",
    "C83_cached_refuted"
   ],
   "note": "C83_cached_partial and C83_loaded_partial: unless the same target is imported from different projects by way of the same directory (an amalgamation or a directory of another project), for which the cache gives the wrong one (C83_cached_refuted). Subprojects listed twice under one name are not an error (C83_listed_refuted); a loaded simple project hides the enclosing one (C83_amalgamated_refuted)."
  },
  {
   "property": "C84",
   "status": "partial",
   "theorems": [
    "C84_restored",
    "C84_scope",
    "C84_only",
    "C84_gone",
    "C84_always",
    "C84_unexpected",
    "C84_sandbox",
    "C84_outside",
    "C84_explicit",
    "C84_patterns",
    "C84_moved_over_refuted",
    "C84_moved_refuted",
    "C84_redirect_refuted",
    "C84_wildcard_refuted"
   ],
   "note": "C84_restored and C84_scope exclude, by benign, what is refuted: directories moved over others (C84_moved_over_refuted), append redirects that create and redirects to what was there before (C84_redirect_refuted), names with wildcard characters (C84_wildcard_refuted); and removal, after which a move can fail the cleanups (C84_moved_refuted). Symbolic links are not modelled."
  },
  {
   "property": "C85",
   "status": "partial",
   "theorems": [
    "C85_complete",
    "C85_matched",
    "C85_order",
    "C85_missing",
    "C85_ends",
    "C85_exact",
    "C85_apart",
    "C85_above",
    "C85_ignored",
    "C85_failed",
    "C85_same_place",
    "C85_place",
    "C85_remap",
    "C85_sources",
    "C85_bootstrap",
    "C85_bootstrap_ends",
    "C85_cycle_refuted",
    "C85_diverges_refuted",
    "C85_postponed_refuted",
    "C85_same_place_refuted",
    "C85_nested_refuted"
   ],
   "note": "C85_matched and C85_order: if no file is both a source file and a target. Failing does depend on the order (C85_postponed_refuted). C85_exact and C85_same_place: without config.dist.cmd (C85_same_place_refuted). C85_bootstrap: without links to enclosing directories (C85_cycle_refuted, C85_diverges_refuted). That files in out are not distributed is false if out is in src (C85_nested_refuted). Post hoc prerequisites, callbacks, archives are not modelled."
  },
  {
   "property": "C86",
   "status": "partial",
   "theorems": [
    "C86_prefix",
    "C86_prefix_any",
    "C86_prefixless",
    "C86_target",
    "C86_target_declared",
    "C86_qualified",
    "C86_unqualified",
    "C86_found",
    "C86_canonical",
    "C86_normalized",
    "C86_absolute",
    "C86_cached",
    "C86_no_race",
    "C86_options",
    "C86_options_last",
    "C86_options_fail",
    "C86_pairs_partial",
    "C86_pairs",
    "C86_declared_refuted",
    "C86_pairs_refuted"
   ],
   "note": "C86_pairs_partial: that the directories correspond holds unless a subdirectory of src_base follows out_base (C86_pairs_refuted). C86_no_race is for insertion and for finding declared targets."
  },
  {
   "property": "C87",
   "status": "partial",
   "theorems": [
    "C87_current",
    "C87_failed",
    "C87_others",
    "C87_succeeds",
    "C87_dry",
    "C87_clean",
    "C87_clean_dry",
    "C87_value",
    "C87_which",
    "C87_collect",
    "C87_collect_fails",
    "C87_sane",
    "C87_directories_refuted"
   ],
   "note": "C87_succeeds requires the directories of links other than the first one to exist or be the same as its (C87_directories_refuted). sane and regular: src and out are not in one another, targets are regular files, and a file to be overwritten has no other names. Directories as members are not modelled."
  },
  {
   "property": "C88",
   "status": "partial",
   "theorems": [
    "C88_delimited",
    "C88_make",
    "C88_valid",
    "C88_name",
    "C88_match_partial",
    "C88_members",
    "C88_prerequisites",
    "C88_alternatives_refuted",
    "C88_invalid_refuted",
    "C88_other_prerequisites_refuted"
   ],
   "note": "C88_match_partial: for patterns that are valid and have no alternatives outside of groups, or a single pattern (false otherwise: C88_alternatives_refuted, C88_invalid_refuted), and names without directory separators. A subset of ECMAScript is modelled."
  },
  {
   "property": "C89",
   "status": "partial",
   "theorems": [
    "C89_match",
    "C89_errors",
    "C89_one_by_one",
    "C89_output",
    "C89_text",
    "C89_document",
    "C89_string",
    "C89_document_text",
    "C89_empty_document_refuted",
    "C89_idot",
    "C89_idot_any"
   ],
   "note": "Alternatives are in groups; bounded quantifiers, references and assertions over lines are not modelled. C89_document_text: for documents with lines (C89_empty_document_refuted)."
  },
  {
   "property": "C90",
   "status": "partial",
   "theorems": [
    "C90_again",
    "C90_once",
    "C90_first",
    "C90_search",
    "C90_same",
    "C90_booted",
    "C90_order",
    "C90_answer",
    "C90_required",
    "C90_sound",
    "C90_load_refuted",
    "C90_within_refuted",
    "C90_repeat_refuted"
   ],
   "note": "C90_once: for modules that don't load themselves (false otherwise: C90_within_refuted). C90_required, C90_sound: for modules that fail rather than return false if not optional (C90_repeat_refuted). C90_answer: but for load_module without the optional argument (C90_load_refuted)."
  },
  {
   "property": "C91",
   "status": "partial",
   "theorems": [
    "C91_text",
    "C91_missing",
    "C91_unindented",
    "C91_expand",
    "C91_no_assert",
    "C91_indent",
    "C91_literal",
    "C91_documents",
    "C91_lines",
    "C91_empty_refuted",
    "C91_spaces_refuted"
   ],
   "note": "Escape sequences and expansions over several lines are not modelled. A document with no lines has the text of a blank line (C91_empty_refuted); lines of spaces must be indented, too (C91_spaces_refuted)."
  },
  {
   "property": "C92",
   "status": "partial",
   "theorems": [
    "C92_same",
    "C92_set",
    "C92_stays",
    "C92_fails",
    "C92_agree",
    "C92_progress",
    "C92_time",
    "C92_time_first_refuted",
    "C92_time_stays_refuted"
   ],
   "note": "Sequentially consistent atomics: that the release and acquire orders of the code are enough is not shown."
  }
 ]
}