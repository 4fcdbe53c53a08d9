{
 "claims": [
  {
   "property": "C01",
   "status": "proved",
   "theorems": [
    "C01_limit_in_bounds",
    "C01_inside_unchanged",
    "C01_mirror_low",
    "C01_mirror_high",
    "C01_idempotent",
    "C01_population_limit",
    "C01_nan_refuted",
    "C01_huge_bounds_refuted"
   ],
   "note": ""
  },
  {
   "property": "C02",
   "status": "proved",
   "theorems": [
    "C02_population_stays_in_bounds",
    "C02_population_in_bounds_with_FManager",
    "C02_challenger_in_bounds",
    "C02_infinite_F_refuted"
   ],
   "note": ""
  },
  {
   "property": "C03",
   "status": "proved",
   "theorems": [
    "C03_crossover",
    "C03_consequences",
    "C03_CR1"
   ],
   "note": ""
  },
  {
   "property": "C04",
   "status": "proved",
   "theorems": [
    "C04_inverse",
    "C04_ends_order_range",
    "C04_float_range",
    "C04_float_upper_refuted",
    "C04_float_ends",
    "C04_float_order",
    "C04_float_value",
    "C04_float_unit",
    "C04_float_exact_refuted"
   ],
   "note": ""
  },
  {
   "property": "C05",
   "status": "proved",
   "theorems": [
    "C05_conjunctive",
    "C05_dict",
    "C05_no_constraints",
    "C05_order_independent",
    "C05_order_raising_refuted",
    "C05_setConstraints"
   ],
   "note": ""
  },
  {
   "property": "C06",
   "status": "proved",
   "theorems": [
    "C06_positions_once",
    "C06_ascending",
    "C06_own_name_and_value",
    "C06_duplicate_refuted",
    "C06_duplicates"
   ],
   "note": ""
  },
  {
   "property": "C07",
   "status": "proved",
   "theorems": [
    "C07_stars",
    "C07_ends"
   ],
   "note": ""
  },
  {
   "property": "C08",
   "status": "proved",
   "theorems": [
    "C08_population_size",
    "C08_monotone"
   ],
   "note": ""
  },
  {
   "property": "C09",
   "status": "proved",
   "theorems": [
    "C09_ranking",
    "C09_argsort_exists",
    "C09_empty",
    "C09_inplace_refuted"
   ],
   "note": ""
  },
  {
   "property": "C10",
   "status": "proved",
   "theorems": [
    "C10_push"
   ],
   "note": ""
  },
  {
   "property": "C11",
   "status": "proved",
   "theorems": [
    "C11_uniform",
    "C11_best",
    "C11_probability",
    "C11_probability_too_many",
    "C11_above_one_rejected",
    "C11_not_finite",
    "C11_huge_negative_refuted",
    "C11_near_one_refuted",
    "C11_negative_refuted"
   ],
   "note": ""
  },
  {
   "property": "C12",
   "status": "proved",
   "theorems": [
    "C12_challenge_indices",
    "C12_three_members_refuted"
   ],
   "note": ""
  },
  {
   "property": "C13",
   "status": "proved",
   "theorems": [
    "C13_sse_reading",
    "C13_truth",
    "C13_order",
    "C13_order_is_real_order",
    "C13_total",
    "C13_nan_incomparable",
    "C13_fatal_loses"
   ],
   "note": ""
  },
  {
   "property": "C14",
   "status": "proved",
   "theorems": [
    "C14_copy",
    "C14_copy_equal",
    "C14_copy_of_fatal_is_true",
    "C14_copy_faithful_refuted",
    "C14_pickle",
    "C14_update"
   ],
   "note": ""
  },
  {
   "property": "C15",
   "status": "proved",
   "theorems": [
    "C15_equal_hash",
    "C15_equal_hash_zero_refuted",
    "C15_hash_raises",
    "C15_hash_nonfinite"
   ],
   "note": ""
  },
  {
   "property": "C16",
   "status": "proved",
   "theorems": [
    "C16_evaluate",
    "C16_no_values_when_aborting",
    "C16_values_otherwise"
   ],
   "note": ""
  },
  {
   "property": "C17",
   "status": "proved",
   "theorems": [
    "C17_F_within_original",
    "C17_zero_lower_end",
    "C17_zero_lower_end_refuted"
   ],
   "note": ""
  },
  {
   "property": "C18",
   "status": "proved",
   "theorems": [
    "C18_F_ordered_above_critical"
   ],
   "note": ""
  },
  {
   "property": "C19",
   "status": "proved",
   "theorems": [
    "C19_limited_exact",
    "C19_bottoms_out_and_recovers",
    "C19_factors"
   ],
   "note": ""
  },
  {
   "property": "C20",
   "status": "proved",
   "theorems": [
    "C20_async_equals_sequential"
   ],
   "note": ""
  },
  {
   "property": "C21",
   "status": "proved",
   "theorems": [
    "C21_exclusive",
    "C21_reads_under_lock",
    "C21_writes_own_target",
    "C21_exclusive_after_shutdown_refuted"
   ],
   "note": ""
  },
  {
   "property": "C22",
   "status": "proved",
   "theorems": [
    "C22_progress",
    "C22_bounded",
    "C22_all_finish",
    "C22_crash_refuted"
   ],
   "note": ""
  },
  {
   "property": "C23",
   "status": "proved",
   "theorems": [
    "C23_slots_never_worse",
    "C23_slots_any_schedule",
    "C23_aborted_overlap_refuted",
    "C23_SSE_never_increases",
    "C23_best_never_worse"
   ],
   "note": ""
  },
  {
   "property": "C24",
   "status": "proved",
   "theorems": [
    "C24_frozen_after_shutdown",
    "C24_frozen_after_fatal",
    "C24_second_shutdown"
   ],
   "note": ""
  },
  {
   "property": "C25",
   "status": "proved",
   "theorems": [
    "C25_consecutive_bounded",
    "C25_stops_for_a_reason",
    "C25_does_not_overstay",
    "C25_undisturbed",
    "C25_ends_stopped"
   ],
   "note": ""
  },
  {
   "property": "C26",
   "status": "proved",
   "theorems": [
    "C26_goal_raises",
    "C26_goal_never_met",
    "C26_zero_goal_ignored"
   ],
   "note": ""
  },
  {
   "property": "C27",
   "status": "proved",
   "theorems": [
    "C27_score",
    "C27_inquiry_resets",
    "C27_above_status_quo",
    "C27_no_improvement_no",
    "C27_probability"
   ],
   "note": ""
  },
  {
   "property": "C28",
   "status": "proved",
   "theorems": [
    "C28_setup_delivers",
    "C28_never_more",
    "C28_not_stuck",
    "C28_failure_cause"
   ],
   "note": ""
  },
  {
   "property": "C29",
   "status": "proved",
   "theorems": [
    "C29_parallel_limit"
   ],
   "note": ""
  },
  {
   "property": "C30",
   "status": "proved",
   "theorems": [
    "C30_aborted_before",
    "C30_aborted_during",
    "C30_fires_None",
    "C30_user_abort",
    "C30_fatal_evaluation",
    "C30_unsatisfiable",
    "C30_de_returns"
   ],
   "note": ""
  },
  {
   "property": "C31",
   "status": "proved",
   "theorems": [
    "C31_capacity",
    "C31_roster",
    "C31_blacklisted_while_waiting_refuted"
   ],
   "note": ""
  },
  {
   "property": "C32",
   "status": "proved",
   "theorems": [
    "C32_bumps_nonmembers",
    "C32_members_stay",
    "C32_row_index_refuted"
   ],
   "note": ""
  },
  {
   "property": "C33",
   "status": "proved",
   "theorems": [
    "C33_classes",
    "C33_selections",
    "C33_ratio"
   ],
   "note": ""
  },
  {
   "property": "C34",
   "status": "proved",
   "theorems": [
    "C34_nonfinite_ignored",
    "C34_add"
   ],
   "note": ""
  },
  {
   "property": "C35",
   "status": "proved",
   "theorems": [
    "C35_only_failure",
    "C35_locked_forever",
    "C35_capacity3_refuted",
    "C35_capacity1_refuted",
    "C35_all_members_refuted",
    "C35_gap_refuted",
    "C35_overflow_refuted"
   ],
   "note": ""
  },
  {
   "property": "C36",
   "status": "proved",
   "theorems": [
    "C36_pickle",
    "C36_capacity_refuted",
    "C36_other_process_refuted"
   ],
   "note": ""
  },
  {
   "property": "C37",
   "status": "proved",
   "theorems": [
    "C37_draws",
    "C37_draws_few_refuted",
    "C37_pairs_all",
    "C37_pairs_sampled",
    "C37_selected_row",
    "C37_highest_never_bumped"
   ],
   "note": ""
  },
  {
   "property": "C38",
   "status": "proved",
   "theorems": [
    "C38_figures",
    "C38_grid",
    "C38_sizes",
    "C38_nothing_refuted"
   ],
   "note": ""
  },
  {
   "property": "C39",
   "status": "proved",
   "theorems": [
    "C39_distinct",
    "C39_shape",
    "C39_no_extension_refuted",
    "C39_two_bases_refuted"
   ],
   "note": ""
  },
  {
   "property": "C40",
   "status": "proved",
   "theorems": [
    "C40_each_pair_once",
    "C40_strongest_first",
    "C40_nan_refuted",
    "C40_plot_all",
    "C40_plot_name",
    "C40_last_refuted",
    "C40_zero_refuted"
   ],
   "note": ""
  },
  {
   "property": "C41",
   "status": "proved",
   "theorems": [
    "C41_inverse",
    "C41_unknown",
    "C41_sse_column_refuted"
   ],
   "note": ""
  },
  {
   "property": "C42",
   "status": "proved",
   "theorems": [
    "C42_fractions",
    "C42_disjoint",
    "C42_from_best",
    "C42_all_equal_refuted",
    "C42_portions",
    "C42_negative",
    "C42_negative_refuted"
   ],
   "note": ""
  },
  {
   "property": "C43",
   "status": "proved",
   "theorems": [
    "C43_minimum",
    "C43_nan_refuted",
    "C43_fatal_refuted"
   ],
   "note": ""
  },
  {
   "property": "C44",
   "status": "proved",
   "theorems": [
    "C44_none",
    "C44_zero",
    "C44_value",
    "C44_equivalent",
    "C44_symbol",
    "C44_docstring_refuted",
    "C44_ratings",
    "C44_failed_credited_refuted",
    "C44_tie_refuted"
   ],
   "note": ""
  },
  {
   "property": "C45",
   "status": "proved",
   "theorems": [
    "C45_serialised",
    "C45_order",
    "C45_scheduled",
    "C45_SSE",
    "C45_when",
    "C45_last",
    "C45_best_reported_refuted",
    "C45_complaint_error_refuted"
   ],
   "note": ""
  },
  {
   "property": "C46",
   "status": "proved",
   "theorems": [
    "C46_blacklisted",
    "C46_best_lost_refuted",
    "C46_restored"
   ],
   "note": ""
  },
  {
   "property": "C47",
   "status": "proved",
   "theorems": [
    "C47_once",
    "C47_order",
    "C47_enter",
    "C47_terminates",
    "C47_self_refuted",
    "C47_shutdown",
    "C47_shutdown_order_refuted",
    "C47_error_refuted",
    "C47_restart_refuted",
    "C47_ignored"
   ],
   "note": ""
  },
  {
   "property": "C48",
   "status": "proved",
   "theorems": [
    "C48_relations",
    "C48_nan_refuted",
    "C48_missing_raises"
   ],
   "note": ""
  },
  {
   "property": "C49",
   "status": "proved",
   "theorems": [
    "C49_checked",
    "C49_own_dict",
    "C49_append",
    "C49_inconsistent_refuted",
    "C49_foreign_parameters_refuted",
    "C49_collected",
    "C49_stale_refuted",
    "C49_collected_refuted"
   ],
   "note": ""
  },
  {
   "property": "C50",
   "status": "proved",
   "theorems": [
    "C50_stored",
    "C50_surplus_keys_refuted",
    "C50_prefix_refuted"
   ],
   "note": ""
  },
  {
   "property": "C51",
   "status": "proved",
   "theorems": [
    "C51_read",
    "C51_noise",
    "C51_layout",
    "C51_values",
    "C51_hyphens_rejected",
    "C51_missing",
    "C51_white",
    "C51_lower",
    "C51_words",
    "C51_commas",
    "C51_number_rejected",
    "C51_number_dict_rejected",
    "C51_unterminated_refuted",
    "C51_lone_name_refuted",
    "C51_empty_file_refuted"
   ],
   "note": ""
  },
  {
   "property": "C52",
   "status": "proved",
   "theorems": [
    "C52_names",
    "C52_extract",
    "C52_absent",
    "C52_again",
    "C52_readme_refuted",
    "C52_specs_refuted"
   ],
   "note": ""
  },
  {
   "property": "C53",
   "status": "proved",
   "theorems": [
    "C53_load",
    "C53_bounds",
    "C53_lost_refuted",
    "C53_stale_SSE_refuted",
    "C53_empty_bounds",
    "C53_single_bound_refuted",
    "C53_wrong_number"
   ],
   "note": ""
  },
  {
   "property": "C54",
   "status": "proved",
   "theorems": [
    "C54_trim",
    "C54_ratio",
    "C54_best_last",
    "C54_differs",
    "C54_best_dropped_refuted",
    "C54_negative_refuted"
   ],
   "note": ""
  },
  {
   "property": "C55",
   "status": "proved",
   "theorems": [
    "C55_numbers",
    "C55_decimal",
    "C55_members",
    "C55_letters",
    "C55_other",
    "C55_concat",
    "C55_zeros_refuted",
    "C55_command_line_refuted"
   ],
   "note": ""
  },
  {
   "property": "C56",
   "status": "proved",
   "theorems": [
    "C56_rows_used",
    "C56_last_row_unused"
   ],
   "note": ""
  },
  {
   "property": "C57",
   "status": "proved",
   "theorems": [
    "C57_NaN_immortal",
    "C57_NaN_admitted"
   ],
   "note": ""
  },
  {
   "property": "C58",
   "status": "proved",
   "theorems": [
    "C58_options",
    "C58_CR",
    "C58_nan_refuted",
    "C58_none_refuted"
   ],
   "note": ""
  },
  {
   "property": "C59",
   "status": "proved",
   "theorems": [
    "C59_starred",
    "C59_equal_refuted",
    "C59_worse_refuted"
   ],
   "note": ""
  },
  {
   "property": "C60",
   "status": "proved",
   "theorems": [
    "C60_names",
    "C60_rows",
    "C60_fails"
   ],
   "note": ""
  },
  {
   "property": "C61",
   "status": "proved",
   "theorems": [
    "C61_heading",
    "C61_row",
    "C61_wide_refuted"
   ],
   "note": ""
  },
  {
   "property": "C62",
   "status": "proved",
   "theorems": [
    "C62_members",
    "C62_room",
    "C62_twins_refuted",
    "C62_blacklisted_refuted",
    "C62_beyond_end_refuted"
   ],
   "note": ""
  },
  {
   "property": "C63",
   "status": "proved",
   "theorems": [
    "C63_purge_pop"
   ],
   "note": ""
  },
  {
   "property": "C64",
   "status": "proved",
   "theorems": [
    "C64_log",
    "C64_ends",
    "C64_individual",
    "C64_infinite_refuted",
    "C64_name_refuted"
   ],
   "note": ""
  },
  {
   "property": "C65",
   "status": "proved",
   "theorems": [
    "C65_mixed_refuted"
   ],
   "note": ""
  },
  {
   "property": "C66",
   "status": "proved",
   "theorems": [
    "C66_table",
    "C66_population"
   ],
   "note": ""
  },
  {
   "property": "C67",
   "status": "proved",
   "theorems": [
    "C67_text",
    "C67_format",
    "C67_consecutive",
    "C67_zero",
    "C67_blank",
    "C67_blank_refuted",
    "C67_switch_refuted"
   ],
   "note": ""
  },
  {
   "property": "C68",
   "status": "proved",
   "theorems": [
    "C68_stdout",
    "C68_closed",
    "C68_replaced",
    "C68_set",
    "C68_off",
    "C68_raises",
    "C68_failure",
    "C68_stays",
    "C68_return_refuted"
   ],
   "note": ""
  },
  {
   "property": "C69",
   "status": "proved",
   "theorems": [
    "C69_line_written_refuted"
   ],
   "note": ""
  },
  {
   "property": "C70",
   "status": "proved",
   "theorems": [
    "C70_once",
    "C70_order",
    "C70_start_irrelevant",
    "C70_number",
    "C70_fastest_refuted"
   ],
   "note": ""
  },
  {
   "property": "C71",
   "status": "proved",
   "theorems": [
    "C71_kept",
    "C71_shadow",
    "C71_same_refuted"
   ],
   "note": ""
  },
  {
   "property": "C72",
   "status": "proved",
   "theorems": [
    "C72_run",
    "C72_none",
    "C72_args",
    "C72_options_refuted"
   ],
   "note": ""
  },
  {
   "property": "C73",
   "status": "proved",
   "theorems": [
    "C73_two",
    "C73_progress",
    "C73_all_last",
    "C73_own_refuted",
    "C73_early_refuted",
    "C73_shutdown_refuted",
    "C73_in_turn"
   ],
   "note": ""
  },
  {
   "property": "C74",
   "status": "proved",
   "theorems": [
    "C74_args",
    "C74_short",
    "C74_names",
    "C74_drift"
   ],
   "note": ""
  },
  {
   "property": "C75",
   "status": "proved",
   "theorems": [
    "C75_same_verdict",
    "C75_exact_below",
    "C75_never_more",
    "C75_no_threshold",
    "C75_zero_refuted"
   ],
   "note": ""
  },
  {
   "property": "C76",
   "status": "proved",
   "theorems": [
    "C76_curve",
    "C76_documented_refuted"
   ],
   "note": ""
  },
  {
   "property": "C77",
   "status": "proved",
   "theorems": [
    "C77_operators",
    "C77_value",
    "C77_no_difference",
    "C77_zero_F"
   ],
   "note": ""
  },
  {
   "property": "C78",
   "status": "proved",
   "theorems": [
    "C78_agreement_is_permanent"
   ],
   "note": ""
  },
  {
   "property": "C79",
   "status": "proved",
   "theorems": [
    "C79_constraints"
   ],
   "note": ""
  },
  {
   "property": "C80",
   "status": "proved",
   "theorems": [
    "C80_targets_in_turn",
    "C80_barrier",
    "C80_failure_is_final"
   ],
   "note": ""
  },
  {
   "property": "C81",
   "status": "proved",
   "theorems": [
    "C81_structured",
    "C81_SSE_never_increases",
    "C81_best_never_worse"
   ],
   "note": ""
  },
  {
   "property": "C82",
   "status": "proved",
   "theorems": [
    "C82_generation_boundary",
    "C82_one_generation",
    "C82_whole_run"
   ],
   "note": ""
  },
  {
   "property": "C83",
   "status": "proved",
   "theorems": [
    "C83_refines",
    "C83_stopped"
   ],
   "note": ""
  },
  {
   "property": "C84",
   "status": "proved",
   "theorems": [
    "C84_bounded",
    "C84_goes_on",
    "C84_ends"
   ],
   "note": ""
  },
  {
   "property": "C85",
   "status": "proved",
   "theorems": [
    "C85_result_is_final",
    "C85_not_running",
    "C85_raised_refuted"
   ],
   "note": ""
  },
  {
   "property": "C86",
   "status": "proved",
   "theorems": [
    "C86_line_length",
    "C86_reset",
    "C86_fill",
    "C86_count_after_message_refuted",
    "C86_blank_line_refuted"
   ],
   "note": ""
  },
  {
   "property": "C87",
   "status": "proved",
   "theorems": [
    "C87_params",
    "C87_constraints_see_params",
    "C87_missing",
    "C87_write",
    "C87_write_by_name_refuted",
    "C87_duplicate_names_refuted"
   ],
   "note": ""
  },
  {
   "property": "C88",
   "status": "proved",
   "theorems": [
    "C88_no_interference",
    "C88_challenge",
    "C88_copy",
    "C88_spawn_array_refuted",
    "C88_update_array_refuted"
   ],
   "note": ""
  },
  {
   "property": "C89",
   "status": "proved",
   "theorems": [
    "C89_lock",
    "C89_release",
    "C89_lock_release",
    "C89_first_come",
    "C89_shutting_down",
    "C89_twice",
    "C89_refused_keeps_refuted",
    "C89_negative_index_refuted",
    "C89_too_large_refuted",
    "C89_release_none_refuted"
   ],
   "note": ""
  },
  {
   "property": "C90",
   "status": "proved",
   "theorems": [
    "C90_individuals",
    "C90_beyond",
    "C90_evalTimes",
    "C90_contains",
    "C90_copy_in_refuted"
   ],
   "note": ""
  },
  {
   "property": "C91",
   "status": "proved",
   "theorems": [
    "C91_all",
    "C91_names",
    "C91_slice",
    "C91_mixed",
    "C91_values",
    "C91_plot",
    "C91_empty_slice_refuted"
   ],
   "note": ""
  },
  {
   "property": "C92",
   "status": "proved",
   "theorems": [
    "C92_at_most_once",
    "C92_already_running",
    "C92_first",
    "C92_next",
    "C92_pids",
    "C92_file_removed_refuted",
    "C92_later_refuted"
   ],
   "note": ""
  },
  {
   "property": "C93",
   "status": "proved",
   "theorems": [
    "C93_weights",
    "C93_many_times",
    "C93_perfect_refuted"
   ],
   "note": ""
  },
  {
   "property": "C94",
   "status": "proved",
   "theorems": [
    "C94_scatter",
    "C94_columns",
    "C94_all_drawn_refuted"
   ],
   "note": ""
  },
  {
   "property": "C95",
   "status": "proved",
   "theorems": [
    "C95_dims",
    "C95_three",
    "C95_files",
    "C95_window",
    "C95_dims_of_files_refuted"
   ],
   "note": ""
  },
  {
   "property": "C96",
   "status": "proved",
   "theorems": [
    "C96_text",
    "C96_blank_lines_refuted",
    "C96_default",
    "C96_options",
    "C96_constant",
    "C96_sequence",
    "C96_run",
    "C96_len_refuted",
    "C96_late_refuted",
    "C96_bool_refuted"
   ],
   "note": ""
  },
  {
   "property": "C97",
   "status": "proved",
   "theorems": [
    "C97_no_file",
    "C97_figures",
    "C97_one_parameter",
    "C97_ratio_refuted",
    "C97_unknown",
    "C97_unknown_refuted"
   ],
   "note": ""
  },
  {
   "property": "C98",
   "status": "proved",
   "theorems": [
    "C98_load",
    "C98_parse",
    "C98_times",
    "C98_python3_refuted",
    "C98_empty_refuted"
   ],
   "note": ""
  },
  {
   "property": "C99",
   "status": "proved",
   "theorems": [
    "C99_weights",
    "C99_drift",
    "C99_repeated_refuted"
   ],
   "note": ""
  },
  {
   "property": "C100",
   "status": "proved",
   "theorems": [
    "C100_cooling",
    "C100_monotone",
    "C100_hysteresis",
    "C100_hot",
    "C100_margin"
   ],
   "note": ""
  },
  {
   "property": "C101",
   "status": "proved",
   "theorems": [
    "C101_spacing",
    "C101_write",
    "C101_offline",
    "C101_row",
    "C101_log",
    "C101_end_refuted"
   ],
   "note": ""
  },
  {
   "property": "C102",
   "status": "proved",
   "theorems": [
    "C102_range",
    "C102_constant",
    "C102_step",
    "C102_increasing",
    "C102_nan_refuted"
   ],
   "note": ""
  },
  {
   "property": "C103",
   "status": "proved",
   "theorems": [
    "C103_serial",
    "C103_fires",
    "C103_applied",
    "C103_hang_refuted",
    "C103_hang_reached_refuted",
    "C103_progress"
   ],
   "note": ""
  },
  {
   "property": "C104",
   "status": "proved",
   "theorems": [
    "C104_consequences",
    "C104_sequential",
    "C104_members",
    "C104_total",
    "C104_never_stuck",
    "C104_drains",
    "C104_hang_refuted",
    "C104_blocked_refuted",
    "C104_hang_reached_refuted"
   ],
   "note": ""
  },
  {
   "property": "C105",
   "status": "proved",
   "theorems": [
    "C105_closest",
    "C105_columns",
    "C105_answer",
    "C105_closest_sampled",
    "C105_nan_first",
    "C105_two_rows",
    "C105_comparable",
    "C105_coincident",
    "C105_penalty_constant",
    "C105_penalty_constant_sampled",
    "C105_penalty_small",
    "C105_favours_low_SSE",
    "C105_dropped",
    "C105_worse_dropped_refuted"
   ],
   "note": ""
  },
  {
   "property": "C106",
   "status": "proved",
   "theorems": [
    "C106_refines",
    "C106_sequential",
    "C106_stopped",
    "C106_bonus",
    "C106_run",
    "C106_timing",
    "C106_F_in_range",
    "C106_timing_refuted",
    "C106_zero_ratios_refuted"
   ],
   "note": ""
  },
  {
   "property": "C107",
   "status": "proved",
   "theorems": [
    "C107_in_turn",
    "C107_own",
    "C107_at_once",
    "C107_two_each",
    "C107_shutdown",
    "C107_None",
    "C107_None_error",
    "C107_stopped_refuted",
    "C107_free_refuted"
   ],
   "note": ""
  },
  {
   "property": "C108",
   "status": "proved",
   "theorems": [
    "C108_curve",
    "C108_formula",
    "C108_thermistor",
    "C108_exact_fit",
    "C108_negative_resistance_refuted",
    "C108_voc_curve",
    "C108_voc",
    "C108_voc_bounds_refuted"
   ],
   "note": ""
  },
  {
   "property": "C109",
   "status": "proved",
   "theorems": [
    "C109_lines",
    "C109_items",
    "C109_individual",
    "C109_brackets_refuted",
    "C109_long_refuted"
   ],
   "note": ""
  },
  {
   "property": "C110",
   "status": "proved",
   "theorems": [
    "C110_simulates",
    "C110_targets",
    "C110_ends",
    "C110_slot",
    "C110_best",
    "C110_first",
    "C110_best_of_all",
    "C110_own",
    "C110_replaced",
    "C110_in_bounds",
    "C110_winner_refuted",
    "C110_basis_refuted",
    "C110_kept_refuted",
    "C110_NaN_refuted"
   ],
   "note": ""
  },
  {
   "property": "C111",
   "status": "proved",
   "theorems": [
    "C111_origin",
    "C111_members",
    "C111_best",
    "C111_optimum",
    "C111_setup_best_refuted"
   ],
   "note": ""
  },
  {
   "property": "C112",
   "status": "proved",
   "theorems": [
    "C112_file",
    "C112_ends",
    "C112_patterns",
    "C112_starred",
    "C112_empty",
    "C112_errors",
    "C112_one_line_refuted",
    "C112_solver"
   ],
   "note": ""
  },
  {
   "property": "C113",
   "status": "proved",
   "theorems": [
    "C113_complaints",
    "C113_final",
    "C113_best_of_all",
    "C113_over",
    "C113_known",
    "C113_recorded",
    "C113_complained_refuted",
    "C113_loser_refuted"
   ],
   "note": ""
  },
  {
   "property": "C114",
   "status": "proved",
   "theorems": [
    "C114_sizes",
    "C114_slots",
    "C114_best",
    "C114_true_SSE",
    "C114_in_bounds",
    "C114_stopped",
    "C114_aborted",
    "C114_stays_stopped",
    "C114_loaded_runs",
    "C114_restart",
    "C114_idle",
    "C114_settings",
    "C114_history",
    "C114_constrained",
    "C114_stale_refuted",
    "C114_second_run_refuted",
    "C114_constrained_refuted"
   ],
   "note": ""
  },
  {
   "property": "C115",
   "status": "proved",
   "theorems": [
    "C115_queue",
    "C115_gone",
    "C115_none",
    "C115_repeated",
    "C115_repeated_refuted",
    "C115_late_refuted",
    "C115_stops",
    "C115_shutdown",
    "C115_split",
    "C115_options",
    "C115_setup",
    "C115_population",
    "C115_saved",
    "C115_last",
    "C115_starts",
    "C115_workers_refuted",
    "C115_uniform_refuted",
    "C115_ends_refuted",
    "C115_failed_setup_refuted",
    "C115_solver"
   ],
   "note": ""
  },
  {
   "property": "C116",
   "status": "proved",
   "theorems": [
    "C116_thermistor",
    "C116_falls",
    "C116_small_refuted",
    "C116_first",
    "C116_voc",
    "C116_voc_falls",
    "C116_short_refuted"
   ],
   "note": ""
  },
  {
   "property": "C117",
   "status": "proved",
   "theorems": [
    "C117_set",
    "C117_refused",
    "C117_made",
    "C117_list",
    "C117_appended",
    "C117_default",
    "C117_default_refuted",
    "C117_iterator",
    "C117_again_refuted",
    "C117_again",
    "C117_extend",
    "C117_constructed",
    "C117_callable_refuted"
   ],
   "note": ""
  },
  {
   "property": "C118",
   "status": "proved",
   "theorems": [
    "C118_simulates",
    "C118_targets",
    "C118_ends",
    "C118_made",
    "C118_in_force",
    "C118_after",
    "C118_never_worse",
    "C118_in_bounds",
    "C118_whole_run",
    "C118_refused",
    "C118_late_refuted"
   ],
   "note": ""
  }
 ]
}