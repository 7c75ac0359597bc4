{
 "claims": [
  {
   "property": "C01",
   "status": "proved",
   "theorems": [
    "C01_membership_shape",
    "C01_membership_monotone",
    "C01_unordered_points_rejected"
   ],
   "note": ""
  },
  {
   "property": "C02",
   "status": "proved",
   "theorems": [
    "C02_strong_partition"
   ],
   "note": ""
  },
  {
   "property": "C03",
   "status": "proved",
   "theorems": [
    "C03_generation",
    "C03_sorted_peaks_valid",
    "C03_point_and_errors"
   ],
   "note": ""
  },
  {
   "property": "C04",
   "status": "proved",
   "theorems": [
    "C04_repeated_first_peak",
    "C04_default_labels_collapse",
    "C04_equal_freq_fallback_repeats"
   ],
   "note": ""
  },
  {
   "property": "C05",
   "status": "proved",
   "theorems": [
    "C05_alpha_cut_exact",
    "C05_alpha_cut_zero_one",
    "C05_alpha_cut_nested",
    "C05_alpha_cut_rejects"
   ],
   "note": ""
  },
  {
   "property": "C06",
   "status": "proved",
   "theorems": [
    "C06_intersection_is_height",
    "C06_intersection_laws"
   ],
   "note": ""
  },
  {
   "property": "C07",
   "status": "proved",
   "theorems": [
    "C07_simmilarity_bounds",
    "C07_simmilarity_symmetric",
    "C07_simmilarity_shift_blind",
    "C07_simmilarity_self",
    "C07_degree_refuted",
    "C07_location_refuted"
   ],
   "note": ""
  },
  {
   "property": "C08",
   "status": "proved",
   "theorems": [
    "C08_jaccard_laws",
    "C08_jaccard_self",
    "C08_jaccard_value"
   ],
   "note": ""
  },
  {
   "property": "C09",
   "status": "proved",
   "theorems": [
    "C09_merge_covers",
    "C09_merge_algebra"
   ],
   "note": ""
  },
  {
   "property": "C10",
   "status": "proved",
   "theorems": [
    "C10_discrete_degree",
    "C10_discrete_partition",
    "C10_discrete_intersection"
   ],
   "note": ""
  },
  {
   "property": "C11",
   "status": "proved",
   "theorems": [
    "C11_variables_at_their_columns",
    "C11_default_labels",
    "C11_unknown_name_raises"
   ],
   "note": ""
  },
  {
   "property": "C12",
   "status": "proved",
   "theorems": [
    "C12_dataset_membership"
   ],
   "note": ""
  },
  {
   "property": "C13",
   "status": "proved",
   "theorems": [
    "C13_entropy_bounds",
    "C13_entropy_formula",
    "C13_weighted_formula",
    "C13_entropy_zero_iff_pure",
    "C13_entropy_row_order",
    "C13_entropy_scale",
    "C13_weighted_entropy_bounds"
   ],
   "note": ""
  },
  {
   "property": "C14",
   "status": "proved",
   "theorems": [
    "C14_discretisation",
    "C14_constant_column",
    "C14_single_row_without_threshold"
   ],
   "note": ""
  },
  {
   "property": "C15",
   "status": "proved",
   "theorems": [
    "C15_repeated_maximum_kept",
    "C15_single_maximum_refuted"
   ],
   "note": ""
  },
  {
   "property": "C16",
   "status": "proved",
   "theorems": [
    "C16_matching_is_minimum",
    "C16_matching_unknown_is_zero",
    "C16_matching_empty_raises",
    "C16_matching_unit_interval",
    "C16_matching_order_irrelevant"
   ],
   "note": ""
  },
  {
   "property": "C17",
   "status": "proved",
   "theorems": [
    "C17_multi_matching_is_minimum_of_sums",
    "C17_multi_matching_unknown_is_zero",
    "C17_multi_matching_unit_interval",
    "C17_multi_matching_monotone"
   ],
   "note": ""
  },
  {
   "property": "C18",
   "status": "proved",
   "theorems": [
    "C18_simplify_shortest_literal",
    "C18_simplify_keeps_matching"
   ],
   "note": ""
  },
  {
   "property": "C19",
   "status": "proved",
   "theorems": [
    "C19_vote_is_first_maximal_class",
    "C19_empty_rule_list_raises",
    "C19_empty_antecedent_raises"
   ],
   "note": ""
  },
  {
   "property": "C20",
   "status": "proved",
   "theorems": [
    "C20_crisp_iff_matching_at_cut",
    "C20_crisp_defined",
    "C20_bad_cut_raises"
   ],
   "note": ""
  },
  {
   "property": "C21",
   "status": "proved",
   "theorems": [
    "C21_mapping_picks_best_set",
    "C21_mapping_identity",
    "C21_different_universes_raise",
    "C21_unknown_map_function_raises"
   ],
   "note": ""
  },
  {
   "property": "C22",
   "status": "proved",
   "theorems": [
    "C22_json_lists_the_literals",
    "C22_json_multi_lists_the_literals",
    "C22_json_unknown_name_raises",
    "C22_lookup_found",
    "C22_lookup_sound",
    "C22_lookup_unknown"
   ],
   "note": ""
  },
  {
   "property": "C23",
   "status": "proved",
   "theorems": [
    "C23_leaf_distribution"
   ],
   "note": ""
  },
  {
   "property": "C24",
   "status": "proved",
   "theorems": [
    "C24_paths",
    "C24_children"
   ],
   "note": ""
  },
  {
   "property": "C25",
   "status": "proved",
   "theorems": [
    "C25_training_total",
    "C25_nonpositive_threshold",
    "C25_no_stuck_node",
    "C25_root_key_error"
   ],
   "note": ""
  },
  {
   "property": "C26",
   "status": "proved",
   "theorems": [
    "C26_votes_equal_rule_totals",
    "C26_strict_winner",
    "C26_root_leaf_rules_fail",
    "C26_tie_disagreement"
   ],
   "note": ""
  },
  {
   "property": "C27",
   "status": "proved",
   "theorems": [
    "C27_predict_maximal_vote",
    "C27_predict_rowwise",
    "C27_voting_names",
    "C27_leaves_are_leaf_nodes",
    "C27_variable_without_sets"
   ],
   "note": ""
  },
  {
   "property": "C28",
   "status": "proved",
   "theorems": [
    "C28_node_memberships",
    "C28_activation_is_minimum",
    "C28_tnorm_never_influences_training"
   ],
   "note": ""
  },
  {
   "property": "C29",
   "status": "proved",
   "theorems": [
    "C29_refit_votes",
    "C29_refit_same_data",
    "C29_refit_keeps_old_subtrees",
    "C29_refit_differs_from_fresh"
   ],
   "note": ""
  },
  {
   "property": "C30",
   "status": "proved",
   "theorems": [
    "C30_gain_optimal_choice",
    "C30_order_irrelevant_without_ties",
    "C30_ties_depend_on_order"
   ],
   "note": ""
  },
  {
   "property": "C31",
   "status": "proved",
   "theorems": [
    "C31_split",
    "C31_nested"
   ],
   "note": ""
  },
  {
   "property": "C32",
   "status": "proved",
   "theorems": [
    "C32_training_total",
    "C32_nonpositive_threshold",
    "C32_leaf_distribution",
    "C32_depth"
   ],
   "note": ""
  },
  {
   "property": "C33",
   "status": "proved",
   "theorems": [
    "C33_votes_equal_rule_totals",
    "C33_predict_maximal_vote",
    "C33_leaves_are_leaf_nodes",
    "C33_strict_winner",
    "C33_root_leaf_rules_fail",
    "C33_built_variables_are_partitioned",
    "C33_overlapping_sets_refuted"
   ],
   "note": ""
  },
  {
   "property": "C34",
   "status": "proved",
   "theorems": [
    "C34_sharing_is_not_observable",
    "C34_first_use_shares_exactly",
    "C34_reuse_marks_before_the_right_side",
    "C34_partly_left_counts_fully_right",
    "C34_crisp_rows_unaffected"
   ],
   "note": ""
  },
  {
   "property": "C35",
   "status": "proved",
   "theorems": [
    "C35_fbdt_threshold_zero",
    "C35_fbdt_verbose_returns_nothing",
    "C35_fdt_threshold_zero",
    "C35_fdt_verbose_returns_nothing",
    "C35_id3_public_rules_fail"
   ],
   "note": ""
  },
  {
   "property": "C36",
   "status": "proved",
   "theorems": [
    "C36_only_training_labels",
    "C36_known_rows_classified",
    "C36_predict_known",
    "C36_unseen_value",
    "C36_none_iff_unseen",
    "C36_known_rows_classified_shallow"
   ],
   "note": ""
  },
  {
   "property": "C37",
   "status": "proved",
   "theorems": [
    "C37_majority_class",
    "C37_unreached_node",
    "C37_error_is_training_error"
   ],
   "note": ""
  },
  {
   "property": "C38",
   "status": "proved",
   "theorems": [
    "C38_exactly_one_rule"
   ],
   "note": ""
  },
  {
   "property": "C39",
   "status": "proved",
   "theorems": [
    "C39_only_zero_division",
    "C39_success",
    "C39_constant_column_fails",
    "C39_dead_ends"
   ],
   "note": ""
  },
  {
   "property": "C40",
   "status": "proved",
   "theorems": [
    "C40_fbdt_score",
    "C40_fdt_score",
    "C40_id3_score"
   ],
   "note": ""
  },
  {
   "property": "C41",
   "status": "proved",
   "theorems": [
    "C41_coverage",
    "C41_coverage_monotone",
    "C41_not_the_union_refuted"
   ],
   "note": ""
  },
  {
   "property": "C42",
   "status": "proved",
   "theorems": [
    "C42_precision",
    "C42_precision_errors"
   ],
   "note": ""
  },
  {
   "property": "C43",
   "status": "proved",
   "theorems": [
    "C43_fidelity",
    "C43_rule_fidelity"
   ],
   "note": ""
  },
  {
   "property": "C44",
   "status": "proved",
   "theorems": [
    "C44_distance_formula",
    "C44_pseudometric"
   ],
   "note": ""
  },
  {
   "property": "C45",
   "status": "proved",
   "theorems": [
    "C45_sparsity",
    "C45_empty_instances"
   ],
   "note": ""
  },
  {
   "property": "C46",
   "status": "proved",
   "theorems": [
    "C46_implausibility"
   ],
   "note": ""
  },
  {
   "property": "C47",
   "status": "proved",
   "theorems": [
    "C47_instability"
   ],
   "note": ""
  },
  {
   "property": "C48",
   "status": "proved",
   "theorems": [
    "C48_m_factual",
    "C48_nothing_fired"
   ],
   "note": ""
  },
  {
   "property": "C49",
   "status": "proved",
   "theorems": [
    "C49_mr_factual",
    "C49_single_class"
   ],
   "note": ""
  },
  {
   "property": "C50",
   "status": "proved",
   "theorems": [
    "C50_c_factual",
    "C50_monotone",
    "C50_nothing_fired"
   ],
   "note": ""
  },
  {
   "property": "C51",
   "status": "proved",
   "theorems": [
    "C51_FID3_factual"
   ],
   "note": ""
  },
  {
   "property": "C52",
   "status": "proved",
   "theorems": [
    "C52_apply_changes",
    "C52_wanted_set_is_strongest_afterwards",
    "C52_others_untouched"
   ],
   "note": ""
  },
  {
   "property": "C53",
   "status": "proved",
   "theorems": [
    "C53_i_counterfactual"
   ],
   "note": ""
  },
  {
   "property": "C54",
   "status": "proved",
   "theorems": [
    "C54_f_counterfactual",
    "C54_distance_zero_never_considered_refuted"
   ],
   "note": ""
  },
  {
   "property": "C55",
   "status": "proved",
   "theorems": [
    "C55_d_counterfactual"
   ],
   "note": ""
  },
  {
   "property": "C56",
   "status": "proved",
   "theorems": [
    "C56_multiclass"
   ],
   "note": ""
  },
  {
   "property": "C57",
   "status": "proved",
   "theorems": [
    "C57_FID3_counterfactual",
    "C57_distance"
   ],
   "note": ""
  },
  {
   "property": "C58",
   "status": "proved",
   "theorems": [
    "C58_literal_distance",
    "C58_single_set_raises",
    "C58_distance_to_instance",
    "C58_distance_bounds",
    "C58_distance_of_rules",
    "C58_equal_names_distinct_objects_refuted"
   ],
   "note": ""
  },
  {
   "property": "C59",
   "status": "proved",
   "theorems": [
    "C59_explain_fdt",
    "C59_explain_fbdt",
    "C59_hit"
   ],
   "note": ""
  },
  {
   "property": "C60",
   "status": "proved",
   "theorems": [
    "C60_argument_errors_change_nothing",
    "C60_failed_fit",
    "C60_stale_prediction",
    "C60_mixed_state"
   ],
   "note": ""
  },
  {
   "property": "C61",
   "status": "proved",
   "theorems": [
    "C61_write_explanation_fdt",
    "C61_write_explanation_fbdt_never"
   ],
   "note": ""
  },
  {
   "property": "C62",
   "status": "proved",
   "theorems": [
    "C62_get_X",
    "C62_get_y",
    "C62_fuzzify_needs_fit",
    "C62_argument_errors",
    "C62_fit_keeps_memberships",
    "C62_successful_fuzzify",
    "C62_X_membership_history",
    "C62_stale_membership",
    "C62_mixed_after_failure"
   ],
   "note": ""
  },
  {
   "property": "C63",
   "status": "proved",
   "theorems": [
    "C63_copies",
    "C63_failing_black_box"
   ],
   "note": ""
  },
  {
   "property": "C64",
   "status": "proved",
   "theorems": [
    "C64_fast_sampling",
    "C64_terminates",
    "C64_slow_raises",
    "C64_succeeds"
   ],
   "note": ""
  },
  {
   "property": "C65",
   "status": "proved",
   "theorems": [
    "C65_distributions",
    "C65_constant_column",
    "C65_invalid_range"
   ],
   "note": ""
  },
  {
   "property": "C66",
   "status": "proved",
   "theorems": [
    "C66_population",
    "C66_replacement",
    "C66_succeeds"
   ],
   "note": ""
  },
  {
   "property": "C67",
   "status": "proved",
   "theorems": [
    "C67_crossover",
    "C67_crossover_succeeds",
    "C67_tournament",
    "C67_mutation",
    "C67_genes"
   ],
   "note": ""
  },
  {
   "property": "C68",
   "status": "proved",
   "theorems": [
    "C68_oversample",
    "C68_threshold_unique",
    "C68_too_small"
   ],
   "note": ""
  },
  {
   "property": "C69",
   "status": "proved",
   "theorems": [
    "C69_simple_match",
    "C69_simple_match_metric",
    "C69_mad_value",
    "C69_mad_metric",
    "C69_mad_short"
   ],
   "note": ""
  },
  {
   "property": "C70",
   "status": "proved",
   "theorems": [
    "C70_convex",
    "C70_bounds",
    "C70_continuous_only",
    "C70_undefined"
   ],
   "note": ""
  },
  {
   "property": "C71",
   "status": "proved",
   "theorems": [
    "C71_normalized",
    "C71_single",
    "C71_opposite",
    "C71_square"
   ],
   "note": ""
  },
  {
   "property": "C72",
   "status": "proved",
   "theorems": [
    "C72_class",
    "C72_neither_given",
    "C72_discrete_given",
    "C72_continuous_given",
    "C72_both_given"
   ],
   "note": ""
  },
  {
   "property": "C73",
   "status": "proved",
   "theorems": [
    "C73_round_trip",
    "C73_codes",
    "C73_reencode",
    "C73_unseen",
    "C73_rejects",
    "C73_duplicate_refuted"
   ],
   "note": ""
  },
  {
   "property": "C74",
   "status": "proved",
   "theorems": [
    "C74_records",
    "C74_closest",
    "C74_fails",
    "C74_continuous_only"
   ],
   "note": ""
  },
  {
   "property": "C75",
   "status": "proved",
   "theorems": [
    "C75_columns",
    "C75_total",
    "C75_class_first",
    "C75_class_elsewhere"
   ],
   "note": ""
  },
  {
   "property": "C76",
   "status": "proved",
   "theorems": [
    "C76_cuts_are_gain_optimal",
    "C76_points_unique"
   ],
   "note": ""
  },
  {
   "property": "C77",
   "status": "proved",
   "theorems": [
    "C77_kept_splits",
    "C77_beats_majority",
    "C77_refit_can_lose_accuracy"
   ],
   "note": ""
  },
  {
   "property": "C78",
   "status": "proved",
   "theorems": [
    "C78_paths",
    "C78_inner_nodes"
   ],
   "note": ""
  },
  {
   "property": "C79",
   "status": "proved",
   "theorems": [
    "C79_best_gain"
   ],
   "note": ""
  },
  {
   "property": "C80",
   "status": "proved",
   "theorems": [
    "C80_successful_fit",
    "C80_superfluous_arguments"
   ],
   "note": ""
  },
  {
   "property": "C81",
   "status": "proved",
   "theorems": [
    "C81_explained_class_is_supported",
    "C81_encoded_instance_refuted"
   ],
   "note": ""
  },
  {
   "property": "C82",
   "status": "proved",
   "theorems": [
    "C82_fid3_never_explains",
    "C82_fid3_training_rows",
    "C82_fbdt_needs_binary_labels",
    "C82_fdt_two_classes_need_one",
    "C82_fidelity"
   ],
   "note": ""
  },
  {
   "property": "C83",
   "status": "proved",
   "theorems": [
    "C83_variables",
    "C83_peaks",
    "C83_degrees",
    "C83_ready_for_explainer",
    "C83_pipeline",
    "C83_succeeds",
    "C83_one_row_fails"
   ],
   "note": ""
  },
  {
   "property": "C84",
   "status": "proved",
   "theorems": [
    "C84_mixed_distance",
    "C84_closest_mixed"
   ],
   "note": ""
  },
  {
   "property": "C85",
   "status": "proved",
   "theorems": [
    "C85_answer",
    "C85_shared",
    "C85_share_refuted",
    "C85_duplicates_refuted"
   ],
   "note": ""
  },
  {
   "property": "C86",
   "status": "proved",
   "theorems": [
    "C86_types",
    "C86_total",
    "C86_describes",
    "C86_round_trip",
    "C86_class_elsewhere_refuted",
    "C86_class_elsewhere_fails",
    "C86_outcome_order_refuted",
    "C86_rejects"
   ],
   "note": ""
  },
  {
   "property": "C87",
   "status": "proved",
   "theorems": [
    "C87_other",
    "C87_general",
    "C87_single"
   ],
   "note": ""
  },
  {
   "property": "C88",
   "status": "proved",
   "theorems": [
    "C88_chosen_split_is_best",
    "C88_leaf_reason_and_weights",
    "C88_unreached_leaf_takes_parents_weights"
   ],
   "note": ""
  },
  {
   "property": "C89",
   "status": "proved",
   "theorems": [
    "C89_categories_split_by_share"
   ],
   "note": ""
  },
  {
   "property": "C90",
   "status": "proved",
   "theorems": [
    "C90_range",
    "C90_outcome_first",
    "C90_distance_order",
    "C90_record_itself",
    "C90_undefined",
    "C90_default_distance"
   ],
   "note": ""
  },
  {
   "property": "C91",
   "status": "proved",
   "theorems": [
    "C91_rows",
    "C91_small_runs_fail",
    "C91_undefined_distance_fails",
    "C91_constant_blackbox_fails",
    "C91_total",
    "C91_default_needs_22"
   ],
   "note": ""
  },
  {
   "property": "C92",
   "status": "proved",
   "theorems": [
    "C92_feature_values",
    "C92_errors",
    "C92_no_new_categories"
   ],
   "note": ""
  },
  {
   "property": "C93",
   "status": "proved",
   "theorems": [
    "C93_two_outcomes",
    "C93_small_population_fails",
    "C93_few_continuous_fails",
    "C93_continuous_only"
   ],
   "note": ""
  },
  {
   "property": "C94",
   "status": "proved",
   "theorems": [
    "C94_smoothed",
    "C94_few_rows_lost",
    "C94_constant_column_loses_all",
    "C94_text_encoder_fails",
    "C94_outliers_remain_refuted"
   ],
   "note": ""
  },
  {
   "property": "C95",
   "status": "proved",
   "theorems": [
    "C95_decoded",
    "C95_fit",
    "C95_instance_outcome",
    "C95_text_encoder_fails",
    "C95_text_feature_fails",
    "C95_outcomes_of_labels_refuted"
   ],
   "note": ""
  },
  {
   "property": "C96",
   "status": "proved",
   "theorems": [
    "C96_rows",
    "C96_uniform_ignored",
    "C96_total",
    "C96_rejects"
   ],
   "note": ""
  },
  {
   "property": "C97",
   "status": "proved",
   "theorems": [
    "C97_real_data",
    "C97_closed_real_data",
    "C97_random_neighborhood",
    "C97_real_data_total"
   ],
   "note": ""
  },
  {
   "property": "C98",
   "status": "proved",
   "theorems": [
    "C98_generators",
    "C98_random_individual",
    "C98_informed_individual",
    "C98_population"
   ],
   "note": ""
  },
  {
   "property": "C99",
   "status": "proved",
   "theorems": [
    "C99_plain",
    "C99_moved",
    "C99_no_class",
    "C99_last",
    "C99_dropped",
    "C99_basket"
   ],
   "note": ""
  },
  {
   "property": "C100",
   "status": "proved",
   "theorems": [
    "C100_table",
    "C100_no_unknown_left",
    "C100_unknown_stays",
    "C100_dataset",
    "C100_fails"
   ],
   "note": ""
  },
  {
   "property": "C101",
   "status": "proved",
   "theorems": [
    "C101_table",
    "C101_rounding",
    "C101_total",
    "C101_fails",
    "C101_dataset"
   ],
   "note": ""
  },
  {
   "property": "C102",
   "status": "proved",
   "theorems": [
    "C102_equivalence",
    "C102_fdt",
    "C102_fbdt",
    "C102_id3",
    "C102_variables_refuted",
    "C102_fbdt_equivalence",
    "C102_id3_identical"
   ],
   "note": ""
  },
  {
   "property": "C103",
   "status": "proved",
   "theorems": [
    "C103_equal_rules",
    "C103_unequal_rules",
    "C103_flag_refuted",
    "C103_fdt_hashable",
    "C103_fbdt_unhashable",
    "C103_matching",
    "C103_name_in_multi_rule",
    "C103_compared"
   ],
   "note": ""
  },
  {
   "property": "C104",
   "status": "proved",
   "theorems": [
    "C104_order",
    "C104_names",
    "C104_equal",
    "C104_unequal",
    "C104_discrete",
    "C104_listed_in_order",
    "C104_compared"
   ],
   "note": ""
  },
  {
   "property": "C105",
   "status": "proved",
   "theorems": [
    "C105_bins",
    "C105_equal_quartiles",
    "C105_common_value",
    "C105_quartiles",
    "C105_few"
   ],
   "note": ""
  },
  {
   "property": "C106",
   "status": "proved",
   "theorems": [
    "C106_best_fit",
    "C106_perfect_fit_refuted",
    "C106_spread",
    "C106_total"
   ],
   "note": ""
  },
  {
   "property": "C107",
   "status": "proved",
   "theorems": [
    "C107_values",
    "C107_default",
    "C107_estimation_fails"
   ],
   "note": ""
  },
  {
   "property": "C108",
   "status": "proved",
   "theorems": [
    "C108_artificial",
    "C108_class_missing",
    "C108_repeat_refuted"
   ],
   "note": ""
  },
  {
   "property": "C109",
   "status": "proved",
   "theorems": [
    "C109_normalized",
    "C109_standardised",
    "C109_nothing_to_scale",
    "C109_rebuild",
    "C109_integer_lost"
   ],
   "note": ""
  },
  {
   "property": "C110",
   "status": "proved",
   "theorems": [
    "C110_fdt_repeated_rows",
    "C110_fdt_row_order",
    "C110_fdt_refit_row_order",
    "C110_fbdt_repeated_rows",
    "C110_fbdt_row_order",
    "C110_id3_row_order"
   ],
   "note": ""
  },
  {
   "property": "C111",
   "status": "proved",
   "theorems": [
    "C111_discretisation_in_other_units"
   ],
   "note": ""
  },
  {
   "property": "C112",
   "status": "proved",
   "theorems": [
    "C112_only_degrees_matter",
    "C112_units_of_measure",
    "C112_sets_of_converted_points",
    "C112_fbdt_only_degrees_matter",
    "C112_fbdt_units_of_measure"
   ],
   "note": ""
  },
  {
   "property": "C113",
   "status": "proved",
   "theorems": [
    "C113_same_text_same_rule",
    "C113_same_text_same_binary_rule",
    "C113_blanks_refuted"
   ],
   "note": ""
  },
  {
   "property": "C114",
   "status": "proved",
   "theorems": [
    "C114_lines",
    "C114_same_text_same_tree"
   ],
   "note": ""
  },
  {
   "property": "C115",
   "status": "proved",
   "theorems": [
    "C115_lines",
    "C115_same_text_refuted"
   ],
   "note": ""
  },
  {
   "property": "C116",
   "status": "proved",
   "theorems": [
    "C116_same_text_same_tree",
    "C116_prints"
   ],
   "note": ""
  },
  {
   "property": "C117",
   "status": "proved",
   "theorems": [
    "C117_mutate",
    "C117_mutate_defined",
    "C117_zero_probability_refuted",
    "C117_random_init",
    "C117_random_init_total",
    "C117_random_row",
    "C117_order_refuted"
   ],
   "note": ""
  },
  {
   "property": "C118",
   "status": "proved",
   "theorems": [
    "C118_agrees",
    "C118_rows",
    "C118_one_outcome_refuted"
   ],
   "note": ""
  },
  {
   "property": "C119",
   "status": "proved",
   "theorems": [
    "C119_table",
    "C119_out_of_range",
    "C119_gives_table_back"
   ],
   "note": ""
  },
  {
   "property": "C120",
   "status": "proved",
   "theorems": [
    "C120_refit_same_data",
    "C120_refit_keeps_old_subtrees",
    "C120_refit_votes",
    "C120_refit_differs_from_fresh"
   ],
   "note": ""
  },
  {
   "property": "C121",
   "status": "proved",
   "theorems": [
    "C121_fdt_training",
    "C121_fdt_increasing",
    "C121_fdt_renaming",
    "C121_ties_refuted",
    "C121_fbdt_training",
    "C121_fbdt_increasing",
    "C121_fbdt_renaming"
   ],
   "note": ""
  },
  {
   "property": "C122",
   "status": "proved",
   "theorems": [
    "C122_id3_training",
    "C122_id3_new_tree",
    "C122_id3_predictions_and_rules",
    "C122_discretisation",
    "C122_entropy"
   ],
   "note": ""
  },
  {
   "property": "C123",
   "status": "proved",
   "theorems": [
    "C123_fdt",
    "C123_fbdt",
    "C123_degrees_and_votes",
    "C123_id3"
   ],
   "note": ""
  },
  {
   "property": "C124",
   "status": "proved",
   "theorems": [
    "C124_same_results",
    "C124_fdt_all_or_nothing",
    "C124_fbdt_all_or_nothing",
    "C124_id3_all_or_nothing",
    "C124_fdt_failed_fit",
    "C124_fbdt_failed_fit",
    "C124_id3_failed_fit",
    "C124_zero_threshold_refuted",
    "C124_id3_pruning_refuted"
   ],
   "note": ""
  },
  {
   "property": "C125",
   "status": "proved",
   "theorems": [
    "C125_fdt",
    "C125_fdt_without_ties",
    "C125_id3",
    "C125_fbdt_refuted"
   ],
   "note": ""
  },
  {
   "property": "C126",
   "status": "proved",
   "theorems": [
    "C126_equal_width_points",
    "C126_equal_width_covers",
    "C126_maximum_uncovered_refuted",
    "C126_constant_column_refuted",
    "C126_quantiles",
    "C126_quantile_shares",
    "C126_equal_freq_points",
    "C126_equal_freq_repeated",
    "C126_minimum_counted_twice_refuted",
    "C126_get_fuzzy_points",
    "C126_get_fuzzy_points_rejects"
   ],
   "note": ""
  },
  {
   "property": "C127",
   "status": "proved",
   "theorems": [
    "C127_calls",
    "C127_variables",
    "C127_degrees",
    "C127_succeeds",
    "C127_ready_for_explainer",
    "C127_pipeline",
    "C127_repeated_quantiles_share_a_name",
    "C127_repeated_quantiles_confuse_the_tree_refuted"
   ],
   "note": ""
  },
  {
   "property": "C128",
   "status": "proved",
   "theorems": [
    "C128_fit",
    "C128_succeeds",
    "C128_other_methods",
    "C128_unknown_code",
    "C128_fuzzify"
   ],
   "note": ""
  },
  {
   "property": "C129",
   "status": "proved",
   "theorems": [
    "C129_exactly_when",
    "C129_root_splits",
    "C129_every_class_has_a_rule",
    "C129_explained_class_fires",
    "C129_leaf_count",
    "C129_sum_covers",
    "C129_succeeds"
   ],
   "note": ""
  },
  {
   "property": "C130",
   "status": "proved",
   "theorems": [
    "C130_every_class_has_a_rule",
    "C130_explained_class_fires",
    "C130_leaf_count",
    "C130_exactly_when",
    "C130_root_splits",
    "C130_succeeds"
   ],
   "note": ""
  },
  {
   "property": "C131",
   "status": "proved",
   "theorems": [
    "C131_two_points",
    "C131_values_lost",
    "C131_two_sets",
    "C131_rows_among",
    "C131_repeated_maximum",
    "C131_half",
    "C131_fdt_prepared",
    "C131_fbdt_prepared",
    "C131_fdt_succeeds",
    "C131_fbdt_succeeds"
   ],
   "note": ""
  },
  {
   "property": "C132",
   "status": "proved",
   "theorems": [
    "C132_fuzzified_follows",
    "C132_fuzzified_measurable",
    "C132_pipeline",
    "C132_exactly_when",
    "C132_succeeds",
    "C132_other_distances",
    "C132_mixed_never_succeeds"
   ],
   "note": ""
  },
  {
   "property": "C133",
   "status": "proved",
   "theorems": [
    "C133_sets",
    "C133_two_sets",
    "C133_half",
    "C133_rows_among",
    "C133_fdt_prepared",
    "C133_fbdt_prepared",
    "C133_fdt_succeeds",
    "C133_fbdt_succeeds",
    "C133_follows",
    "C133_measurable",
    "C133_d_succeeds"
   ],
   "note": ""
  },
  {
   "property": "C134",
   "status": "proved",
   "theorems": [
    "C134_without_pruning",
    "C134_with_pruning",
    "C134_repeated",
    "C134_alternates"
   ],
   "note": ""
  },
  {
   "property": "C135",
   "status": "proved",
   "theorems": [
    "C135_fdt_leaf_forgets",
    "C135_fdt_split_recalls",
    "C135_fdt_prediction",
    "C135_fdt_order",
    "C135_fbdt_leaf_forgets",
    "C135_fbdt_split_recalls",
    "C135_fbdt_prediction",
    "C135_fbdt_order"
   ],
   "note": ""
  },
  {
   "property": "C136",
   "status": "proved",
   "theorems": [
    "C136_same_classifier",
    "C136_same_classifier_from_binary"
   ],
   "note": ""
  },
  {
   "property": "C137",
   "status": "proved",
   "theorems": [
    "C137_categories",
    "C137_one_leaf",
    "C137_majority",
    "C137_settings",
    "C137_training_score"
   ],
   "note": ""
  },
  {
   "property": "C138",
   "status": "proved",
   "theorems": [
    "C138_one_leaf",
    "C138_memberships",
    "C138_majority",
    "C138_settings",
    "C138_training_score"
   ],
   "note": ""
  },
  {
   "property": "C139",
   "status": "proved",
   "theorems": [
    "C139_stopping_differs",
    "C139_gain",
    "C139_choice",
    "C139_part_of_id3",
    "C139_agree"
   ],
   "note": ""
  },
  {
   "property": "C140",
   "status": "proved",
   "theorems": [
    "C140_optimal",
    "C140_consistent"
   ],
   "note": ""
  },
  {
   "property": "C141",
   "status": "proved",
   "theorems": [
    "C141_fdt",
    "C141_fbdt",
    "C141_id3",
    "C141_fdt_unchanged",
    "C141_fbdt_unchanged",
    "C141_id3_score",
    "C141_id3_score_beyond_features_refuted"
   ],
   "note": ""
  },
  {
   "property": "C142",
   "status": "proved",
   "theorems": [
    "C142_fdt",
    "C142_fbdt",
    "C142_id3",
    "C142_id3_score"
   ],
   "note": ""
  },
  {
   "property": "C143",
   "status": "proved",
   "theorems": [
    "C143_pruning_prunes",
    "C143_score",
    "C143_score_beyond_features_refuted"
   ],
   "note": ""
  },
  {
   "property": "C144",
   "status": "proved",
   "theorems": [
    "C144_fdt",
    "C144_fbdt",
    "C144_pandas_order_blind",
    "C144_fuzzify",
    "C144_pipeline",
    "C144_categories_refuted"
   ],
   "note": ""
  }
 ]
}