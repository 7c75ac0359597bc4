* `ClassicalDedekindReals.sig_forall_dec`, `ClassicalDedekindReals.sig_not_dec`, `Classical_Prop.classic`, `FunctionalExtensionality.functional_extensionality_dep` (275 theorems):
  C102_fbdt, C102_fdt, C102_variables_refuted, C103_fbdt_unhashable, C105_bins, C105_common_value, C105_equal_quartiles, C105_few, C106_spread, C106_total, C107_default, C107_estimation_fails, C107_values, C110_fbdt_repeated_rows, C110_fbdt_row_order, C110_fdt_refit_row_order, C110_fdt_repeated_rows, C110_fdt_row_order, C110_id3_row_order, C111_discretisation_in_other_units, C112_fbdt_only_degrees_matter, C112_fbdt_units_of_measure, C112_only_degrees_matter, C112_units_of_measure, C114_lines, C114_same_text_same_tree, C115_lines, C115_same_text_refuted, C116_prints, C116_same_text_same_tree, C120_refit_differs_from_fresh, C120_refit_keeps_old_subtrees, C120_refit_same_data, C120_refit_votes, C121_fbdt_increasing, C121_fbdt_renaming, C121_fbdt_training, C121_fdt_increasing, C121_fdt_renaming, C121_fdt_training, C121_ties_refuted, C122_discretisation, C122_entropy, C122_id3_new_tree, C122_id3_training, C123_fbdt, C123_fdt, C123_id3, C124_fbdt_all_or_nothing, C124_fbdt_failed_fit, C124_fdt_all_or_nothing, C124_fdt_failed_fit, C124_id3_all_or_nothing, C124_id3_failed_fit, C124_id3_pruning_refuted, C124_same_results, C124_zero_threshold_refuted, C125_fbdt_refuted, C125_fdt, C125_fdt_without_ties, C125_id3, C126_get_fuzzy_points, C126_get_fuzzy_points_rejects, C127_degrees, C127_pipeline, C127_ready_for_explainer, C127_repeated_quantiles_confuse_the_tree_refuted, C127_repeated_quantiles_share_a_name, C127_succeeds, C127_variables, C128_fuzzify, C129_every_class_has_a_rule, C129_exactly_when, C129_explained_class_fires, C129_leaf_count, C129_root_splits, C129_succeeds, C130_every_class_has_a_rule, C130_exactly_when, C130_explained_class_fires, C130_leaf_count, C130_root_splits, C130_succeeds, C131_fbdt_prepared, C131_fbdt_succeeds, C131_fdt_prepared, C131_fdt_succeeds, C131_half, C131_repeated_maximum, C131_rows_among, C131_two_points, C131_two_sets, C131_values_lost, C132_exactly_when, C132_fuzzified_follows, C132_fuzzified_measurable, C132_mixed_never_succeeds, C132_other_distances, C132_pipeline, C132_succeeds, C133_d_succeeds, C133_fbdt_prepared, C133_fbdt_succeeds, C133_fdt_prepared, C133_fdt_succeeds, C133_follows, C133_half, C133_measurable, C133_rows_among, C133_sets, C133_two_sets, C134_alternates, C134_repeated, C134_with_pruning, C134_without_pruning, C135_fbdt_leaf_forgets, C135_fbdt_order, C135_fbdt_prediction, C135_fbdt_split_recalls, C135_fdt_leaf_forgets, C135_fdt_order, C135_fdt_prediction, C135_fdt_split_recalls, C136_same_classifier, C136_same_classifier_from_binary, C137_majority, C137_one_leaf, C137_settings, C137_training_score, C138_majority, C138_memberships, C138_one_leaf, C138_settings, C138_training_score, C139_agree, C139_choice, C139_gain, C139_part_of_id3, C139_stopping_differs, C13_entropy_bounds, C13_entropy_formula, C13_entropy_row_order, C13_entropy_scale, C13_entropy_zero_iff_pure, C13_weighted_entropy_bounds, C13_weighted_formula, C140_consistent, C140_optimal, C141_fbdt, C141_fbdt_unchanged, C141_fdt, C141_fdt_unchanged, C141_id3, C141_id3_score, C141_id3_score_beyond_features_refuted, C142_fbdt, C142_fdt, C142_id3, C142_id3_score, C143_pruning_prunes, C143_score, C143_score_beyond_features_refuted, C144_categories_refuted, C144_fbdt, C144_fdt, C144_fuzzify, C144_pipeline, C14_constant_column, C14_discretisation, C14_single_row_without_threshold, C15_repeated_maximum_kept, C15_single_maximum_refuted, C23_leaf_distribution, C24_children, C24_paths, C25_no_stuck_node, C25_nonpositive_threshold, C25_root_key_error, C25_training_total, C26_root_leaf_rules_fail, C26_strict_winner, C26_tie_disagreement, C26_votes_equal_rule_totals, C27_leaves_are_leaf_nodes, C27_predict_maximal_vote, C27_predict_rowwise, C27_variable_without_sets, C28_node_memberships, C28_tnorm_never_influences_training, C29_refit_differs_from_fresh, C29_refit_keeps_old_subtrees, C29_refit_same_data, C29_refit_votes, C30_gain_optimal_choice, C30_order_irrelevant_without_ties, C30_ties_depend_on_order, C31_nested, C31_split, C32_depth, C32_leaf_distribution, C32_nonpositive_threshold, C32_training_total, C33_leaves_are_leaf_nodes, C33_overlapping_sets_refuted, C33_predict_maximal_vote, C33_root_leaf_rules_fail, C33_strict_winner, C33_votes_equal_rule_totals, C34_crisp_rows_unaffected, C34_first_use_shares_exactly, C34_partly_left_counts_fully_right, C34_reuse_marks_before_the_right_side, C34_sharing_is_not_observable, C35_fbdt_threshold_zero, C35_fbdt_verbose_returns_nothing, C35_fdt_threshold_zero, C35_fdt_verbose_returns_nothing, C36_known_rows_classified, C36_known_rows_classified_shallow, C36_none_iff_unseen, C36_only_training_labels, C36_predict_known, C36_unseen_value, C37_error_is_training_error, C37_majority_class, C37_unreached_node, C38_exactly_one_rule, C39_constant_column_fails, C39_dead_ends, C39_only_zero_division, C39_success, C59_explain_fbdt, C59_explain_fdt, C59_hit, C60_argument_errors_change_nothing, C60_failed_fit, C60_mixed_state, C60_stale_prediction, C61_write_explanation_fbdt_never, C61_write_explanation_fdt, C62_X_membership_history, C62_argument_errors, C62_fuzzify_needs_fit, C62_get_X, C62_get_y, C62_mixed_after_failure, C62_stale_membership, C62_successful_fuzzify, C76_cuts_are_gain_optimal, C76_points_unique, C77_beats_majority, C77_kept_splits, C77_refit_can_lose_accuracy, C78_inner_nodes, C78_paths, C79_best_gain, C80_successful_fit, C80_superfluous_arguments, C81_encoded_instance_refuted, C81_explained_class_is_supported, C82_fbdt_needs_binary_labels, C82_fdt_two_classes_need_one, C82_fid3_never_explains, C82_fidelity, C83_degrees, C83_one_row_fails, C83_peaks, C83_pipeline, C83_ready_for_explainer, C83_succeeds, C83_variables, C88_chosen_split_is_best, C88_leaf_reason_and_weights, C88_unreached_leaf_takes_parents_weights, C89_categories_split_by_share.

* **Closed under the global context** (no axiom) (286 theorems):
  C01_membership_monotone, C01_membership_shape, C01_unordered_points_rejected, C02_strong_partition, C03_generation, C03_point_and_errors, C03_sorted_peaks_valid, C04_default_labels_collapse, C04_equal_freq_fallback_repeats, C04_repeated_first_peak, C05_alpha_cut_exact, C05_alpha_cut_nested, C05_alpha_cut_rejects, C05_alpha_cut_zero_one, C06_intersection_is_height, C06_intersection_laws, C07_degree_refuted, C07_location_refuted, C07_simmilarity_bounds, C07_simmilarity_self, C07_simmilarity_shift_blind, C07_simmilarity_symmetric, C08_jaccard_laws, C08_jaccard_self, C08_jaccard_value, C09_merge_algebra, C09_merge_covers, C100_dataset, C100_fails, C100_no_unknown_left, C100_table, C100_unknown_stays, C101_dataset, C101_fails, C101_rounding, C101_table, C101_total, C102_equivalence, C102_fbdt_equivalence, C102_id3, C102_id3_identical, C103_compared, C103_equal_rules, C103_fdt_hashable, C103_flag_refuted, C103_matching, C103_name_in_multi_rule, C103_unequal_rules, C104_compared, C104_discrete, C104_equal, C104_listed_in_order, C104_names, C104_order, C104_unequal, C105_quartiles, C106_best_fit, C106_perfect_fit_refuted, C108_artificial, C108_class_missing, C108_repeat_refuted, C109_integer_lost, C109_normalized, C109_nothing_to_scale, C109_rebuild, C109_standardised, C10_discrete_degree, C10_discrete_intersection, C10_discrete_partition, C112_sets_of_converted_points, C113_blanks_refuted, C113_same_text_same_binary_rule, C113_same_text_same_rule, C117_mutate, C117_mutate_defined, C117_order_refuted, C117_random_init, C117_random_init_total, C117_random_row, C117_zero_probability_refuted, C118_agrees, C118_one_outcome_refuted, C118_rows, C119_gives_table_back, C119_out_of_range, C119_table, C11_default_labels, C11_unknown_name_raises, C11_variables_at_their_columns, C122_id3_predictions_and_rules, C123_degrees_and_votes, C126_constant_column_refuted, C126_equal_freq_points, C126_equal_freq_repeated, C126_equal_width_covers, C126_equal_width_points, C126_maximum_uncovered_refuted, C126_minimum_counted_twice_refuted, C126_quantile_shares, C126_quantiles, C127_calls, C129_sum_covers, C12_dataset_membership, C137_categories, C144_pandas_order_blind, C16_matching_empty_raises, C16_matching_is_minimum, C16_matching_order_irrelevant, C16_matching_unit_interval, C16_matching_unknown_is_zero, C17_multi_matching_is_minimum_of_sums, C17_multi_matching_monotone, C17_multi_matching_unit_interval, C17_multi_matching_unknown_is_zero, C18_simplify_keeps_matching, C18_simplify_shortest_literal, C19_empty_antecedent_raises, C19_empty_rule_list_raises, C19_vote_is_first_maximal_class, C20_bad_cut_raises, C20_crisp_defined, C20_crisp_iff_matching_at_cut, C21_different_universes_raise, C21_mapping_identity, C21_mapping_picks_best_set, C21_unknown_map_function_raises, C22_json_lists_the_literals, C22_json_multi_lists_the_literals, C22_json_unknown_name_raises, C22_lookup_found, C22_lookup_sound, C22_lookup_unknown, C27_voting_names, C28_activation_is_minimum, C33_built_variables_are_partitioned, C35_id3_public_rules_fail, C40_fbdt_score, C40_fdt_score, C40_id3_score, C41_coverage, C41_coverage_monotone, C41_not_the_union_refuted, C42_precision, C42_precision_errors, C43_fidelity, C43_rule_fidelity, C44_distance_formula, C44_pseudometric, C45_empty_instances, C45_sparsity, C46_implausibility, C47_instability, C48_m_factual, C48_nothing_fired, C49_mr_factual, C49_single_class, C50_c_factual, C50_monotone, C50_nothing_fired, C51_FID3_factual, C52_apply_changes, C52_others_untouched, C52_wanted_set_is_strongest_afterwards, C53_i_counterfactual, C54_distance_zero_never_considered_refuted, C54_f_counterfactual, C55_d_counterfactual, C56_multiclass, C57_FID3_counterfactual, C57_distance, C58_distance_bounds, C58_distance_of_rules, C58_distance_to_instance, C58_equal_names_distinct_objects_refuted, C58_literal_distance, C58_single_set_raises, C62_fit_keeps_memberships, C63_copies, C63_failing_black_box, C66_population, C66_replacement, C66_succeeds, C67_crossover, C67_crossover_succeeds, C67_genes, C67_mutation, C67_tournament, C68_oversample, C68_threshold_unique, C68_too_small, C69_mad_metric, C69_mad_short, C69_mad_value, C69_simple_match, C69_simple_match_metric, C70_bounds, C70_continuous_only, C70_convex, C70_undefined, C71_normalized, C71_opposite, C71_single, C71_square, C72_both_given, C72_class, C72_continuous_given, C72_discrete_given, C72_neither_given, C73_codes, C73_duplicate_refuted, C73_reencode, C73_rejects, C73_round_trip, C73_unseen, C74_closest, C74_continuous_only, C74_fails, C74_records, C75_class_elsewhere, C75_class_first, C75_columns, C75_total, C82_fid3_training_rows, C85_answer, C85_duplicates_refuted, C85_share_refuted, C85_shared, C86_class_elsewhere_fails, C86_class_elsewhere_refuted, C86_describes, C86_outcome_order_refuted, C86_rejects, C86_round_trip, C86_total, C86_types, C87_general, C87_other, C87_single, C90_default_distance, C90_distance_order, C90_outcome_first, C90_range, C90_record_itself, C90_undefined, C91_constant_blackbox_fails, C91_default_needs_22, C91_rows, C91_small_runs_fail, C91_total, C91_undefined_distance_fails, C92_errors, C92_feature_values, C92_no_new_categories, C93_continuous_only, C93_few_continuous_fails, C93_small_population_fails, C93_two_outcomes, C94_constant_column_loses_all, C94_few_rows_lost, C94_outliers_remain_refuted, C94_smoothed, C94_text_encoder_fails, C95_decoded, C95_fit, C95_instance_outcome, C95_outcomes_of_labels_refuted, C95_text_encoder_fails, C95_text_feature_fails, C96_rejects, C96_rows, C96_total, C96_uniform_ignored, C97_closed_real_data, C97_random_neighborhood, C97_real_data, C97_real_data_total, C98_generators, C98_informed_individual, C98_population, C98_random_individual, C99_basket, C99_dropped, C99_last, C99_moved, C99_no_class, C99_plain.

* `ClassicalDedekindReals.sig_forall_dec`, `ClassicalDedekindReals.sig_not_dec`, `FunctionalExtensionality.functional_extensionality_dep` (13 theorems):
  C128_fit, C128_other_methods, C128_succeeds, C128_unknown_code, C64_fast_sampling, C64_slow_raises, C64_succeeds, C64_terminates, C65_constant_column, C65_distributions, C65_invalid_range, C84_closest_mixed, C84_mixed_distance.

