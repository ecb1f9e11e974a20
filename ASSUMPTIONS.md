# Print Assumptions for every theorem of MANIFEST.json

Generated from the output of `Print Assumptions` (Coq 8.16.1).

## Closed under the global context (no axioms)

* C01: `C01_naive_epsilon_spent_exactly`, `C01_naive_epsilon_any_weights`, `C01_share_within_total_any_weights_refuted`
* C02: `C02_naive_delta_spent_exactly`, `C02_delta_proportional_to_epsilon`
* C03: `C03_shares_follow_weights`
* C04: `C04_unreadable_before_compute`, `C04_readable_and_frozen_after_compute`, `C04_rejected_compute_changes_nothing`, `C04_rejected_request_changes_nothing`, `C04_every_rejected_compute_changes_nothing_refuted`
* C05: `C05_declaration_enforced`, `C05_announced_epsilon_is_granted`, `C05_announced_delta_is_granted_refuted`
* C08: `C08_cross_and_per_bounds_any_backend`, `C08_cross_and_per_bounds`
* C09: `C09_total_contributions_any_backend`, `C09_total_contributions`
* C10: `C10_cross_partition_any_backend`, `C10_cross_partition_bounds`, `C10_per_partition_any_backend`, `C10_per_partition_bounds`, `C10_noop_passes_everything`
* C11: `C11_no_loss_cross_and_per`, `C11_no_loss_total`, `C11_no_loss_cross_partition`, `C11_no_loss_per_partition`
* C12: `C12_local_sampling`, `C12_spark_sampling`, `C12_spark_sampling_zero_refuted`
* C13: `C13_count`, `C13_count_of_mean`
* C14: `C14_privacy_id_count`
* C15: `C15_sum_of_clipped_values`, `C15_clipped_sum_per_partition`
* C16: `C16_mean_normalized_sum`
* C17: `C17_variance_count_and_sum`, `C17_variance_squares_partial`, `C17_squares_noised`, `C17_variance_squares_refuted`, `C17_variance_squares_every_range_refuted`, `C17_variance_squares_exactly`
* C18: `C18_count`, `C18_privacy_id_count`, `C18_sum`, `C18_mean`, `C18_partition_sum_bounds_rejected`
* C19: `C19_coordinates_share_budget`
* C20: `C20_merge_order_irrelevant`, `C20_compound_merge_order_irrelevant`, `C20_merged_is_total`, `C20_compound_merged_is_total`, `C20_compound_spark`, `C20_compound_beam`, `C20_vector_empty_accumulator_refuted`
* C21: `C21_spark_combining_agrees`, `C21_beam_combining_agrees`, `C21_local_combining`, `C21_beam_falsy_accumulator_refuted`
* C22: `C22_mean_without_noise`, `C22_variance_without_noise`, `C22_empty_partition_mean`
* C23: `C23_requested_metrics_released`, `C23_only_repeated_percentiles_rejected`
* C24: `C24_public_partitions`, `C24_aggregation_succeeds`, `C24_thresholding_refuted`, `C24_vector_sum_refuted`
* C25: `C25_non_public_rows_ignored`, `C25_inserted_rows_ignored`
* C26: `C26_private_selection`, `C26_one_id_influence`, `C26_bounds_already_enforced`, `C26_post_aggregation_thresholding`, `C26_already_filtered_refuted`
* C27: `C27_select_partitions`, `C27_all_counted`
* C28: `C28_local_filter`, `C28_in_memory_filters_agree`, `C28_beam_join_agrees`, `C28_spark_join_agrees_on_distinct_keys`, `C28_spark_join_multiplies_rows`, `C28_spark_join_agrees_refuted`, `C28_sharded_filter`
* C29: `C29_bin_contains_value`, `C29_bins_partition`, `C29_bin_width`
* C30: `C30_candidate_bounds`
* C31: `C31_frequency_histogram`, `C31_histogram_unique`, `C31_totals`, `C31_any_order`, `C31_dataset_histograms`
* C32: `C32_quantiles`, `C32_quantiles_of_bins`, `C32_negative_quantile`, `C32_empty_histogram`
* C33: `C33_ratio_dropped`, `C33_empty`
* C35: `C35_bucket_contains_value`, `C35_sum_histogram`, `C35_any_order`
* C36: `C36_preaggregated_histograms`, `C36_preaggregated_rows`, `C36_sampled_partitions_refuted`
* C37: `C37_unique_call`, `C37_all_labels_unique`, `C37_fuel_irrelevant`
* C38: `C38_accepted_iff_valid`, `C38_fields_kept`, `C38_accepted_are_usable`, `C38_degenerate_ranges_refuted`, `C38_needed_bounds_present_refuted`, `C38_engine_check`, `C38_select_partitions_check`, `C38_add_noise_check`, `C38_private_bounds_check`
* C39: `C39_equally_split_budget`, `C39_defined_for_positive_counts`
* C41: `C41_metrics_of_the_data`, `C41_merge_order_irrelevant`, `C41_empty_accumulator_with_columns_refuted`
* C42: `C42_probability_of_survivors`, `C42_support`, `C42_sums_to_one`, `C42_non_negative`, `C42_probability_to_keep`, `C42_moments_of_survivors`
* C43: `C43_expected_bounded_sum`, `C43_raw_sum`
* C44: `C44_summary`, `C44_local_summary`, `C44_repeated_public_partition_refuted`
* C45: `C45_candidates`, `C45_candidates_all`, `C45_single_candidate_refuted`, `C45_sum_candidates`, `C45_sum_candidates_first`, `C45_negative_sums_refuted`, `C45_zero_sums_refuted`, `C45_many_columns_refuted`, `C45_cross_product`, `C45_candidates_found`
* C46: `C46_query`, `C46_bounds`, `C46_one_column_list`, `C46_one_column_list_refuted`, `C46_column_name_refuted`, `C46_name_clash`, `C46_builder_checks`
* C47: `C47_combine_computes_the_function`, `C47_beam_runs_request`, `C47_beam_runs_what_is_asked`, `C47_spark_runs_request`, `C47_spark_runs_what_is_asked`, `C47_one_number_per_partition`, `C47_beam_pre_threshold`, `C47_beam_budget_weight_refuted`, `C47_beam_already_enforced_refuted`, `C47_spark_pre_threshold_refuted`, `C47_spark_privacy_id_count_weight_refuted`, `C47_spark_enforced_privacy_id_count`, `C47_beam_select`, `C47_spark_select`, `C47_spark_select_refuted`, `C47_spark_select_strategy_refuted`, `C47_beam_combine`, `C47_beam_combine_public_partitions_refuted`, `C47_beam_combine_budget_weight_refuted`, `C47_calls_on_the_accountant`, `C47_calls_of_select_partitions`
* C48: `C48_local_group_by_key`, `C48_local_count`, `C48_group_by_key`, `C48_group_by_key_completes`, `C48_group_generator_empty`, `C48_group_generator_refuted`, `C48_count_bounds`, `C48_count_refuted`, `C48_count_disjoint_workers`, `C48_count_serialised`, `C48_count_loses_any_number`
* C49: `C49_clip_in_range`, `C49_clip_fixes_range`, `C49_clip_nearest`, `C49_clip_monotone`, `C49_clip_distance`
* C50: `C50_reports`, `C50_empty_without_params`, `C50_not_passed`, `C50_before_budgets`, `C50_clear_error_refuted`, `C50_metrics_listed`, `C50_selection_listed`, `C50_partition_stages_listed`, `C50_stages_in_order`, `C50_bounding_listed`, `C50_cross_partition_bounding_refuted`, `C50_vector_sum_refuted`
* C51: `C51_count_per_element`, `C51_size`, `C51_size_empty_refuted`, `C51_sum_per_key`, `C51_min_max_per_key`
* C52: `C52_best_configuration`, `C52_wrong_number`
* C53: `C53_public`, `C53_private`, `C53_privacy_id_count`, `C53_no_delta`
* C54: `C54_rows_tracked`, `C54_every_element_kept`, `C54_neighbours_stay_neighbours`, `C54_only_anonymised_output`, `C54_other_objects_rejected`
* C55: `C55_filter`, `C55_filter_generator`, `C55_filter_generator_refuted`, `C55_filter_by_key`, `C55_flat_map`, `C55_sample_fixed_per_key`, `C55_flatten_refuted`
* C56: `C56_errors_averaged`, `C56_dropped_ratios`, `C56_labels`, `C56_private_partitions`, `C56_public_partitions`, `C56_merge_order_irrelevant`, `C56_dropped_data_accounted`, `C56_dropped_data_accounted_refuted`, `C56_relative_rmse_nonnegative_refuted`, `C56_missing_metrics_rejected`, `C56_average_between`, `C56_kept_partitions_weighted`, `C56_public_partitions_averaged`, `C56_large_partitions_weigh_more`
* C57: `C57_buckets`, `C57_bucket_ends`, `C57_metrics_packed`, `C57_configuration_parameters`, `C57_accepted_configuration_usable_refuted`, `C57_full_budget_each`, `C57_one_report_per_configuration`, `C57_per_partition_output`, `C57_report_without_partitions_refuted`, `C57_empty_strategies_refuted`, `C57_unsupported_options_rejected`
* C58: `C58_ratio_dropped`, `C58_ratio_monotone`
* C59: `C59_bound_passed_to_selection`, `C59_strategy_asked_for`, `C59_max_contributions_refuted`, `C59_bound_passed_to_thresholding`, `C59_max_contributions_thresholding_refuted`
* C60: `C60_selection_share`, `C60_budget_weight_of_the_only_aggregation_refuted`
* C61: `C61_selection_gets_delta`, `C61_large_enough_exists`, `C61_order_of_the_result_refuted`
* C62: `C62_every_use_has_the_granted_budget`, `C62_every_use_has_an_origin`, `C62_works_after_compute`, `C62_too_early_raises`, `C62_created_once`, `C62_copies_agree`
* C64: `C64_data_of_a_partition`, `C64_preaggregated_data`, `C64_sampler_keeps_the_share`, `C64_already_filtered_refuted`
* C65: `C65_aggregate_on_iterators`, `C65_result_is_read_once`, `C65_list_aggregated_twice`, `C65_select_partitions_on_iterators`, `C65_public_partitions_as_iterator_refuted`, `C65_iterator_aggregated_twice_refuted`, `C65_partitions_as_iterator_refuted`
* C66: `C66_unshared_arrays`, `C66_one_value_per_accumulator`, `C66_changed_arrays`, `C66_input_changed_refuted`, `C66_shared_arrays_refuted`
* C67: `C67_tune_succeeds`, `C67_candidates`, `C67_best_configuration`, `C67_reports`, `C67_dropped_partitions_refuted`, `C67_first_metric_refuted`, `C67_value_bounds_refuted`, `C67_no_partitions_refuted`, `C67_thresholding_dropped_refuted`
* C68: `C68_own_parameters_and_budgets`, `C68_result`, `C68_last_parameters_win`
* C69: `C69_same_raw_values`, `C69_calibrated`, `C69_sensitivities_exist`, `C69_selection_influence`, `C69_partition_sum_refuted`
* C70: `C70_bounds_known`, `C70_one_id_influence`, `C70_tree_has_the_values`, `C70_answers_labelled`, `C70_noise_as_requested`
* C71: `C71_large_enough_exists`
* C72: `C72_bounds_exist`
* C73: `C73_exact_within_bounds`, `C73_partition_sum_refuted`
* C74: `C74_calls_do_not_depend_on_data`, `C74_limits_exist`
* C75: `C75_names_identify_percentiles`, `C75_which_percentile_names_are_accepted`, `C75_when_the_combiner_is_made`, `C75_released_record`, `C75_records_survive_pickling`, `C75_one_class_per_fields`, `C75_every_percentile_is_accepted_refuted`, `C75_order_of_metrics_names_refuted`
* C76: `C76_aggregate_on_clusters`, `C76_local_runs_on_clusters`, `C76_select_partitions_on_clusters`, `C76_public_partitions_on_clusters`, `C76_repeated_public_partition_on_spark_refuted`
* C77: `C77_local_sampling_is_fair`, `C77_spark_chances`, `C77_spark_one_by_one`, `C77_uniform_sampling_on_spark_refuted`, `C77_spark_fair_iff_balanced`, `C77_bounders_are_fair`, `C77_local_draws_are_fair`
* C78: `C78_frame`
* C80: `C80_infinities_are_large_numbers`, `C80_neighbours`, `C80_nan_spreads`, `C80_nan_is_released`, `C80_opposite_infinities_refuted`
* C82: `C82_budgets_are_listed`, `C82_listed_budgets_add_up`, `C82_lines_are_true`, `C82_parameters_shown`, `C82_announced_numbers`, `C82_announced_numbers_refuted`, `C82_vector_sum_refuted`, `C82_same_report_refuted`
* C83: `C83_trees_count_every_entry`
* C84: `C84_every_annotator_once`, `C84_programs_run`, `C84_annotators_of_other_backends_refuted`, `C84_what_calls_get`, `C84_announced_is_granted_exactly`, `C84_announced_is_granted`, `C84_announced_is_granted_refuted`

## Axioms: `ClassicalDedekindReals.sig_forall_dec`, `FunctionalExtensionality.functional_extensionality_dep`

* C07: `C07_no_gaussian_without_delta`
* C64: `C64_analysis_predicts_the_engine`, `C64_uniform_sampling_exists`, `C64_sampled_public_partitions_refuted`, `C64_sum_with_count_refuted`, `C64_empty_public_sum_refuted`, `C64_preaggregated_public_refuted`

## Axioms: `ClassicalDedekindReals.sig_forall_dec`, `ClassicalDedekindReals.sig_not_dec`, `FunctionalExtensionality.functional_extensionality_dep`

* C06: `C06_search_result`, `C06_search_result_unique`, `C06_search_terminates`, `C06_granted_mechanisms_within_budget`, `C06_noise_follows_weights`, `C06_generic_weight_refuted`, `C06_thresholding_alone_refuted`, `C06_thresholding_composed_refuted`
* C07: `C07_epsilon_spent_exactly`, `C07_budgets_computed`, `C07_matches_laplace_mechanism`
* C19: `C19_unit_vectors_partial`, `C19_small_norm_partial`, `C19_vector_sum_refuted`, `C19_large_norm_refuted`, `C19_exactly`
* C34: `C34_score_value`, `C34_score_sensitivity`, `C34_no_partitions`
* C40: `C40_laplace_of_std`
* C49: `C49_clipped_vector`, `C49_vector_clipping_defined`, `C49_linf_clipping_distance`, `C49_l2_clipping_distance`
* C58: `C58_rmse_of_sizes`, `C58_count_estimate`, `C58_privacy_id_count_estimate`, `C58_creation`, `C58_noise_of_the_engine`, `C58_sum_ratio_refuted`, `C58_sum_of_zero_refuted`
* C59: `C59_aggregate_partitions`, `C59_select_partitions`, `C59_random_contribution_bounding`
* C61: `C61_bounds_do_not_matter`, `C61_calls_succeed`
* C65: `C65_contribution_bounds_on_iterators`, `C65_selected_partitions_refuted`
* C68: `C68_composition`, `C68_total_budget_differential_privacy`, `C68_random_contribution_bounding`
* C71: `C71_bounds_do_not_matter`, `C71_mechanisms_created`, `C71_thresholding_refuted`
* C73: `C73_public_law`, `C73_private_law`, `C73_thresholded_law`, `C73_unbiased`, `C73_unbiased_within_bounds`, `C73_unbiased_when_kept`
* C79: `C79_error`, `C79_certain`, `C79_bounds`, `C79_kept_for_sure_refuted`
* C80: `C80_private_nan_refuted`

## Axioms: `ClassicalDedekindReals.sig_forall_dec`, `ClassicalDedekindReals.sig_not_dec`, `Classical_Prop.classic`, `FunctionalExtensionality.functional_extensionality_dep`

* C34: `C34_exponential_mechanism_monotonic`, `C34_exponential_mechanism`, `C34_higher_score_more_likely`, `C34_private_contribution_bounds`
* C40: `C40_total_epsilon_differential_privacy`, `C40_sequential_composition`, `C40_count`, `C40_random_contribution_bounding`
* C59: `C59_from_one_partition`, `C59_truncated_geometric`, `C59_laplace_thresholding`, `C59_laplace_threshold_value`
* C60: `C60_total_budget_differential_privacy`, `C60_composition`, `C60_random_contribution_bounding`
* C61: `C61_total_budget_differential_privacy`, `C61_composition`, `C61_random_contribution_bounding`
* C63: `C63_total_budget_of_programs`, `C63_composition_of_programs`, `C63_every_call_answers`, `C63_contribution_bounds_outside_of_the_budget_refuted`
* C68: `C68_shared_object_refuted`
* C71: `C71_total_budget_differential_privacy`, `C71_private_selection`
* C72: `C72_programs_with_draws`, `C72_pipelines`, `C72_pipelines_replaced_data`, `C72_sessions`, `C72_sessions_replaced_data`, `C72_group_privacy`, `C72_replaced_data`, `C72_group_privacy_pld`
* C74: `C74_private_collections`, `C74_composition`, `C74_replaced_data`, `C74_every_query_is_answered`
* C78: `C78_query_is_private`, `C78_session_is_private`, `C78_query_never_raises`
* C81: `C81_programs_with_draws`, `C81_composition`, `C81_pipelines`, `C81_sessions`, `C81_pld`
* C83: `C83_quantile_trees_are_private`, `C83_all_promises_hold`, `C83_what_quantile_trees_draw`, `C83_programs_without_assumptions`, `C83_distribution_function`, `C83_rounded_noise`, `C83_laplace_noise_is_private`, `C83_smaller_scale_is_not_private`, `C83_accuracy`, `C83_thresholding_is_private`, `C83_promises_hold`, `C83_what_is_drawn`
* C84: `C84_annotators_cost_no_privacy`
* C85: `C85_far_values_are_rare`, `C85_public_values_are_close`, `C85_far_means_are_rare`, `C85_no_value_is_far`, `C85_all_public_values_are_close`
