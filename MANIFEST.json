{
 "claims": [
  {
   "property": "C01",
   "status": "proved",
   "theorems": [
    "C01_naive_epsilon_spent_exactly",
    "C01_naive_epsilon_any_weights",
    "C01_share_within_total_any_weights_refuted"
   ],
   "note": "Over every history of calls. Without positivity of weights the sum is still exact unless the weights cancel (then all shares are 0); the refuted theorem records that with unvalidated negative weights one mechanism may get more than the total."
  },
  {
   "property": "C02",
   "status": "proved",
   "theorems": [
    "C02_naive_delta_spent_exactly",
    "C02_delta_proportional_to_epsilon"
   ],
   "note": "Positive weights and counts."
  },
  {
   "property": "C03",
   "status": "proved",
   "theorems": [
    "C03_shares_follow_weights"
   ],
   "note": "Every scope tree with positive weights; count = 1 for every mechanism."
  },
  {
   "property": "C04",
   "status": "proved",
   "theorems": [
    "C04_unreadable_before_compute",
    "C04_readable_and_frozen_after_compute",
    "C04_rejected_compute_changes_nothing",
    "C04_rejected_request_changes_nothing",
    "C04_every_rejected_compute_changes_nothing_refuted"
   ],
   "note": "The refuted theorem records that compute_budgets inside an open scope leaves the accountant unusable."
  },
  {
   "property": "C05",
   "status": "proved",
   "theorems": [
    "C05_declaration_enforced",
    "C05_announced_epsilon_is_granted",
    "C05_announced_delta_is_granted_refuted"
   ],
   "note": "Aggregations with at least one mechanism. The announced delta is not what is granted (refuted theorem)."
  },
  {
   "property": "C08",
   "status": "proved",
   "theorems": [
    "C08_cross_and_per_bounds_any_backend",
    "C08_cross_and_per_bounds"
   ],
   "note": "For any backend obeying the sampling contract and for the local backend with every random outcome."
  },
  {
   "property": "C09",
   "status": "proved",
   "theorems": [
    "C09_total_contributions_any_backend",
    "C09_total_contributions"
   ],
   "note": "For any backend obeying the sampling contract and for the local backend with every random outcome."
  },
  {
   "property": "C10",
   "status": "proved",
   "theorems": [
    "C10_cross_partition_any_backend",
    "C10_cross_partition_bounds",
    "C10_per_partition_any_backend",
    "C10_per_partition_bounds",
    "C10_noop_passes_everything"
   ],
   "note": "Cross-partition-only, per-partition-only and no-op bounders."
  },
  {
   "property": "C11",
   "status": "proved",
   "theorems": [
    "C11_no_loss_cross_and_per",
    "C11_no_loss_total",
    "C11_no_loss_cross_partition",
    "C11_no_loss_per_partition"
   ],
   "note": "All bounding modes, every random source (even an invalid one)."
  },
  {
   "property": "C12",
   "status": "proved",
   "theorems": [
    "C12_local_sampling",
    "C12_spark_sampling",
    "C12_spark_sampling_zero_refuted"
   ],
   "note": "Local/multi-process per-group sampling and Spark's reduce tree for n >= 1; Beam uses the library's Sample.FixedSizePerKey, which is not modelled. For n = 0 Spark keeps single elements (refuted theorem)."
  },
  {
   "property": "C21",
   "status": "proved",
   "theorems": [
    "C21_spark_combining_agrees",
    "C21_beam_combining_agrees",
    "C21_local_combining",
    "C21_beam_falsy_accumulator_refuted"
   ],
   "note": "Every Spark reduce tree and every Beam bundling. Beam requires Python-truthy accumulators (compound accumulators are non-empty tuples); the refuted theorem shows that falsy accumulators are dropped."
  },
  {
   "property": "C28",
   "status": "proved",
   "theorems": [
    "C28_local_filter",
    "C28_in_memory_filters_agree",
    "C28_beam_join_agrees",
    "C28_spark_join_agrees_on_distinct_keys",
    "C28_spark_join_multiplies_rows",
    "C28_spark_join_agrees_refuted",
    "C28_sharded_filter"
   ],
   "note": "Local, in-memory and Beam-join variants for all key collections; Spark RDD join exactly for distinct keys (refuted with duplicates, exact multiplicity proved); sharded variant."
  },
  {
   "property": "C51",
   "status": "proved",
   "theorems": [
    "C51_count_per_element",
    "C51_size",
    "C51_size_empty_refuted",
    "C51_sum_per_key",
    "C51_min_max_per_key"
   ],
   "note": "size of an empty collection is the empty collection (refuted theorem)."
  },
  {
   "property": "C20",
   "status": "proved",
   "theorems": [
    "C20_merge_order_irrelevant",
    "C20_compound_merge_order_irrelevant",
    "C20_merged_is_total",
    "C20_compound_merged_is_total",
    "C20_compound_spark",
    "C20_compound_beam",
    "C20_vector_empty_accumulator_refuted"
   ],
   "note": "For every combiner and the compound, on any merge tree, Spark plan and Beam bundling; VECTOR_SUM only for non-empty value lists - for the empty accumulator the property is refuted (create_accumulator([]) is None)."
  },
  {
   "property": "C22",
   "status": "proved",
   "theorems": [
    "C22_mean_without_noise",
    "C22_variance_without_noise",
    "C22_empty_partition_mean"
   ],
   "note": "Floats are exact rationals; empty partition gives the middle of the range."
  },
  {
   "property": "C23",
   "status": "proved",
   "theorems": [
    "C23_requested_metrics_released",
    "C23_only_repeated_percentiles_rejected"
   ],
   "note": ""
  },
  {
   "property": "C13",
   "status": "proved",
   "theorems": [
    "C13_count",
    "C13_count_of_mean"
   ],
   "note": "The two datasets differ by all rows of one privacy id and use the same random choices for everyone else (choices are functions of the privacy id / group). Local-backend graph; floats are exact rationals; L2 sensitivities are compared squared. "
  },
  {
   "property": "C14",
   "status": "proved",
   "theorems": [
    "C14_privacy_id_count"
   ],
   "note": "The two datasets differ by all rows of one privacy id and use the same random choices for everyone else (choices are functions of the privacy id / group). Local-backend graph; floats are exact rationals; L2 sensitivities are compared squared. "
  },
  {
   "property": "C15",
   "status": "proved",
   "theorems": [
    "C15_sum_of_clipped_values",
    "C15_clipped_sum_per_partition"
   ],
   "note": "The two datasets differ by all rows of one privacy id and use the same random choices for everyone else (choices are functions of the privacy id / group). Local-backend graph; floats are exact rationals; L2 sensitivities are compared squared. "
  },
  {
   "property": "C16",
   "status": "proved",
   "theorems": [
    "C16_mean_normalized_sum"
   ],
   "note": "The two datasets differ by all rows of one privacy id and use the same random choices for everyone else (choices are functions of the privacy id / group). Local-backend graph; floats are exact rationals; L2 sensitivities are compared squared. "
  },
  {
   "property": "C17",
   "status": "partial",
   "theorems": [
    "C17_variance_count_and_sum",
    "C17_variance_squares_partial",
    "C17_squares_noised",
    "C17_variance_squares_refuted",
    "C17_variance_squares_every_range_refuted",
    "C17_variance_squares_exactly"
   ],
   "note": "The two datasets differ by all rows of one privacy id and use the same random choices for everyone else (choices are functions of the privacy id / group). Local-backend graph; floats are exact rationals; L2 sensitivities are compared squared. Proved for count and normalized sum, and for the sum of squares when 0 is not strictly inside the clipping range or (max-min)^2 <= 2*max(min^2,max^2). The full statement is false: refuted for every range outside of that condition, so the condition is exact (C17_variance_squares_exactly)."
  },
  {
   "property": "C18",
   "status": "proved",
   "theorems": [
    "C18_count",
    "C18_privacy_id_count",
    "C18_sum",
    "C18_mean",
    "C18_partition_sum_bounds_rejected"
   ],
   "note": "The two datasets differ by all rows of one privacy id and use the same random choices for everyone else (choices are functions of the privacy id / group). Local-backend graph; floats are exact rationals; L2 sensitivities are compared squared. COUNT, PRIVACY_ID_COUNT, SUM, MEAN. Per-partition sum bounds in this mode always raise when the combiner is created."
  },
  {
   "property": "C24",
   "status": "proved",
   "theorems": [
    "C24_public_partitions",
    "C24_aggregation_succeeds",
    "C24_thresholding_refuted",
    "C24_vector_sum_refuted"
   ],
   "note": "Key set and success of the run. Refuted with post_aggregation_thresholding (public partitions can be dropped) and for VECTOR_SUM with a public partition without data (TypeError)."
  },
  {
   "property": "C25",
   "status": "proved",
   "theorems": [
    "C25_non_public_rows_ignored",
    "C25_inserted_rows_ignored"
   ],
   "note": "For public_partitions_already_filtered = False; the sampling of each privacy id is the same function of its remaining rows in both runs."
  },
  {
   "property": "C26",
   "status": "proved",
   "theorems": [
    "C26_private_selection",
    "C26_one_id_influence",
    "C26_bounds_already_enforced",
    "C26_post_aggregation_thresholding",
    "C26_already_filtered_refuted"
   ],
   "note": "Library bounding, promised bounds and post-aggregation thresholding. Refuted: public_partitions_already_filtered without public partitions releases every partition without selection."
  },
  {
   "property": "C27",
   "status": "proved",
   "theorems": [
    "C27_select_partitions",
    "C27_all_counted"
   ],
   "note": ""
  },
  {
   "property": "C38",
   "status": "proved",
   "theorems": [
    "C38_accepted_iff_valid",
    "C38_fields_kept",
    "C38_accepted_are_usable",
    "C38_degenerate_ranges_refuted",
    "C38_needed_bounds_present_refuted",
    "C38_engine_check",
    "C38_select_partitions_check",
    "C38_add_noise_check",
    "C38_private_bounds_check"
   ],
   "note": "Accepted parameters are characterised exactly, and standard combiners are created for them, except the refuted cases: a degenerate value range for MEAN/SUM raises when the combiner is created; PERCENTILE or VECTOR_SUM can be accepted without the bounds or vector size they need."
  },
  {
   "property": "C39",
   "status": "proved",
   "theorems": [
    "C39_equally_split_budget",
    "C39_defined_for_positive_counts"
   ],
   "note": ""
  },
  {
   "property": "C19",
   "status": "partial",
   "theorems": [
    "C19_unit_vectors_partial",
    "C19_small_norm_partial",
    "C19_vector_sum_refuted",
    "C19_large_norm_refuted",
    "C19_exactly",
    "C19_coordinates_share_budget"
   ],
   "note": "Proved per coordinate for rows of norm at most 1 (Linf or L2 clipping, no public partitions), and for all rows when 2*vector_max_norm <= max_contributions_per_partition. The full statement is false (refuted for every larger norm, so the second condition is exact, C19_exactly): the noise ignores vector_max_norm. Uses the real-number axioms of the standard library."
  },
  {
   "property": "C49",
   "status": "proved",
   "theorems": [
    "C49_clip_in_range",
    "C49_clip_fixes_range",
    "C49_clip_nearest",
    "C49_clip_monotone",
    "C49_clip_distance",
    "C49_clipped_vector",
    "C49_vector_clipping_defined",
    "C49_linf_clipping_distance",
    "C49_l2_clipping_distance"
   ],
   "note": "Scalars and vectors; the Linf and L2 vector clippings are also non-expansive. Vector part uses the real-number axioms of the standard library."
  },
  {
   "property": "C06",
   "status": "proved",
   "theorems": [
    "C06_search_result",
    "C06_search_result_unique",
    "C06_search_terminates",
    "C06_granted_mechanisms_within_budget",
    "C06_noise_follows_weights",
    "C06_generic_weight_refuted",
    "C06_thresholding_alone_refuted",
    "C06_thresholding_composed_refuted"
   ],
   "note": "For every privacy-loss library function. Refuted extensions: a generic mechanism of weight >= 2 is granted more than the total budget (only with direct use of the accountant: DPEngine refuses generic mechanisms with it); thresholding mechanisms are not composed. Uses the real-number axioms of the standard library."
  },
  {
   "property": "C07",
   "status": "proved",
   "theorems": [
    "C07_epsilon_spent_exactly",
    "C07_budgets_computed",
    "C07_matches_laplace_mechanism",
    "C07_no_gaussian_without_delta"
   ],
   "note": "Laplace requests of any positive sensitivity and generic requests of sensitivity 1 (all the engine makes). Uses the real-number axioms of the standard library."
  },
  {
   "property": "C29",
   "status": "proved",
   "theorems": [
    "C29_bin_contains_value",
    "C29_bins_partition",
    "C29_bin_width"
   ],
   "note": ""
  },
  {
   "property": "C30",
   "status": "proved",
   "theorems": [
    "C30_candidate_bounds"
   ],
   "note": ""
  },
  {
   "property": "C31",
   "status": "proved",
   "theorems": [
    "C31_frequency_histogram",
    "C31_histogram_unique",
    "C31_totals",
    "C31_any_order",
    "C31_dataset_histograms"
   ],
   "note": "Every order of the data, of the counted frequencies and of the merging; plus the five count histograms of a dataset."
  },
  {
   "property": "C32",
   "status": "proved",
   "theorems": [
    "C32_quantiles",
    "C32_quantiles_of_bins",
    "C32_negative_quantile",
    "C32_empty_histogram"
   ],
   "note": "Non-negative quantiles, for count histograms in terms of the data and for any bins in terms of counts. A negative quantile raises TypeError (bin[0] on a bin), which is proved too."
  },
  {
   "property": "C33",
   "status": "proved",
   "theorems": [
    "C33_ratio_dropped",
    "C33_empty"
   ],
   "note": "Exact for the data themselves, not only for their bins."
  },
  {
   "property": "C35",
   "status": "proved",
   "theorems": [
    "C35_bucket_contains_value",
    "C35_sum_histogram",
    "C35_any_order"
   ],
   "note": "Rationals in place of floats: float rounding of (x - left) / width is not modelled."
  },
  {
   "property": "C36",
   "status": "proved",
   "theorems": [
    "C36_preaggregated_histograms",
    "C36_preaggregated_rows",
    "C36_sampled_partitions_refuted"
   ],
   "note": "All seven histograms, the two sum histograms up to equality of rationals. With partition sampling the L0 histogram differs (refuted theorem)."
  },
  {
   "property": "C37",
   "status": "proved",
   "theorems": [
    "C37_unique_call",
    "C37_all_labels_unique",
    "C37_fuel_irrelevant"
   ],
   "note": ""
  },
  {
   "property": "C34",
   "status": "proved",
   "theorems": [
    "C34_exponential_mechanism_monotonic",
    "C34_exponential_mechanism",
    "C34_higher_score_more_likely",
    "C34_score_value",
    "C34_score_sensitivity",
    "C34_private_contribution_bounds",
    "C34_no_partitions"
   ],
   "note": "For every event and every privacy id; the numpy choice is its distribution. The declared sensitivity is twice the real one. Real numbers in place of floats; the Gaussian std is an arbitrary function. Uses the real-number axioms of the standard library and classic."
  },
  {
   "property": "C40",
   "status": "proved",
   "theorems": [
    "C40_total_epsilon_differential_privacy",
    "C40_sequential_composition",
    "C40_count",
    "C40_random_contribution_bounding",
    "C40_laplace_of_std"
   ],
   "note": "For any number of aggregations of COUNT, SUM, MEAN and PRIVACY_ID_COUNT sharing an accountant, and for random contribution bounding with finitely many outcomes. Ideal continuous Laplace noise: PyDP's rounding is not modelled. Uses the real-number axioms of the standard library and classic."
  },
  {
   "property": "C41",
   "status": "proved",
   "theorems": [
    "C41_metrics_of_the_data",
    "C41_merge_order_irrelevant",
    "C41_empty_accumulator_with_columns_refuted"
   ],
   "note": "For every merge tree, any number of empty accumulators and every approximation of the Poisson-binomial distribution that is a function of the moments. Refuted for multi-column sums with an empty accumulator (public partitions): IndexError or not depending on the merge order."
  },
  {
   "property": "C42",
   "status": "proved",
   "theorems": [
    "C42_probability_of_survivors",
    "C42_support",
    "C42_sums_to_one",
    "C42_non_negative",
    "C42_probability_to_keep",
    "C42_moments_of_survivors"
   ],
   "note": "Rationals in place of floats."
  },
  {
   "property": "C43",
   "status": "proved",
   "theorems": [
    "C43_expected_bounded_sum",
    "C43_raw_sum"
   ],
   "note": "SUM, COUNT and PRIVACY_ID_COUNT, for the metrics reported after any merge tree; the variance of the l0 error as well. Rationals in place of floats."
  },
  {
   "property": "C44",
   "status": "proved",
   "theorems": [
    "C44_summary",
    "C44_local_summary",
    "C44_repeated_public_partition_refuted"
   ],
   "note": "For distinct public partitions, on every backend order; refuted with repeated public partitions."
  },
  {
   "property": "C45",
   "status": "proved",
   "theorems": [
    "C45_candidates",
    "C45_candidates_all",
    "C45_single_candidate_refuted",
    "C45_sum_candidates",
    "C45_sum_candidates_first",
    "C45_negative_sums_refuted",
    "C45_zero_sums_refuted",
    "C45_many_columns_refuted",
    "C45_cross_product",
    "C45_candidates_found"
   ],
   "note": "math.ceil(accumulated) is an arbitrary integer. Ending with the largest value needs two requested candidates (refuted for one). Refuted: negative sums give max_sum < min_sum, sums all zero raise IndexError, more sum columns than candidates raise ValueError."
  },
  {
   "property": "C52",
   "status": "proved",
   "theorems": [
    "C52_best_configuration",
    "C52_wrong_number"
   ],
   "note": "Errors are rationals, so no NaN."
  },
  {
   "property": "C53",
   "status": "proved",
   "theorems": [
    "C53_public",
    "C53_private",
    "C53_privacy_id_count",
    "C53_no_delta"
   ],
   "note": "Noise deviations and thresholds are arbitrary functions."
  },
  {
   "property": "C50",
   "status": "proved",
   "theorems": [
    "C50_reports",
    "C50_empty_without_params",
    "C50_not_passed",
    "C50_before_budgets",
    "C50_clear_error_refuted",
    "C50_metrics_listed",
    "C50_selection_listed",
    "C50_partition_stages_listed",
    "C50_stages_in_order",
    "C50_bounding_listed",
    "C50_cross_partition_bounding_refuted",
    "C50_vector_sum_refuted"
   ],
   "note": "Any sequence of engine calls, read in any state. Refuted: reading before the budgets are computed raises NameError instead of the promised ValueError; cross-partition bounding without per-partition sampling is run but not listed; the line of VECTOR_SUM is None."
  },
  {
   "property": "C46",
   "status": "proved",
   "theorems": [
    "C46_query",
    "C46_bounds",
    "C46_one_column_list",
    "C46_one_column_list_refuted",
    "C46_column_name_refuted",
    "C46_name_clash",
    "C46_builder_checks"
   ],
   "note": "For every builder, data frame and engine result. Requires column names that namedtuple accepts, without clashes (otherwise ValueError, proved). Refuted for group-by columns given as a list of one column: the key column holds the first character of the group-by value, or the query fails."
  },
  {
   "property": "C47",
   "status": "proved",
   "theorems": [
    "C47_combine_computes_the_function",
    "C47_beam_runs_request",
    "C47_beam_runs_what_is_asked",
    "C47_spark_runs_request",
    "C47_spark_runs_what_is_asked",
    "C47_one_number_per_partition",
    "C47_beam_pre_threshold",
    "C47_beam_budget_weight_refuted",
    "C47_beam_already_enforced_refuted",
    "C47_spark_pre_threshold_refuted",
    "C47_spark_privacy_id_count_weight_refuted",
    "C47_spark_enforced_privacy_id_count",
    "C47_beam_select",
    "C47_spark_select",
    "C47_spark_select_refuted",
    "C47_spark_select_strategy_refuted",
    "C47_beam_combine",
    "C47_beam_combine_public_partitions_refuted",
    "C47_beam_combine_budget_weight_refuted",
    "C47_calls_on_the_accountant",
    "C47_calls_of_select_partitions"
   ],
   "note": "Exact characterisation for every request: the Beam wrappers run what is asked with budget_weight replaced by 1 and contribution_bounds_already_enforced by False; the Spark wrappers with pre_threshold replaced by None (and, for privacy_id_count, budget_weight by 1; for select_partitions everything but max_partitions_contributed by the defaults). So the full claim is refuted, with the consequences for budget shares and released partitions. CombinePerKey ignores public_partitions and budget_weight (refuted); for data within the bounds it releases, for the kept partitions, the function of all their values, if the PrivateCombineFn does not depend on the order and grouping of the values. Engine graph as on the local backend."
  },
  {
   "property": "C54",
   "status": "proved",
   "theorems": [
    "C54_rows_tracked",
    "C54_every_element_kept",
    "C54_neighbours_stay_neighbours",
    "C54_only_anonymised_output",
    "C54_other_objects_rejected"
   ],
   "note": "All elements have one type. MakePrivate applied to a private collection is not modelled."
  },
  {
   "property": "C48",
   "status": "proved",
   "theorems": [
    "C48_local_group_by_key",
    "C48_local_count",
    "C48_group_by_key",
    "C48_group_by_key_completes",
    "C48_group_generator_empty",
    "C48_group_generator_refuted",
    "C48_count_bounds",
    "C48_count_refuted",
    "C48_count_disjoint_workers",
    "C48_count_serialised",
    "C48_count_loses_any_number"
   ],
   "note": "group_by_key: for every split of the rows over the workers and every interleaving of their accesses to the shared dictionary the result is that of the local backend up to order, and every run can complete. count_per_element: refuted (lost updates; any number of increments can be lost); under every interleaving the count is between 1 and the true count, and it is exact when no element is dealt to two workers or no other worker acts between a read and its write. A generator as input makes every group empty (refuted). Accesses through the manager are atomic; worker crashes are not modelled."
  },
  {
   "property": "C55",
   "status": "proved",
   "theorems": [
    "C55_filter",
    "C55_filter_generator",
    "C55_filter_generator_refuted",
    "C55_filter_by_key",
    "C55_flat_map",
    "C55_sample_fixed_per_key",
    "C55_flatten_refuted"
   ],
   "note": "On generators filter is refuted (exact result given); flatten as called by the engine yields no rows (refuted). Unimplemented operations are not modelled."
  },
  {
   "property": "C56",
   "status": "proved",
   "theorems": [
    "C56_errors_averaged",
    "C56_dropped_ratios",
    "C56_labels",
    "C56_private_partitions",
    "C56_public_partitions",
    "C56_merge_order_irrelevant",
    "C56_dropped_data_accounted",
    "C56_dropped_data_accounted_refuted",
    "C56_relative_rmse_nonnegative_refuted",
    "C56_missing_metrics_rejected",
    "C56_average_between",
    "C56_kept_partitions_weighted",
    "C56_public_partitions_averaged",
    "C56_large_partitions_weigh_more"
   ],
   "note": "For any tree of merges, weight function and square root. Proved for partitions with equally many analysed metrics (so within a configuration). Refuted: with values clipped up to the minimum the drop ratios do not account for the data; the relative rmse of a negative value is negative."
  },
  {
   "property": "C57",
   "status": "proved",
   "theorems": [
    "C57_buckets",
    "C57_bucket_ends",
    "C57_metrics_packed",
    "C57_configuration_parameters",
    "C57_accepted_configuration_usable_refuted",
    "C57_full_budget_each",
    "C57_one_report_per_configuration",
    "C57_per_partition_output",
    "C57_report_without_partitions_refuted",
    "C57_empty_strategies_refuted",
    "C57_unsupported_options_rejected"
   ],
   "note": "From the rows of the partitions to the reports, for any number of configurations, partitions, metrics and columns, any merge trees, reduction plan and grouping. The configurations must have passed MultiParameterConfiguration's checks; partitions must have the shape C41 needs. Refuted: an accepted configuration can be unusable (empty list attributes: IndexError); no partitions give no reports. Square root, noise standard deviations, probability of keeping and the normal approximation are arguments."
  },
  {
   "property": "C58",
   "status": "proved",
   "theorems": [
    "C58_ratio_dropped",
    "C58_ratio_monotone",
    "C58_rmse_of_sizes",
    "C58_count_estimate",
    "C58_privacy_id_count_estimate",
    "C58_creation",
    "C58_noise_of_the_engine",
    "C58_sum_ratio_refuted",
    "C58_sum_of_zero_refuted"
   ],
   "note": "From the rows to the estimate for COUNT and PRIVACY_ID_COUNT, real square roots, every bound >= 1. The standard deviation of PyDP's Gaussian mechanism of sensitivity 1 is an argument, and is taken to scale with the sensitivity. Refuted for SUM: with negative sums the ratios exceed 1 and the thresholds are unsorted; sums adding up to 0 give ZeroDivisionError."
  },
  {
   "property": "C59",
   "status": "proved",
   "theorems": [
    "C59_aggregate_partitions",
    "C59_select_partitions",
    "C59_random_contribution_bounding",
    "C59_from_one_partition",
    "C59_truncated_geometric",
    "C59_laplace_thresholding",
    "C59_laplace_threshold_value",
    "C59_bound_passed_to_selection",
    "C59_strategy_asked_for",
    "C59_max_contributions_refuted",
    "C59_bound_passed_to_thresholding",
    "C59_max_contributions_thresholding_refuted"
   ],
   "note": "For aggregate and select_partitions, any fixed or random contribution bounding draws and any event on the set of kept partitions. What PyDP's strategy objects promise for their arguments is a hypothesis (pydp_contract); the documented truncated geometric and Laplace thresholding algorithms are proved to meet it, Gaussian thresholding is not treated. Not covered: post-aggregation thresholding, already enforced bounds, VECTOR_SUM. Refuted for max_contributions: the strategy is created with max_partitions_contributed None. ThreshProps: the same for post-aggregation thresholding."
  },
  {
   "property": "C60",
   "status": "proved",
   "theorems": [
    "C60_total_budget_differential_privacy",
    "C60_composition",
    "C60_random_contribution_bounding",
    "C60_selection_share",
    "C60_budget_weight_of_the_only_aggregation_refuted"
   ],
   "note": "For any number of aggregations of COUNT, SUM, MEAN and PRIVACY_ID_COUNT with Laplace noise on one naive accountant, l0/linf bounds, any events on kept sets and noisy values jointly. The integral over a region of noisy values is an arbitrary monotone homogeneous functional that gives the joint Laplace densities mass at most 1; PyDP's selection strategies enter as the contract of C59, and its Laplace mechanism as the density of C40. Not covered: Gaussian noise, VARIANCE, QUANTILE, VECTOR_SUM, max_contributions, post-aggregation thresholding. Refuted: budget_weight only compares aggregations (it also shifts budget between the noise and the selection of one aggregation)."
  },
  {
   "property": "C61",
   "status": "proved",
   "theorems": [
    "C61_total_budget_differential_privacy",
    "C61_selection_gets_delta",
    "C61_composition",
    "C61_random_contribution_bounding",
    "C61_large_enough_exists",
    "C61_bounds_do_not_matter",
    "C61_calls_succeed",
    "C61_order_of_the_result_refuted"
   ],
   "note": "DPEngine.aggregate as a random program: every answer of PyDP is an independent draw from a finite distribution. For any number of calls with any metrics (for VARIANCE with a range whose squares the declared sensitivity covers, see C17_variance_squares_refuted; for PERCENTILE with min_value < max_value; for VECTOR_SUM with private partitions, bounding by the library, vectors of the declared size and 2*vector_max_norm <= max_contributions_per_partition, see C19_exactly and C24_vector_sum_refuted), Laplace or Gaussian noise, public partitions, private selection or post-aggregation thresholding, contribution bounding by the library or bounds that the user has already enforced, one naive accountant, any event on everything released. What PyDP promises for the arguments it gets is a hypothesis (pydp_keeps_promises, met by a toy implementation). Not covered: max_contributions with private partitions (refuted in C59), the PLD accountant. The release is the metrics per partition; refuted for the order of the partitions on LocalBackend, which one privacy id can determine."
  },
  {
   "property": "C62",
   "status": "proved",
   "theorems": [
    "C62_every_use_has_the_granted_budget",
    "C62_every_use_has_an_origin",
    "C62_works_after_compute",
    "C62_too_early_raises",
    "C62_created_once",
    "C62_copies_agree"
   ],
   "note": "For the naive accountant and all built-in combiner classes, over all histories. Serialization copies an object with everything it refers to except _mechanism; the random state of mechanisms is not modelled. Custom combiners and the PLD accountant are not covered."
  },
  {
   "property": "C63",
   "status": "proved",
   "theorems": [
    "C63_total_budget_of_programs",
    "C63_composition_of_programs",
    "C63_every_call_answers",
    "C63_contribution_bounds_outside_of_the_budget_refuted"
   ],
   "note": "Programs are trees whose later calls depend on earlier answers; the requests have to be the same in all cases, since they are made before compute_budgets. aggregate is covered as in C61, select_partitions with l0 bound and any strategy keeping the promises of C59, add_dp_noise for values whose change per privacy id is within the declared bounds, contribution bounds with the exponential mechanism drawn exactly. Refuted: the accountant's total alone bounds the loss (calculate_private_contribution_bounds spends calculation_eps outside of the accountant)."
  },
  {
   "property": "C64",
   "status": "proved",
   "theorems": [
    "C64_data_of_a_partition",
    "C64_analysis_predicts_the_engine",
    "C64_uniform_sampling_exists",
    "C64_preaggregated_data",
    "C64_sampler_keeps_the_share",
    "C64_sampled_public_partitions_refuted",
    "C64_sum_with_count_refuted",
    "C64_empty_public_sum_refuted",
    "C64_preaggregated_public_refuted",
    "C64_already_filtered_refuted"
   ],
   "note": "For COUNT, SUM and PRIVACY_ID_COUNT with scalar values, any number of configurations, private or public partitions, raw data; sampling of partitions by contribution bounding is assumed uniform (np.random.choice). Pre-aggregated data is covered by its equality with raw data. The reported probability of keeping a partition is exact up to 100 privacy ids (the code approximates above). Refuted: sampled-out public partitions, SUM together with COUNT, SUM of empty public partitions whose bounds exclude 0, data pre-aggregated before filtering to public partitions, public_partitions_already_filtered without public partitions."
  },
  {
   "property": "C65",
   "status": "proved",
   "theorems": [
    "C65_aggregate_on_iterators",
    "C65_result_is_read_once",
    "C65_list_aggregated_twice",
    "C65_select_partitions_on_iterators",
    "C65_contribution_bounds_on_iterators",
    "C65_public_partitions_as_iterator_refuted",
    "C65_iterator_aggregated_twice_refuted",
    "C65_selected_partitions_refuted",
    "C65_partitions_as_iterator_refuted"
   ],
   "note": "Iterators are objects in memory that advance each other; extraction of rows, annotate and the report are left out, each of the seven histograms is one generator. Exceptions raised by user functions while reading are the Err elements of the last collection. Refuted: public partitions given as an iterator (the documented type is 'a collection'): one person outside of them makes all public partitions disappear from the release; the same for the partitions of calculate_private_contribution_bounds, in particular those returned by select_partitions; a generator of rows aggregated twice."
  },
  {
   "property": "C66",
   "status": "proved",
   "theorems": [
    "C66_unshared_arrays",
    "C66_one_value_per_accumulator",
    "C66_changed_arrays",
    "C66_input_changed_refuted",
    "C66_shared_arrays_refuted"
   ],
   "note": "Arrays are addresses in a memory; lists and tuples are copied by np.array. Element types and partially overlapping views are not modelled. Refuted: an aggregation leaves its input unchanged (the second aggregation of the same rows gives another result); the result is the one of the contents when rows share arrays (one privacy id moves the sum by 22 instead of 2)."
  },
  {
   "property": "C67",
   "status": "proved",
   "theorems": [
    "C67_tune_succeeds",
    "C67_candidates",
    "C67_best_configuration",
    "C67_reports",
    "C67_dropped_partitions_refuted",
    "C67_first_metric_refuted",
    "C67_value_bounds_refuted",
    "C67_no_partitions_refuted",
    "C67_thresholding_dropped_refuted"
   ],
   "note": "For raw data with numeric values, one column of sums, COUNT, SUM and PRIVACY_ID_COUNT or no metrics, the function ABSOLUTE_ERROR (the others are rejected) and the default strategy selector. Pre-aggregated data is covered by its equality with raw data (C64). Refuted: the recommendation counts the loss of dropped partitions; the error of metrics[0] is minimized; parameters with min_value/max_value work for SUM; a dataset without partitions is handled; the noise is the best for the budget that PRIVACY_ID_COUNT gets."
  },
  {
   "property": "C68",
   "status": "proved",
   "theorems": [
    "C68_own_parameters_and_budgets",
    "C68_result",
    "C68_composition",
    "C68_total_budget_differential_privacy",
    "C68_random_contribution_bounding",
    "C68_last_parameters_win",
    "C68_shared_object_refuted"
   ],
   "note": "Classes of custom combiners are arbitrary functions of the aggregate parameters, their budgets and accumulators; each is assumed to be differentially private with its own budgets for data bounded as the parameters say (keeps_promise; randomized response is proved to be). Contribution bounding by the library; metrics=[]. max_contributions needs public partitions (C59_max_contributions_refuted). Refuted: a combiner object given to two aggregations (the first runs with the parameters and budgets of the second; the results are not differentially private with the total budget)."
  },
  {
   "property": "C69",
   "status": "proved",
   "theorems": [
    "C69_same_raw_values",
    "C69_calibrated",
    "C69_sensitivities_exist",
    "C69_selection_influence",
    "C69_partition_sum_refuted"
   ],
   "note": "For all built-in combiners with a noised quantity except SUM with per-partition bounds, for which it is refuted: the bounds are then applied to every row separately, so that a privacy id within all promised bounds changes the sum by up to max_contributions_per_partition times the sensitivity. VARIANCE under the condition on the range of C17. The promise is a hypothesis (within_bounds)."
  },
  {
   "property": "C70",
   "status": "proved",
   "theorems": [
    "C70_bounds_known",
    "C70_one_id_influence",
    "C70_tree_has_the_values",
    "C70_answers_labelled",
    "C70_noise_as_requested"
   ],
   "note": "The quantile tree is kept as the list of its entries; what PyDP computes of it is opaque. In max_contributions mode the engine rejects PERCENTILE, hence the bounds are known."
  },
  {
   "property": "C71",
   "status": "proved",
   "theorems": [
    "C71_total_budget_differential_privacy",
    "C71_large_enough_exists",
    "C71_bounds_do_not_matter",
    "C71_private_selection",
    "C71_mechanisms_created",
    "C71_thresholding_refuted"
   ],
   "note": "For the calls that DPEngine accepts with this accountant (public partitions; COUNT, PRIVACY_ID_COUNT, SUM, MEAN) without thresholding; also for private partition selection, which DPEngine refuses. Assumed of PyDP: Laplace noise and partition selection are as private as promised. Assumed of the library of privacy loss distributions: its composition theorem (composition_sound); a toy library and PyDP are proved to meet the contract. Numbers are exact reals. Refuted: thresholding with public partitions, which all checks accept, gets no budget (AssertionError when the noise is added)."
  },
  {
   "property": "C72",
   "status": "proved",
   "theorems": [
    "C72_programs_with_draws",
    "C72_pipelines",
    "C72_pipelines_replaced_data",
    "C72_sessions",
    "C72_sessions_replaced_data",
    "C72_group_privacy",
    "C72_replaced_data",
    "C72_group_privacy_pld",
    "C72_bounds_exist"
   ],
   "note": "Consequence of C61 and C71 for groups of privacy ids and for replaced data, under the same assumptions about PyDP and the library of privacy loss distributions. The order of the other rows is the same in both datasets. GroupDrawProps: also programs with draws, pipelines of private collections and sessions of data frame queries with random choices."
  },
  {
   "property": "C73",
   "status": "proved",
   "theorems": [
    "C73_exact_within_bounds",
    "C73_public_law",
    "C73_private_law",
    "C73_thresholded_law",
    "C73_unbiased",
    "C73_unbiased_within_bounds",
    "C73_unbiased_when_kept",
    "C73_partition_sum_refuted"
   ],
   "note": "The calls are those of C61; every released number except PERCENTILE. The exact values are those of the model's contribution bounding; within the bounds they are the true ones. No bias is proved for COUNT, PRIVACY_ID_COUNT and SUM, given that PyDP's noise has mean zero for the values it gets (a PyDP that keeps all promises and is without bias is constructed); MEAN, VARIANCE and the SUM that goes with MEAN are ratios of noised values, whose exact law is given. Refuted for SUM with bounds on the sum per partition that exclude 0: with public partitions the lower bound is added once more."
  },
  {
   "property": "C74",
   "status": "proved",
   "theorems": [
    "C74_private_collections",
    "C74_composition",
    "C74_replaced_data",
    "C74_every_query_is_answered",
    "C74_calls_do_not_depend_on_data",
    "C74_limits_exist"
   ],
   "note": "Beam and Spark; COUNT, PRIVACY_ID_COUNT, SUM, MEAN, VARIANCE and select_partitions on collections made with any Map and FlatMap; a later query may depend on earlier replies, as when selected partitions become public partitions. VARIANCE under the condition on the range of C17. Assumed of PyDP as in C61. CombinePerKey and the user's code (which may not have side effects) are not covered. With contribution_bounds_already_enforced on Spark, the promise of the user is a hypothesis (within_bounds)."
  },
  {
   "property": "C75",
   "status": "proved",
   "theorems": [
    "C75_names_identify_percentiles",
    "C75_which_percentile_names_are_accepted",
    "C75_when_the_combiner_is_made",
    "C75_released_record",
    "C75_records_survive_pickling",
    "C75_one_class_per_fields",
    "C75_every_percentile_is_accepted_refuted",
    "C75_order_of_metrics_names_refuted"
   ],
   "note": "Built-in metrics. A float is given by the shortest decimal that Python's repr finds; its digits are an input of the model, the rest of str, str.replace, the checks of collections.namedtuple for ASCII names, the cache of classes and the pickle protocol are modelled. Refuted: every percentile that the parameters accept can be computed (0.00001 gives the field percentile_1e-05, which namedtuple rejects), and the order of the fields is that of metrics_names() (VARIANCE with MEAN)."
  },
  {
   "property": "C76",
   "status": "proved",
   "theorems": [
    "C76_aggregate_on_clusters",
    "C76_local_runs_on_clusters",
    "C76_select_partitions_on_clusters",
    "C76_public_partitions_on_clusters",
    "C76_repeated_public_partition_on_spark_refuted"
   ],
   "note": "DPEngine.aggregate with the built-in combiners, and select_partitions. A stage of Beam or Spark is a relation between its input and the results the framework may give (any order, any schedule of merges, any sample; what Beam's FixedSizePerKey and both group-by-keys return is taken from their documentation). The noise is a function of partition and combiner, the same in both runs, acting on numbers. Released are partitions with their metrics; their order is not part of the claim. Retries of bundles are not modelled. Refuted on Spark for an RDD of public partitions with repetitions: rows are counted several times."
  },
  {
   "property": "C77",
   "status": "proved",
   "theorems": [
    "C77_local_sampling_is_fair",
    "C77_spark_chances",
    "C77_spark_one_by_one",
    "C77_uniform_sampling_on_spark_refuted",
    "C77_spark_fair_iff_balanced",
    "C77_bounders_are_fair",
    "C77_local_draws_are_fair"
   ],
   "note": "np.random.choice(..., replace=False) and random.sample are modelled as uniform over the sets of positions. Local backend: every row of all five bounders survives with the chance its documentation gives. Beam's FixedSizePerKey is covered as far as its documentation promises uniform samples (hypothesis fair_draws). Spark: the exact chance of every value for every order of reduction, and when they are equal. Refuted on Spark: that max_contributions contributions are uniformly sampled; later values can be preferred by any factor."
  },
  {
   "property": "C78",
   "status": "proved",
   "theorems": [
    "C78_query_is_private",
    "C78_session_is_private",
    "C78_frame",
    "C78_query_never_raises"
   ],
   "note": "Spark data frames as lists of rows of cells; the conversions are those of C46, the engine that of C61, the accountant that of C01. Assumed of PyDP as in C61; the choices of contribution bounding are any fixed legal ones. Not looked at is the order of the rows (which depends on the data, see C61_order_of_the_result_refuted) and which exception was raised. The privacy theorems need that the elements can be read from the frame (fit), and group-by lists of a single column are excluded from C78_frame and C78_query_never_raises, where C46 shows that they fail."
  },
  {
   "property": "C79",
   "status": "proved",
   "theorems": [
    "C79_error",
    "C79_certain",
    "C79_bounds",
    "C79_kept_for_sure_refuted"
   ],
   "note": "Numbers are exact reals; norm.cdf and norm.pdf are arbitrary functions, hence how good the normal approximation itself is (Berry-Esseen) is the hypothesis e. The 1/64 is Chebyshev's bound for the numbers of survivors further than 8 sigma from the mean that are left out. probability_of_keep is any nondecreasing function into [0, 1]. Refuted: a partition that is kept for sure is reported as such (the mass of the normal distribution above the number of contributions is dropped: 0.977 instead of 1)."
  },
  {
   "property": "C80",
   "status": "proved",
   "theorems": [
    "C80_infinities_are_large_numbers",
    "C80_neighbours",
    "C80_nan_spreads",
    "C80_nan_is_released",
    "C80_private_nan_refuted",
    "C80_opposite_infinities_refuted"
   ],
   "note": "Values are rationals, inf, -inf and nan with IEEE 754 arithmetic; combiners on numbers (COUNT, PRIVACY_ID_COUNT, SUM, MEAN, VARIANCE), no quantile trees or vectors. Noise mechanisms are assumed to give back nan. Infinities: the query equals the query of EngineModel where infinity is a large number, so the other theorems (bounds, differential privacy) carry over. Refuted: that a query is differentially private for all float values - one nan of a privacy id makes the sum of its partition nan whatever the noise; with min/max_sum_per_partition opposite infinities do the same."
  },
  {
   "property": "C81",
   "status": "proved",
   "theorems": [
    "C81_programs_with_draws",
    "C81_composition",
    "C81_pipelines",
    "C81_sessions",
    "C81_pld"
   ],
   "note": "Draws are finite distributions that do not depend on the data, as those of contribution bounding, which depend on a privacy id (and partition) and the number of its rows or partitions only. The first two theorems draw between the calls and even show the draws; those for pipelines and sessions draw everything beforehand (a distribution of pipelines or sessions that differ in the samplings of their queries). Assumed of PyDP as in C61. C81_pld: lists of calls with a PLDBudgetAccountant, drawn beforehand."
  },
  {
   "property": "C82",
   "status": "proved",
   "theorems": [
    "C82_budgets_are_listed",
    "C82_listed_budgets_add_up",
    "C82_lines_are_true",
    "C82_parameters_shown",
    "C82_announced_numbers",
    "C82_announced_numbers_refuted",
    "C82_vector_sum_refuted",
    "C82_same_report_refuted"
   ],
   "note": "The reports as tuples of the numbers that are formatted, not their text; the f-strings and the formatting of numbers are not modelled. The reports are read after compute_budgets. Aggregations with the metrics but VECTOR_SUM, and select_partitions; add_dp_noise shows no epsilon. The lines are related to the mechanisms in use through the traces of C62. Refuted: VECTOR_SUM's budget is in the report; equal reports mean equal computations (perform_cross_partition_contribution_bounding is not shown); the number of contributions that the stage of a bounder announces (max where the code takes the minimum; equality exactly if the key has n elements)."
  },
  {
   "property": "C83",
   "status": "proved",
   "theorems": [
    "C83_trees_count_every_entry",
    "C83_quantile_trees_are_private",
    "C83_all_promises_hold",
    "C83_what_quantile_trees_draw",
    "C83_programs_without_assumptions",
    "C83_distribution_function",
    "C83_rounded_noise",
    "C83_laplace_noise_is_private",
    "C83_smaller_scale_is_not_private",
    "C83_accuracy",
    "C83_thresholding_is_private",
    "C83_promises_hold",
    "C83_what_is_drawn"
   ],
   "note": "PyDP is external, so the algorithms are those that its documentation and dp_computations.py:774-797 describe: the real noise is drawn exactly and then rounded to a finite grid (PyDP draws on a grid itself). The comparison with the threshold is made before rounding. Quantile trees: one count per node, all noised, and any function of the noised counts as the answers. Gaussian noise stays an assumption; C83_programs_without_assumptions is C61 with a PyDP given in full, where Gaussian requests get a private answer that is not Gaussian. The distribution function is tied to the density of C40 by its derivative and limits."
  },
  {
   "property": "C84",
   "status": "proved",
   "theorems": [
    "C84_every_annotator_once",
    "C84_programs_run",
    "C84_annotators_of_other_backends_refuted",
    "C84_what_calls_get",
    "C84_announced_is_granted_exactly",
    "C84_announced_is_granted",
    "C84_announced_is_granted_refuted",
    "C84_annotators_cost_no_privacy"
   ],
   "note": "An annotator is any function of the collection, the label, the parameters and the announced budget; it does not raise and does not touch the accountant. The stages of a call are any list of stage names, its result any collection. The naive accountant; epsilon only (announced deltas: C05). Refuted: add_dp_noise passes budget_weight to the announcement only and requests its budget with weight 1 outside a scope, so with declared weights the announced budgets of all calls can be wrong; exactly when is C84_announced_is_granted_exactly. Backends other than Beam ignore annotators."
  },
  {
   "property": "C85",
   "status": "proved",
   "theorems": [
    "C85_far_values_are_rare",
    "C85_public_values_are_close",
    "C85_far_means_are_rare",
    "C85_no_value_is_far",
    "C85_all_public_values_are_close"
   ],
   "note": "For a PyDP with Laplace noise drawn exactly and then rounded to any finite grid (C83); w is the size of the rounding around the true value. Data within the contribution bounds (otherwise the distance is to the value after bounding, C73). COUNT (also beside MEAN and VARIANCE), PRIVACY_ID_COUNT, SUM with either kind of bounds, and MEAN; not VARIANCE, PERCENTILE, VECTOR_SUM and SUM beside MEAN. With private partitions and thresholding the bound is on releasing a value that is far; for the count that thresholding itself releases there is no such bound, since being released makes a large count more likely. For all the partitions at once the bounds are added up, without using that the noises are independent."
  }
 ]
}