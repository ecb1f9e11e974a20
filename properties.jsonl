{"id": "C01", "title": "Naive accountant spends exactly the total epsilon", "statement": "After compute_budgets() of a NaiveBudgetAccountant returns normally with at least one requested mechanism, the epsilons handed out to the requested mechanisms, each multiplied by the number of times the mechanism is declared to be used (count), add up to exactly total_epsilon; in particular they never exceed it.", "quantifier": "every history of budget requests (any weights/counts/mechanism types), arbitrarily nested budget scopes and aggregations that ends in a successful compute_budgets, with non-zero total weight", "why_tests_cant": "the histories (nesting, weights, counts) are unbounded; a unit test fixes one tree of requests", "anchors": ["pipeline_dp/budget_accounting.py:NaiveBudgetAccountant.compute_budgets", "pipeline_dp/budget_accounting.py:BudgetAccountantScope", "pipeline_dp/budget_accounting.py:BudgetAccountant._register_mechanism"]}
{"id": "C02", "title": "Naive accountant spends exactly the total delta, and none on Laplace", "statement": "After a successful compute_budgets(), every Laplace mechanism has delta 0 and the deltas of the other mechanisms multiplied by their counts add up to exactly total_delta (0 if there is no delta-using mechanism).", "quantifier": "every history of requests, scopes and aggregations ending in a successful compute_budgets", "why_tests_cant": "unbounded histories", "anchors": ["pipeline_dp/budget_accounting.py:NaiveBudgetAccountant.compute_budgets", "pipeline_dp/budget_accounting.py:MechanismSpec.use_delta"]}
{"id": "C03", "title": "Budget shares follow the weights", "statement": "Mechanisms requested directly (outside scopes) get epsilon proportional to their weights; all mechanisms requested inside a scope together weigh exactly as much as one mechanism with the scope's weight requested at the scope's place, however many mechanisms the scope contains and however scopes nest (each mechanism used once).", "quantifier": "every tree of nested scopes with non-zero weights and any number of mechanisms", "why_tests_cant": "unbounded nesting and fan-out", "anchors": ["pipeline_dp/budget_accounting.py:BudgetAccountantScope._normalise_mechanism_weights", "pipeline_dp/budget_accounting.py:BudgetAccountant.scope"]}
{"id": "C04", "title": "Budget accountant life cycle", "statement": "Budgets are readable exactly after a successful compute_budgets(): before it reading eps/delta raises; after it every request_budget and every further compute_budgets raises and the budgets already handed out never change. A rejected compute_budgets (aggregation restrictions violated) leaves the accountant exactly as it was.", "quantifier": "every sequence of calls on one accountant, including failing calls in the middle", "why_tests_cant": "histories are unbounded and failing calls can occur anywhere", "anchors": ["pipeline_dp/budget_accounting.py:BudgetAccountant._finalize", "pipeline_dp/budget_accounting.py:NaiveBudgetAccountant.request_budget", "pipeline_dp/budget_accounting.py:MechanismSpec.eps"]}
{"id": "C05", "title": "Declared aggregations are enforced and their announced epsilon is what they get", "statement": "If num_aggregations or aggregation_weights is declared, compute_budgets succeeds only if exactly the declared aggregations (count and weights) were performed; then the epsilon announced for each aggregation when it was started equals the total epsilon its mechanisms receive, and the announced epsilons add up to total_epsilon.", "quantifier": "every declaration and every history of scoped aggregations", "why_tests_cant": "number of aggregations and of mechanisms per aggregation is unbounded", "anchors": ["pipeline_dp/budget_accounting.py:BudgetAccountant._compute_budget_for_aggregation", "pipeline_dp/budget_accounting.py:BudgetAccountant._check_aggregation_restrictions"]}
{"id": "C06", "title": "PLD accountant search returns a noise level that respects the budget", "statement": "With delta > 0 the PLD accountant returns a noise level whose composed epsilon (as reported by the privacy-loss library) is at most total_epsilon, and a noise level at most 1e-4 smaller is either 0 or exceeds total_epsilon; no monotonicity of the privacy-loss library is needed.", "quantifier": "every privacy-loss composition function, every set of mechanisms, every starting interval", "why_tests_cant": "the library function is a black box and the number of bisection steps depends on it", "anchors": ["pipeline_dp/budget_accounting.py:PLDBudgetAccountant._find_minimum_noise_std", "pipeline_dp/budget_accounting.py:PLDBudgetAccountant._calculate_max_noise_std"]}
{"id": "C07", "title": "PLD accountant with delta 0 spends exactly total epsilon", "statement": "With total_delta = 0 the PLD accountant gives each Laplace mechanism a noise standard deviation such that the epsilons of the resulting Laplace mechanisms (sensitivity/scale) add up to exactly total_epsilon.", "quantifier": "every list of Laplace requests with positive weights and sensitivities", "why_tests_cant": "unbounded lists of real weights and sensitivities", "anchors": ["pipeline_dp/budget_accounting.py:PLDBudgetAccountant.compute_budgets"]}
{"id": "C08", "title": "Cross- and per-partition bounding enforces both limits", "statement": "With max_partitions_contributed = L0 and max_contributions_per_partition = Linf, what is aggregated for one privacy id covers at most L0 partitions, each at most once, with at most Linf of the values this id really has in that partition (no value invented, duplicated or moved to another id/partition).", "quantifier": "every input collection, every L0/Linf and every outcome of the random sampling", "why_tests_cant": "random outcomes and input sizes are unbounded", "anchors": ["pipeline_dp/contribution_bounders.py:SamplingCrossAndPerPartitionContributionBounder", "pipeline_dp/pipeline_backend.py:LocalBackend.sample_fixed_per_key"]}
{"id": "C09", "title": "Total-contribution bounding enforces max_contributions", "statement": "With max_contributions = M, all values aggregated for one privacy id across all partitions are at most M in number and form a sub-multiset of the id's own rows, grouped under the right partitions, each partition appearing once.", "quantifier": "every input collection, every M and every sampling outcome", "why_tests_cant": "random outcomes and input sizes are unbounded", "anchors": ["pipeline_dp/contribution_bounders.py:SamplingPerPrivacyIdContributionBounder", "pipeline_dp/contribution_bounders.py:collect_values_per_partition_key_per_privacy_id"]}
{"id": "C10", "title": "Cross-partition-only and per-partition-only bounding", "statement": "The cross-partition bounder keeps at most L0 partitions per privacy id and passes all values of each kept partition; the per-partition sampler keeps every (id, partition) pair with at most Linf of its values; the no-op sampler passes exactly all values of every pair.", "quantifier": "every input collection, bound and sampling outcome", "why_tests_cant": "random outcomes and input sizes are unbounded", "anchors": ["pipeline_dp/contribution_bounders.py:SamplingCrossPartitionContributionBounder", "pipeline_dp/contribution_bounders.py:LinfSampler", "pipeline_dp/contribution_bounders.py:NoOpSampler"]}
{"id": "C11", "title": "Contribution bounding loses nothing when the data already satisfies the bounds", "statement": "If no privacy id exceeds the configured limits, contribution bounding passes every input value to the aggregation exactly once, whatever the random source does.", "quantifier": "every input collection within the limits, every random source, every bounding mode", "why_tests_cant": "universal over inputs and random choices", "anchors": ["pipeline_dp/contribution_bounders.py:SamplingCrossAndPerPartitionContributionBounder", "pipeline_dp/sampling_utils.py:choose_from_list_without_replacement"]}
{"id": "C12", "title": "Per-key sampling returns exactly min(n, available) of the real elements on every backend", "statement": "sample_fixed_per_key(n) yields each key once with exactly min(n, number of its elements) elements, forming a sub-multiset of the key's elements, on the local backend and on Spark for every shuffle/merge order of the reduce tree.", "quantifier": "every collection, n, random outcome and merge tree", "why_tests_cant": "merge trees are chosen by the cluster at run time", "anchors": ["pipeline_dp/pipeline_backend.py:LocalBackend.sample_fixed_per_key", "pipeline_dp/pipeline_backend.py:SparkRDDBackend.sample_fixed_per_key", "pipeline_dp/pipeline_backend.py:MultiProcLocalBackend.sample_fixed_per_key"]}
{"id": "C13", "title": "COUNT: one privacy id changes the raw result within the noise calibration", "statement": "For two datasets that differ by all the rows of one privacy id and the same sampling of everyone else, the vectors of raw per-partition counts differ in at most L0 partitions, by at most Linf each, and their L1 and L2 distances are at most the L1/L2 sensitivities from which the noise is calibrated.", "quantifier": "every pair of neighbouring datasets, all parameters, all sampling outcomes", "why_tests_cant": "pairs of datasets and random outcomes are unbounded; this is the core privacy argument", "anchors": ["pipeline_dp/dp_engine.py:DPEngine._aggregate", "pipeline_dp/combiners.py:CountCombiner", "pipeline_dp/dp_computations.py:compute_sensitivities_for_count", "pipeline_dp/dp_computations.py:Sensitivities"]}
{"id": "C14", "title": "PRIVACY_ID_COUNT: one privacy id changes the raw result within the noise calibration", "statement": "As for COUNT, with every partition changing by at most 1 and at most L0 partitions changing; each id is counted at most once per partition however many rows it has.", "quantifier": "every pair of neighbouring datasets, all parameters, all sampling outcomes", "why_tests_cant": "pairs of datasets and random outcomes are unbounded", "anchors": ["pipeline_dp/combiners.py:PrivacyIdCountCombiner", "pipeline_dp/dp_computations.py:compute_sensitivities_for_privacy_id_count"]}
{"id": "C15", "title": "SUM: one privacy id changes the raw result within the noise calibration", "statement": "For per-value clipping [min_value,max_value] and for per-partition-sum clipping, removing one privacy id changes at most L0 partitions, each by at most the Linf sensitivity used for the noise, and the L1/L2 distances are within the sensitivities used for the noise.", "quantifier": "every pair of neighbouring datasets, all clipping bounds, all sampling outcomes", "why_tests_cant": "pairs of datasets and random outcomes are unbounded", "anchors": ["pipeline_dp/combiners.py:SumCombiner", "pipeline_dp/dp_computations.py:compute_sensitivities_for_sum"]}
{"id": "C16", "title": "MEAN: the normalized sum stays within the noise calibration", "statement": "For MEAN the released count and normalized sum (values minus the middle of the clipping range) each change within the sensitivities used for their noise when one privacy id is removed.", "quantifier": "every pair of neighbouring datasets, all clipping ranges, all sampling outcomes", "why_tests_cant": "pairs of datasets and random outcomes are unbounded", "anchors": ["pipeline_dp/combiners.py:MeanCombiner", "pipeline_dp/dp_computations.py:compute_sensitivities_for_normalized_sum", "pipeline_dp/dp_computations.py:MeanMechanism"]}
{"id": "C17", "title": "VARIANCE: the normalized sum of squares stays within the noise calibration", "statement": "For VARIANCE the released normalized sum of squares changes within the sensitivity used for its noise when one privacy id is removed.", "quantifier": "every clipping range and every pair of neighbouring datasets", "why_tests_cant": "ranges of both signs and datasets are unbounded", "anchors": ["pipeline_dp/combiners.py:VarianceCombiner", "pipeline_dp/dp_computations.py:compute_dp_var", "pipeline_dp/dp_computations.py:compute_squares_interval"]}
{"id": "C18", "title": "max_contributions mode: COUNT/SUM stay within the noise calibration", "statement": "When only max_contributions = M is given, removing one privacy id changes the raw COUNT (resp. SUM) vector by an L1 and L2 distance within the sensitivities used for the noise.", "quantifier": "every pair of neighbouring datasets and sampling outcome", "why_tests_cant": "pairs of datasets and random outcomes are unbounded", "anchors": ["pipeline_dp/contribution_bounders.py:SamplingPerPrivacyIdContributionBounder", "pipeline_dp/dp_computations.py:compute_sensitivities"]}
{"id": "C19", "title": "VECTOR_SUM: the released vector respects the privacy calibration", "statement": "The noise added to a vector sum is calibrated to the amount one privacy id can change the released (clipped) vector.", "quantifier": "all datasets and all vector_max_norm/l0/linf values", "why_tests_cant": "datasets and norms are unbounded", "anchors": ["pipeline_dp/combiners.py:VectorSumCombiner", "pipeline_dp/dp_computations.py:add_noise_vector", "pipeline_dp/dp_computations.py:_clip_vector"]}
{"id": "C20", "title": "Aggregation result does not depend on how accumulators are merged", "statement": "For every built-in metric and for their compound, merging accumulators in any order and any tree shape gives the same accumulator, equal to the one computed from all values at once (one create per privacy id).", "quantifier": "every multiset of accumulators and every merge tree over it", "why_tests_cant": "merge trees are chosen by the runner", "anchors": ["pipeline_dp/combiners.py:CompoundCombiner.merge_accumulators", "pipeline_dp/combiners.py:CountCombiner", "pipeline_dp/combiners.py:SumCombiner", "pipeline_dp/combiners.py:MeanCombiner", "pipeline_dp/combiners.py:VarianceCombiner"]}
{"id": "C21", "title": "Backends agree on per-key combining", "statement": "combine_accumulators_per_key gives, for every key, the same accumulator on the local backend, on Spark for any reduce tree and on Beam for any bundling (including elements being buffered and flushed), for every associative and commutative combiner.", "quantifier": "every collection, every partitioning/bundling/merge schedule", "why_tests_cant": "schedules are chosen by the runner", "anchors": ["pipeline_dp/pipeline_backend.py:LocalBackend.combine_accumulators_per_key", "pipeline_dp/pipeline_backend.py:SparkRDDBackend.combine_accumulators_per_key", "pipeline_dp/pipeline_backend.py:BeamBackend.combine_accumulators_per_key"]}
{"id": "C22", "title": "Noise-free MEAN and VARIANCE are the true mean and variance of the clipped values", "statement": "If the noise drawn is zero, the MEAN metric of a non-empty partition equals the arithmetic mean of the clipped kept values and VARIANCE equals their population variance; COUNT and SUM reported alongside are consistent with them.", "quantifier": "every non-empty multiset of values, every clipping range, every way the values are spread over privacy ids", "why_tests_cant": "universal over values and ranges", "anchors": ["pipeline_dp/combiners.py:MeanCombiner.compute_metrics", "pipeline_dp/dp_computations.py:compute_dp_var", "pipeline_dp/dp_computations.py:_compute_mean_for_normalized_sum"]}
{"id": "C23", "title": "Requested metrics and only those are returned", "statement": "The result of an aggregation contains each requested metric exactly once under its own name, computed by its own combiner, whatever combination of metrics is requested; COUNT/SUM implied by MEAN/VARIANCE are returned only when requested.", "quantifier": "every subset and order of requested metrics", "why_tests_cant": "combination space is exponential and depends on the interplay of metrics", "anchors": ["pipeline_dp/combiners.py:create_compound_combiner", "pipeline_dp/combiners.py:CompoundCombiner.compute_metrics"]}
{"id": "C24", "title": "Public partitions: exactly the public keys are released", "statement": "With public partitions the result has exactly one row per distinct public partition, including partitions absent from the data, and no other key.", "quantifier": "every dataset, every public partition list (with duplicates), every sampling outcome", "why_tests_cant": "universal over datasets", "anchors": ["pipeline_dp/dp_engine.py:DPEngine._aggregate", "pipeline_dp/dp_engine.py:DPEngine._add_empty_public_partitions", "pipeline_dp/dp_engine.py:DPEngine._drop_partitions"]}
{"id": "C25", "title": "Public partitions: rows outside the public set have no influence", "statement": "With public partitions, adding or removing rows whose partition is not public does not change anything in the result: not the keys, not the raw values and not the contribution budget of any privacy id.", "quantifier": "every dataset and set of extra rows, for coupled sampling", "why_tests_cant": "universal over datasets", "anchors": ["pipeline_dp/dp_engine.py:DPEngine._drop_partitions", "pipeline_dp/pipeline_backend.py:LocalBackend.filter_by_key"]}
{"id": "C26", "title": "Private partition selection releases only real partitions and never over-counts privacy ids", "statement": "Without public partitions each released key occurs in the data, is released at most once, and only if the selection strategy accepted it for a privacy-id count that is at most the true number of distinct privacy ids contributing to it after bounding.", "quantifier": "every dataset, every sampling outcome and every selection strategy", "why_tests_cant": "universal over datasets and random decisions", "anchors": ["pipeline_dp/dp_engine.py:DPEngine._select_private_partitions_internal", "pipeline_dp/combiners.py:CompoundCombiner"]}
{"id": "C27", "title": "select_partitions bounds and counts privacy ids", "statement": "In select_partitions each privacy id influences at most max_partitions_contributed partitions, each by exactly one unit however many rows it has; the returned keys occur in the data and are distinct.", "quantifier": "every dataset, every sampling outcome, every selection strategy", "why_tests_cant": "universal over datasets and random decisions", "anchors": ["pipeline_dp/dp_engine.py:DPEngine.select_partitions"]}
{"id": "C28", "title": "Key filtering agrees across backends", "statement": "filter_by_key returns exactly the pairs whose key is in the given key set, with multiplicity, on the local, Beam and Spark backends and with the in-memory or distributed key collection, and for the sharded variant whatever shards are drawn.", "quantifier": "every collection and key collection, every shard assignment", "why_tests_cant": "universal over collections and random shard numbers", "anchors": ["pipeline_dp/pipeline_backend.py:LocalBackend.filter_by_key", "pipeline_dp/pipeline_backend.py:BeamBackend.filter_by_key", "pipeline_dp/pipeline_backend.py:SparkRDDBackend.filter_by_key", "pipeline_dp/pipeline_functions.py:filter_by_key_with_sharding"]}
{"id": "C29", "title": "Logarithmic bins contain their values and partition the positive integers", "statement": "Each positive integer falls into a bin [lower, upper) that contains it, two integers share a bin exactly when one lies in the other's bin, and the bin is at most 1% wide relative to its lower end (3 significant digits are kept).", "quantifier": "every positive integer", "why_tests_cant": "unbounded range, boundary cases at every power of ten", "anchors": ["pipeline_dp/dataset_histograms/computing_histograms.py", "pipeline_dp/dataset_histograms/count_histogram_computation.py:_to_bin_lower_upper_logarithmic"]}
{"id": "C30", "title": "Candidate contribution bounds are exactly the histogram bin starts", "statement": "The candidate list generated for private choice of max_partitions_contributed is strictly increasing and consists of exactly those numbers in [1, upper bound] that are lower ends of the contribution histogram bins.", "quantifier": "every upper bound", "why_tests_cant": "unbounded", "anchors": ["pipeline_dp/private_contribution_bounds.py:generate_possible_contribution_bounds", "pipeline_dp/dataset_histograms/count_histogram_computation.py:_to_bin_lower_upper_logarithmic"]}
{"id": "C31", "title": "Contribution histograms preserve counts and totals", "statement": "In the histogram of contribution counts the bin counts add up to the number of contributors, the bin sums add up to the total contributions, each bin's max is the true maximum of its members, and the histogram does not depend on data order.", "quantifier": "every dataset of counts and every merge order", "why_tests_cant": "universal over datasets", "anchors": ["pipeline_dp/dataset_histograms/count_histogram_computation.py:_compute_frequency_histogram", "pipeline_dp/dataset_histograms/histograms.py:FrequencyBin"]}
{"id": "C32", "title": "Histogram quantiles are correct", "statement": "Histogram.quantiles returns for each q (sorted, in [0,1]) the lower end of a bin such that the fraction of items in strictly smaller bins is at most q, and this is the largest such bin.", "quantifier": "every histogram with sorted bins and every sorted list of quantiles", "why_tests_cant": "universal over histograms and q lists", "anchors": ["pipeline_dp/dataset_histograms/histograms.py:Histogram.quantiles"]}
{"id": "C33", "title": "Ratio-dropped estimates are exact at bin boundaries", "statement": "compute_ratio_dropped reports, for each bin lower end t, the fraction of the total that is lost when every item is truncated at t (items represented by their bin), is 1 at 0, decreases in t and is 0 at the maximum.", "quantifier": "every sorted histogram of positive values", "why_tests_cant": "universal over histograms", "anchors": ["pipeline_dp/dataset_histograms/histograms.py:compute_ratio_dropped"]}
{"id": "C34", "title": "Private choice of the contribution bound is epsilon-DP", "statement": "The score of every candidate bound changes by at most the declared global sensitivity when one privacy id is added, always in the same direction, and the exponential mechanism over those scores changes the probability of choosing any candidate by a factor of at most e^epsilon.", "quantifier": "every dataset, every added privacy id, every candidate list and epsilon", "why_tests_cant": "a probability statement over all neighbouring datasets", "anchors": ["pipeline_dp/private_contribution_bounds.py:L0ScoringFunction", "pipeline_dp/dp_computations.py:ExponentialMechanism"]}
{"id": "C35", "title": "Sum histogram bins contain their values", "statement": "The equal-width bin generator assigns every value of the observed range to a bin index in range whose [lower, upper] contains the value, including the maximum and degenerate (single value) ranges.", "quantifier": "every range, number of bins and value in the range", "why_tests_cant": "universal over reals; boundary at the maximum", "anchors": ["pipeline_dp/dataset_histograms/sum_histogram_computation.py:LowerUpperGenerator"]}
{"id": "C36", "title": "Histograms from pre-aggregated data equal histograms from raw data", "statement": "Computing contribution histograms from pre-aggregated rows gives the same histogram as from the raw rows it was pre-aggregated from.", "quantifier": "every raw dataset", "why_tests_cant": "universal over datasets", "anchors": ["pipeline_dp/dataset_histograms/count_histogram_computation.py", "analysis/pre_aggregation.py:preaggregate"]}
{"id": "C37", "title": "Stage labels are unique and generation terminates", "statement": "All labels ever returned by one label generator are pairwise distinct, each starts with the requested stage name, and every call returns.", "quantifier": "every sequence of requested stage names, including names that look like generated ones", "why_tests_cant": "unbounded histories and adversarial names", "anchors": ["pipeline_dp/pipeline_backend.py:UniqueLabelsGenerator"]}
{"id": "C38", "title": "Invalid aggregation parameters are rejected, and accepted ones are usable", "statement": "AggregateParams accepts a parameter set only if the contribution bounds needed by the chosen mode are present and positive, the clipping bounds are ordered and present whenever a metric needs them, and incompatible options are not combined.", "quantifier": "every combination of parameters", "why_tests_cant": "combinatorial option space with numeric conditions", "anchors": ["pipeline_dp/aggregate_params.py:AggregateParams.__post_init__"]}
{"id": "C39", "title": "Splitting a budget loses and creates nothing", "statement": "equally_split_budget returns exactly the requested number of (eps, delta) pairs whose sums are exactly the given eps and delta, all non-negative and of equal share.", "quantifier": "every eps, delta and number of pieces", "why_tests_cant": "universal over numbers of pieces", "anchors": ["pipeline_dp/dp_computations.py:equally_split_budget"]}
{"id": "C40", "title": "Laplace noise calibrated from the library's sensitivities gives epsilon-DP counts", "statement": "For COUNT over public partitions with Laplace noise, the density of any output vector changes by a factor of at most e^epsilon between datasets differing in one privacy id.", "quantifier": "every pair of neighbouring datasets, every output vector, every parameter set", "why_tests_cant": "a statement about densities over all outputs and datasets", "anchors": ["pipeline_dp/dp_computations.py:LaplaceMechanism.create_from_epsilon", "pipeline_dp/dp_computations.py:compute_sensitivities_for_count", "pipeline_dp/combiners.py:CountCombiner"]}
{"id": "C41", "title": "Utility analysis does not depend on merge order", "statement": "In utility analysis the per-partition accumulators (sparse/dense, exact probabilities/moments) give the same final metrics for every order and tree of merges.", "quantifier": "every multiset of contributions and every merge tree", "why_tests_cant": "merge trees are chosen by the runner; the representation switches at data-dependent thresholds", "anchors": ["analysis/per_partition_combiners.py:CompoundCombiner", "analysis/per_partition_combiners.py:_merge_partition_selection_accumulators"]}
{"id": "C42", "title": "The Poisson-binomial distribution is computed exactly", "statement": "compute_pmf returns, for each k, the exact probability that k of the independent contributions survive; the probabilities are non-negative and add up to 1.", "quantifier": "every list of probabilities", "why_tests_cant": "unbounded lists", "anchors": ["analysis/poisson_binomial.py:compute_pmf"]}
{"id": "C43", "title": "Utility analysis error decomposition is exact", "statement": "For every partition, raw sum + clipping-to-min error + clipping-to-max error + expected l0 error equals the expected value of the bounded sum under uniform sampling of at most L0 of the id's partitions.", "quantifier": "every set of per-id contributions, bounds, and numbers of partitions", "why_tests_cant": "universal over datasets; statement about expectations", "anchors": ["analysis/per_partition_combiners.py:SumCombiner"]}
{"id": "C44", "title": "Public partition summary counts are right", "statement": "compute_public_partitions_summary reports the numbers of partitions that are in both the data and the public list, only in the data, and only in the public list.", "quantifier": "every dataset and public partition list", "why_tests_cant": "universal over datasets", "anchors": ["analysis/dataset_summary.py:compute_public_partitions_summary"]}
{"id": "C45", "title": "Tuning candidates are valid and bounded in number", "statement": "The tuning candidates for one bound are strictly increasing, start at 1, end at the maximal observed value, and are at most as many as requested, whatever floating-point errors occur in computing the step; the cross product of l0 and linf candidates is a valid configuration with every pair exactly once.", "quantifier": "every histogram maximum, every candidate limit and every floating-point step value", "why_tests_cant": "float errors are modelled as arbitrary step values", "anchors": ["analysis/parameter_tuning.py:_find_candidates_constant_relative_step", "analysis/parameter_tuning.py:_find_candidate_parameters"]}
{"id": "C46", "title": "DataFrame queries return the right key columns", "statement": "A DataFrame query returns rows whose key columns are the group-by values of the group and whose metric columns hold the requested metrics under the requested names, for single and multiple group-by columns.", "quantifier": "every data frame, group-by specification and set of aggregations", "why_tests_cant": "universal over data and column lists", "anchors": ["pipeline_dp/dataframes.py:SparkConverter", "pipeline_dp/dataframes.py:Query.run_query", "pipeline_dp/dataframes.py:QueryBuilder"]}
{"id": "C47", "title": "Wrapper APIs forward the aggregation parameters", "statement": "The Beam and Spark private-collection wrappers run the aggregation with the parameters (noise kind, bounds, clipping, budget weight, pre-threshold, ...) given by the caller, and return the one requested number for every released partition.", "quantifier": "every parameter object", "why_tests_cant": "universal over parameter values", "anchors": ["pipeline_dp/private_beam.py", "pipeline_dp/private_spark.py"]}
{"id": "C48", "title": "Multiprocessing backend aggregates correctly under all interleavings", "statement": "On the multi-process backend group_by_key and count_per_element give the same result as on the local backend whatever the interleaving of the worker processes.", "quantifier": "every collection, split and interleaving of worker steps", "why_tests_cant": "interleavings are chosen by the scheduler", "anchors": ["pipeline_dp/pipeline_backend.py:MultiProcLocalBackend", "pipeline_dp/pipeline_backend.py:_LazyMultiProcGroupByIterator", "pipeline_dp/pipeline_backend.py:_LazyMultiProcCountIterator"]}
{"id": "C49", "title": "Clipping stays in range and moves no value further apart", "statement": "Clipped scalars lie in [min,max], values already in range are unchanged and the distance of two values never grows; clipped vectors have norm at most max_norm and vectors within the norm are unchanged.", "quantifier": "every value/vector and bound", "why_tests_cant": "universal over reals", "anchors": ["pipeline_dp/combiners.py:SumCombiner.create_accumulator", "pipeline_dp/dp_computations.py:_clip_vector"]}
{"id": "C50", "title": "Explain-computation report lists every stage in order", "statement": "The report of an aggregation lists the stages exactly in the order they were added, numbered from 1, evaluates deferred stages at the time of reading, and is empty when no parameters were given; reading before budgets are computed fails with a clear error.", "quantifier": "every sequence of stages", "why_tests_cant": "unbounded sequences", "anchors": ["pipeline_dp/report_generator.py:ReportGenerator", "pipeline_dp/report_generator.py:ExplainComputationReport"]}
{"id": "C51", "title": "Counting, summing and min/max per key", "statement": "count_per_element returns each element once with its number of occurrences (adding up to the size of the collection), sum_per_key each key once with the sum of its values, min_max_per_key the true minimum and maximum of each key, and size a one-element collection with the size.", "quantifier": "every collection", "why_tests_cant": "unbounded collections", "anchors": ["pipeline_dp/pipeline_backend.py:LocalBackend.count_per_element", "pipeline_dp/pipeline_backend.py:LocalBackend.sum_per_key", "pipeline_dp/pipeline_functions.py:size", "pipeline_dp/pipeline_functions.py:min_max_per_key"]}
{"id": "C52", "title": "Tuning recommends the configuration with the smallest error", "statement": "When the utility analysis yields one report per configuration, in any order, tuning returns all the reports in the order of the configurations and recommends the first configuration whose error is smallest; a missing or superfluous report is an error, never a recommendation.", "quantifier": "every number of configurations, every order of the reports and all error values", "why_tests_cant": "all permutations of the reports", "anchors": ["analysis/parameter_tuning.py:_convert_utility_analysis_to_tune_result"]}
{"id": "C53", "title": "The automatic strategy picks the least noisy mechanism within the budget", "statement": "The DP strategy selector chooses, for the part of the budget the noise will get, the noise with the smallest standard deviation (Laplace without delta), and for the part the selection gets the strategy with the smallest threshold; the parts add up to the budget; with PRIVACY_ID_COUNT and private partitions the selection thresholds with the chosen noise after the aggregation.", "quantifier": "every budget, metrics, bounds and noise deviations", "why_tests_cant": "universal over budgets and mechanisms", "anchors": ["analysis/dp_strategy_selector.py:DPStrategySelector.get_dp_strategy"]}
{"id": "C54", "title": "Private collections track privacy ids", "statement": "After any sequence of Map and FlatMap on a private collection, the rows of one privacy id are exactly what these transformations make of that privacy id's own input elements; inputs that differ in one privacy id give collections that differ in the rows of this id only; whatever leaves a private collection is the output of an anonymising transform applied to such a collection, and other objects are rejected with TypeError.", "quantifier": "every input, every privacy id and every sequence of transformations", "why_tests_cant": "unbounded sequences of arbitrary functions", "anchors": ["pipeline_dp/private_beam.py:PrivatePCollection", "pipeline_dp/private_beam.py:FlatMap", "pipeline_dp/private_spark.py:PrivateRDD"]}
{"id": "C55", "title": "Multiprocessing backend transformations agree with the local backend", "statement": "On the multi-process backend flat_map, filter, filter_by_key, sample_fixed_per_key and flatten give the rows that the local backend gives (sampling: at most n values per key, all values of that key), whatever the interleaving of the workers and the kind of the input collection.", "quantifier": "every collection (list or generator), predicate, split, interleaving and random draw", "why_tests_cant": "interleavings and draws are chosen outside the program", "anchors": ["pipeline_dp/pipeline_backend.py:MultiProcLocalBackend"]}
{"id": "C56", "title": "The cross-partition utility report averages the partitions", "statement": "Each error of the report of a configuration (bias, variance, rmse, rmse with dropped partitions, bounding errors; absolute and relative) is the weighted average of that error over the partitions; dropped-data ratios are totals relative to the total raw value; partition counts and the mean and variance of the number of kept partitions are sums over partitions; none depends on the order of merging.", "quantifier": "every number of partitions and metrics, all weights, every merge tree", "why_tests_cant": "unbounded number of partitions and all merge orders", "anchors": ["analysis/cross_partition_combiners.py:CrossPartitionCombiner", "analysis/cross_partition_combiners.py:_average_utility_report", "analysis/metrics.py:ValueErrors.to_relative"]}
{"id": "C57", "title": "Utility analysis reports exactly once on every configuration", "statement": "For accepted options perform_utility_analysis yields exactly one report per parameter configuration, labelled with its index and selection strategy, that summarises all partitions analysed with that configuration's own parameters and with the full budget; its histogram has one bin per non-empty range of partition sizes, in order, each bin summarising exactly the partitions of that size; the second result has every (partition, configuration) once.", "quantifier": "every configuration list, number of partitions, metrics, columns, every data set, merge order and grouping", "why_tests_cant": "numbers of configurations and partitions are unbounded and the runner chooses all orders", "anchors": ["analysis/utility_analysis.py:perform_utility_analysis", "analysis/utility_analysis.py:_pack_per_partition_metrics", "analysis/utility_analysis_engine.py:UtilityAnalysisEngine._create_compound_combiner", "analysis/data_structures.py:MultiParameterConfiguration"]}
{"id": "C58", "title": "The error estimator computed from histograms is close to the error on the exact data", "statement": "For every non-empty dataset and bounds >= 1 the estimated RMSE of COUNT and PRIVACY_ID_COUNT differs from the documented algorithm run on the exact contributions by at most 1% plus 0.02 (0.01) average partition sizes, and is equal to it when no count reaches 1000. The estimated lost fraction is between 0 and 1, never below the true one, at most 0.01 above, and decreases with the bound. The noise is that of the mechanism the engine creates for the same budget and bounds.", "quantifier": "every dataset, every pair of bounds, both noise kinds, every budget", "why_tests_cant": "the accuracy depends on all bins and interpolations; tests compare a few numbers", "anchors": ["pipeline_dp/dataset_histograms/histogram_error_estimator.py:ErrorEstimator", "pipeline_dp/dataset_histograms/histogram_error_estimator.py:create_estimator_for_count_and_privacy_id_count", "pipeline_dp/dataset_histograms/histogram_error_estimator.py:create_estimator_for_sum", "pipeline_dp/dataset_histograms/histogram_error_estimator.py:_estimate_rmse_impl"]}
{"id": "C59", "title": "Private partition selection is differentially private", "statement": "With private partitions, the set of partitions that aggregate or select_partitions releases is (eps, delta)-differentially private with respect to adding or removing all rows of one privacy id, for the eps and delta granted to partition selection, whatever contribution bounding draws; the strategy object is created for the bound that contribution bounding enforces.", "quantifier": "every dataset, privacy id, strategy, pre-threshold, bounds, event on the released set and distribution of the contribution bounding draws", "why_tests_cant": "a statement about probabilities of all events over all neighbouring datasets", "anchors": ["pipeline_dp/partition_selection.py:create_partition_selection_strategy", "pipeline_dp/dp_engine.py:DPEngine._select_private_partitions_internal", "pipeline_dp/dp_engine.py:DPEngine._select_partitions", "pipeline_dp/dp_engine.py:DPEngine._aggregate"]}
{"id": "C60", "title": "Aggregations with private partitions respect the total budget", "statement": "Any number of aggregations with private partitions sharing one accountant of total (eps, delta) are together (eps, delta)-differentially private: for every joint event on the kept partitions and on the noisy values on them, the probability changes by at most a factor exp(eps) plus delta when all rows of one privacy id are added or removed, whatever contribution bounding draws.", "quantifier": "every number of aggregations, dataset, privacy id, accountant history, event and distribution of the contribution bounding draws", "why_tests_cant": "a statement about the joint distribution of all outputs over all neighbouring datasets", "anchors": ["pipeline_dp/dp_engine.py:DPEngine.aggregate", "pipeline_dp/dp_engine.py:DPEngine._select_private_partitions_internal", "pipeline_dp/budget_accounting.py:NaiveBudgetAccountant.compute_budgets", "pipeline_dp/dp_computations.py:LaplaceMechanism"]}
{"id": "C61", "title": "All aggregations together are differentially private as executed", "statement": "Running any number of aggregations on one accountant of total (eps, delta), with any metrics (VARIANCE only for ranges whose squares are covered by the declared sensitivity, VECTOR_SUM only with private partitions and a maximal norm of at most half the contributions per partition, see C19), with contribution bounding by the library or bounds already enforced by the user, with Laplace or Gaussian noise and with public partitions, private partition selection or post-aggregation thresholding, is (eps, delta)-differentially private: for every event on everything released, the probability changes by at most a factor exp(eps) plus delta when all rows of one privacy id are added or removed; every call succeeds with probability one.", "quantifier": "every number of calls, parameters, dataset, privacy id, accountant history, event, distribution of the contribution bounding draws, and every PyDP that keeps its promises", "why_tests_cant": "a statement about the joint distribution of all outputs over all neighbouring datasets", "anchors": ["pipeline_dp/dp_engine.py:DPEngine.aggregate", "pipeline_dp/dp_engine.py:DPEngine._drop_partitions_under_threshold", "pipeline_dp/combiners.py:PostAggregationThresholdingCombiner", "pipeline_dp/dp_computations.py:ThresholdingMechanism", "pipeline_dp/dp_computations.py:GaussianMechanism", "pipeline_dp/budget_accounting.py:NaiveBudgetAccountant.compute_budgets"]}
{"id": "C62", "title": "Budgets are bound late and survive serialization", "statement": "Combiners are constructed before budgets are known and hold references to their budgets. In every interleaving of accountant calls, edits of the parameters, constructions, serializations between processes and uses: a mechanism, wherever it is created, has exactly the budget granted to the combiner's own request and the parameters as of its construction; before compute_budgets, and in copies serialized before it, every use raises; afterwards every combiner and every copy made then works, and all copies agree; an object creates its mechanism once.", "quantifier": "every history of calls, any number of combiners, copies of copies, processes", "why_tests_cant": "interleavings and copies are unbounded; tests run in one process with one order", "anchors": ["pipeline_dp/combiners.py:MechanismContainerMixin.__getstate__", "pipeline_dp/combiners.py:MechanismContainerMixin.get_mechanism", "pipeline_dp/combiners.py:CombinerParams", "pipeline_dp/budget_accounting.py:MechanismSpec", "pipeline_dp/dp_computations.py:create_additive_mechanism", "pipeline_dp/dp_computations.py:create_mean_mechanism"]}
{"id": "C63", "title": "Adaptive programs of DPEngine calls are differentially private", "statement": "A program that calls aggregate, select_partitions, add_dp_noise and calculate_private_contribution_bounds any number of times on one accountant of total (eps, delta), where each call may use everything released before (as partitions, bounds, ...), is (eps + x, delta)-differentially private, where x bounds the sum of the calculation_eps of the contribution bounds; every call answers with probability one.", "quantifier": "every adaptive program, dataset, privacy id, accountant history, event, distribution of the contribution bounding draws, and every PyDP that keeps its promises", "why_tests_cant": "a statement about the joint distribution of adaptively chosen outputs over all neighbouring datasets", "anchors": ["pipeline_dp/dp_engine.py:DPEngine.select_partitions", "pipeline_dp/dp_engine.py:DPEngine.add_dp_noise", "pipeline_dp/dp_engine.py:DPEngine.calculate_private_contribution_bounds", "pipeline_dp/dp_engine.py:DPEngine.aggregate", "pipeline_dp/private_contribution_bounds.py:PrivateL0Calculator", "pipeline_dp/dp_computations.py:ExponentialMechanism"]}
{"id": "C64", "title": "Utility analysis predicts the engine", "statement": "For every dataset and every configuration, what UtilityAnalysisEngine reports per partition describes DPEngine.aggregate run with this configuration: true value plus expected clipping and contribution bounding errors is the mean of the result before noise, the reported standard deviation is the one of that result, and the reported probability of keeping a private partition (up to 100 privacy ids) is the probability that it is released; sampling partitions only removes partitions from the analysis, and pre-aggregated data gives the same analysis as raw data.", "quantifier": "every dataset, number of configurations, partition, order of merging, distribution of the random choices that is uniform", "why_tests_cant": "compares two programs through the distribution of random choices over all datasets", "anchors": ["analysis/utility_analysis_engine.py:UtilityAnalysisEngine.analyze", "analysis/contribution_bounders.py:L0LinfAnalysisContributionBounder.bound_contributions", "analysis/contribution_bounders.py:LinfAnalysisContributionBounder.bound_contributions", "analysis/pre_aggregation.py:preaggregate", "analysis/per_partition_combiners.py:SumCombiner", "pipeline_dp/sampling_utils.py:ValueSampler", "pipeline_dp/dp_engine.py:DPEngine.aggregate"]}
{"id": "C65", "title": "LocalBackend builds lazily and reads one-shot iterators correctly", "statement": "Executed with Python iterators that pull from each other and can be read once, DPEngine.aggregate and select_partitions on LocalBackend read no element while the pipeline is built (existing objects are unchanged), and reading the result gives exactly the result of the model on lists, whether the rows are a list or a generator; the result can be read once; a list can be aggregated any number of times; calculate_private_contribution_bounds gives the result of the model on lists when the partitions are a list.", "quantifier": "every memory, collection (list or iterator), parameters, public partitions as a list or None, random choices, amount of fuel above a threshold", "why_tests_cant": "the order in which iterators are advanced depends on the data; tests materialise collections as lists", "anchors": ["pipeline_dp/pipeline_backend.py:LocalBackend", "pipeline_dp/dp_engine.py:DPEngine._aggregate", "pipeline_dp/dp_engine.py:DPEngine._drop_partitions", "pipeline_dp/dp_engine.py:DPEngine._add_empty_public_partitions", "pipeline_dp/contribution_bounders.py", "pipeline_dp/dataset_histograms/computing_histograms.py:compute_dataset_histograms", "pipeline_dp/private_contribution_bounds.py:PrivateL0Calculator.calculate", "pipeline_dp/pipeline_functions.py:collect_to_container"]}
{"id": "C66", "title": "VECTOR_SUM over numpy arrays: aliasing of the rows' arrays", "statement": "VectorSumCombiner.create_accumulator adds vectors in place to the first array of its group. When no array occurs in two rows the aggregation still gives the result of the contents of the arrays; when every accumulator is created of one value the rows may share arrays and nothing is changed; the only arrays an aggregation may change are those of a privacy id with at least two rows in a partition, and only when the library bounds contributions.", "quantifier": "every memory of arrays, dataset whose values are arrays, lists or numbers, parameters, combiners, public or private partitions, valid random choices", "why_tests_cant": "tests build fresh arrays per row and look at the result only; aliasing shows up in the data of later calls or of other privacy ids", "anchors": ["pipeline_dp/combiners.py:VectorSumCombiner.create_accumulator", "pipeline_dp/combiners.py:CompoundCombiner.create_accumulator", "pipeline_dp/contribution_bounders.py", "pipeline_dp/dp_engine.py:DPEngine._aggregate"]}
{"id": "C67", "title": "tune analyses sensible candidates and recommends the one with the smallest error", "statement": "For supported arguments and at least one partition to analyse, tune succeeds; it analyses between one and number_of_parameter_candidates configurations, no two with the same bounds, whose tuned bounds lie in the range of the histograms and whose other bounds are the given ones; noise and partition selection of every configuration are the best for its number of partitions and the assumed budget; the reports are those of the utility analysis of the rows with these parameters, in the order of the configurations; the recommended one is the first with the smallest root mean square error of the decisive metric, averaged over partitions with the probabilities of keeping them.", "quantifier": "every dataset, options, histograms, public or private partitions, sampling of partitions, order and grouping of the backend, strategy oracle, rounding of the candidates", "why_tests_cant": "a composition of candidate search, strategy choice, utility analysis and choice over all datasets; tests use one small dataset", "anchors": ["analysis/parameter_tuning.py:tune", "analysis/parameter_tuning.py:_check_tune_args", "analysis/parameter_tuning.py:_convert_utility_analysis_to_tune_result", "analysis/parameter_tuning.py:_add_dp_strategy_to_multi_parameter_configuration", "analysis/dp_strategy_selector.py:DPStrategySelector", "analysis/utility_analysis.py:perform_utility_analysis"]}
{"id": "C68", "title": "custom combiners: own parameters and budgets, bounded data, differential privacy", "statement": "Every custom combiner is executed with the parameters of its aggregation and the budgets granted for its own requests, provided that no combiner object is used twice; it gets the values of each privacy unit in a partition as one group, bounded as the parameters say; and if every combiner is differentially private with its budgets on data so bounded, then everything that the engine releases is differentially private with the accountant's total budget.", "quantifier": "every list of aggregations on one engine, classes and objects of custom combiners, budget requests, datasets, public or private partitions, valid or random choices of contribution bounding, privacy unit, event", "why_tests_cant": "the claim is about all combiner classes that users may write and about probabilities; sharing of objects between lazy aggregations is invisible in tests of one aggregation", "anchors": ["pipeline_dp/combiners.py:CustomCombiner", "pipeline_dp/combiners.py:create_compound_combiner_with_custom_combiners", "pipeline_dp/combiners.py:CompoundCombiner", "pipeline_dp/dp_engine.py:DPEngine._aggregate", "pipeline_dp/dp_engine.py:DPEngine._create_compound_combiner"]}
{"id": "C69", "title": "already enforced contribution bounds are as good as bounding by the library", "statement": "With contribution_bounds_already_enforced, when the rows are within the bounds that the parameters promise, every raw COUNT, SUM, MEAN and VARIANCE is the one that bounding by the library would give, the noise is calibrated to what one privacy id changes, and one privacy id changes the estimated number of privacy ids by at most one in at most max_partitions_contributed partitions.", "quantifier": "every dataset within the promised bounds, accepted parameters (both kinds of bounds), combiners, public or private partitions, privacy id", "why_tests_cant": "the mode aggregates rows instead of privacy ids; equivalence and sensitivity are claims about all pairs of neighbouring datasets", "anchors": ["pipeline_dp/dp_engine.py:DPEngine._aggregate", "pipeline_dp/dp_engine.py:DPEngine._select_private_partitions_internal", "pipeline_dp/aggregate_params.py:AggregateParams.contribution_bounds_already_enforced", "pipeline_dp/combiners.py:SumCombiner.create_accumulator", "pipeline_dp/dp_computations.py:compute_sensitivities_for_sum"]}
{"id": "C70", "title": "PERCENTILE asks PyDP's quantile trees the right question", "statement": "QuantileCombiner hands to PyDP contribution bounds that are known, positive and true: removing a privacy id takes at most max_contributions_per_partition values from each of at most max_partitions_contributed trees, with bounding by the library or by the user; a tree holds exactly the values of its partition when the data is within the bounds; the answer released as percentile_x is PyDP's answer for the quantile x/100.", "quantifier": "every dataset, accepted parameters, list of percentiles, public or private partitions, valid random choices, privacy id", "why_tests_cant": "sensitivity of a tree-valued aggregate over all neighbouring datasets; the trees are opaque bytes in tests", "anchors": ["pipeline_dp/combiners.py:QuantileCombiner", "pipeline_dp/dp_engine.py:DPEngine._check_aggregate_params", "pipeline_dp/combiners.py:create_compound_combiner"]}
{"id": "C71", "title": "aggregations with the PLD accountant are differentially private with the total budget", "statement": "With a PLDBudgetAccountant, everything that any number of accepted aggregations releases together is (total_epsilon, total_delta)-differentially private, given the composition theorem of the library of privacy loss distributions and PyDP's promises: the noise levels that compute_budgets finds, the sensitivities and the standard deviations handed to PyDP fit together. After compute_budgets every noised quantity has a mechanism with positive parameters.", "quantifier": "every sequence of accepted aggregations on one accountant with any scopes and weights, all datasets, valid random choices, privacy ids, events, total budgets (including total_delta = 0), and every library and PyDP that keep their promises", "why_tests_cant": "differential privacy is a statement about the probabilities of all events for all neighbouring datasets; a wrong factor between the composed and the executed mechanism is invisible in outputs", "anchors": ["pipeline_dp/budget_accounting.py:PLDBudgetAccountant.compute_budgets", "pipeline_dp/budget_accounting.py:PLDBudgetAccountant._compose_distributions", "pipeline_dp/dp_computations.py:create_additive_mechanism", "pipeline_dp/dp_computations.py:LaplaceMechanism.create_from_std_deviation", "pipeline_dp/dp_computations.py:GaussianMechanism.create_from_std_deviation", "pipeline_dp/dp_engine.py:DPEngine._check_budget_accountant_compatibility"]}
{"id": "C72", "title": "several people, and people with other data, are protected with the degraded budget", "statement": "When the rows of k privacy ids are removed, everything the aggregations release together is (k eps, delta (1 + e^eps + ... + e^((k-1) eps)))-indistinguishable, eps and delta being the total budget of the accountant; when the data of one privacy id is replaced by other data, it is (2 eps, (1 + e^eps) delta)-indistinguishable.  For the naive and the PLD accountant, and with random choices of contribution bounding for adaptive programs, pipelines of private collections and sessions of data frame queries.", "quantifier": "every sequence of accepted aggregations on one accountant with any scopes and weights, all datasets, groups of privacy ids, events and total budgets, every PyDP that keeps its promises", "why_tests_cant": "differential privacy is a statement about the probabilities of all events for all neighbouring datasets", "anchors": ["pipeline_dp/dp_engine.py:DPEngine.aggregate", "pipeline_dp/budget_accounting.py:NaiveBudgetAccountant.compute_budgets", "pipeline_dp/budget_accounting.py:PLDBudgetAccountant.compute_budgets"]}
{"id": "C73", "title": "the exact distribution of the released metrics; no bias within the bounds", "statement": "Every released metric has the distribution of its formula applied to independent noised values of the exact count, sum and sum of squares of its partition, released with the probability of the selection strategy for the estimated number of privacy ids (or of the thresholding mechanism for the exact number); if the data is within the contribution bounds, the exact values are the true ones, and if PyDP's noise has mean zero, COUNT, PRIVACY_ID_COUNT and SUM are correct on average.", "quantifier": "every valid call, dataset, partition, metric except PERCENTILE, budgets, function of the metric, valid random choices, and every PyDP that keeps its promises", "why_tests_cant": "a distribution over infinitely many datasets; a small systematic bias disappears in the noise of tests", "anchors": ["pipeline_dp/combiners.py:CountCombiner.compute_metrics", "pipeline_dp/combiners.py:SumCombiner", "pipeline_dp/combiners.py:MeanCombiner.compute_metrics", "pipeline_dp/combiners.py:VarianceCombiner.compute_metrics", "pipeline_dp/combiners.py:CompoundCombiner", "pipeline_dp/dp_engine.py:DPEngine._aggregate", "pipeline_dp/dp_computations.py:compute_dp_var"]}
{"id": "C74", "title": "what leaves private collections is differentially private in the source data", "statement": "A program makes a private collection from source elements, transforms it with Map and FlatMap, and asks for any aggregations and partition selections, also with parameters that depend on earlier replies: all replies together are (eps, delta)-indistinguishable with and without the source elements of one privacy id, eps and delta being the total budget of the accountant; every query that is accepted gets a reply; and the calls on the accountant do not depend on the data.", "quantifier": "both frameworks, all element types, extractors, transformations, programs, sources, privacy ids, scopes and weights, total budgets and events, every PyDP that keeps its promises", "why_tests_cant": "differential privacy is a statement about the probabilities of all events for all neighbouring datasets; tests run single wrappers on single datasets", "anchors": ["pipeline_dp/private_beam.py:PrivatePCollection", "pipeline_dp/private_beam.py:MakePrivate", "pipeline_dp/private_beam.py:Map", "pipeline_dp/private_beam.py:FlatMap", "pipeline_dp/private_beam.py:Sum", "pipeline_dp/private_beam.py:SelectPartitions", "pipeline_dp/private_spark.py:PrivateRDD", "pipeline_dp/private_spark.py:make_private"]}
{"id": "C75", "title": "released records have the documented fields, and survive pickling", "statement": "Two percentiles get the same field name exactly if they are the same number, given as int or float; the compound combiner can be made exactly if the requested percentiles are different, not negative, and integers or at least 0.0001, and raises ValueError otherwise; in any process, with any contents of the cache of named tuple classes, the record of a partition has exactly the documented fields of the requested metrics with their values; a record sent to any other process arrives with the same fields and values, and comes back in its own process as an object of its own class; records of a process with the same fields have one class.", "quantifier": "all lists of requested metrics, percentiles, partitions, merge orders, randomness, and histories of both processes", "why_tests_cant": "infinitely many numbers, histories of the class cache in several processes; tests use percentiles like 10, 90 and 99.5", "anchors": ["pipeline_dp/combiners.py:QuantileCombiner.metrics_names", "pipeline_dp/combiners.py:_get_or_create_named_tuple", "pipeline_dp/combiners.py:_create_named_tuple_instance", "pipeline_dp/combiners.py:CompoundCombiner.__init__", "pipeline_dp/combiners.py:CompoundCombiner.compute_metrics", "pipeline_dp/aggregate_params.py:Metrics.PERCENTILE"]}
{"id": "C76", "title": "distributed runs release what local runs release", "statement": "Every result that DPEngine.aggregate can have on Beam or Spark, in whatever order elements arrive, however values are sampled and accumulators are merged by the framework, is, up to the order of the partitions, a result on LocalBackend with some legal draws of the samples, and every result on LocalBackend is a possible result on Beam and on Spark; the same for select_partitions; in particular exactly the public partitions are released, each once.", "quantifier": "all parameters, datasets, public partitions, keys, schedules of the frameworks, samples, selection decisions and noise", "why_tests_cant": "schedules and orders of merging on a cluster are not under the control of a test, and are unboundedly many", "anchors": ["pipeline_dp/pipeline_backend.py:BeamBackend", "pipeline_dp/pipeline_backend.py:SparkRDDBackend", "pipeline_dp/pipeline_backend.py:LocalBackend", "pipeline_dp/dp_engine.py:DPEngine._aggregate", "pipeline_dp/dp_engine.py:DPEngine._select_partitions", "pipeline_dp/contribution_bounders.py:SamplingCrossAndPerPartitionContributionBounder"]}
{"id": "C77", "title": "every contribution has the same chance to survive contribution bounding", "statement": "With sampling that treats the elements of a group alike, as on LocalBackend, every row survives contribution bounding with the chance min(1, max_partitions_contributed / partitions of its privacy id) times min(1, max_contributions_per_partition / values in its partition), or min(1, max_contributions / rows of its privacy id), depending on the bounder, so that any sum over the kept rows is on average the sum of all rows weighted with these chances; on Spark the chances are products over the merges of the reduction, equal exactly for balanced reductions, and for sequential ones (n/(n+1))^(m - max(n, i)).", "quantifier": "all parameters, datasets, bounds, reduction trees and functions on rows", "why_tests_cant": "chances are averages over all draws; tests look at single draws and at counts", "anchors": ["pipeline_dp/pipeline_backend.py:LocalBackend.sample_fixed_per_key", "pipeline_dp/pipeline_backend.py:SparkRDDBackend.sample_fixed_per_key", "pipeline_dp/sampling_utils.py:choose_from_list_without_replacement", "pipeline_dp/contribution_bounders.py:SamplingPerPrivacyIdContributionBounder", "pipeline_dp/contribution_bounders.py:SamplingCrossAndPerPartitionContributionBounder"]}
{"id": "C78", "title": "queries on data frames are differentially private, also in sessions", "statement": "The frame that Query.run_query returns is (eps, delta)-indistinguishable with and without the rows of one privacy unit, eps and delta being the budget given to run_query; the frames of any session of queries, each chosen depending on the frames before, are together (sum of eps, sum of delta)-indistinguishable.  A query that the builder accepts, with positive bounds, a non-empty range of values and well-formed columns never raises: the accountant grants the budgets, and the frame has the documented columns and exactly one row per group, for all groups if they are public.", "quantifier": "all data frames, privacy units, queries made with QueryBuilder, budgets, noise kinds, sessions of any length, draws of PyDP and of contribution bounding, every PyDP that keeps its promises", "why_tests_cant": "differential privacy is a statement about the probabilities of all events for all neighbouring data frames; tests mock the engine", "anchors": ["pipeline_dp/dataframes.py:Query.run_query", "pipeline_dp/dataframes.py:Budget", "pipeline_dp/dataframes.py:QueryBuilder.build_query", "pipeline_dp/dataframes.py:SparkConverter.dataframe_to_collection"]}
{"id": "C79", "title": "the approximated probability to keep a partition is as good as the normal approximation", "statement": "For partitions with more than 100 contributions the utility analysis approximates the probability to keep a partition from three moments of the contributions; whatever functions norm.cdf and norm.pdf are, if the refined normal approximation of the probability that at most k contributions survive is nowhere more than e off, the approximated probability is at most 2 e + 1/64 off the probability to keep the partition; it is never above the probability of keep for all contributions, not negative if the approximation does not decrease, and exact if every contribution survives for sure or never.", "quantifier": "all numbers and probabilities of contributions, all nondecreasing selection strategies, all functions cdf and pdf, all errors e", "why_tests_cant": "tests compare with a few distributions for which the approximation happens to be good; the error bound is over all lists of probabilities and strategies", "anchors": ["analysis/poisson_binomial.py:compute_pmf_approximation", "analysis/per_partition_combiners.py:PartitionSelectionCalculator.compute_probability_to_keep", "analysis/per_partition_combiners.py:PartitionSelectionCalculator._compute_pmf"]}
{"id": "C80", "title": "infinite values are clipped like large numbers, nan breaks the release", "statement": "A query over values with infinities releases exactly what the query releases where infinity is replaced by any large enough number (with min/max_sum_per_partition as long as no privacy id has both infinities in a partition), so contribution bounds and differential privacy hold for infinities. One nan that contribution bounding keeps makes all SUM, MEAN and VARIANCE accumulators of its partition nan and is released whatever the noise: a query with nan values is not (eps, delta)-differentially private for any eps and delta < 1.", "quantifier": "all parameters, numeric metrics, rows with values in the rationals and inf, -inf, nan, draws, noises, selections and public partitions", "why_tests_cant": "tests do not use special values; the equality is over all data sets, draws and noises, and the refutation over all distributions of the noise", "anchors": ["pipeline_dp/combiners.py:SumCombiner.create_accumulator", "pipeline_dp/combiners.py:MeanCombiner.create_accumulator", "pipeline_dp/combiners.py:VarianceCombiner.create_accumulator", "pipeline_dp/dp_engine.py:DPEngine._aggregate"]}
{"id": "C81", "title": "differential privacy with random contribution bounding", "statement": "Programs of calls of DPEngine that draw at random between the calls - the choices of contribution bounding of the next call, or which call to make next - are (epsilon, delta)-differentially private with the total budget of the accountant plus what private contribution bounds spend, even if the draws are shown. Pipelines of Beam and Spark wrappers and sessions of data frame queries whose choices are drawn from any distribution are differentially private within their budgets.", "quantifier": "all programs, pipelines and sessions of any length, all distributions of draws that do not depend on the data, all data, privacy ids, budgets, every PyDP that keeps its promises", "why_tests_cant": "differential privacy is a statement about the probabilities of all events over the randomness of sampling and noise; tests fix or mock both", "anchors": ["pipeline_dp/dp_engine.py:DPEngine.aggregate", "pipeline_dp/dp_engine.py:DPEngine.select_partitions", "pipeline_dp/contribution_bounders.py:SamplingCrossAndPerPartitionContributionBounder.bound_contributions", "pipeline_dp/sampling_utils.py:choose_from_list_without_replacement"]}
{"id": "C82", "title": "explain reports name the budgets that are spent", "statement": "The explain-computation reports of all calls of one accountant, read after compute_budgets, list the (epsilon, delta) of every mechanism of the accountant exactly once, so the listed epsilons add up to the total epsilon and the deltas to the total delta. The line of a combiner, on any copy in any process, is true of the mechanism that every other copy uses: its budget, its sensitivity and its Laplace parameter. The text of the parameters determines all sensitivities.", "quantifier": "all sequences of budget requests, scopes and calls, all accepted parameters without VECTOR_SUM, all histories of copies and late budgets", "why_tests_cant": "tests compare a few expected strings; that the reported numbers add up to the total and are those in use is over all programs", "anchors": ["pipeline_dp/combiners.py:CountCombiner.explain_computation", "pipeline_dp/combiners.py:CompoundCombiner.explain_computation", "pipeline_dp/dp_computations.py:LaplaceMechanism.describe", "pipeline_dp/report_generator.py:ReportGenerator.report", "pipeline_dp/aggregate_params.py:parameters_to_readable_string"]}
{"id": "C83", "title": "rounded Laplace noise keeps the promises that the privacy theorems assume", "statement": "Laplace noise of scale sensitivity / epsilon whose result is rounded to finitely many floating point numbers in any way is epsilon-differentially private for vectors of values, its error exceeds t plus the rounding error with probability at most exp(- t epsilon / sensitivity), and a smaller scale is not private. The documented Laplace thresholding - noise the count of privacy ids, release it if it is at least the threshold - is (epsilon, delta)-differentially private for privacy ids in at most l0 partitions, with and without pre-threshold. Quantiles computed in any way from the counts of a tree with Laplace noise of scale height * l0 * linf / epsilon are epsilon-differentially private for all the trees together. Hence these algorithms meet what the theorems about whole programs assume of PyDP.", "quantifier": "all values, sensitivities, epsilons, deltas, numbers of partitions, pre-thresholds, all grids of floating point numbers and ways to round to them", "why_tests_cant": "the statement is about probabilities of all events for all neighbouring inputs; tests sample the noise for a few inputs", "anchors": ["pipeline_dp/dp_computations.py:LaplaceMechanism.create_from_epsilon", "pipeline_dp/dp_computations.py:LaplaceMechanism.add_noise", "pipeline_dp/dp_computations.py:ThresholdingMechanism.noised_value_if_should_keep", "pipeline_dp/combiners.py:QuantileCombiner.compute_metrics"]}
{"id": "C84", "title": "annotators see every release once, with the budget it is due", "statement": "On Beam, each collection returned by aggregate, select_partitions and add_dp_noise is what all registered annotators, each called once and in order of registration with the parameters of the call and the budget due to it, make of the result; no two stages of the pipeline share a label; annotators cost no privacy. The announced epsilon is what each call gets exactly if the weights that count (budget_weight, but 1 for add_dp_noise) are in proportion to the budget_weights of the calls.", "quantifier": "all lists of annotators, all programs of engine calls, all weights, all declarations of aggregations, all stage names and suffixes", "why_tests_cant": "tests register one or two annotators and make one call; that announced and granted budgets agree depends on all the calls of a program", "anchors": ["pipeline_dp/pipeline_backend.py:BeamBackend.annotate", "pipeline_dp/pipeline_backend.py:register_annotator", "pipeline_dp/dp_engine.py:DPEngine._annotate", "pipeline_dp/dp_engine.py:DPEngine.add_dp_noise", "pipeline_dp/budget_accounting.py:BudgetAccountant._compute_budget_for_aggregation"]}
{"id": "C85", "title": "released values are close to the truth", "statement": "With data within the contribution bounds and Laplace noise, aggregate releases a COUNT, PRIVACY_ID_COUNT or SUM that is further than t (plus rounding) from the true value with probability at most exp(-t * epsilon / s), where epsilon is the part of the budget of this metric and s is what one privacy id may change over all partitions: the allowed rows, the allowed partitions, or these times the largest absolute value. With public partitions a value within t of the truth is released with the remaining probability; for all partitions at once the probability of a value that is too far is at most their number times this. A MEAN of N rows is further than (t2 + t1 * half range) / max(1, N - t1) from the mean of the clipped values with probability at most the sum of two such terms.", "quantifier": "all data within the bounds, all accepted parameters with Laplace noise, all partitions, budgets, distances t, all grids and ways of rounding, any partition selection", "why_tests_cant": "tests of accuracy sample with large epsilon and few inputs and check expectations; tail bounds for all data and parameters need the distribution of the noise", "anchors": ["pipeline_dp/dp_computations.py:LaplaceMechanism.create_from_epsilon", "pipeline_dp/dp_computations.py:compute_sensitivities_for_sum", "pipeline_dp/dp_computations.py:MeanMechanism.compute_mean", "pipeline_dp/combiners.py:CountCombiner.compute_metrics", "pipeline_dp/combiners.py:MeanCombiner.compute_metrics", "pipeline_dp/dp_engine.py:DPEngine.aggregate"]}
