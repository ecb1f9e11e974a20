# Formal model of PipelineDP in Rocq (Coq 8.16.1)

## Layout

`rocq/theories/` (logical path `Verif`), per topic:

* `XModel.v`  – executable Gallina model of the Python code; every definition cites file and lines in `/repo`.
* `XSpec.v`   – small specification vocabulary used in the theorem statements (independent of the model's helpers).
* `XProofs.v` – lemmas.
* `XProps.v`  – the property theorems (each proved by `exact <lemma>`), examples showing that the hypotheses are
  met by a concrete non-trivial case, and `Print Assumptions` for each theorem.

`MANIFEST.json` maps properties (`properties.jsonl`) to theorem names.

## Modelling conventions

* Python floats are modelled as exact rationals (`Q`) or, where `sqrt`/`exp` occur, as `R`. Rounding is not modelled. C80 adds the special values inf, -inf and nan (`FloatModel`).
* Python ints are `Z` (unbounded, as in Python); sizes of lists are `nat`.
* Keys (privacy ids, partition keys) are arbitrary types with decidable equality (Python: hashable).
* Python dictionaries are association lists in insertion order.
* Exceptions are values (`result` = `Ok`/`Err` with the Python exception class).
* Randomness is an explicit argument: each sampling call receives the list of indices it draws
  (any list of the right number of distinct indices is allowed), noise draws and partition-selection
  decisions are function arguments. A theorem quantified over these arguments holds for every random outcome.
* Distributed execution (Spark reduce trees, Beam bundles, worker interleavings) is an explicit tree/schedule argument.
* PyDP / dp_accounting / numpy / Beam / Spark primitives are not modelled internally; what is assumed of them is
  said in the comment of the definition that stands for the call.

## Plan per property

| id | model | theorem / proof idea |
|----|-------|----------------------|
| C01-C05 | `BudgetModel`: accountant state machine (requests, scope enter/exit, aggregation start, compute) over arbitrary op lists | invariants by induction over the op list; sums by field arithmetic; single-level share theorem by induction over scope trees |
| C06 | `PldModel`: doubling and bisection loops with an oracle for the composed epsilon | loop invariant |
| C07 | `PldModel`: delta=0 branch over R | algebra |
| C08-C11 | `BounderModel`: each bounder composed of `BackendModel` operations | sub-multiset and cardinality lemmas on `group_by_key`/sampling |
| C12 | `BackendModel`: sampling on local and Spark backends (trees) | induction on trees |
| C13-C18 | `EngineModel` + `CombinerModel` + `SensModel` | removal of a privacy id commutes with bounding; contributions are bounded |
| C17, C19 | false in general (see findings): partial theorem with the extra hypothesis and `_refuted` witness |
| C20-C21 | `CombinerModel`, `BackendModel` | commutative monoid homomorphism, induction on trees/schedules |
| C22 | `CombinerModel` over Q | field arithmetic |
| C23 | `CombinerModel.create_compound_combiner` | case analysis over requested metric sets |
| C24-C27 | `EngineModel` | list/set reasoning |
| C28 | `BackendModel` | permutation proofs; Spark with duplicated keys refuted |
| C29-C33, C35-C36 | `HistModel` | integer arithmetic, induction |
| C34 | `ExpMechModel` over R | exponentials; score sensitivity over Q |
| C37 | `LabelModel` over strings | pigeonhole for termination, invariant for uniqueness |
| C38 | `ParamsModel` | case analysis |
| C39, C49 | `NumModel` | arithmetic |
| C40 | `LaplaceModel` over R, uses C13 | product of density ratios |
| C41-C43 | `AnalysisModel` | induction on merge trees; polynomial identity; counting subsets |
| C44 | `SummaryModel` | counting; duplicates refuted |
| C45 | `TuningModel` | induction |
| C46 | `DataframeModel` | row round trip; one-element column list refuted |
| C47 | `WrapperModel` | record equality; dropped fields refuted; CombinePerKey: homomorphism over the kept groups |
| C48 | `MultiProcModel` | interleavings; lost update refuted |
| C50 | `ReportModel` | induction |
| C51-C53 | `AnalysisModel`, `TuningModel`, `SummaryModel` | see `properties.jsonl` |
| C54 | `WrapperModel` | induction over the sequence of transformations |
| C55 | `MultiProcModel` | interleavings; filter on generators and flatten refuted |
| C56 | `CrossModel` | invariant of accumulators along merge trees, both weight functions; negative relative rmse and min clipping refuted |
| C57 | `UtilityModel` | buckets by bisection; packing by induction over configurations; reports by grouping lemmas over C41 and C56; budget via C01, C02; unusable accepted configurations refuted |
| C58 | `EstimatorModel` | bisection invariant; convexity (chord above the curve) for the interpolated ratio, tangent inequality for the root mean squares of a bin; everything over the histograms of C31 and ratios of C33; SUM with negative sums refuted |
| C59 | `SelectModel` | the engine run as an expectation over independent coins reduces to a product law over partition counts; C27/C17-style influence bounds give neighbouring counts; PyDP's promise is a hypothesis, met by the truncated geometric and Laplace algorithms (domination by a sub-density, one partition at a time); max_contributions refuted |
| C60 | `SelectModel`, `LaplaceModel`, `BudgetModel` | per call: kept set dominated by a sub-density (C59), noise densities close given the kept set (C40); product over calls; the naive accountant (C01, C02) bounds the sums; the integral over a region is an abstract monotone homogeneous functional of mass at most 1; budget_weight refuted |
| C61 | `DpModel`, `EngineModel`, `WrapperModel`, `BudgetModel` | aggregate is run inside a monad of finite distributions; the run is shown equal in law to two stages (which partitions are shown; one group of noisy values per quantity); each stage is close by PyDP's contract and the sensitivity theorems (C13-C18, C25, C59); basic composition for finite distributions; C01 and C02 bound the sums |
| C62 | `LateModel`, `BudgetModel`, `SensModel` | transition system of driver and workers; invariant over traces: every object tracks the specs it came from, copies made early never have a budget |
| C63 | `ProgSpec`, `DpModel`, `EngineModel`, `ExpMechModel` | per operation, loss of its random program in terms of its budget (C61 for aggregate, C59 for selection, noise on bounded differences, exponential mechanism); adaptive composition by induction on the program tree, with binds restricted to possible answers |
| C64 | `AnalyzeModel`, `AnalysisModel`, `UtilityModel`, `EngineModel` | analysed data characterised per privacy id and partition; the exact result of the engine as a sum over privacy ids of clipped contributions of the kept partitions; uniform subsets give independent survivals with probability l0/n; means and variances by C49, packing by C57, keep probability by C59 laws; five disagreements refuted |
| C65 | `LazyModel`, `LazyEngineModel` | memory of lists and iterators, next/list/in with fuel; footprint semantics `den` (what an iterator will yield and which iterators it uses), frame lemmas, a rule per backend operation, composed along the code; refutations computed |
| C66 | `ArrayModel` | memory of arrays, accumulators as references; frame lemmas (an accumulator writes at most the first array of its group), separation of the groups from the sub-multiset property of the bounders; naturality of the bounders in the values; refutations computed |
| C67 | `TuneModel` | composition of C52 (candidates), C53 (strategies), C57 (reports), C64 (data) and C56 (averages); sorting and argmin; a local backend shown fair; refutations computed |
| C68 | `CustomModel` | combiner objects in a heap, budgets by reference; contents of objects when the calls run (induction over calls); the random program rewritten combiner by combiner (`draw_canonical`), then composition as in C61; randomized response as a combiner that keeps its promise; the refutation is an exact probability |
| C69 | `EngineModel` (mode without privacy ids) | the run that trusts the user compared with the run of `enforcing p` for any sampling: data within the bounds is kept completely, noised quantities are sums over rows (`same_values`), then C13-C18; selection by ceiling division |
| C70 | `QuantileModel` | arguments of compute_quantiles as a record; trees as lists of entries, `tree_change` from the bounds on kept rows |
| C71 | `PldDpModel`, `PldDpSpec` | the accountant of BudgetModel with compute_budgets of PldModel; one aggregation as a random program with mechanisms made from standard deviations; composition theorem of the PLD library as a contract (`composition_sound`, `infinity` stands for the float inf), met by a toy library |
| C72 | `GroupSpec` | groups of privacy ids and replaced data, as chains of single removals; over the calls of C61 and C71; in `GroupDrawProps` over the programs, pipelines and sessions of C81 |
| C73 | `LawSpec` | the exact distribution of a released metric (formulas from noised values, presence of the partition), exact values within the bounds, expectation |
| C74 | `PipelineSpec` | programs over the private collections of Beam and Spark: the distribution of all replies with and without one person's source elements |
| C75 | `RecordSpec` | numbers as Python holds them, the documented field names, time in a process (`later`), objects made in it (`made_in`) |
| C76 | `ClusterSpec` | when two results are the same release (`same_release`), noise that acts on numbers (`numeric_noise`) |
| C77 | `SampleSpec` | expectation (`expect`), the chance of one of m elements for n places (`chance`, `row_chance`), chances along a reduction tree (`spark_chances`, `survives`), draws that treat positions alike (`fair_draws`) |
| C78 | `FrameSpec` | a query with its budget as a random program (`run_job`), sessions of queries (`session`, `run_session`, `within`), a frame without a privacy unit (`rows_without`), frames up to the order of rows (`same_frame`), legal jobs (`fit`), usable ranges (`good_range`) |
| C79 | `ApproxSpec` | probabilities of exactly and at most k survivors (`chance_of`, `chance_at_most`), the probability to keep the partition (`true_keep`), the refined normal approximation (`normal_at_most`), strategies that keep larger partitions at least as likely (`reasonable`) |
| C80 | `FloatSpec` | infinity as a large number (`large`, `large_rows`), rows without nan (`no_nan`) and without opposite infinities of one id in one partition (`no_opposites`), released values as floats (`as_floats`), nan in the result (`shows_nan`) |
| C81 | `DrawSpec` | programs of C63 with draws from finite distributions between the calls (`game`, `fair_game`, `run_game`); distributions of the pipelines of C74, the sessions of C78 and the calls of C71 with PLD accounting |
| C82 | `ExplainSpec` | the epsilons and deltas that a report shows (`shown`), that they are the budget of a mechanism (`budget_of_mechanism`), and that a line is true of a mechanism (`true_of`) |
| C83 | `RoundModel` | grids of floating point numbers (`grid`, `sorted_grid`, `rounded`), the distribution function of Laplace noise (`laplace_below`), how far rounding moves a number (`rounds_within`), PyDP with these algorithms (`with_laplace`, and `with_laplace_trees` of `QTreeModel`); the contracts are those of C61 |
| C84 | `AnnotateModel` | induction over annotators and calls; scope trees of C05; post-processing for privacy; add_dp_noise and other backends refuted |
| C85 | none of its own: `with_laplace_trees` (C83) in `run_call` (C61) | law of a metric (C73), tail of rounded Laplace noise (C83), L1 sensitivity of each quantity; union bound for MEAN and over the partitions |

## Trusted base

* Coq 8.16.1: its kernel, `vm_compute` (used for concrete examples and witnesses) and the standard library.
* No axiom is declared in this development; there is no `Admitted`, no `admit`, no open obligation, no section-less
  `Variable`/`Hypothesis`, no functor, no module type, no disabled kernel check, no plugin.
* What `Print Assumptions` lists for each theorem of `MANIFEST.json` is in `ASSUMPTIONS.md` (every `XProps.v` file also
  prints it during the build). In summary:
  * theorems of all properties other than those below: *Closed under the global context*;
  * theorems over the standard library's real numbers (C06, C07, C19, C34, C40, C58, C59, C60, C61, C63, C64, C68, C71, C72, C73, C74, C78, C79, C81, C80 in part, C65 in part, C49 in part, and those marked in
    `ASSUMPTIONS.md`) depend on the axioms by which the library builds the reals:
    `ClassicalDedekindReals.sig_forall_dec`, `ClassicalDedekindReals.sig_not_dec`,
    `FunctionalExtensionality.functional_extensionality_dep`;
  * those that use `exp`, derivatives or `Rpower` (C34 and C40 in part) depend in addition on `Classical_Prop.classic`.
* The reading of the Python code: that the model's definitions say what the cited lines do. This is by inspection; the
  code was never run.
* What is assumed of external libraries is stated at the definition that stands for the call: PyDP mechanisms add
  noise with the calibration they are constructed with; `np.random.choice(range(m), n, replace=False)` and
  `random.sample` return `n` distinct indices below `m` (C77: every set of `n` indices with the same probability, independently
  for every group); Spark's `reduceByKey` and Beam's `CombinePerKey` apply the
  given function along some tree over the values of a key; `Pool.map` hands each row to one worker; accesses to a
  `multiprocessing.Manager` object are atomic; privacy loss distributions of `dp_accounting` are a function of the
  list of composed mechanisms.
* C61 assumes of PyDP (`pydp_keeps_promises`): a Laplace or Gaussian mechanism created for (eps, delta) and a
  sensitivity makes vectors within that sensitivity (eps, delta)-indistinguishable (for the coordinates of VECTOR_SUM, which
  clipping makes real numbers, this is assumed of real vectors); a selection or thresholding strategy
  created for (eps, delta, l0) is (eps, delta)-private for counts that change by one in at most l0 partitions and shows
  no empty partition; the answers of compute_quantiles for (eps, delta, l0, linf) are (eps, delta)-private for all the trees
  together when at most l0 trees get further entries, at most linf each; answers are independent and have finitely many
  possible values. C83 shows that Laplace noise rounded to any finite grid, and Laplace thresholding and quantile
  trees with it, meet these assumptions, so that they are left for Gaussian noise only.
* Not modelled anywhere: floating point rounding, overflow, NaN and infinity (except where validation tests for them and as values of rows in C80);
  pickling (except that C62 treats a serialized combiner as a copy without its mechanism); memory; logging; type annotations; hash collisions; crashes and retries of workers.

## What is modelled and what is not

| source file | modelled | not modelled |
|---|---|---|
| `budget_accounting.py` | both accountants completely: requests, scopes, weights, `n_aggregations`/`aggregation_weights` restrictions, `compute_budgets`, PLD search and noise assignment | internals of the PLD library |
| `dp_engine.py` | `aggregate`, `select_partitions`, `add_dp_noise`, `calculate_private_contribution_bounds`, parameter checks, annotations of the budget, report stages; lazy construction and one-shot iterators on LocalBackend (C65) | laziness of Beam and Spark graphs |
| `analysis/contribution_bounders.py`, `analysis/pre_aggregation.py`, `sampling_utils.ValueSampler`, `utility_analysis_engine.UtilityAnalysisEngine.analyze` | `AnalyzeModel`: both bounders, pre-aggregation, partition sampling, the collection merged per partition | the hash function (any function), num_contributions (never read) |
| `contribution_bounders.py`, `sampling_utils.choose_from_list_without_replacement` | all bounders; the distribution of their draws in `SampleModel` | – |
| `combiners.py` | all combiners, compound combiner, combiner creation, late budgets and serialization (C62), custom combiners (C68), the queries to quantile trees (C70), field names, named tuple classes and pickling of records (C75), values that are inf or nan (C80) | the quantile tree itself (a list of entries, answers opaque), the fixed words of `explain_computation` (its numbers: C82) |
| `dp_computations.py` | sensitivities, calibration for each noise kind, clipping, vector noise, mean and variance computation, exponential mechanism, Laplace densities, thresholding mechanisms, Gaussian noise standard deviation as an external function | PyDP mechanisms themselves, the fixed words of `describe` (its numbers: C82) |
| `aggregate_params.py` | validation of all parameter classes used by the engine, the values that `parameters_to_readable_string` prints (C82) | `__str__`, formatting of text |
| `pipeline_backend.py` | local, Spark, Beam and multi-process backends for the operations used by the engine; whole runs of the engine on Beam and Spark (C76); Beam stage labels; local operations as iterators (C65); annotators (C84) | trivial wrappers `map`, `keys`, `values`, `to_list` (list functions) |
| `pipeline_functions.py` | `size`, `collect_to_container`, `min_max_elements`, filtering with sharding | `key_by` (a map) |
| `private_contribution_bounds.py` | all | – |
| `partition_selection.py` | arguments with which strategies are created, their answers as probabilities | PyDP's strategies (a contract; the documented truncated geometric and Laplace algorithms are shown to meet it) |
| `private_beam.py`, `private_spark.py` | MakePrivate, Map, FlatMap, all aggregations and partition selection | type checks of Beam, `CombinePerKey` pickling |
| `dataframes.py` | query builder, query execution with its accountant and engine, `Budget`, conversion of rows | Spark schema inference |
| `report_generator.py` | all | text formatting of numbers |
| `dataset_histograms/` | count, sum and linf histograms, quantiles, dropped ratio, pre-aggregated variants; the error estimator | the error estimator of several sums (index into a list of histograms) |
| `analysis/` | pre-aggregation, per-partition combiners, cross-partition combiners, utility analysis of several configurations, Poisson binomial (exact part and refined normal approximation), public partition summary, tuning candidates, strategy selector, contribution bounders, `tune` | see the table of properties; Laplace+Gaussian quantiles |

Simplifications are recorded in the comment of each definition.

## Findings

Behaviours of the code that contradict a natural reading of the claims, each proved with a concrete witness of the model.

| theorem | what happens |
|---|---|
| `C01_share_within_total_any_weights_refuted` | with weights that are not positive a mechanism can get more than the total epsilon |
| `C04_every_rejected_compute_changes_nothing_refuted` | `compute_budgets` inside an open scope raises and leaves the accountant unusable |
| `C05_announced_delta_is_granted_refuted` | the delta announced by `_compute_budget_for_aggregation` is not the delta consumed |
| `C06_generic_weight_refuted` | the PLD accountant composes GENERIC mechanisms ignoring weight and sensitivity (direct use of the accountant; DPEngine refuses private partition selection with it) |
| `C06_thresholding_alone_refuted`, `C06_thresholding_composed_refuted` | the PLD accountant ignores thresholding mechanisms |
| `C12_spark_sampling_zero_refuted` | sampling zero elements per key on Spark keeps keys with one value |
| `C17_variance_squares_refuted`, `C17_variance_squares_every_range_refuted` | sum of squares of VARIANCE is under-calibrated for every range with min < 0 < max and (max-min)^2 > 2*max(min^2,max^2); exactly those (`C17_variance_squares_exactly`) |
| `C19_vector_sum_refuted`, `C19_large_norm_refuted` | VECTOR_SUM noise ignores `vector_max_norm`; insufficient exactly if 2*vector_max_norm > max_contributions_per_partition (`C19_exactly`) |
| `C20_vector_empty_accumulator_refuted`, `C24_vector_sum_refuted` | VECTOR_SUM with public partitions raises TypeError |
| `C21_beam_falsy_accumulator_refuted` | the Beam backend drops falsy accumulators |
| `C24_thresholding_refuted` | post-aggregation thresholding drops public partitions |
| `C26_already_filtered_refuted` | `public_partitions_already_filtered` without public partitions: no partition selection at all |
| `C28_spark_join_agrees_refuted` | Spark `filter_by_key` with a distributed key collection repeats rows for repeated keys |
| `C36_sampled_partitions_refuted` | with partition sampling pre-aggregation changes the L0 histogram |
| `C38_*_refuted` | parameters that validation accepts and that make the aggregation fail |
| `C41_*_refuted` | multi-column utility analysis with public partitions: IndexError |
| `C44_repeated_public_partition_refuted` | repeated public partitions are counted as missing/extra wrongly |
| `C45_*_refuted` | tuning edge cases that raise or yield out-of-range candidates |
| `C46_*_refuted` | DataFrame group-by with a one-element list of columns |
| `C47_*_refuted` | fields the Beam/Spark wrappers drop |
| `C48_count_refuted`, `C48_group_generator_refuted`, `C55_*_refuted` | multi-process backend: lost updates, generators, flatten |
| `C50_*_refuted` | explain report: NameError, missing stage, `None` line |
| `C51_size_empty_refuted` | `size` of an empty collection yields no element |
| `C56_dropped_data_accounted_refuted` | utility report: data clipped up to a minimum is counted as dropped |
| `C56_relative_rmse_nonnegative_refuted` | utility report: relative rmse of a negative sum is negative |
| `C57_accepted_configuration_usable_refuted` | MultiParameterConfiguration accepts an empty list beside a non-empty one (it is falsy) and then fails with IndexError |
| `C57_empty_strategies_refuted` | utility analysis with partition_selection_strategy=[] fails with IndexError at the end |
| `C57_report_without_partitions_refuted` | utility analysis of data without partitions yields no report, the docstring promises one per configuration |
| `C58_sum_ratio_refuted` | the SUM error estimator with negative sums: unsorted thresholds for bisect and "ratios" of lost data above 1 |
| `C58_sum_of_zero_refuted` | the SUM error estimator cannot be created when the sums add up to 0 (ZeroDivisionError) |
| `C59_max_contributions_refuted` | accepted parameters with max_contributions and private partitions: the PyDP strategy is created with max_partitions_contributed=None |
| `C59_max_contributions_thresholding_refuted` | the same for post_aggregation_thresholding with max_contributions: `create_thresholding_mechanism` passes `sensitivities.l0`, which is None (dp_computations.py:828-838), to PyDP |
| `C60_budget_weight_of_the_only_aggregation_refuted` | budget_weight of the only aggregation changes the split between noise and private partition selection (the selection request always has weight 1) |
| `C61_order_of_the_result_refuted` | on LocalBackend the order of the partitions in the result follows the data, also for public partitions: one privacy id can determine it, whatever the noise |
| `C63_contribution_bounds_outside_of_the_budget_refuted` | `calculate_private_contribution_bounds` spends `calculation_eps` without telling the accountant: a pipeline with total_epsilon 1 that calls it with calculation_eps 40 is not (1, total_delta)-DP. The total loss is bounded by total_epsilon plus all calculation_eps (C63) |
| `C64_sampled_public_partitions_refuted` | with partitions_sampling_prob < 1 and public partitions, a public partition that is not sampled loses its rows but is still added as an empty partition: the analysis reports it with true value 0 |
| `C64_sum_with_count_refuted` | with SUM and COUNT requested together the engine samples the rows of a privacy id per partition before summing up (CountCombiner expects per-partition sampling), the analysis sums all rows: predicted 8, the engine gives 3 or 5 |
| `C64_empty_public_sum_refuted` | SUM with min_sum_per_partition > 0: the engine clips the sum of an empty public partition to the bound, the analysis predicts 0 |
| `C64_preaggregated_public_refuted` | data pre-aggregated without knowing the public partitions counts the non-public partitions of a privacy id: predicted error -1/2 where contribution bounding drops nothing |
| `C64_already_filtered_refuted` | public_partitions_already_filtered=True without public partitions: the engine releases every partition, the analysis reports the probability of private selection |
| `C65_public_partitions_as_iterator_refuted` | public_partitions given as a generator on LocalBackend: filtering the rows (`key in public_partitions`) consumes it, the partitions consumed are not added to the result; one person with a row in a non-public partition empties the release, so the set of released partitions reveals the person |
| `C65_selected_partitions_refuted` | calculate_private_contribution_bounds with the partitions returned by select_partitions (as its documentation suggests) on LocalBackend: they are consumed by the filter, a row of a selected partition is lost and the number of partitions is missing (TypeError) |
| `C65_partitions_as_iterator_refuted` | the same with a generator of public partitions: partitions read by the filter are not counted |
| `C65_iterator_aggregated_twice_refuted` | two aggregations of the same generator: the second one sees no rows |
| `C66_input_changed_refuted` | VECTOR_SUM sums in place (`array_sum = val; array_sum += val`): the first ndarray of every (privacy id, partition) with two rows is overwritten, a second aggregation of the same data gives another result |
| `C66_shared_arrays_refuted` | rows of different privacy ids that share an ndarray (e.g. looked up in a table): the sum is wrong and one privacy id changes the contributions of the others, beyond the sensitivity |
| `C67_dropped_partitions_refuted` | tune recommends a configuration that keeps a partition with probability 1/65536 although another one keeps every partition and has the smaller reported error with dropped partitions: the minimized error is weighted by the probability to keep a partition (a TODO in the code) |
| `C67_first_metric_refuted` | with metrics=[COUNT, SUM] tune minimizes the error of SUM (first combiner created), not of the first metric that `_check_tune_args` looks at |
| `C67_value_bounds_refuted` | AggregateParams with min_value/max_value pass every check of tune, but the analysis of SUM fails on the missing bounds of sums |
| `C67_no_partitions_refuted` | a dataset without partitions: no reports, AssertionError |
| `C67_thresholding_dropped_refuted` | PRIVACY_ID_COUNT with private partitions: the strategy selector chooses noise for post-aggregation thresholding with the whole epsilon, tune drops that attribute and analyses with half of it; the other noise can be better |
| `C68_shared_object_refuted` | one custom combiner object in two aggregations: nothing forbids it, set_aggregate_params and request_budget of the second overwrite what the first stored, and as pipelines are lazy the first aggregation is executed with the parameters and budgets of the second (`C68_last_parameters_win`); a combiner that keeps its promise then leaks exp(3) with a total budget of epsilon = 2 |
| `C69_partition_sum_refuted` | contribution_bounds_already_enforced with min/max_sum_per_partition is accepted, but accumulators are per row, so the bounds clip every row instead of the sum of a privacy id: three rows 5, 5, -5 of one privacy id (sum 5, bounds [0, 5]) count as 10 while the noise is for 5 |
| `C71_thresholding_refuted` | post_aggregation_thresholding with public partitions passes every check with a PLDBudgetAccountant, but compute_budgets sets no epsilon and delta for thresholding mechanisms: creating the mechanism fails with AssertionError (alone, compute_budgets itself fails, `C06_thresholding_alone_refuted`) |
| `C73_partition_sum_refuted` | SUM with bounds [1, 5] on the sum per partition and public partitions: the accumulator of no values that every public partition starts with is clipped to 1, so the exact SUM of a partition with the one value 3 is 4 and that of an empty one is 1 (SumCombiner.create_accumulator, DPEngine._add_empty_public_partitions) |
| `C75_every_percentile_is_accepted_refuted` | Metrics.PERCENTILE(0.00001) passes all checks of the parameters, but str(0.00001) is '1e-05', and collections.namedtuple rejects the field 'percentile_1e-05': DPEngine.aggregate raises ValueError about identifiers (combiners.py:636-645, 746). Likewise negative percentiles. |
| `C75_order_of_metrics_names_refuted` | with VARIANCE and MEAN the order of the fields of the released records differs from CompoundCombiner.metrics_names(); the class that CompoundCombiner.__init__ makes (combiners.py:746) is never used, compute_metrics makes another one (combiners.py:786). |
| `C76_repeated_public_partition_on_spark_refuted` | an RDD of public partitions that names a partition twice makes `SparkRDDBackend.filter_by_key` (a join, pipeline_backend.py:436-438) repeat its rows, so a privacy id with one row is counted as two; neither LocalBackend nor BeamBackend can release that. |
| `C77_uniform_sampling_on_spark_refuted` | `SamplingPerPrivacyIdContributionBounder` promises that contributions are "uniformly sampled"; `SparkRDDBackend.sample_fixed_per_key` (`random.sample` at every step of `reduceByKey`) prefers values that are merged later, by any factor: with one place and values reduced one after the other, the first of m values survives with probability 2^-(m-1), the last with 1/2. The bounds still hold, so privacy is not affected; sums over data ordered by time are biased towards the latest rows. The docstring of the backend says the sampling is not guaranteed to be uniform, that of the bounder does not |
| `C79_kept_for_sure_refuted` | `compute_pmf_approximation` drops the mass that the normal distribution has above n (`end = min(n, ...)` and no renormalization; the comment speaks of tails below 10^-15): with 100 contributions that survive for sure and one that survives with probability 1/2 the probabilities sum to norm.cdf(2), about 0.977, and the utility analysis reports a partition that is always kept as lost in 2.3% of the runs. |
| `C80_private_nan_refuted` | nothing between the value extractor and the noise looks for nan: `np.clip(nan, lo, hi)` is nan, so one nan of one privacy id makes the released SUM (MEAN, VARIANCE) of its partition nan whatever the noise; its presence can be read off the result, which is not (eps, delta)-differentially private for any eps and delta < 1. |
| `C80_opposite_infinities_refuted` | with min/max_sum_per_partition the values are summed before they are clipped: inf and -inf of one privacy id in one partition are nan, with the same consequence. |
| `C82_vector_sum_refuted` | the budget of VECTOR_SUM is in no report (its line is "None", C50): with COUNT and VECTOR_SUM the epsilons in the report add up to half of what is spent. |
| `C82_same_report_refuted` | `perform_cross_partition_contribution_bounding` is not printed by `parameters_to_readable_string`, and the bounders used without per-partition sampling (and `NoOpSampler`) add no stage: two aggregations with the same report, of which only one bounds the number of partitions of a privacy id. |
| `C82_announced_numbers_refuted` | the stages of contribution bounding say "randomly select max(actual, n)" (contribution_bounders.py:83-86, 100-103, 223-226); the code selects min(actual, n). |
| `C84_announced_is_granted_refuted` | add_dp_noise ignores `budget_weight` when it requests its budget: with declared aggregation weights 1 and 3 it is announced 3/4 of epsilon and gets 1/2, and the other aggregation gets twice what was announced |
| `C84_annotators_of_other_backends_refuted` | registered annotators are called on Beam only |
