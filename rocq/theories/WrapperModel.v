(** Model of the private collection wrappers: /repo/pipeline_dp/private_beam.py
    and /repo/pipeline_dp/private_spark.py, with the parameter objects of
    /repo/pipeline_dp/aggregate_params.py:428-630.

    A private collection is the list of its (privacy_id, element) pairs.  The
    engine underneath is EngineModel (the graph as computed by the local
    backend); labels, report objects and the pipeline objects of Beam and Spark
    are not modelled. *)
From Coq Require Import List ZArith QArith Bool.
From Verif Require Import Base BackendModel BounderModel ParamsModel SensModel CombinerModel
  EngineModel BudgetModel.
Import ListNotations.

(** ** Parameter objects *)

(** SumParams, VarianceParams, MeanParams (aggregate_params.py:428-556): the
    same fields. *)
Record value_params (E P : Type) := ValueParams {
  v_max_partitions_contributed : option pyint;
  v_max_contributions_per_partition : option pyint;
  v_min_value : option num;
  v_max_value : option num;
  v_partition_extractor : E -> P;
  v_value_extractor : E -> Q;
  v_budget_weight : Q;
  v_noise_kind : noise;
  v_already_enforced : bool;
  v_pre_threshold : option pyint }.
Arguments v_max_partitions_contributed {E P} v.
Arguments v_max_contributions_per_partition {E P} v.
Arguments v_min_value {E P} v.
Arguments v_max_value {E P} v.
Arguments v_partition_extractor {E P} v _.
Arguments v_value_extractor {E P} v _.
Arguments v_budget_weight {E P} v.
Arguments v_noise_kind {E P} v.
Arguments v_already_enforced {E P} v.
Arguments v_pre_threshold {E P} v.

(** CountParams: aggregate_params.py:559-595. *)
Record count_params (E P : Type) := CountParams {
  n_noise_kind : noise;
  n_max_partitions_contributed : option pyint;
  n_max_contributions_per_partition : option pyint;
  n_partition_extractor : E -> P;
  n_budget_weight : Q;
  n_already_enforced : bool;
  n_pre_threshold : option pyint }.
Arguments n_noise_kind {E P} c.
Arguments n_max_partitions_contributed {E P} c.
Arguments n_max_contributions_per_partition {E P} c.
Arguments n_partition_extractor {E P} c _.
Arguments n_budget_weight {E P} c.
Arguments n_already_enforced {E P} c.
Arguments n_pre_threshold {E P} c.

(** PrivacyIdCountParams: aggregate_params.py:598-634. *)
Record pid_params (E P : Type) := PidParams {
  i_noise_kind : noise;
  i_max_partitions_contributed : option pyint;
  i_partition_extractor : E -> P;
  i_budget_weight : Q;
  i_already_enforced : bool;
  i_pre_threshold : option pyint }.
Arguments i_noise_kind {E P} p.
Arguments i_max_partitions_contributed {E P} p.
Arguments i_partition_extractor {E P} p _.
Arguments i_budget_weight {E P} p.
Arguments i_already_enforced {E P} p.
Arguments i_pre_threshold {E P} p.

(** The aggregations of a private collection: the classes Variance, Mean, Sum,
    Count, PrivacyIdCount of private_beam.py and the methods of the same names
    of PrivateRDD. *)
Inductive request (E P : Type) :=
| RVariance (v : value_params E P)
| RMean (v : value_params E P)
| RSum (v : value_params E P)
| RCount (c : count_params E P)
| RPidCount (i : pid_params E P).
Arguments RVariance {E P} v.
Arguments RMean {E P} v.
Arguments RSum {E P} v.
Arguments RCount {E P} c.
Arguments RPidCount {E P} i.

(** The keyword arguments of AggregateParams(...) that are not given keep the
    defaults of the dataclass (aggregate_params.py:240-260). *)
Definition default_params (ms : list metric) : raw_params :=
  {| r_metrics := ms;
     r_noise_kind := LaplaceNoise;
     r_max_partitions_contributed := None;
     r_max_contributions_per_partition := None;
     r_max_contributions := None;
     r_budget_weight := 1;
     r_min_value := None;
     r_max_value := None;
     r_min_sum_per_partition := None;
     r_max_sum_per_partition := None;
     r_custom_combiners := false;
     r_vector_norm_kind := None;
     r_vector_max_norm := None;
     r_vector_size := None;
     r_contribution_bounds_already_enforced := false;
     r_public_partitions_already_filtered := false;
     r_partition_selection_strategy := TruncatedGeometric;
     r_pre_threshold := None;
     r_post_aggregation_thresholding := false;
     r_perform_cross_partition_contribution_bounding := true |}.

(** Keyword arguments. *)
Inductive kw :=
| KNoise (n : noise)
| KL0 (n : option pyint)
| KLinf (n : option pyint)
| KWeight (w : Q)
| KMin (x : option num)
| KMax (x : option num)
| KEnforced (b : bool)
| KPre (n : option pyint)
| KCustom.
Definition set_kw (r : raw_params) (k : kw) : raw_params :=
  match r with
  | RawParams ms nk l0 linf mc w lo hi slo shi cu vk vn vs en fi st pre post cross =>
    match k with
    | KNoise n => RawParams ms n l0 linf mc w lo hi slo shi cu vk vn vs en fi st pre post cross
    | KL0 n => RawParams ms nk n linf mc w lo hi slo shi cu vk vn vs en fi st pre post cross
    | KLinf n => RawParams ms nk l0 n mc w lo hi slo shi cu vk vn vs en fi st pre post cross
    | KWeight x => RawParams ms nk l0 linf mc x lo hi slo shi cu vk vn vs en fi st pre post cross
    | KMin x => RawParams ms nk l0 linf mc w x hi slo shi cu vk vn vs en fi st pre post cross
    | KMax x => RawParams ms nk l0 linf mc w lo x slo shi cu vk vn vs en fi st pre post cross
    | KEnforced b => RawParams ms nk l0 linf mc w lo hi slo shi cu vk vn vs b fi st pre post cross
    | KPre n => RawParams ms nk l0 linf mc w lo hi slo shi cu vk vn vs en fi st n post cross
    | KCustom => RawParams ms nk l0 linf mc w lo hi slo shi true vk vn vs en fi st pre post cross
    end
  end.
(** pipeline_dp.AggregateParams(metrics=ms, **ks), before the validation. *)
Definition aggregate_params (ms : list metric) (ks : list kw) : raw_params :=
  fold_left set_kw ks (default_params ms).

(** ** Beam: private_beam.py *)

(** Variance.expand 144-153, Mean.expand 209-218, Sum.expand 273-282. *)
Definition beam_value_params {E P} (m : metric) (v : value_params E P) : raw_params :=
  aggregate_params [m]
    [KNoise (v_noise_kind v); KL0 (v_max_partitions_contributed v);
     KLinf (v_max_contributions_per_partition v);
     KMin (v_min_value v); KMax (v_max_value v); KPre (v_pre_threshold v)].
Definition beam_params {E P} (c : request E P) : raw_params :=
  match c with
  | RVariance v => beam_value_params VARIANCE v
  | RMean v => beam_value_params MEAN v
  | RSum v => beam_value_params SUM v
  | RCount n => (* Count.expand 337-344 *)
      aggregate_params [COUNT]
        [KNoise (n_noise_kind n); KL0 (n_max_partitions_contributed n);
         KLinf (n_max_contributions_per_partition n); KPre (n_pre_threshold n)]
  | RPidCount i => (* PrivacyIdCount.expand 401-407 *)
      aggregate_params [PRIVACY_ID_COUNT]
        [KNoise (i_noise_kind i); KL0 (i_max_partitions_contributed i);
         KLinf (Some (PInt 1)); KPre (i_pre_threshold i)]
  end.

(** The value handed to the combiners when the value extractor is
    [lambda x: None]; COUNT and PRIVACY_ID_COUNT never look at it. *)
Definition no_value : value := Num 0.

(** The data extractors applied to one element (private_beam.py:155-161 and the
    same in the other classes). *)
Definition extract_partition {E P} (c : request E P) (x : E) : P :=
  match c with
  | RVariance v | RMean v | RSum v => v_partition_extractor v x
  | RCount n => n_partition_extractor n x
  | RPidCount i => i_partition_extractor i x
  end.
Definition extract_value {E P} (c : request E P) (x : E) : value :=
  match c with
  | RVariance v | RMean v | RSum v => Num (v_value_extractor v x)
  | RCount _ | RPidCount _ => no_value
  end.
Definition beam_row {U E P} (c : request E P) (x : U * E) : option U * P * value :=
  (Some (fst x), extract_partition c (snd x), extract_value c (snd x)).

(** The field of the metrics tuple that is extracted: private_beam.py:173, 238,
    302, 366, 429. *)
Definition field {E P} (c : request E P) : mname :=
  match c with
  | RVariance _ => NVariance | RMean _ => NMean | RSum _ => NSum
  | RCount _ => NCount | RPidCount _ => NPidCount
  end.
Fixpoint get_field (n : mname) (t : list (mname * released)) : result released :=
  match t with
  | [] => Err AttributeError
  | (m, v) :: t' => if eqb n m then Ok v else get_field n t'
  end.

(** ** The engine call *)

(** The randomness: sampling choices, the noise and the answers of the partition
    selection object created from (strategy, max_partitions_contributed,
    pre_threshold) (dp_engine.py:350-356); the budget it also depends on is
    accounted for by the budget requests below. *)
Record world (U P : Type) := World {
  w_sampling : sampling U P;
  w_keep : strategy -> option Z -> option Z -> P -> Z -> bool;
  w_noise : P -> nat -> noises }.
Arguments w_sampling {U P} w.
Arguments w_keep {U P} w _ _ _ _ _.
Arguments w_noise {U P} w _ _.

(** NoiseKind.convert_to_mechanism_type and noise_to_thresholding:
    aggregate_params.py:78-82, 120-126. *)
Definition mech_of (n : noise) : mech_type :=
  match n with LaplaceNoise => LAPLACE | GaussianNoise => GAUSSIAN end.
Definition noise_to_thresholding (n : noise) : mech_type :=
  match n with LaplaceNoise => LAPLACE_THRESHOLDING | GaussianNoise => GAUSSIAN_THRESHOLDING end.
(** The type of the mechanisms requested for a combiner: combiners.py:854, 336-341. *)
Definition request_type (p : params) (c : combiner) : mech_type :=
  match c with CThresh => noise_to_thresholding (noise_kind p) | _ => mech_of (noise_kind p) end.

(** The calls made on the accountant by DPEngine.aggregate: dp_engine.py:97-107
    (scope, _compute_budget_for_aggregation), combiners.py:853-920 (one request
    with weight = budget_weight per mechanism), dp_engine.py:336-337 (one GENERIC
    request of weight 1 for private partition selection). *)
Definition combiner_requests (p : params) (cs : list combiner) : list op :=
  flat_map (fun c => repeat (Request (request_type p c) (budget_weight p) 1 None) (requests c)) cs.
Definition aggregate_ops {P} (p : params) (public : option (list P)) (cs : list combiner) : list op :=
  [Enter (budget_weight p)] ++ combiner_requests p cs
  ++ (if selects_privately p public then [Request GENERIC 1 1 None] else [])
  ++ [StartAgg (budget_weight p); Exit].

(** DPEngine.aggregate (dp_engine.py:65-107) with arguments AggregateParams(r),
    on the extracted rows: the accountant calls and the computed collection.
    The collection and the extractors are present. *)
Definition run_engine {U P} `{EqDec U} `{EqDec P} (w : world U P) (r : raw_params)
    (public : option (list P)) (rows : list (U * P * value))
  : result (list op * result (list (P * list (mname * released)))) :=
  rbind (post_init r) (fun p =>
  rbind (check_aggregate_params true true p) (fun _ =>
  rbind (create_compound_combiner p) (fun cs =>
  Ok (aggregate_ops p public cs,
      aggregate p (w_sampling w)
        (w_keep w (partition_selection_strategy p) (max_partitions_contributed p) (pre_threshold p))
        (w_noise w) public rows)))).

(** backend.map_values(dp_result, lambda v: v.<field>). *)
Definition extract_field {P} (n : mname) (out : list (P * list (mname * released)))
  : result (list (P * released)) :=
  map_result (fun kv => rmap (pair (fst kv)) (get_field n (snd kv))) out.

Definition run_wrapper {U P} `{EqDec U} `{EqDec P} (w : world U P) (r : raw_params)
    (public : option (list P)) (rows : list (U * P * value)) (n : mname)
  : result (list op * result (list (P * released))) :=
  rmap (fun o => (fst o, rbind (snd o) (extract_field n))) (run_engine w r public rows).

(** X.expand of private_beam.py. *)
Definition beam_run {U E P} `{EqDec U} `{EqDec P} (w : world (option U) P) (c : request E P)
    (public : option (list P)) (pcol : list (U * E)) : result (list op * result (list (P * released))) :=
  run_wrapper w (beam_params c) public (map (beam_row c) pcol) (field c).

(** ** Spark: private_spark.py *)

(** variance 85-97, mean 142-153, sum 198-209. *)
Definition spark_value_params {E P} (m : metric) (v : value_params E P) : raw_params :=
  aggregate_params [m]
    [KNoise (v_noise_kind v); KL0 (v_max_partitions_contributed v);
     KLinf (v_max_contributions_per_partition v);
     KMin (v_min_value v); KMax (v_max_value v);
     KWeight (v_budget_weight v); KEnforced (v_already_enforced v)].
Definition spark_params {E P} (c : request E P) : raw_params :=
  match c with
  | RVariance v => spark_value_params VARIANCE v
  | RMean v => spark_value_params MEAN v
  | RSum v => spark_value_params SUM v
  | RCount n => (* count 254-262 *)
      aggregate_params [COUNT]
        [KNoise (n_noise_kind n); KL0 (n_max_partitions_contributed n);
         KLinf (n_max_contributions_per_partition n);
         KWeight (n_budget_weight n); KEnforced (n_already_enforced n)]
  | RPidCount i => (* privacy_id_count 309-316 *)
      aggregate_params [PRIVACY_ID_COUNT]
        [KNoise (i_noise_kind i); KL0 (i_max_partitions_contributed i);
         KLinf (Some (PInt 1)); KEnforced (i_already_enforced i)]
  end.

(** _get_privacy_id_extractor: private_spark.py:369-376, and the None extractor
    in _extract_columns: dp_engine.py:404-417. *)
Definition spark_row {U E P} (c : request E P) (x : U * E) : option U * P * value :=
  (if r_contribution_bounds_already_enforced (spark_params c) then None else Some (fst x),
   extract_partition c (snd x), extract_value c (snd x)).

Definition spark_run {U E P} `{EqDec U} `{EqDec P} (w : world (option U) P) (c : request E P)
    (public : option (list P)) (rdd : list (U * E)) : result (list op * result (list (P * released))) :=
  run_wrapper w (spark_params c) public (map (spark_row c) rdd) (field c).

(** ** select_partitions *)

(** DPEngine.select_partitions: dp_engine.py:214-234 after the checks
    191-212; accountant calls and result. *)
Definition run_select {U P} `{EqDec U} `{EqDec P} (w : world U P) (r : raw_select_params)
    (rows : list (U * P)) : result (list op * list P) :=
  rbind (check_select_params true true r) (fun _ =>
  match int_of (rs_max_partitions_contributed r) with
  | None => Err ValueError
  | Some l0 =>
      Ok ([Enter (rs_budget_weight r); Request GENERIC 1 1 None; StartAgg (rs_budget_weight r); Exit],
          select_partitions (Z.to_nat l0) (ch_pid (w_sampling w))
            (w_keep w (rs_strategy r) (Some l0) (int_of (rs_pre_threshold r))) rows)
  end).

(** SelectPartitions.expand: private_beam.py:446-457 passes the caller's object. *)
Definition beam_select {U E P} `{EqDec U} `{EqDec P} (w : world U P) (r : raw_select_params)
    (extractor : E -> P) (pcol : list (U * E)) : result (list op * list P) :=
  run_select w r (map (fun x => (fst x, extractor (snd x))) pcol).

(** PrivateRDD.select_partitions: private_spark.py:343-367 makes a new object. *)
Definition spark_select_params (r : raw_select_params) : raw_select_params :=
  RawSelect (rs_max_partitions_contributed r) 1 TruncatedGeometric None.
Definition spark_select {U E P} `{EqDec U} `{EqDec P} (w : world U P) (r : raw_select_params)
    (extractor : E -> P) (rdd : list (U * E)) : result (list op * list P) :=
  run_select w (spark_select_params r) (map (fun x => (fst x, extractor (snd x))) rdd).

(** ** CombinePerKey (Beam): private_beam.py:485-650 *)

(** PrivateCombineFn: 485-543; [cf_extract] is extract_private_output with its
    randomness and budget, [cf_requests] the requests made by request_budget. *)
Record combine_fn (V A O : Type) := CombineFn {
  cf_create : A;
  cf_add : A -> V -> A;
  cf_merge : list A -> A;
  cf_extract : A -> O;
  cf_requests : list op }.
Arguments cf_create {V A O} c.
Arguments cf_add {V A O} c _ _.
Arguments cf_merge {V A O} c _.
Arguments cf_extract {V A O} c _.
Arguments cf_requests {V A O} c.

(** CombinePerKeyParams: 585-603. *)
Record combine_params (P : Type) := CombineParams {
  k_max_partitions_contributed : option pyint;
  k_max_contributions_per_partition : option pyint;
  k_budget_weight : Q;
  k_public_partitions : option (list P) }.
Arguments k_max_partitions_contributed {P} c.
Arguments k_max_contributions_per_partition {P} c.
Arguments k_budget_weight {P} c.
Arguments k_public_partitions {P} c.

(** _CombineFnCombiner.create_accumulator / merge_accumulators (551-563) inside a
    CompoundCombiner with one combiner (combiners.py:750-765). *)
Definition fn_create {V A O} (f : combine_fn V A O) (vs : list V) : Z * A :=
  (1%Z, fold_left (cf_add f) vs (cf_create f)).
Definition fn_merge {V A O} (f : combine_fn V A O) (a b : Z * A) : Z * A :=
  ((fst a + fst b)%Z, cf_merge f [snd a; snd b]).

(** DPEngine.aggregate with one custom combiner (dp_engine.py:109-189,
    combiners.py:925-935): per-partition sampling is expected (combiners.py:71-80);
    the result of the compound combiner is the one-element tuple whose element
    the wrapper takes (private_beam.py:646-648). *)
Definition run_custom {U P V A O} `{EqDec U} `{EqDec P} (w : world U P) (r : raw_params)
    (f : combine_fn V A O) (public : option (list P)) (rows : list (U * P * V))
  : result (list op * result (list (P * O))) :=
  rbind (post_init r) (fun p =>
  rbind (check_aggregate_params true true p) (fun _ =>
  let rows1 := match public with
               | Some pub => if public_partitions_already_filtered p then rows
                             else drop_partitions pub rows
               | None => rows
               end in
  let col := rmap (map (fun e => (snd (fst e), snd e)))
                  (bound_contributions p true (w_sampling w) (fn_create f) rows1) in
  let out := rmap (fun col0 =>
       let col1 := match public with
                   | Some (k :: ks) => add_empty_public_partitions col0 (k :: ks) (fn_create f [])
                   | _ => col0
                   end in
       let col2 := combine_per_key (fn_merge f) col1 in
       let col3 := if selects_privately p public
                   then select_private_partitions 1
                          (w_keep w (partition_selection_strategy p) (max_partitions_contributed p)
                                    (pre_threshold p)) col2
                   else col2 in
       map (fun kv => (fst kv, cf_extract f (snd (snd kv)))) col3) col in
  Ok ([Enter (budget_weight p)] ++ cf_requests f
      ++ (if selects_privately p public then [Request GENERIC 1 1 None] else [])
      ++ [StartAgg (budget_weight p); Exit], out))).

(** CombinePerKey.expand: private_beam.py:622-650. *)
Definition beam_combine_params {P} (k : combine_params P) : raw_params :=
  aggregate_params []
    [KL0 (k_max_partitions_contributed k); KLinf (k_max_contributions_per_partition k); KCustom].
Definition beam_combine {U P V A O} `{EqDec U} `{EqDec P} (w : world U P) (f : combine_fn V A O)
    (k : combine_params P) (pcol : list (U * (P * V))) : result (list op * result (list (P * O))) :=
  run_custom w (beam_combine_params k) f None
    (map (fun x => (fst x, fst (snd x), snd (snd x))) pcol).

(** ** Private collections and the transformations that stay private *)

(** MakePrivate.expand: private_beam.py:109-113; PrivateRDD.__init__:
    private_spark.py:32-38. *)
Definition make_private {U X} (extractor : X -> U) (col : list X) : list (U * X) :=
  map (fun x => (extractor x, x)) col.

(** What may be applied to a private collection with [|] (Beam) or called on a
    PrivateRDD: transformations of its elements, anonymising aggregations
    (return_anonymized=True), and objects that are not PrivatePTransforms.
    Simplification: all elements have one type [E] and all outputs one type [O].
    MakePrivate applied to a collection that is already private is not
    modelled. *)
Inductive transform (U E O : Type) :=
| TMap (f : E -> E)                      (* Map 460-469; PrivateRDD.map 41-50 *)
| TFlatMap (f : E -> list E)             (* FlatMap 472-488; PrivateRDD.flat_map 52-61 *)
| TAnonymise (agg : list (U * E) -> O)   (* Variance, ..., CombinePerKey *)
| TOther.
Arguments TMap {U E O} f.
Arguments TFlatMap {U E O} f.
Arguments TAnonymise {U E O} agg.
Arguments TOther {U E O}.

(** Map: backend.map_values / mapValues. *)
Definition private_map {U E} (f : E -> E) (col : list (U * E)) : list (U * E) :=
  map_values f col.
(** FlatMap: the generator [fn] at private_beam.py:482-486; flatMapValues. *)
Definition private_flat_map {U E} (f : E -> list E) (col : list (U * E)) : list (U * E) :=
  flat_map (fun row => map (fun v => (fst row, v)) (f (snd row))) col.

Inductive obj (U E O : Type) :=
| Private (col : list (U * E))
| Anonymous (o : O).
Arguments Private {U E O} col.
Arguments Anonymous {U E O} o.

(** PrivatePCollection.__or__: private_beam.py:82-93. *)
Definition pipe {U E O} (col : list (U * E)) (t : transform U E O) : result (obj U E O) :=
  match t with
  | TMap f => Ok (Private (private_map f col))
  | TFlatMap f => Ok (Private (private_flat_map f col))
  | TAnonymise agg => Ok (Anonymous (agg col))
  | TOther => Err TypeError
  end.

(** col | t1 | t2 | ...; an anonymised collection is an ordinary collection, what
    is applied to it afterwards is outside the model ([None]). *)
Fixpoint pipes {U E O} (col : list (U * E)) (ts : list (transform U E O)) : result (option (obj U E O)) :=
  match ts with
  | [] => Ok (Some (Private col))
  | t :: ts' =>
      rbind (pipe col t) (fun o =>
        match o, ts' with
        | Private c, _ => pipes c ts'
        | Anonymous x, [] => Ok (Some (Anonymous x))
        | Anonymous _, _ => Ok None
        end)
  end.
