(** Model of /repo/pipeline_dp/aggregate_params.py: AggregateParams and its
    validation.

    Simplifications: [metrics = None] and [custom_combiners = None] are treated
    as the empty list (both are falsy; only the truth value is used by the
    validation); the custom combiner objects are opaque, only whether there are
    any is kept; warnings are not modelled. *)
From Coq Require Import List ZArith QArith Bool.
From Verif Require Import Base.
Import ListNotations.
Local Open Scope Q_scope.

(** aggregate_params.py:28-74 Metric / Metrics. *)
Inductive metric :=
| COUNT | PRIVACY_ID_COUNT | SUM | MEAN | VARIANCE | VECTOR_SUM
| PERCENTILE (p : Q).

(** Metric.__eq__: aggregate_params.py:40-43. *)
Definition metric_eqb (a b : metric) : bool :=
  match a, b with
  | COUNT, COUNT | PRIVACY_ID_COUNT, PRIVACY_ID_COUNT | SUM, SUM
  | MEAN, MEAN | VARIANCE, VARIANCE | VECTOR_SUM, VECTOR_SUM => true
  | PERCENTILE p, PERCENTILE q => Qeq_bool p q
  | _, _ => false
  end.

(** [metric in metrics]. *)
Definition has (m : metric) (ms : list metric) : bool := existsb (metric_eqb m) ms.

(** aggregate_params.py:76-84 NoiseKind. *)
Inductive noise := LaplaceNoise | GaussianNoise.

(** aggregate_params.py:87-90 PartitionSelectionStrategy. *)
Inductive strategy := TruncatedGeometric | LaplaceThresholding | GaussianThresholding.

(** aggregate_params.py:129-133 NormKind. *)
Inductive norm_kind := Linf | L0 | L1 | L2.

(** A number given by the caller: finite, or NaN / infinite
    (_not_a_proper_number, aggregate_params.py:678-680). *)
Inductive num := Fin (q : Q) | NanOrInf.

(** A value given for an integer field: an int, or something else (_is_int,
    aggregate_params.py:693-694). *)
Inductive pyint := PInt (z : Z) | PNotInt.

(** The arguments of AggregateParams(...): aggregate_params.py:240-260. *)
Record raw_params := RawParams {
  r_metrics : list metric;
  r_noise_kind : noise;
  r_max_partitions_contributed : option pyint;
  r_max_contributions_per_partition : option pyint;
  r_max_contributions : option pyint;
  r_budget_weight : Q;
  r_min_value : option num;
  r_max_value : option num;
  r_min_sum_per_partition : option num;
  r_max_sum_per_partition : option num;
  r_custom_combiners : bool;
  r_vector_norm_kind : option norm_kind;
  r_vector_max_norm : option Q;
  r_vector_size : option Z;
  r_contribution_bounds_already_enforced : bool;
  r_public_partitions_already_filtered : bool;
  r_partition_selection_strategy : strategy;
  r_pre_threshold : option pyint;
  r_post_aggregation_thresholding : bool;
  r_perform_cross_partition_contribution_bounding : bool }.

(** The validated object as the rest of the library sees it: the same fields
    with the types that the validation establishes. *)
Record params := Params {
  metrics : list metric;
  noise_kind : noise;
  max_partitions_contributed : option Z;
  max_contributions_per_partition : option Z;
  max_contributions : option Z;
  budget_weight : Q;
  min_value : option Q;
  max_value : option Q;
  min_sum_per_partition : option Q;
  max_sum_per_partition : option Q;
  custom_combiners : bool;
  vector_norm_kind : option norm_kind;
  vector_max_norm : option Q;
  vector_size : option Z;
  contribution_bounds_already_enforced : bool;
  public_partitions_already_filtered : bool;
  partition_selection_strategy : strategy;
  pre_threshold : option Z;
  post_aggregation_thresholding : bool;
  perform_cross_partition_contribution_bounding : bool }.

Definition is_some {A} (o : option A) : bool := match o with Some _ => true | None => false end.

(** [if b: raise e]. *)
Definition raise_if (b : bool) (e : exn) {A} (k : result A) : result A :=
  if b then Err e else k.

(** _check_both_property_set_or_not: aggregate_params.py:371-379. *)
Definition both_or_none {A B} (a : option A) (b : option B) : bool :=
  eqb (is_some a) (is_some b).

Definition improper (n : option num) : bool :=
  match n with Some NanOrInf => true | _ => false end.

(** [min_value > max_value] of two proper numbers. *)
Definition out_of_order (lo hi : option num) : bool :=
  match lo, hi with
  | Some (Fin a), Some (Fin b) => negb (Qle_bool a b)
  | _, _ => false
  end.

(** _check_range_correctness: aggregate_params.py:381-393. *)
Definition bad_range (lo hi : option num) : bool :=
  improper lo || improper hi || out_of_order lo hi.

(** _check_is_positive_int: aggregate_params.py:683-686. *)
Definition not_positive_int (n : option pyint) : bool :=
  match n with Some (PInt z) => (z <=? 0)%Z | _ => true end.

(** metrics outside of the allowed sets: aggregate_params.py:312-334. *)
Definition only (allowed : list metric) (ms : list metric) : bool :=
  forallb (fun m => has m allowed) ms.

Definition fin (n : option num) : option Q :=
  match n with Some (Fin q) => Some q | _ => None end.
Definition int_of (n : option pyint) : option Z :=
  match n with Some (PInt z) => Some z | _ => None end.

(** AggregateParams.__post_init__: aggregate_params.py:281-369, checks in the
    order of the code. *)
Definition post_init (r : raw_params) : result params :=
  raise_if (negb (both_or_none (r_min_value r) (r_max_value r))) ValueError (
  raise_if (negb (both_or_none (r_min_sum_per_partition r) (r_max_sum_per_partition r))) ValueError (
  let value_bound := is_some (r_min_value r) in
  let partition_bound := is_some (r_min_sum_per_partition r) in
  raise_if (value_bound && partition_bound) ValueError (
  raise_if (value_bound && bad_range (r_min_value r) (r_max_value r)) ValueError (
  raise_if (partition_bound && bad_range (r_min_sum_per_partition r) (r_max_sum_per_partition r)) ValueError (
  let ms := r_metrics r in
  raise_if
    (if has VECTOR_SUM ms then has SUM ms || has MEAN ms || has VARIANCE ms
     else if partition_bound then negb (only [SUM; PRIVACY_ID_COUNT; COUNT] ms)
     else if negb value_bound then negb (only [PRIVACY_ID_COUNT; COUNT] ms)
     else false) ValueError (
  raise_if (r_contribution_bounds_already_enforced r && has PRIVACY_ID_COUNT ms) ValueError (
  raise_if (match ms with [] => false | _ => r_custom_combiners r end) ValueError (
  raise_if
    (match r_max_contributions r with
     | Some m => not_positive_int (Some m)
                 || is_some (r_max_partitions_contributed r)
                 || is_some (r_max_contributions_per_partition r)
     | None => negb (is_some (r_max_partitions_contributed r))
               || negb (is_some (r_max_contributions_per_partition r))
               || not_positive_int (r_max_partitions_contributed r)
               || not_positive_int (r_max_contributions_per_partition r)
     end) ValueError (
  raise_if (is_some (r_pre_threshold r) && not_positive_int (r_pre_threshold r)) ValueError (
  Ok {| metrics := ms;
        noise_kind := r_noise_kind r;
        max_partitions_contributed := int_of (r_max_partitions_contributed r);
        max_contributions_per_partition := int_of (r_max_contributions_per_partition r);
        max_contributions := int_of (r_max_contributions r);
        budget_weight := r_budget_weight r;
        min_value := fin (r_min_value r);
        max_value := fin (r_max_value r);
        min_sum_per_partition := fin (r_min_sum_per_partition r);
        max_sum_per_partition := fin (r_max_sum_per_partition r);
        custom_combiners := r_custom_combiners r;
        vector_norm_kind := r_vector_norm_kind r;
        vector_max_norm := r_vector_max_norm r;
        vector_size := r_vector_size r;
        contribution_bounds_already_enforced := r_contribution_bounds_already_enforced r;
        public_partitions_already_filtered := r_public_partitions_already_filtered r;
        partition_selection_strategy := r_partition_selection_strategy r;
        pre_threshold := int_of (r_pre_threshold r);
        post_aggregation_thresholding := r_post_aggregation_thresholding r;
        perform_cross_partition_contribution_bounding :=
          r_perform_cross_partition_contribution_bounding r |})))))))))).

(** bounds_per_contribution_are_set / bounds_per_partition_are_set:
    aggregate_params.py:271-279. *)
Definition bounds_per_contribution_are_set (p : params) : bool :=
  is_some (min_value p) && is_some (max_value p).
Definition bounds_per_partition_are_set (p : params) : bool :=
  is_some (min_sum_per_partition p) && is_some (max_sum_per_partition p).

(** DPEngine._check_aggregate_params: /repo/pipeline_dp/dp_engine.py:419-450.
    [col_ok] / [extractors_ok]: the checks of the collection and of the data
    extractors (dp_engine.py:612-640) pass; [params] is an AggregateParams
    object (the None case is in EngineModel). *)
Definition check_aggregate_params (col_ok extractors_ok : bool) (p : params) : result unit :=
  raise_if (is_some (max_contributions p)
            && negb (only [PRIVACY_ID_COUNT; COUNT; SUM; MEAN] (metrics p))) NotImplementedError (
  raise_if (negb col_ok) ValueError (
  raise_if (negb extractors_ok) ValueError (
  raise_if (contribution_bounds_already_enforced p && has PRIVACY_ID_COUNT (metrics p)) ValueError (
  raise_if (post_aggregation_thresholding p && negb (has PRIVACY_ID_COUNT (metrics p))) ValueError (
  Ok tt))))).

(** DPEngine._check_budget_accountant_compatibility:
    /repo/pipeline_dp/dp_engine.py:523-544. *)
Definition check_accountant (naive is_public : bool) (ms : list metric) (custom : bool)
  : result unit :=
  if naive then Ok tt else
  raise_if (negb is_public) NotImplementedError (
  raise_if (negb (only [COUNT; PRIVACY_ID_COUNT; SUM; MEAN] ms)) NotImplementedError (
  raise_if custom ValueError (Ok tt))).

(** SelectPartitionsParams.__post_init__ (aggregate_params.py:420-422) together
    with DPEngine._check_select_private_partitions (dp_engine.py:191-212). *)
Record raw_select_params := RawSelect {
  rs_max_partitions_contributed : option pyint;
  rs_budget_weight : Q;
  rs_strategy : strategy;
  rs_pre_threshold : option pyint }.
Definition check_select_params (col_ok extractors_ok : bool) (r : raw_select_params) : result unit :=
  raise_if (is_some (rs_pre_threshold r) && not_positive_int (rs_pre_threshold r)) ValueError (
  raise_if (negb col_ok) ValueError (
  raise_if (not_positive_int (rs_max_partitions_contributed r)) ValueError (
  raise_if (negb extractors_ok) ValueError (Ok tt)))).

(** AddDPNoiseParams.__post_init__: aggregate_params.py:646-675. *)
Definition check_add_noise_params (l0 : Z) (linf : Q) (weight : Q) : result unit :=
  raise_if (l0 <=? 0)%Z ValueError (
  raise_if (Qle_bool linf 0) ValueError (
  raise_if (Qle_bool weight 0) ValueError (Ok tt))).

(** CalculatePrivateContributionBoundsParams.__post_init__:
    aggregate_params.py:156-174; validate_epsilon_delta is
    /repo/pipeline_dp/input_validators.py:17-34. *)
Definition check_private_bounds_params (kind : option noise) (agg_eps agg_delta calc_eps : Q)
    (upper : option pyint) : result unit :=
  let bad e d := Qle_bool e 0 || negb (Qle_bool 0 d) || Qle_bool 1 d in
  raise_if (bad agg_eps agg_delta) ValueError (
  raise_if (negb (is_some kind)) ValueError (
  raise_if (match kind with Some GaussianNoise => Qeq_bool agg_delta 0 | _ => false end) ValueError (
  raise_if (bad calc_eps 0) ValueError (
  raise_if (not_positive_int upper) ValueError (Ok tt))))).
