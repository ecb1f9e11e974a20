(** What a valid parameter set is, written without the checks of the code. *)
From Coq Require Import List ZArith QArith Bool.
From Verif Require Import Base ParamsModel.
Import ListNotations.
Local Open Scope Q_scope.

Definition positive_int (n : option pyint) : Prop := exists z, n = Some (PInt z) /\ (0 < z)%Z.

(** A pair of bounds: both missing, or both finite and in order. *)
Definition no_bounds (lo hi : option num) : Prop := lo = None /\ hi = None.
Definition good_bounds (lo hi : option num) : Prop := exists a b, lo = Some (Fin a) /\ hi = Some (Fin b) /\ a <= b.

(** Metrics that need bounds on single values. *)
Definition needs_value_bounds (m : metric) : Prop :=
  match m with MEAN | VARIANCE | PERCENTILE _ => True | _ => False end.

Record valid (r : raw_params) : Prop := {
  v_bounding :
    (positive_int (r_max_contributions r) /\ r_max_partitions_contributed r = None
       /\ r_max_contributions_per_partition r = None) \/
    (r_max_contributions r = None /\ positive_int (r_max_partitions_contributed r)
       /\ positive_int (r_max_contributions_per_partition r));
  v_clipping :
    (no_bounds (r_min_value r) (r_max_value r) /\ no_bounds (r_min_sum_per_partition r) (r_max_sum_per_partition r)) \/
    (good_bounds (r_min_value r) (r_max_value r) /\ no_bounds (r_min_sum_per_partition r) (r_max_sum_per_partition r)) \/
    (no_bounds (r_min_value r) (r_max_value r) /\ good_bounds (r_min_sum_per_partition r) (r_max_sum_per_partition r));
  v_value_metrics : ~ In VECTOR_SUM (r_metrics r) -> forall m, In m (r_metrics r) -> needs_value_bounds m ->
    good_bounds (r_min_value r) (r_max_value r);
  v_sum : ~ In VECTOR_SUM (r_metrics r) -> In SUM (r_metrics r) ->
    good_bounds (r_min_value r) (r_max_value r) \/ good_bounds (r_min_sum_per_partition r) (r_max_sum_per_partition r);
  v_vector : In VECTOR_SUM (r_metrics r) ->
    ~ In SUM (r_metrics r) /\ ~ In MEAN (r_metrics r) /\ ~ In VARIANCE (r_metrics r);
  v_enforced : r_contribution_bounds_already_enforced r = true -> ~ In PRIVACY_ID_COUNT (r_metrics r);
  v_custom : r_custom_combiners r = true -> r_metrics r = [];
  v_pre_threshold : r_pre_threshold r = None \/ positive_int (r_pre_threshold r) }.

(** Clipping bounds that leave no room for any value but zero noise: rejected
    only later, when the sensitivities are computed. *)
Definition both_zero (lo hi : option Q) : Prop :=
  exists a b, lo = Some a /\ hi = Some b /\ a == 0 /\ b == 0.
Definition one_point (lo hi : option Q) : Prop := exists a b, lo = Some a /\ hi = Some b /\ a == b.
