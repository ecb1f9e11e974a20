(** Model of the cross-partition part of the utility analysis:
    /repo/analysis/cross_partition_combiners.py with the data classes of
    /repo/analysis/metrics.py.

    Floats are rationals; [root] is math.sqrt.  Data classes are records; methods
    that change their first argument return the changed record (every accumulator is
    a fresh object, so no other object is affected). *)
From Coq Require Import List ZArith QArith Qabs Bool.
From Verif Require Import Base ParamsModel BackendModel.
Import ListNotations.
Local Open Scope Q_scope.

(** ** metrics.py *)

(** SumMetrics: metrics.py:24-60. *)
Record sum_metrics := SumMetrics {
  sm_aggregation : metric;
  sm_sum : Q;
  sm_min_error : Q;
  sm_max_error : Q;
  sm_l0_error : Q;
  sm_l0_std : Q;
  sm_noise_std : Q;
  sm_noise_kind : noise }.
(** RawStatistics and PerPartitionMetrics: metrics.py:63-74. *)
Record partition_metrics := PartitionMetrics {
  pm_keep : Q;
  pm_ids : Z;
  pm_count : Z;
  pm_errors : list sum_metrics }.
(** MeanVariance, ContributionBoundingErrors, ValueErrors, DataDropInfo,
    MetricUtility, PartitionsInfo: metrics.py:77-240. *)
Record mean_var := MeanVar { mv_mean : Q; mv_var : Q }.
Record bounding_errors := BoundingErrors { be_l0 : mean_var; be_linf_min : Q; be_linf_max : Q }.
Record value_errors := ValueErrors {
  ve_bounding : bounding_errors;
  ve_mean : Q;
  ve_variance : Q;
  ve_rmse : Q;
  ve_l1 : Q;
  ve_rmse_dropped : Q;
  ve_l1_dropped : Q }.
Record drop_info := DropInfo { di_l0 : Q; di_linf : Q; di_selection : Q }.
Record metric_utility := MetricUtility {
  mu_metric : metric;
  mu_noise_std : Q;
  mu_noise_kind : noise;
  mu_dropped : drop_info;
  mu_absolute : value_errors;
  mu_relative : value_errors }.
Record partitions_info := PartitionsInfo {
  pi_public : bool;
  pi_dataset : Z;
  pi_non_public : option Z;
  pi_empty : option Z;
  pi_strategy : option strategy;
  pi_kept : option mean_var }.
(** UtilityReport without the histogram: metrics.py:243-260. *)
Record report := Report {
  r_index : Z;
  r_partitions : partitions_info;
  r_errors : option (list metric_utility) }.

(** to_relative: metrics.py:97-104, 145-172. *)
Definition bounding_to_relative (e : bounding_errors) (v : Q) : bounding_errors :=
  BoundingErrors (MeanVar (mv_mean (be_l0 e) / v) (mv_var (be_l0 e) / (v * v)))
                 (be_linf_min e / v) (be_linf_max e / v).
Definition to_relative (e : value_errors) (v : Q) : value_errors :=
  if Qeq_bool v 0 then ValueErrors (BoundingErrors (MeanVar 0 0) 0 0) 0 0 0 0 0 0
  else ValueErrors (bounding_to_relative (ve_bounding e) v) (ve_mean e / v) (ve_variance e / (v * v))
                   (ve_rmse e / v) (ve_l1 e / v) (ve_rmse_dropped e / v) (ve_l1_dropped e / v).

(** ** Arithmetic on data classes *)

(** _add_dataclasses_by_fields, cross_partition_combiners.py:142-171, on the classes it
    is used for. *)
Definition mean_var_add (a b : mean_var) : mean_var := MeanVar (mv_mean a + mv_mean b) (mv_var a + mv_var b).
Definition bounding_add (a b : bounding_errors) : bounding_errors :=
  BoundingErrors (mean_var_add (be_l0 a) (be_l0 b)) (be_linf_min a + be_linf_min b) (be_linf_max a + be_linf_max b).
Definition value_errors_add (a b : value_errors) : value_errors :=
  ValueErrors (bounding_add (ve_bounding a) (ve_bounding b)) (ve_mean a + ve_mean b) (ve_variance a + ve_variance b)
    (ve_rmse a + ve_rmse b) (ve_l1 a + ve_l1 b) (ve_rmse_dropped a + ve_rmse_dropped b) (ve_l1_dropped a + ve_l1_dropped b).
Definition drop_add (a b : drop_info) : drop_info :=
  DropInfo (di_l0 a + di_l0 b) (di_linf a + di_linf b) (di_selection a + di_selection b).
(** None in the first argument is skipped, a number plus None raises TypeError, a
    data class and None fail the assertion. *)
Definition add_optional {A} (e : exn) (f : A -> A -> A) (a b : option A) : result (option A) :=
  match a, b with
  | None, _ => Ok None
  | Some x, Some y => Ok (Some (f x y))
  | Some _, None => Err e
  end.

(** _multiply_float_dataclasses_field, 174-191: every field declared as float, and
    recursively. *)
Definition mean_var_mul (c : Q) (a : mean_var) : mean_var := MeanVar (mv_mean a * c) (mv_var a * c).
Definition bounding_mul (c : Q) (a : bounding_errors) : bounding_errors :=
  BoundingErrors (mean_var_mul c (be_l0 a)) (be_linf_min a * c) (be_linf_max a * c).
Definition value_errors_mul (c : Q) (a : value_errors) : value_errors :=
  ValueErrors (bounding_mul c (ve_bounding a)) (ve_mean a * c) (ve_variance a * c) (ve_rmse a * c) (ve_l1 a * c)
    (ve_rmse_dropped a * c) (ve_l1_dropped a * c).
Definition drop_mul (c : Q) (a : drop_info) : drop_info := DropInfo (di_l0 a * c) (di_linf a * c) (di_selection a * c).

(** ** From one partition to a report *)

(** _sum_metrics_to_data_dropped: 24-47. *)
Definition data_dropped (m : sum_metrics) (keep : Q) : drop_info :=
  let linf := sm_min_error m - sm_max_error m in
  let l0 := - sm_l0_error m in
  let after := sm_sum m - l0 - linf in
  DropInfo l0 linf (after * (1 - keep)).

(** _create_contribution_bounding_errors: 50-60. *)
Definition create_bounding_errors (m : sum_metrics) : bounding_errors :=
  BoundingErrors (MeanVar (sm_l0_error m) (sm_l0_std m * sm_l0_std m)) (sm_min_error m) (sm_max_error m).

(** _sum_metrics_to_value_error: 63-90. *)
Definition value_error (root : Q -> Q) (m : sum_metrics) (keep weight : Q) : value_errors :=
  let be := create_bounding_errors m in
  let mean := mv_mean (be_l0 be) + be_linf_min be + be_linf_max be in
  let variance := sm_l0_std m * sm_l0_std m + sm_noise_std m * sm_noise_std m in
  let rmse := root (mean * mean + variance) in
  let res := ValueErrors be mean variance rmse 0 (keep * rmse + (1 - keep) * Qabs (sm_sum m)) 0 in
  if Qeq_bool weight 1 then res else value_errors_mul weight res.

(** _sum_metrics_to_metric_utility: 93-117. *)
Definition to_metric_utility (root : Q -> Q) (m : sum_metrics) (keep weight : Q) : metric_utility :=
  let absolute := value_error root m keep weight in
  MetricUtility (sm_aggregation m) (sm_noise_std m) (sm_noise_kind m) (data_dropped m keep) absolute
                (to_relative absolute (sm_sum m)).

(** _partition_metrics_public_partitions, _partition_metrics_private_partitions:
    120-139. *)
Definition public_info (is_empty : bool) : partitions_info :=
  PartitionsInfo true (if is_empty then 0 else 1) (Some 0%Z) (Some (if is_empty then 1 else 0)%Z) None None.
Definition private_info (keep : Q) : partitions_info :=
  PartitionsInfo false 1 None None None (Some (MeanVar keep (keep * (1 - keep)))).

(** _per_partition_to_utility_report: 194-223.  [n_metrics] is len(dp_metrics). *)
Definition to_report (root : Q -> Q) (p : partition_metrics) (n_metrics : nat) (public : bool) (weight : Q)
  : result report :=
  let keep := if public then 1 else pm_keep p in
  let info := if public then public_info (Z.eqb (pm_count p) 0) else private_info (pm_keep p) in
  match n_metrics with
  | O => Ok (Report (-1) info None)
  | _ => if (length (pm_errors p) <? n_metrics)%nat then Err AssertionError
         else Ok (Report (-1) info (Some (map (fun m => to_metric_utility root m keep weight) (pm_errors p))))
  end.

(** ** CrossPartitionCombiner: 298-345 *)

(** partition_size_weight_fn, equal_weight_fn: 277-295. *)
Definition partition_size_weight (p : partition_metrics) : result Q :=
  match pm_errors p with [] => Err IndexError | m :: _ => Ok (sm_sum m) end.
Definition equal_weight (p : partition_metrics) : result Q := Ok (pm_keep p).

Definition cross_acc := (list Q * report * Q)%type.

(** create_accumulator: 318-323. *)
Definition cross_create (root : Q -> Q) (n_metrics : nat) (public : bool) (weight_fn : partition_metrics -> result Q)
    (p : partition_metrics) : result cross_acc :=
  rbind (weight_fn p) (fun w =>
  rmap (fun r => (map sm_sum (pm_errors p), r, w)) (to_report root p n_metrics public w)).

(** _merge_partition_metrics, _merge_metric_utility, _merge_utility_reports: 226-257. *)
Definition merge_info (a b : partitions_info) : result partitions_info :=
  rbind (add_optional TypeError Z.add (pi_non_public a) (pi_non_public b)) (fun np =>
  rbind (add_optional TypeError Z.add (pi_empty a) (pi_empty b)) (fun em =>
  rbind (add_optional AssertionError mean_var_add (pi_kept a) (pi_kept b)) (fun ke =>
  Ok (PartitionsInfo (pi_public a) (pi_dataset a + pi_dataset b) np em (pi_strategy a) ke)))).
Definition merge_utility (a b : metric_utility) : metric_utility :=
  MetricUtility (mu_metric a) (mu_noise_std a) (mu_noise_kind a) (drop_add (mu_dropped a) (mu_dropped b))
    (value_errors_add (mu_absolute a) (mu_absolute b)) (value_errors_add (mu_relative a) (mu_relative b)).
Definition merge_reports (a b : report) : result report :=
  rbind (merge_info (r_partitions a) (r_partitions b)) (fun info =>
  match r_errors a with
  | None => Ok (Report (r_index a) info None)
  | Some ea =>
    match r_errors b with
    | None => Err TypeError
    | Some eb =>
      if negb (Nat.eqb (length ea) (length eb)) then Err AssertionError
      else Ok (Report (r_index a) info (Some (map (fun xy => merge_utility (fst xy) (snd xy)) (combine ea eb))))
    end
  end).

(** merge_accumulators: 325-332. *)
Definition cross_merge (a b : cross_acc) : result cross_acc :=
  let '(sa, ra, wa) := a in
  let '(sb, rb, wb) := b in
  rmap (fun r => (map (fun xy => fst xy + snd xy) (combine sa sb), r, wa + wb)) (merge_reports ra rb).

(** _average_utility_report: 260-274 (zip stops at the shorter sequence). *)
Definition average_utility (total_weight sum_actual : Q) (u : metric_utility) : metric_utility :=
  let scaling := if Qeq_bool total_weight 0 then 0 else 1 / total_weight in
  let dropped := if Qeq_bool sum_actual 0 then 1 else 1 / sum_actual in
  MetricUtility (mu_metric u) (mu_noise_std u) (mu_noise_kind u) (drop_mul dropped (mu_dropped u))
    (value_errors_mul scaling (mu_absolute u)) (value_errors_mul scaling (mu_relative u)).
Fixpoint average_all (total_weight : Q) (sums : list Q) (us : list metric_utility) : list metric_utility :=
  match sums, us with
  | s :: sums', u :: us' => average_utility total_weight s u :: average_all total_weight sums' us'
  | _, _ => us
  end.
(** compute_metrics: 334-339. *)
Definition cross_compute (a : cross_acc) : report :=
  let '(sums, r, w) := a in
  match r_errors r with
  | None => r
  | Some us => Report (r_index r) (r_partitions r) (Some (average_all w sums us))
  end.

(** Accumulators merged along a tree chosen by the runner. *)
Fixpoint cross_tree (root : Q -> Q) (n_metrics : nat) (public : bool) (weight_fn : partition_metrics -> result Q)
    (t : tree partition_metrics) : result cross_acc :=
  match t with
  | Leaf p => cross_create root n_metrics public weight_fn p
  | Node l r => rbind (cross_tree root n_metrics public weight_fn l) (fun a =>
                rbind (cross_tree root n_metrics public weight_fn r) (fun b => cross_merge a b))
  end.
Definition cross_report (root : Q -> Q) (n_metrics : nat) (public : bool) (weight_fn : partition_metrics -> result Q)
    (t : tree partition_metrics) : result report :=
  rmap cross_compute (cross_tree root n_metrics public weight_fn t).
