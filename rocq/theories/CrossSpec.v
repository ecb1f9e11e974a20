(** Specification vocabulary for the cross-partition utility analysis. *)
From Coq Require Import List ZArith QArith Qabs Bool.
From Verif Require Import Base ParamsModel CrossModel.
Import ListNotations.
Local Open Scope Q_scope.

(** The numbers in ValueErrors. *)
Inductive field :=
| L0Mean | L0Variance | LinfMin | LinfMax
| Bias | Variance | Rmse | L1 | RmseDropped | L1Dropped.
Definition get (f : field) (e : value_errors) : Q :=
  match f with
  | L0Mean => mv_mean (be_l0 (ve_bounding e))
  | L0Variance => mv_var (be_l0 (ve_bounding e))
  | LinfMin => be_linf_min (ve_bounding e)
  | LinfMax => be_linf_max (ve_bounding e)
  | Bias => ve_mean e
  | Variance => ve_variance e
  | Rmse => ve_rmse e
  | L1 => ve_l1 e
  | RmseDropped => ve_rmse_dropped e
  | L1Dropped => ve_l1_dropped e
  end.

(** The errors of one metric in one partition that is kept with probability [keep]
    (metrics.py:24-60, 107-143).  The l1 errors are not computed: 0. *)
Definition bias (m : sum_metrics) : Q := sm_l0_error m + sm_min_error m + sm_max_error m.
Definition spread (m : sum_metrics) : Q := sm_l0_std m * sm_l0_std m + sm_noise_std m * sm_noise_std m.
Definition error (root : Q -> Q) (keep : Q) (m : sum_metrics) (f : field) : Q :=
  match f with
  | L0Mean => sm_l0_error m
  | L0Variance => sm_l0_std m * sm_l0_std m
  | LinfMin => sm_min_error m
  | LinfMax => sm_max_error m
  | Bias => bias m
  | Variance => spread m
  | Rmse => root (bias m * bias m + spread m)
  | RmseDropped => keep * root (bias m * bias m + spread m) + (1 - keep) * Qabs (sm_sum m)
  | L1 | L1Dropped => 0
  end.
(** Relative to the raw value; partitions with raw value 0 count as 0.  Variances are
    relative to the square. *)
Definition relative_error (root : Q -> Q) (keep : Q) (m : sum_metrics) (f : field) : Q :=
  if Qeq_bool (sm_sum m) 0 then 0
  else error root keep m f / match f with L0Variance | Variance => sm_sum m * sm_sum m | _ => sm_sum m end.

(** Weighted average over the partitions; 0 when the weights sum up to 0. *)
Definition average {A} (w : A -> Q) (g : A -> Q) (l : list A) : Q :=
  if Qeq_bool (sumQ (map w l)) 0 then 0
  else sumQ (map (fun a => w a * g a) l) / sumQ (map w l).

(** Metric number [j] of a partition. *)
Definition no_metric : sum_metrics := SumMetrics COUNT 0 0 0 0 0 0 LaplaceNoise.
Definition metric_of (j : nat) (p : partition_metrics) : sum_metrics := nth j (pm_errors p) no_metric.
Definition keep_of (public : bool) (p : partition_metrics) : Q := if public then 1 else pm_keep p.

(** A total as a ratio of the total raw value. *)
Definition ratio (total value : Q) : Q := if Qeq_bool value 0 then total else total / value.

(** What of the raw value is left in expectation after contribution bounding
    (metrics.py:47-49). *)
Definition expected_after_bounding (m : sum_metrics) : Q := sm_sum m + bias m.

(** Equality of reports up to equality of the numbers. *)
Definition errors_eq (a b : value_errors) : Prop := forall f, get f a == get f b.
Definition drop_eq (a b : drop_info) : Prop :=
  di_l0 a == di_l0 b /\ di_linf a == di_linf b /\ di_selection a == di_selection b.
Definition utility_eq (a b : metric_utility) : Prop :=
  mu_metric a = mu_metric b /\ mu_noise_std a == mu_noise_std b /\ mu_noise_kind a = mu_noise_kind b /\
  drop_eq (mu_dropped a) (mu_dropped b) /\ errors_eq (mu_absolute a) (mu_absolute b) /\
  errors_eq (mu_relative a) (mu_relative b).
Definition mean_var_eq (a b : mean_var) : Prop := mv_mean a == mv_mean b /\ mv_var a == mv_var b.
Definition option_rel {A} (R : A -> A -> Prop) (a b : option A) : Prop :=
  match a, b with Some x, Some y => R x y | None, None => True | _, _ => False end.
Definition info_eq (a b : partitions_info) : Prop :=
  pi_public a = pi_public b /\ pi_dataset a = pi_dataset b /\ pi_non_public a = pi_non_public b /\
  pi_empty a = pi_empty b /\ pi_strategy a = pi_strategy b /\ option_rel mean_var_eq (pi_kept a) (pi_kept b).
Definition report_eq (a b : report) : Prop :=
  r_index a = r_index b /\ info_eq (r_partitions a) (r_partitions b) /\
  option_rel (Forall2 utility_eq) (r_errors a) (r_errors b).
