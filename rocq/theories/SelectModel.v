(** Model of /repo/pipeline_dp/partition_selection.py and of its use in
    /repo/pipeline_dp/dp_engine.py.

    PyDP's partition selection objects are external.  The library creates one with
    given arguments and asks it [should_keep(n)]; the object answers True with a
    probability that depends on its arguments and on [n] only.  The two algorithms at
    the end of the file are the documented ones of PyDP and serve to show that the
    contract assumed of PyDP can be met; PyDP's own code is not modelled. *)
From Coq Require Import String List ZArith QArith Qreals Reals.
From Verif Require Import Base ParamsModel BudgetModel.
Import ListNotations.

(** The arguments given to pydp's create_partition_strategy: name of the strategy,
    epsilon, delta, max_partitions_contributed, pre_threshold.  [None] is Python's
    None; a pre_threshold of None is not passed on at all (partition_selection.py:38-45),
    which is the same for PyDP. *)
Record selector := Selector {
  sel_name : string;
  sel_eps : Q;
  sel_delta : Q;
  sel_l0 : option Z;
  sel_pre : option Z }.

(** PARTITION_STRATEGY_ENUM_TO_STR: partition_selection.py:19-26. *)
Definition strategy_name (s : strategy) : string :=
  match s with
  | TruncatedGeometric => "truncated_geometric"
  | LaplaceThresholding => "laplace"
  | GaussianThresholding => "gaussian"
  end%string.

(** create_partition_selection_strategy: partition_selection.py:29-45. *)
Definition create_partition_selection_strategy (s : strategy) (eps delta : Q)
    (max_partitions_contributed pre_threshold : option Z) : selector :=
  Selector (strategy_name s) eps delta max_partitions_contributed pre_threshold.

(** The selector of DPEngine._aggregate: dp_engine.py:176-178 and 357-359; [eps] and
    [delta] are read from the budget of line 334. *)
Definition aggregate_selector (p : params) (eps delta : Q) : selector :=
  create_partition_selection_strategy (partition_selection_strategy p) eps delta
    (max_partitions_contributed p) (pre_threshold p).

(** The selector of DPEngine._select_partitions: dp_engine.py:281-286 and 357-359. *)
Definition select_partitions_selector (s : strategy) (l0 : Z) (pre : option Z) (eps delta : Q) : selector :=
  create_partition_selection_strategy s eps delta (Some l0) pre.

(** The budget request of private partition selection: dp_engine.py:334-335
    (weight and count are the defaults of budget_accounting.py:333-339). *)
Definition selection_request : mech_type * Q * Z := (GENERIC, 1%Q, 1%Z).

Local Open Scope R_scope.

(** PyDP's truncated geometric strategy (Desfontaines, Voss, Gipson, Mandayam:
    Differentially private partition selection, Theorem 1), for one partition: the
    largest probabilities allowed by ([eps], [delta])-differential privacy. *)
Fixpoint geometric_keep (eps delta : R) (n : nat) : R :=
  match n with
  | O => 0
  | S m => let p := geometric_keep eps delta m in
           Rmin (Rmin (exp eps * p + delta) (1 - exp (- eps) * (1 - p - delta))) 1
  end.

(** PyDP's Laplace thresholding, for one partition: n + Laplace(1 / eps) >= threshold. *)
Definition laplace_tail (eps x : R) : R :=
  if Rle_dec 0 x then exp (- (eps * x)) / 2 else 1 - exp (eps * x) / 2.
Definition threshold_keep (eps threshold : R) (n : nat) : R :=
  match n with O => 0 | S _ => laplace_tail eps (threshold - INR n) end.

(** The delta of one partition (PyDP: 1 - (1 - delta)^(1 / l0)). *)
Definition partition_delta (l0 : Z) (delta : R) : R := 1 - Rpower (1 - delta) (/ IZR l0).

(** With a pre-threshold [t] the count is reduced by [t] - 1. *)
Definition pre_thresholded (pre : option Z) (keep : nat -> R) (n : Z) : R :=
  match pre with
  | None => keep (Z.to_nat n)
  | Some t => keep (Z.to_nat (n - (t - 1)))
  end.
