(** Model of an aggregation whose budgets come from a PLDBudgetAccountant: what the
    specs contain after compute_budgets, and the mechanisms that are made of them.
    Standard deviations and the budgets of partition selection are reals, as in PldModel. *)
From Coq Require Import String List ZArith QArith Qreals Reals Bool.
From Verif Require Import Base ParamsModel SensModel BudgetModel CombinerModel SelectModel PldModel.
Import ListNotations.
Local Open Scope R_scope.

(** The mechanism types as PLDBudgetAccountant distinguishes them:
    /repo/pipeline_dp/budget_accounting.py:592-617. *)
Definition pld_type_of (t : mech_type) : pld_type :=
  match t with
  | LAPLACE => PLaplace
  | GAUSSIAN => PGaussian
  | GENERIC => PGeneric
  | LAPLACE_THRESHOLDING | GAUSSIAN_THRESHOLDING => PThresholding
  end.

(** A registered mechanism: budget_accounting.py:496-507.  The library never gives a
    sensitivity, so it is the default 1 (budget_accounting.py:464-470). *)
Definition registered (m : mech) : pmech := PMech (pld_type_of (m_type m)) 1 (Q2R (m_weight m)) None None.

(** PLDBudgetAccountant.compute_budgets: budget_accounting.py:510-543.  The accountant
    with its requests and scopes is the one of BudgetModel: both accountants inherit them
    from BudgetAccountant.  (The request_budget of the two differ in the exception for
    Gaussian noise without delta and in that PLDBudgetAccountant refuses count <> 1; all
    requests of the library have count 1.) *)
Definition pld_compute (fuel : nat) (lib : list pld -> R -> R) (s : acct) : option (result (list pmech)) :=
  match check_restrictions s with
  | Err e => Some (Err e)
  | Ok _ =>
      if finalized s then Some (Err GenericException)
      else match mechs s, scopes s with
           | [], _ => Some (Ok [])
           | _, _ :: _ => Some (Err GenericException)
           | _, [] => pld_compute_budgets fuel lib (Q2R (total_eps s)) (Q2R (total_delta s)) (map registered (mechs s))
           end
  end.

(** MechanismSpec.noise_standard_deviation, eps and delta: budget_accounting.py:53-85. *)
Definition read_std (m : pmech) : result R := match p_std m with Some s => Ok s | None => Err AssertionError end.
Definition read_budget (m : pmech) : result (R * R) := match p_budget m with Some b => Ok b | None => Err AssertionError end.

(** The PyDP objects made from a standard deviation: dp_mechanisms.LaplaceMechanism with
    an epsilon and a sensitivity, dp_mechanisms.GaussianMechanism with a standard
    deviation. *)
Inductive std_mechanism :=
| StdLaplace (eps : R) (l1 : Q)
| StdGaussian (stddev : R).

(** create_additive_mechanism when standard_deviation_is_set:
    /repo/pipeline_dp/dp_computations.py:621-645, with LaplaceMechanism and
    GaussianMechanism.create_from_std_deviation, 438-451 and 493-506.  The l2 sensitivity
    is given by its square [l2sq] (SensModel). *)
Definition create_from_std (kind : noise) (std : R) (s : sens) : result std_mechanism :=
  match kind with
  | LaplaceNoise =>
      match s_l1 s with
      | None => Err ValueError
      | Some l1 => Ok (StdLaplace (laplace_epsilon std) l1)
      end
  | GaussianNoise =>
      match s_l2sq s with
      | None => Err ValueError
      | Some l2sq => Ok (StdGaussian (std * sqrt (Q2R l2sq)))
      end
  end.

(** CombinerParams.eps and delta: /repo/pipeline_dp/combiners.py:158-164, read by
    VarianceCombiner, QuantileCombiner and VectorSumCombiner (166-191, 624-629, 829-834);
    create_thresholding_mechanism reads the same properties (dp_computations.py:799-805,
    828-838). *)
Definition combiner_params_budget (m : pmech) : result (R * R) := read_budget m.
