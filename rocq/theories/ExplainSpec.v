(** Vocabulary for C82: the budgets that a report lists, and what it means that a line of a report
    tells the truth about a mechanism. *)
From Coq Require Import String List ZArith QArith Bool.
From Verif Require Import Base ParamsModel SensModel BudgetModel CombinerModel SelectModel DpModel EngineSpec LateModel ExplainModel.
Import ListNotations.

(** The epsilons that the text shows, each with the delta shown next to it, if any. *)
Fixpoint shown (x : mention) : list (Q * option Q) :=
  match x with
  | SayLaplace _ e _ => [(e, None)]
  | SayGaussian (Some (e, d)) _ => [(e, Some d)]
  | SayThresholding _ e d _ | SayBudget e d | SaySelection _ e d _ => [(e, Some d)]
  | SayMean _ a b => shown a ++ shown b
  | SayGaussian None _ | SayNoise _ _ | SayNone | SayStage _ => []
  end.
Definition shown_delta (x : Q * option Q) : Q := match snd x with Some d => d | None => 0 end.

(** It is the budget that the accountant gave to [m]; only for Laplace noise delta is not shown. *)
Definition budget_of_mechanism (x : Q * option Q) (m : mech) : Prop :=
  m_eps m = Some (fst x) /\ match snd x with Some d => m_delta m = Some d | None => m_type m = LAPLACE end.

(** Calls whose reports should list their budgets: accepted aggregations of all metrics but
    VECTOR_SUM (see C82_vector_sum_refuted), and partition selection. *)
Definition explainable {P} (c : explained P) : Prop :=
  match c with
  | EAggregate p _ cs => accepted p /\ create_compound_combiner p = Ok cs /\ ~ In VECTOR_SUM (metrics p)
  | ESelect _ _ => True
  | EAddNoise _ _ _ => False
  end.

(** A line tells the truth about a mechanism: its budget, its sensitivity and, for Laplace noise,
    its parameter, the sensitivity divided by epsilon. *)
Inductive true_of_noise : mechanism -> mention -> Prop :=
| true_laplace e l1 b : b * e == l1 -> true_of_noise (Laplace e l1) (SayLaplace b e l1)
| true_gaussian e d l2sq : true_of_noise (Gaussian e d l2sq) (SayGaussian (Some (e, d)) l2sq).
Inductive true_of : built -> mention -> Prop :=
| true_additive m x : true_of_noise m x -> true_of (BAdditive m) x
| true_thresholding st e d l0 pre :
    st = LaplaceThresholding \/ st = GaussianThresholding ->
    true_of (BThresholding (create_partition_selection_strategy st e d l0 pre)) (SayThresholding st e d pre)
| true_mean mid m1 m2 x1 x2 : true_of_noise m1 x1 -> true_of_noise m2 x2 -> true_of (BMean mid m1 m2) (SayMean mid x1 x2)
| true_params e d p : true_of (BParams e d p) (SayBudget e d).

(** The epsilons of a mechanism are positive. *)
Definition positive_noise (m : mechanism) : Prop := match m with Laplace e _ | Gaussian e _ _ => 0 < e | _ => True end.
Definition positive_budget (b : built) : Prop :=
  match b with
  | BAdditive m => positive_noise m
  | BMean _ m1 m2 => positive_noise m1 /\ positive_noise m2
  | _ => True
  end.
