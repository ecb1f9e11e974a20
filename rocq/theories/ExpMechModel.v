(** Model of the exponential mechanism and of the private choice of
    max_partitions_contributed (real numbers in place of floats). *)
From Coq Require Import List ZArith QArith Qreals Reals Bool.
From Verif Require Import Base BackendModel ParamsModel HistModel EngineModel VectorModel.
Import ListNotations.
Local Open Scope R_scope.

(** ** ExponentialMechanism (/repo/pipeline_dp/dp_computations.py:661-715) *)

(** A ScoringFunction (dp_computations.py:670-695). *)
Record scoring (A : Type) := mkScoring {
  score : A -> R;
  global_sensitivity : R;
  is_monotonic : bool
}.
Arguments mkScoring {A} _ _ _.
Arguments score {A} _ _.
Arguments global_sensitivity {A} _.
Arguments is_monotonic {A} _.

(** _calculate_probabilities: dp_computations.py:707-715 (denominator not 0). *)
Definition calculate_probabilities {A} (f : scoring A) (eps : R) (inputs : list A) : list R :=
  let scores := map (score f) inputs in
  let denominator := if negb (is_monotonic f) then global_sensitivity f * 2 else global_sensitivity f in
  let weights := map (fun s => exp (s * eps / denominator)) scores in
  map (fun w => w / sumR weights) weights.

(** apply: dp_computations.py:700-707, as the distribution of the value chosen:
    (input, probability).  numpy's Generator.choice raises ValueError for an
    empty list and for the nan probabilities of a zero denominator. *)
Definition exponential_mechanism {A} (f : scoring A) (eps : R) (inputs : list A) : result (list (A * R)) :=
  match inputs with
  | [] => Err ValueError
  | _ => if Req_EM_T (global_sensitivity f) 0 then Err ValueError
         else Ok (combine inputs (calculate_probabilities f eps inputs))
  end.

(** ** CalculatePrivateContributionBoundsParams
    (/repo/pipeline_dp/aggregate_params.py:137-174; checks:
    [ParamsModel.check_private_bounds_params]) *)
Record bounds_params := mkBoundsParams {
  aggregation_noise_kind : noise;
  aggregation_eps : Q;
  aggregation_delta : Q;
  calculation_eps : Q;
  max_partitions_contributed_upper_bound : Z
}.

(** ** L0ScoringFunction (/repo/pipeline_dp/private_contribution_bounds.py:90-176) *)

(** _max_partitions_contributed_best_upper_bound: private_contribution_bounds.py:130-132. *)
Definition best_upper_bound (p : bounds_params) (number_of_partitions : Z) : Z :=
  Z.min (max_partitions_contributed_upper_bound p) number_of_partitions.

(** compute_dp_count_noise_std with max_contributions_per_partition = 1:
    dp_computations.py:368-387, 78-115.  PyDP's LaplaceMechanism.diversity is
    sensitivity / epsilon; [sigma eps delta l2] is the std of PyDP's
    GaussianMechanism (not modelled). *)
Definition count_noise_std (sigma : Q -> Q -> R -> R) (p : bounds_params) (k : Z) : R :=
  match aggregation_noise_kind p with
  | LaplaceNoise => IZR (k * 1) / Q2R (aggregation_eps p) * sqrt 2
  | GaussianNoise => sigma (aggregation_eps p) (aggregation_delta p) (sqrt (IZR k) * 1)
  end.

(** _l0_impact_noise: private_contribution_bounds.py:149-161. *)
Definition l0_impact_noise (sigma : Q -> Q -> R -> R) (p : bounds_params) (number_of_partitions k : Z) : R :=
  IZR number_of_partitions * count_noise_std sigma p k.

(** _l0_impact_dropped: private_contribution_bounds.py:163-176. *)
Definition l0_impact_dropped (p : bounds_params) (number_of_partitions : Z) (l0_histogram : list (bin Z)) (k : Z) : Z :=
  sumZ (map (fun b => Z.max (Z.min (b_lower b) (best_upper_bound p number_of_partitions) - k) 0 * b_count b)%Z
            l0_histogram).

(** score, global_sensitivity, is_monotonic: private_contribution_bounds.py:103-147. *)
Definition l0_scoring (sigma : Q -> Q -> R -> R) (p : bounds_params) (number_of_partitions : Z)
    (l0_histogram : list (bin Z)) : scoring Z :=
  mkScoring
    (fun k => - (1 / 2 * l0_impact_noise sigma p number_of_partitions k
                 + (1 - 1 / 2) * IZR (l0_impact_dropped p number_of_partitions l0_histogram k)))
    (IZR (best_upper_bound p number_of_partitions))
    true.

(** ** PrivateL0Calculator (private_contribution_bounds.py:27-87) *)

(** _calculate_l0: private_contribution_bounds.py:72-81. *)
Definition calculate_l0 (sigma : Q -> Q -> R -> R) (p : bounds_params) (l0_histogram : list (bin Z))
    (number_of_partitions : Z) : result (list (Z * R)) :=
  exponential_mechanism (l0_scoring sigma p number_of_partitions l0_histogram)
    (Q2R (calculation_eps p)) (possible_bounds (best_upper_bound p number_of_partitions)).

(** DPEngine.calculate_private_contribution_bounds on LocalBackend
    (/repo/pipeline_dp/dp_engine.py:452-504) with PrivateL0Calculator.calculate
    (private_contribution_bounds.py:51-70, 83-87): the distribution of
    max_partitions_contributed.  [partitions] is a list (can be read twice).
    collect_to_container (pipeline_functions.py:43-96) builds the dictionary of
    the one-element collections; if the number of partitions is missing (no
    partitions) the constructor of Inputs raises TypeError. *)
Definition calculate_private_contribution_bounds {U P} `{EqDec U} `{EqDec P}
    (sigma : Q -> Q -> R -> R) (p : bounds_params) (partitions : list P)
    (partitions_already_filtered : bool) (rows : list (U * P * Q)) : result (list (Z * R)) :=
  let rows := if negb partitions_already_filtered then drop_partitions partitions rows else rows in
  rbind (h_l0 (compute_dataset_histograms number_of_buckets rows)) (fun l0_histogram =>
  match rev (size_col (distinct partitions)) with
  | [] => Err TypeError
  | number_of_partitions :: _ => calculate_l0 sigma p l0_histogram number_of_partitions
  end).
