(** Model of post-aggregation thresholding: ThresholdingMechanism of
    /repo/pipeline_dp/dp_computations.py and the code that creates it. *)
From Coq Require Import String List ZArith QArith.
From Verif Require Import Base ParamsModel SensModel BudgetModel CombinerModel SelectModel WrapperModel.
Import ListNotations.

(** MechanismType.to_partition_selection_strategy: aggregate_params.py:111-117. *)
Definition to_partition_selection_strategy (t : mech_type) : result strategy :=
  match t with
  | LAPLACE_THRESHOLDING => Ok LaplaceThresholding
  | GAUSSIAN_THRESHOLDING => Ok GaussianThresholding
  | _ => Err ValueError
  end.

(** create_thresholding_mechanism and ThresholdingMechanism.__init__:
    dp_computations.py:799-805, 828-838; the mechanism is the PyDP object that it
    wraps. *)
Definition create_thresholding_mechanism (t : mech_type) (eps delta : Q) (s : sens) (pre_threshold : option Z)
  : result selector :=
  rmap (fun st => create_partition_selection_strategy st eps delta (s_l0 s) pre_threshold)
       (to_partition_selection_strategy t).

(** PostAggregationThresholdingCombiner: __init__, combiners.py:336-345, and
    create_mechanism, 380-382; [eps] and [delta] are read from its budget. *)
Definition thresholding_mechanism (p : params) (eps delta : Q) : result selector :=
  rbind (sens_privacy_id_count p) (fun s =>
    create_thresholding_mechanism (noise_to_thresholding (noise_kind p)) eps delta s (pre_threshold p)).
