(** Model of the numbers that the explain-computation reports print: describe of the mechanisms
    of /repo/pipeline_dp/dp_computations.py, explain_computation of the combiners of
    /repo/pipeline_dp/combiners.py, the stages of /repo/pipeline_dp/dp_engine.py, and
    parameters_to_readable_string of /repo/pipeline_dp/aggregate_params.py.  The fixed words
    around the numbers and the formatting of numbers are not modelled (ReportModel composes the
    text from the stages).  Reports read with a NaiveBudgetAccountant. *)
From Coq Require Import String List ZArith QArith Bool.
From Verif Require Import Base ParamsModel SensModel BudgetModel CombinerModel SelectModel DpModel WrapperModel
  EngineModel LateModel ReportModel.
Import ListNotations.

(** What the text of a stage says. *)
Inductive mention :=
| SayLaplace (parameter eps l1 : Q)
| SayGaussian (eps_delta : option (Q * Q)) (l2sq : Q)
| SayThresholding (name : strategy) (eps delta : Q) (pre : option Z)
| SayMean (range_middle : Q) (count sum : mention)
| SayBudget (eps delta : Q)
| SaySelection (name : strategy) (eps delta : Q) (pre : option Z)
| SayNoise (k : noise) (parameter : option Q)
| SayNone
| SayStage (k : stage_kind).

(** LaplaceMechanism.noise_parameter and describe: dp_computations.py:459-477 (PyDP's diversity
    is sensitivity / epsilon).  GaussianMechanism.describe: 527-536; its parameter, PyDP's standard
    deviation, is not modelled, and the l2 sensitivity is given by its square.  The variants
    created from a standard deviation belong to PLDBudgetAccountant; for Laplace noise
    the printed epsilon is sqrt 2 / deviation, no rational number, and not modelled. *)
Definition describe_mechanism (m : mechanism) : mention :=
  match m with
  | Laplace eps l1 => SayLaplace (l1 / eps) eps l1
  | Gaussian eps delta l2sq => SayGaussian (if negb (Qle_bool eps 0) then Some (eps, delta) else None) l2sq
  | LaplaceStd _ _ => SayNone
  | GaussianStd _ l2sq => SayGaussian None l2sq
  end.

(** PARTITION_STRATEGY_ENUM_TO_STR read backwards; the strategy type of a thresholding mechanism is
    the attribute _strategy_type (dp_computations.py:802), the name is that of its PyDP object. *)
Definition strategy_of_name (s : selector) : strategy :=
  if String.eqb (sel_name s) (strategy_name LaplaceThresholding) then LaplaceThresholding
  else if String.eqb (sel_name s) (strategy_name GaussianThresholding) then GaussianThresholding
  else TruncatedGeometric.

(** ThresholdingMechanism.describe: dp_computations.py:812-822 (the threshold, computed by PyDP, is
    not modelled); MeanMechanism.describe: 573-578; VarianceCombiner, QuantileCombiner:
    combiners.py:583-584, 647-648. *)
Definition describe (b : built) : mention :=
  match b with
  | BAdditive m => describe_mechanism m
  | BThresholding s => SayThresholding (strategy_of_name s) (sel_eps s) (sel_delta s) (sel_pre s)
  | BMean mid mc ms => SayMean mid (describe_mechanism mc) (describe_mechanism ms)
  | BParams eps delta _ => SayBudget eps delta
  end.

(** The class of a combiner: combiners.py:855-920. *)
Definition class_of (c : combiner) : class :=
  match c with
  | CCount => KCount
  | CPidCount => KPidCount
  | CThresh => KThresh
  | CSum _ _ _ => KSum
  | CMean _ _ _ => KMean
  | CVariance _ _ _ | CQuantile _ | CVector _ => KWithParams
  end.

(** explain_computation of the combiners, evaluated: combiners.py:268-274, 310-316, 362-369, 425-431,
    502-504, 583-584, 647-648; that of VectorSumCombiner returns None (841-843). *)
Definition explain_combiner (p : params) (c : combiner) (ms : list mech) : result mention :=
  match c with
  | CVector _ => Ok SayNone
  | _ => rbind (construct (class_of c) p) (fun b => rmap describe (create_mechanism b ms))
  end.

(** "if pre_threshold": dp_engine.py:367. *)
Definition shown_threshold (pre : option Z) : option Z :=
  match pre with Some t => if (t =? 0)%Z then None else Some t | None => None end.

(** dp_engine.py:367-371; the budget is read when the report is read. *)
Definition explain_selection (s : strategy) (pre : option Z) (m : option mech) : result mention :=
  match m with
  | Some m => rbind (get_eps m) (fun e => rmap (fun d => SaySelection s e d (shown_threshold pre)) (get_delta m))
  | None => Err AssertionError
  end.

(** The stages of an aggregation (ReportModel.aggregate_stages) with the budgets of its requests:
    [ms] those of the combiners, [sel] that of partition selection. *)
Fixpoint explain_stages (p : params) (l : list stage_kind) (ms : list mech) (sel : option mech) : result (list mention) :=
  match l with
  | [] => Ok []
  | Metric c :: l' =>
      rbind (explain_combiner p c (firstn (requests c) ms)) (fun x =>
      rmap (cons x) (explain_stages p l' (skipn (requests c) ms) sel))
  | PrivateSelection s pre :: l' =>
      rbind (explain_selection s pre sel) (fun x => rmap (cons x) (explain_stages p l' ms sel))
  | k :: l' => rmap (cons (SayStage k)) (explain_stages p l' ms sel)
  end.

(** The calls of DPEngine that make a report: aggregate (dp_engine.py:65-189), select_partitions
    (216-292) and add_dp_noise (553-609). *)
Inductive explained (P : Type) :=
| EAggregate (p : params) (public : option (list P)) (cs : list combiner)
| ESelect (s : strategy) (pre : option Z)
| EAddNoise (k : noise) (l0 : Z) (linf : Q).
Arguments EAggregate {P}. Arguments ESelect {P}. Arguments EAddNoise {P}.

(** Their requests, in order (types only): combiners.py:855-920, dp_engine.py:336-337, 573-574. *)
Definition types_requested {P} (c : explained P) : list mech_type :=
  match c with
  | EAggregate p public cs =>
      flat_map (fun cb => repeat (request_type p cb) (requests cb)) cs
      ++ (if selects_privately p public then [GENERIC] else [])
  | ESelect _ _ => [GENERIC]
  | EAddNoise k _ _ => [mech_of k]
  end.

Definition nonempty {P} (l : list P) : bool := match l with [] => false | _ => true end.

(** The stages of a report; [ms]: the MechanismSpec objects of the requests of the call.
    add_dp_noise: dp_engine.py:575-602. *)
Definition explain {P} (c : explained P) (ms : list mech) : result (list mention) :=
  match c with
  | EAggregate p public cs =>
      let n := list_sum (map requests cs) in
      explain_stages p (aggregate_stages p (option_map nonempty public) cs) (firstn n ms) (nth_error ms n)
  | ESelect s pre => rmap (fun x => [x]) (explain_selection s pre (nth_error ms 0))
  | EAddNoise k l0 linf =>
      match ms with
      | m :: _ =>
          rbind (mk_sens (Some l0) (Some linf) None None) (fun s =>
          rmap (fun b => [SayNoise k (match b with Laplace eps l1 => Some (l1 / eps) | _ => None end)]) (create_additive m s))
      | [] => Err AssertionError
      end
  end.

(** explain_computations_report: dp_engine.py:59-63, of all calls; [ms]: the specs of all requests. *)
Fixpoint explain_all {P} (cs : list (explained P)) (ms : list mech) : result (list (list mention)) :=
  match cs with
  | [] => Ok []
  | c :: cs' =>
      let n := length (types_requested c) in
      rbind (explain c (firstn n ms)) (fun r => rmap (cons r) (explain_all cs' (skipn n ms)))
  end.

(** parameters_to_readable_string of AggregateParams: aggregate_params.py:707-738, with
    metrics_str, 264-270: the values that are printed (None: no line). *)
Definition readable (p : params) (is_public : bool) :=
  (metrics p, noise_kind p, budget_weight p,
   (max_partitions_contributed p, max_contributions_per_partition p, max_contributions p),
   (min_value p, max_value p, min_sum_per_partition p, max_sum_per_partition p),
   contribution_bounds_already_enforced p,
   (vector_max_norm p, vector_size p, vector_norm_kind p), is_public).
