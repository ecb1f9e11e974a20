(** Model of the function tune of /repo/analysis/parameter_tuning.py: the checks of the
    arguments, the DP strategy of every candidate, the utility analysis of the candidates
    and the choice of the best one.

    The candidates are those of TuningModel, the analysis is that of AnalyzeModel and
    UtilityModel. *)
From Coq Require Import List ZArith QArith Bool.
From Verif Require Import Base BudgetModel ParamsModel BackendModel HistModel AnalysisModel CrossModel TuningModel UtilityModel AnalyzeModel.
Import ListNotations.
Local Open Scope Z_scope.

(** ParametersToTune: parameter_tuning.py:40-55. *)
Record to_tune := ToTune {
  tt_l0 : bool;
  tt_linf : bool;
  tt_min_sum : bool;
  tt_max_sum : bool;
  tt_noise : bool }.
(** __post_init__: 51-54. *)
Definition check_to_tune (t : to_tune) : result unit :=
  raise_if (negb (tt_l0 t || tt_linf t || tt_min_sum t || tt_max_sum t || tt_noise t)) ValueError (Ok tt).

(** MinimizingFunction (35-37), or a callable. *)
Inductive minimizing := AbsoluteError | RelativeError | Callable.

(** TuneOptions: 57-96. *)
Record tune_options := TuneOptions {
  to_eps : Q;
  to_delta : Q;
  to_params : params;
  to_minimize : minimizing;
  to_tuned : to_tune;
  to_sampling : Q;
  to_preaggregated : bool;
  to_candidates : Z }.
(** The two dataclasses are created: 51-54, 92-95. *)
Definition check_tune_options (o : tune_options) : result unit :=
  rbind (check_to_tune (to_tuned o)) (fun _ => validate_epsilon_delta (to_eps o) (to_delta o)).

(** _check_tune_args: 457-485. Only metrics[0] is looked at. *)
Definition check_tune_args (o : tune_options) (public : bool) : result unit :=
  rbind (match metrics (to_params o) with
         | [] => raise_if public ValueError (Ok tt)
         | m :: _ => raise_if (negb (has m [COUNT; PRIVACY_ID_COUNT; SUM])) ValueError (Ok tt)
         end) (fun _ =>
  raise_if (tt_min_sum (to_tuned o)) ValueError
  (match to_minimize o with AbsoluteError => Ok tt | _ => Err NotImplementedError end)).

(** What is read of DatasetHistograms: the largest values of the histograms of L0 and
    Linf contributions, and the maxima of the bins of the histograms of sums, one
    histogram per column. *)
Record contribution_histograms := Histograms {
  ch_l0_max : Z;
  ch_linf_max : Z;
  ch_sum_bins : list (list Q) }.

(** The arguments of _find_candidate_parameters as TuningModel reads them: 118-157. *)
Definition tuning_of (o : tune_options) (h : contribution_histograms) : tuning :=
  let ms := metrics (to_params o) in
  Tuning (tt_l0 (to_tuned o)) (tt_linf (to_tuned o) && has COUNT ms) (tt_max_sum (to_tuned o) && has SUM ms)
         (max_partitions_contributed (to_params o)) (to_candidates o) (ch_l0_max h) (ch_linf_max h) (ch_sum_bins h).

(** The enums NoiseKind and PartitionSelectionStrategy under the names of TuningModel. *)
Definition noise_of (n : strategy_noise) : noise := match n with SLaplace => LaplaceNoise | SGaussian => GaussianNoise end.
Definition strategy_named (s : selection_strategy) : strategy :=
  match s with
  | TuningModel.TruncatedGeometric => ParamsModel.TruncatedGeometric
  | TuningModel.LaplaceThresholding => ParamsModel.LaplaceThresholding
  | TuningModel.GaussianThresholding => ParamsModel.GaussianThresholding
  end.

(** The strategy for one candidate: 259-264.  Sensitivities(l0=.., linf=1) raises
    ValueError if l0 is None or not positive (dp_computations.py:586-599). *)
Definition strategy_for (orc : strategy_oracle) (o : tune_options) (public : bool) (u : uparams) : result dp_strategy :=
  match u_l0 u with
  | None => Err ValueError
  | Some l0 =>
      let ms := metrics (to_params o) in
      raise_if (l0 <=? 0) ValueError
      (get_dp_strategy orc (to_eps o) (to_delta o) (length ms) (has PRIVACY_ID_COUNT ms) public l0 1)
  end.

(** _add_dp_strategy_to_multi_parameter_configuration (241-275), with the argument
    noise_kind of tune (374-376).  Without metrics the noise kind of a candidate is None;
    no combiner reads it then, and it is left unset here.  The attribute
    post_aggregation_thresholding of the strategy is not used. *)
Definition add_dp_strategy (orc : strategy_oracle) (o : tune_options) (public : bool) (c : config) (n : nat) : result mconfig :=
  let p := to_params o in
  rbind (sequence (map (params_at p (MConfig c None None)) (seq 0 n))) (fun ps =>
  rmap (fun ss =>
          MConfig c
            (match metrics p with
             | [] => None
             | _ => Some (map (fun s => match tt_noise (to_tuned o), s_noise s with
                                        | true, Some k => noise_of k
                                        | _, _ => noise_kind p
                                        end) ss)
             end)
            (if public then None
             else Some (map (fun s => match s_selection s with
                                      | Some k => strategy_named k
                                      | None => partition_selection_strategy p
                                      end) ss)))
       (sequence (map (fun ub => strategy_for orc o public (fst ub)) ps))).

(** The options of the utility analysis: 358-395.  The constructor of the strategy
    selector raises ValueError for private partitions with delta 0
    (dp_strategy_selector.py:44-49). *)
Definition analysis_options (orc : strategy_oracle) (ceils0 ceils1 : nat -> Z) (h : contribution_histograms)
    (o : tune_options) (public : bool) : result options :=
  rbind (check_tune_options o) (fun _ =>
  rbind (check_tune_args o public) (fun _ =>
  rbind (find_candidates ceils0 ceils1 (tuning_of o h)) (fun cn =>
  raise_if (Qeq_bool (to_delta o) 0 && negb public) ValueError
  (rmap (fun c => Options (to_eps o) (to_delta o) (to_params o) (Some (c, snd cn)))
        (add_dp_strategy orc o public (fst cn) (snd cn)))))).

(** TuneResult: 98-116, without the arguments it repeats. *)
Record tune_result_t := TuneResult {
  tr_configurations : mconfig;
  tr_best : Z;
  tr_reports : list utility_report }.

(** ur.metric_errors[0].absolute_error.rmse: 443-446. *)
Definition first_rmse (u : utility_report) : result Q :=
  match r_errors (ur_report u) with
  | None => Err TypeError
  | Some [] => Err IndexError
  | Some (e :: _) => Ok (ve_rmse (mu_absolute e))
  end.
(** A report that is None has no configuration_index. *)
Definition the_report (u : option utility_report) : result utility_report :=
  match u with Some u => Ok u | None => Err AttributeError end.

(** _convert_utility_analysis_to_tune_result: 420-455. *)
Definition convert (o : tune_options) (c : mconfig) (size : nat) (reports : list (option utility_report)) : result tune_result_t :=
  raise_if (negb (Nat.eqb (length reports) size)) AssertionError
  (rbind (match to_minimize o with AbsoluteError => Ok tt | _ => Err AssertionError end) (fun _ =>
  rbind (sequence (map the_report reports)) (fun us =>
  let sorted := sort_by (fun a b => r_index (ur_report a) <=? r_index (ur_report b)) us in
  match metrics (to_params o) with
  | [] => Ok (TuneResult c (-1) sorted)
  | _ => rbind (sequence (map first_rmse sorted)) (fun errs =>
         rmap (fun i => TuneResult c (Z.of_nat i) sorted) (argmin errs))
  end))).

(** What the backend decides: how the accumulators of a key are merged, how elements
    are grouped, and the order of to_list. *)
Record runner P := Runner {
  run_merge : list (P * option pre) -> list (P * tree (option pre));
  run_cross : list ((nat * option Z) * partition_metrics) -> list ((nat * option Z) * tree partition_metrics);
  run_group : list (nat * (option Z * report)) -> list (nat * list (option Z * report));
  run_list : list (option utility_report) -> list (option utility_report) }.
Arguments Runner {P}.
Arguments run_merge {P}.
Arguments run_cross {P}.
Arguments run_group {P}.
Arguments run_list {P}.

(** tune: 322-417.  Returns the tune result and the results per partition.  [pe], [de]:
    whether the extractors are PreAggregateExtractors, DataExtractors.
    For the first step of perform_utility_analysis see [analyze]. *)
Definition tune {U P} `{EqDec U} `{EqDec P}
    (root : Q -> Q) (std : nat -> Q) (keeps : nat -> Z -> Q) (approx : moments -> Z * list Q)
    (orc : strategy_oracle) (ceils0 ceils1 : nat -> Z) (hash : P -> Z) (run : runner P)
    (h : contribution_histograms) (o : tune_options) (pe de : bool) (public : option (list P)) (data : dataset U P)
  : result (tune_result_t * list ((P * nat) * partition_metrics)) :=
  rbind (analysis_options orc ceils0 ceils1 h o (is_some public)) (fun uo =>
  rbind (check_options uo (to_sampling o) (to_preaggregated o) pe de) (fun _ =>
  rbind (analysed (to_params o) hash (to_sampling o) public data) (fun contribs =>
  rbind (analyze root std keeps approx public uo (run_merge run contribs)) (fun pk =>
  rbind (reports_of root (length (metrics (to_params o))) (is_some public) (strategies uo) (run_group run)
           (run_cross run (unnested pk))) (fun reports =>
  match o_config uo with
  | None => Err AttributeError
  | Some (c, n) => rmap (fun r => (r, per_partition_output pk)) (convert o c n (run_list run reports))
  end))))).
