(** Model of the way from the dataset to the per-partition utility analysis:
    /repo/analysis/contribution_bounders.py, /repo/analysis/pre_aggregation.py, the class
    ValueSampler of /repo/pipeline_dp/sampling_utils.py and
    UtilityAnalysisEngine.analyze (/repo/analysis/utility_analysis_engine.py).

    Rows are already extracted: (privacy_id, partition_key, value).  What happens to the
    data of one partition is in AnalysisModel, the configurations and the packing of the
    results are in UtilityModel. *)
From Coq Require Import List ZArith QArith Bool.
From Verif Require Import Base BackendModel BounderModel ParamsModel CombinerModel EngineModel AnalysisModel HistModel CrossModel UtilityModel.
Import ListNotations.
Local Open Scope Z_scope.

(** ** _sum_values: analysis/contribution_bounders.py:142-164 *)

(** A value, and the sum of values: a number or a tuple of numbers. *)
Definition as_sum (v : value) : sumval := match v with Num q => Scalar q | Vec l => Cols l end.

(** Python's [sum] of numbers; a tuple among them raises TypeError. *)
Fixpoint number_list (vs : list value) : result (list Q) :=
  match vs with
  | [] => Ok []
  | Num q :: vs' => rmap (cons q) (number_list vs')
  | Vec _ :: _ => Err TypeError
  end.
(** np.array(values).sum(axis=0); np.array raises ValueError for tuples of different
    lengths and for tuples mixed with numbers. *)
Fixpoint column_sums (vs : list value) : result (list Q) :=
  match vs with
  | [] => Err ValueError
  | Num _ :: _ => Err ValueError
  | [Vec l] => Ok l
  | Vec l :: vs' => rbind (column_sums vs') (fun s =>
                    match CombinerModel.vadd l s with Some t => Ok t | None => Err ValueError end)
  end.
Definition total_of (vs : list value) : result sumval :=
  match vs with
  | [] => Ok (Scalar 0)
  | [v] => Ok (as_sum v)
  | Num _ :: _ => rmap (fun l => Scalar (sumQ l)) (number_list vs)
  | Vec _ :: _ => rmap Cols (column_sums vs)
  end.

(** ** ValueSampler: sampling_utils.py:32-51 *)

(** _sample_bound. *)
Definition sample_bound (rate : Q) : Z := py_round (inject_Z (2 ^ 64) * rate).
(** keep; [hash] is _compute_64bit_hash. *)
Definition sampler_keep {P} (hash : P -> Z) (rate : Q) (k : P) : bool := hash k <? sample_bound rate.
(** The sampler of the bounders: [if sampling_prob < 1],
    analysis/contribution_bounders.py:57-59, 67, 106-110. *)
Definition partition_kept {P} (hash : P -> Z) (rate : Q) (k : P) : bool :=
  if Qle_bool 1 rate then true else sampler_keep hash rate k.

(** ** The contribution bounders *)

(** What is yielded for the values of a privacy id in a partition; the fourth element
    (num_contributions) is never read and is left out. *)
Definition preaggregated (vs : list value) (n_partitions : nat) : result pre :=
  rmap (fun s => (Z.of_nat (length vs), s, Z.of_nat n_partitions)) (total_of vs).

(** L0LinfAnalysisContributionBounder.bound_contributions: 38-83, without aggregate_fn. *)
Definition l0linf_bounded {U P} `{EqDec U} `{EqDec P} (keep : P -> bool) (rows : list (U * P * value))
  : result (list ((U * P) * pre)) :=
  let nested := collect_values (group_by_key (key_by_pid rows)) in
  sequence (flat_map (fun x =>
    flat_map (fun kv => if keep (fst kv)
                        then [rmap (pair (fst x, fst kv)) (preaggregated (snd kv) (length (snd x)))]
                        else []) (snd x)) nested).

(** LinfAnalysisContributionBounder.bound_contributions: 102-139, without aggregate_fn. *)
Definition linf_bounded {U P} `{EqDec U} `{EqDec P} (keep : P -> bool) (rows : list (U * P * value))
  : result (list ((U * P) * pre)) :=
  let sampled := filter (fun r => keep (snd (fst r))) rows in
  sequence (map (fun x => rmap (pair (fst x)) (preaggregated (snd x) 1)) (group_by_key (key_by_pid_pk sampled))).

(** preaggregate: pre_aggregation.py:20-66. *)
Definition preaggregation {U P} `{EqDec U} `{EqDec P} (hash : P -> Z) (rate : Q) (rows : list (U * P * value))
  : result (list (P * pre)) :=
  rmap (map (fun e => (snd (fst e), snd e))) (l0linf_bounded (partition_kept hash rate) rows).

(** ** UtilityAnalysisEngine.analyze *)

(** The dataset: raw rows, or pre-aggregated rows (options.pre_aggregated_data). *)
Inductive dataset (U P : Type) := Raw (rows : list (U * P * value)) | PreAggregated (rows : list (P * pre)).
Arguments Raw {U P} rows.
Arguments PreAggregated {U P} rows.

(** _extract_columns for pre-aggregated data: utility_analysis_engine.py:169-181; the
    privacy id is None. *)
Definition extract_pre {P} (rows : list (P * pre)) : list (unit * P * pre) := map (fun r => (tt, fst r, snd r)) rows.

(** dp_engine.py:127-134: rows outside of the public partitions are dropped. *)
Definition drop_non_public {U P V} `{EqDec P} (p : params) (public : option (list P)) (rows : list (U * P * V))
  : list (U * P * V) :=
  match public with
  | Some pub => if public_partitions_already_filtered p then rows else drop_partitions pub rows
  | None => rows
  end.

(** The collection that is merged per partition, dp_engine.py:125-160 with
    _create_contribution_bounder (utility_analysis_engine.py:88-100): one element per
    privacy id and partition, and None for each public partition ([if
    public_partitions:] is false for an empty list).  The case
    contribution_bounds_already_enforced is rejected before (UtilityModel.check_options). *)
Definition analysed {U P} `{EqDec U} `{EqDec P} (p : params) (hash : P -> Z) (rate : Q) (public : option (list P))
    (d : dataset U P) : result (list (P * option pre)) :=
  let col :=
    match d with
    | PreAggregated rows => Ok (map (fun r => (snd (fst r), snd r)) (drop_non_public p public (extract_pre rows)))
    | Raw rows =>
        let rows1 := drop_non_public p public rows in
        rmap (map (fun e => (snd (fst e), snd e)))
             (if perform_cross_partition_contribution_bounding p
              then l0linf_bounded (partition_kept hash rate) rows1
              else linf_bounded (partition_kept hash rate) rows1)
    end in
  rmap (fun c => let c1 := map (fun kd => (fst kd, Some (snd kd))) c in
                 match public with
                 | Some (k :: ks) => add_empty_public_partitions c1 (k :: ks) None
                 | _ => c1
                 end) col.

(** analyze (utility_analysis_engine.py:53-86) followed by the packing of
    perform_utility_analysis: [plan] is the execution of combine_accumulators_per_key,
    a merge tree for each partition (it must be a BackendSpec.reduce_plan of
    [analysed]).  _select_private_partitions_internal (159-167), _annotate and
    _drop_partitions_under_threshold (195-200) return their argument. *)
Definition analyze {P} (root : Q -> Q) (std : nat -> Q) (keeps : nat -> Z -> Q) (approx : moments -> Z * list Q)
    (public : option (list P)) (o : options) (plan : list (P * tree (option pre))) : result (list (P * list partition_metrics)) :=
  metrics_of root std keeps approx (is_some public) o plan.
