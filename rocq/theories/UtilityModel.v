(** Model of the utility analysis of several parameter configurations:
    /repo/analysis/utility_analysis.py, the construction of the combiners in
    /repo/analysis/utility_analysis_engine.py and the configurations of
    /repo/analysis/data_structures.py.

    The per-partition combiners are those of AnalysisModel, the cross-partition combiner
    that of CrossModel, the accountant that of BudgetModel. *)
From Coq Require Import List ZArith QArith Bool.
From Verif Require Import Base BudgetModel ParamsModel BackendModel AnalysisModel CrossModel TuningModel HistModel.
Import ListNotations.
Local Open Scope Z_scope.

(** ** Configurations: data_structures.py *)

(** MultiParameterConfiguration: data_structures.py:23-54; TuningModel.config has the
    first four attributes. *)
Record mconfig := MConfig {
  mc_bounds : config;
  mc_noise : option (list noise);
  mc_strategy : option (list strategy) }.

Definition mconfig_sizes (c : mconfig) : list nat :=
  config_sizes (mc_bounds c) ++ olen (@length noise) (mc_noise c) ++ olen (@length strategy) (mc_strategy c).

(** Multi-column bounds: data_structures.py:70-93. *)
Definition columns_ok (c : config) : bool :=
  match c_min_sum c, c_max_sum c with
  | Some (Multi (m :: mins)), Some (Multi maxs) =>
      match common_len (m :: mins), common_len maxs with
      | Some a, Some b => Nat.eqb a b
      | _, _ => false
      end
  | _, _ => true
  end.

(** __post_init__: data_structures.py:55-93; the result is the size. *)
Definition mconfig_size (c : mconfig) : result nat :=
  match mconfig_sizes c with
  | [] => Err ValueError
  | n :: sizes =>
      raise_if (negb (forallb (Nat.eqb n) sizes)) ValueError
      (raise_if (negb (Bool.eqb (is_some (c_min_sum (mc_bounds c))) (is_some (c_max_sum (mc_bounds c))))) ValueError
      (raise_if (negb (columns_ok (mc_bounds c))) ValueError
      (Ok n)))
  end.

(** The fields of AggregateParams that differ between configurations. *)
Record uparams := UParams {
  u_l0 : option Z;
  u_linf : option Z;
  u_noise : noise;
  u_strategy : strategy }.

(** [if attribute: params.attribute = attribute[index]]. *)
Definition override {A B} (old : B) (inj : A -> B) (attr : option (list A)) (i : nat) : result B :=
  match attr with
  | None | Some [] => Ok old
  | Some l => match nth_error l i with Some a => Ok (inj a) | None => Err IndexError end
  end.

(** The pairs (min_sum, max_sum), one per column: data_structures.py:114-127.
    Numbers mixed with tuples raise TypeError (in zip, or when the bounds are used). *)
Definition sum_bounds_at (p : params) (c : config) (i : nat) : result (list (option Q * option Q)) :=
  let default := Ok [(min_sum_per_partition p, max_sum_per_partition p)] in
  match c_min_sum c with
  | None | Some (Flat []) | Some (Multi []) => default
  | Some (Flat mins) =>
      match nth_error mins i, c_max_sum c with
      | Some a, Some (Flat maxs) => match nth_error maxs i with Some b => Ok [(Some a, Some b)] | None => Err IndexError end
      | Some _, _ => Err TypeError
      | None, _ => Err IndexError
      end
  | Some (Multi mins) =>
      match nth_error mins i, c_max_sum c with
      | Some a, Some (Multi maxs) =>
          match nth_error maxs i with
          | Some b => Ok (map (fun xy => (Some (fst xy), Some (snd xy))) (combine a b))
          | None => Err IndexError
          end
      | Some _, _ => Err TypeError
      | None, _ => Err IndexError
      end
  end.

(** MultiParameterConfiguration.get_aggregate_params: data_structures.py:100-128. *)
Definition params_at (p : params) (c : mconfig) (i : nat) : result (uparams * list (option Q * option Q)) :=
  rbind (override (max_partitions_contributed p) Some (c_l0 (mc_bounds c)) i) (fun l0 =>
  rbind (override (max_contributions_per_partition p) Some (c_linf (mc_bounds c)) i) (fun linf =>
  rbind (override (noise_kind p) (fun n => n) (mc_noise c) i) (fun n =>
  rbind (override (partition_selection_strategy p) (fun s => s) (mc_strategy c) i) (fun s =>
  rmap (fun b => (UParams l0 linf n s, b)) (sum_bounds_at p (mc_bounds c) i))))).

(** UtilityAnalysisOptions: data_structures.py:131-156 (sampling and pre-aggregation
    concern the contribution bounders); with the size of the configuration. *)
Record options := Options {
  o_eps : Q;
  o_delta : Q;
  o_params : params;
  o_config : option (mconfig * nat) }.
Definition n_configurations (o : options) : nat :=
  match o_config o with None => 1%nat | Some (_, n) => n end.

(** get_aggregate_params: data_structures.py:159-171. *)
Definition all_params (o : options) : result (list (uparams * list (option Q * option Q))) :=
  let p := o_params o in
  match o_config o with
  | None => Ok [(UParams (max_partitions_contributed p) (max_contributions_per_partition p) (noise_kind p)
                         (partition_selection_strategy p),
                 [(min_sum_per_partition p, max_sum_per_partition p)])]
  | Some (c, n) => sequence (map (params_at p c) (seq 0 n))
  end.

(** get_partition_selection_strategy: data_structures.py:174-188. *)
Definition strategies (o : options) : list strategy :=
  match o_config o with
  | None => [partition_selection_strategy (o_params o)]
  | Some (c, n) => match mc_strategy c with
                   | Some l => l
                   | None => repeat (partition_selection_strategy (o_params o)) n
                   end
  end.

(** ** Combiners: UtilityAnalysisEngine._create_compound_combiner,
    utility_analysis_engine.py:102-157 *)

(** A bound that is None makes the combiner fail with TypeError when it is used. *)
Definition need {A} (o : option A) : result A := match o with Some a => Ok a | None => Err TypeError end.

Definition mechanism_of (n : noise) : mech_type := match n with LaplaceNoise => LAPLACE | GaussianNoise => GAUSSIAN end.

(** The combiners of one configuration with the mechanism type for which each requests
    budget, in the order of creation.  i_column is None for a single column. *)
Definition sum_combiners (u : uparams) (bounds : list (option Q * option Q)) : list (result acombiner) :=
  map (fun ib =>
         rbind (need (u_l0 u)) (fun l0 =>
         rbind (need (fst (snd ib))) (fun lo =>
         rmap (fun hi => ASum lo hi l0 (if Nat.eqb (length bounds) 1 then None else Some (fst ib))) (need (snd (snd ib))))))
      (combine (seq 0 (length bounds)) bounds).
Definition config_combiners (public : bool) (ms : list metric) (ub : uparams * list (option Q * option Q))
  : result (list acombiner) :=
  let (u, bounds) := ub in
  sequence
    ((if public then [] else [rmap ASelect (need (u_l0 u))]) ++
     (if has SUM ms then sum_combiners u bounds else []) ++
     (if has COUNT ms then [rbind (need (u_linf u)) (fun linf => rmap (ACount linf) (need (u_l0 u)))] else []) ++
     (if has PRIVACY_ID_COUNT ms then [rmap APid (need (u_l0 u))] else [])).
Definition config_mechanisms (public : bool) (ms : list metric) (ub : uparams * list (option Q * option Q))
  : list mech_type :=
  let (u, bounds) := ub in
  (if public then [] else [GENERIC]) ++
  (if has SUM ms then repeat (mechanism_of (u_noise u)) (length bounds) else []) ++
  (if has COUNT ms then [mechanism_of (u_noise u)] else []) ++
  (if has PRIVACY_ID_COUNT ms then [mechanism_of (u_noise u)] else []).

(** The budget of one configuration: requests on a deep copy of the engine's accountant,
    then compute_budgets on the copy. *)
Fixpoint request_all (s : acct) (ts : list mech_type) : result acct :=
  match ts with
  | [] => Ok s
  | t :: ts' => let (s', r) := request_budget s t 1 1 None in
                rbind r (fun _ => request_all s' ts')
  end.
Definition config_specs (s : acct) (ts : list mech_type) : result (list mech) :=
  rbind (request_all s ts) (fun s' =>
  let (s'', r) := compute_budgets s' in
  rmap (fun _ => mechs s'') r).

(** All combiners, RawStatisticsCombiner first, and the specs per configuration.  The
    engine's own accountant is not changed. *)
Definition all_combiners (public : bool) (o : options) : result (list acombiner) :=
  rbind (all_params o) (fun ps =>
  rmap (fun cs => ARaw :: concat cs) (sequence (map (config_combiners public (metrics (o_params o))) ps))).
Definition all_specs (public : bool) (s : acct) (o : options) : result (list (list mech)) :=
  rbind (all_params o) (fun ps =>
  sequence (map (fun ub => config_specs s (config_mechanisms public (metrics (o_params o)) ub)) ps)).

(** ** Per-partition results *)

(** Results of the combiners: RawStatistics, a float (probability to keep), SumMetrics. *)
Inductive umetric := URaw (ids count : Z) | UKeep (p : Q) | USum (m : sum_metrics).

(** compute_metrics of the combiners, per_partition_combiners.py:219-227, 279-296,
    362-364: the numbers of AnalysisModel with name, noise and its standard deviation.
    [std] is the standard deviation of the mechanism (a function of the spec and the
    sensitivities). *)
Definition aggregation_of (c : acombiner) : metric :=
  match c with ACount _ _ => COUNT | APid _ => PRIVACY_ID_COUNT | _ => SUM end.
Definition to_umetric (root : Q -> Q) (std : Q) (kind : noise) (c : acombiner) (m : ametric) : umetric :=
  match m with
  | MRaw i n => URaw i n
  | MKeep p => UKeep p
  | MSum s => USum (SumMetrics (aggregation_of c) (a_sum s) (a_min s) (a_max s) (a_l0 s) (root (a_var s)) std kind)
  end.

(** The combiners with the noise kind of their configuration; RawStatisticsCombiner does
    not use it. *)
Definition items_of (ps : list (uparams * list (option Q * option Q))) (chunks : list (list acombiner))
  : list (noise * acombiner) :=
  (LaplaceNoise, ARaw) :: concat (map (fun uc => map (pair (u_noise (fst (fst uc)))) (snd uc)) (combine ps chunks)).
Definition all_items (public : bool) (o : options) : result (list (noise * acombiner)) :=
  rbind (all_params o) (fun ps =>
  rmap (items_of ps) (sequence (map (config_combiners public (metrics (o_params o))) ps))).

(** CompoundCombiner.compute_metrics of one partition.  [std j]: the standard deviation
    of the noise of combiner number [j]. *)
Definition umetrics (root : Q -> Q) (std : nat -> Q) (items : list (noise * acombiner)) (ms : list ametric) : list umetric :=
  map (fun jx => to_umetric root (std (fst jx)) (fst (fst (snd jx))) (snd (fst (snd jx))) (snd (snd jx)))
      (combine (seq 0 (length items)) (combine items ms)).
Definition partition_row (root : Q -> Q) (std : nat -> Q) (keeps : nat -> Z -> Q) (approx : moments -> Z * list Q)
    (items : list (noise * acombiner)) (t : tree (option pre)) : result (list umetric) :=
  rmap (umetrics root std items) (analyse keeps approx (map snd items) t).

(** _pack_per_partition_metrics: utility_analysis.py:148-181.  [set_metric]: one round of
    the loop. *)
Fixpoint update_nth {A} (i : nat) (f : A -> A) (l : list A) : list A :=
  match l, i with
  | [], _ => []
  | x :: l', O => f x :: l'
  | x :: l', S i' => x :: update_nth i' f l'
  end.
Definition set_metric (m : umetric) (p : partition_metrics) : result partition_metrics :=
  match m with
  | UKeep q => Ok (PartitionMetrics q (pm_ids p) (pm_count p) (pm_errors p))
  | USum s => Ok (PartitionMetrics (pm_keep p) (pm_ids p) (pm_count p) (pm_errors p ++ [s]))
  | URaw _ _ => Err TypeError
  end.
Fixpoint pack_loop (n_metrics i : nat) (ms : list umetric) (res : list partition_metrics)
  : result (list partition_metrics) :=
  match ms with
  | [] => Ok res
  | m :: ms' =>
      match nth_error res (i / n_metrics) with
      | None => Err IndexError
      | Some p => rbind (set_metric m p) (fun p' =>
                  pack_loop n_metrics (S i) ms' (update_nth (i / n_metrics) (fun _ => p') res))
      end
  end.
Definition pack (n_configs : nat) (ms : list umetric) : result (list partition_metrics) :=
  match ms with
  | [] => Err IndexError
  | raw :: rest =>
      if negb (Nat.eqb (length rest mod n_configs) 0) then Err AssertionError
      else match raw with
           | URaw ids count =>
               pack_loop (length rest / n_configs) 0 rest (repeat (PartitionMetrics 1 ids count []) n_configs)
           | _ => Err TypeError
           end
  end.

(** ** Buckets *)

(** _generate_bucket_bounds: utility_analysis.py:28-39. *)
Definition bucket_bounds : list Z :=
  [0; 1] ++ flat_map (fun i => [10 ^ i; 2 * 10 ^ i; 5 * 10 ^ i]) [1; 2; 3; 4; 5; 6; 7; 8; 9; 10; 11; 12].
(** bisect.bisect_right of a sorted list: the number of elements up to [n]. *)
Definition bisect_right (l : list Z) (n : Z) : nat := length (filter (fun b => b <=? n) l).
(** _get_lower_bound, _get_upper_bound: 184-196. *)
Definition lower_bound (n : Z) : Z :=
  if n <? 0 then 0 else nth (bisect_right bucket_bounds n - 1) bucket_bounds 0.
Definition upper_bound (n : Z) : Z :=
  if n <? 0 then 0
  else match nth_error bucket_bounds (bisect_right bucket_bounds n) with Some b => b | None => -1 end.

(** ** perform_utility_analysis: utility_analysis.py:42-145, from the per-partition
    results on *)

(** _unnest_metrics: 199-210. *)
Definition unnest (ms : list partition_metrics) : list ((nat * option Z) * partition_metrics) :=
  flat_map (fun im =>
              let size := match ms with [] => 0 | m0 :: _ => pm_ids m0 end in
              [((fst im, None), snd im); ((fst im, Some (lower_bound size)), snd im)])
           (combine (seq 0 (length ms)) ms).

(** UtilityReport with its histogram: metrics.py:249-285. *)
Record bin_report := BinReport { br_from : Z; br_to : Z; br_report : report }.
Record utility_report := UtilityReport { ur_report : report; ur_histogram : option (list bin_report) }.

(** _group_utility_reports: 213-252.  None: no global report.  sort() orders by the bound
    (the bounds of one configuration are different). *)
Definition with_index (i : nat) (r : report) : report := Report (Z.of_nat i) (r_partitions r) (r_errors r).
Definition group_loop (i : nat) (reports : list (option Z * report)) : option report * list (Z * report) :=
  fold_left (fun acc br => match fst br with
                           | None => (Some (with_index i (snd br)), snd acc)
                           | Some b => (fst acc, snd acc ++ [(b, with_index i (snd br))])
                           end) reports (None, []).
Definition group_reports (i : nat) (reports : list (option Z * report)) : option utility_report :=
  match group_loop i reports with
  | (None, _) => None
  | (Some g, []) => Some (UtilityReport g None)
  | (Some g, hs) =>
      Some (UtilityReport g (Some (map (fun br => BinReport (fst br) (upper_bound (fst br)) (snd br))
                                       (sort_by (fun a b => fst a <=? fst b) hs))))
  end.

(** add_partition_selection_strategy: 128-142.  A negative index cannot occur. *)
Definition with_strategy (s : strategy) (r : report) : report :=
  let p := r_partitions r in
  Report (r_index r) (PartitionsInfo (pi_public p) (pi_dataset p) (pi_non_public p) (pi_empty p) (Some s) (pi_kept p)) (r_errors r).
Definition add_strategy (ss : list strategy) (u : option utility_report) : result (option utility_report) :=
  match u with
  | None => Err AttributeError
  | Some u =>
      match nth_error ss (Z.to_nat (r_index (ur_report u))) with
      | None => Err IndexError
      | Some s =>
          match ur_histogram u with
          | None => Err TypeError
          | Some bins =>
              Ok (Some (UtilityReport (with_strategy s (ur_report u))
                     (Some (map (fun b => BinReport (br_from b) (br_to b) (with_strategy s (br_report b))) bins))))
          end
      end
  end.

(** The collection that is reduced per (configuration, bucket): 79-107. *)
Definition packed {K} (n_configs : nat) (rows : list (K * list umetric)) : result (list (K * list partition_metrics)) :=
  sequence (map (fun kv => rmap (pair (fst kv)) (pack n_configs (snd kv))) rows).
(** From the accumulators of the partitions (the merge of each chosen by the runner) to
    the packed metrics: 75-83. *)
Definition metrics_of {K} (root : Q -> Q) (std : nat -> Q) (keeps : nat -> Z -> Q) (approx : moments -> Z * list Q)
    (public : bool) (o : options) (data : list (K * tree (option pre))) : result (list (K * list partition_metrics)) :=
  rbind (all_items public o) (fun items =>
  rbind (sequence (map (fun kt => rmap (pair (fst kt)) (partition_row root std keeps approx items (snd kt))) data))
        (packed (n_configurations o))).
Definition unnested {K} (pk : list (K * list partition_metrics)) : list ((nat * option Z) * partition_metrics) :=
  flat_map (fun kv => unnest (snd kv)) pk.

(** The second result: ((partition_key, configuration_index), metrics), 96-100. *)
Definition per_partition_output {K} (pk : list (K * list partition_metrics)) : list ((K * nat) * partition_metrics) :=
  flat_map (fun kv => map (fun im => ((fst kv, fst im), snd im)) (combine (seq 0 (length (snd kv))) (snd kv))) pk.

(** The reports, 102-142: [plan] is the execution of combine_accumulators_per_key,
    [grouper] that of group_by_key.  The weight function is equal_weight_fn, the
    default of CrossPartitionCombiner. *)
Definition reports_of (root : Q -> Q) (n_metrics : nat) (public : bool) (ss : list strategy)
    (grouper : list (nat * (option Z * report)) -> list (nat * list (option Z * report)))
    (plan : list ((nat * option Z) * tree partition_metrics)) : result (list (option utility_report)) :=
  rbind (sequence (map (fun kt => rmap (fun r => (fst (fst kt), (snd (fst kt), r)))
                                       (cross_report root n_metrics public equal_weight (snd kt))) plan)) (fun rs =>
  let grouped := map (fun kv => group_reports (fst kv) (snd kv)) (grouper rs) in
  if public then Ok grouped else sequence (map (add_strategy ss) grouped)).

(** _check_utility_analysis_params: utility_analysis_engine.py:203-250, after
    UtilityAnalysisOptions.__post_init__ (data_structures.py:140-147).  [preagg],
    [preagg_extractors]: pre_aggregated_data and whether the extractors are
    PreAggregateExtractors; [extractors]: whether they are DataExtractors. *)
Definition check_options (o : options) (sampling : Q) (preagg preagg_extractors extractors : bool) : result unit :=
  rbind (validate_epsilon_delta (o_eps o) (o_delta o)) (fun _ =>
  raise_if (Qle_bool sampling 0 || negb (Qle_bool sampling 1)) ValueError
  (raise_if (if preagg then negb preagg_extractors else negb extractors) ValueError
  (raise_if (custom_combiners (o_params o)) NotImplementedError
  (raise_if (negb (only [COUNT; SUM; PRIVACY_ID_COUNT] (metrics (o_params o)))) NotImplementedError
  (raise_if (contribution_bounds_already_enforced (o_params o)) NotImplementedError
  (raise_if (post_aggregation_thresholding (o_params o)) NotImplementedError
  (Ok tt))))))).
