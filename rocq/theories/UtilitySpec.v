(** Specification vocabulary for the utility analysis of several configurations. *)
From Coq Require Import List ZArith QArith Bool Permutation Sorted.
From Verif Require Import Base BudgetModel ParamsModel BackendModel AnalysisModel AnalysisSpec CrossModel TuningModel UtilityModel.
Import ListNotations.
Local Open Scope Z_scope.

(** What the combiners of one configuration report for one partition: the probability to
    keep it (private partition selection only) and [k] errors. *)
Definition chunk_ok (public : bool) (k : nat) (chunk : list umetric) : Prop :=
  exists errors, length errors = k /\
    if public then chunk = map USum errors else exists p, chunk = UKeep p :: map USum errors.
(** What all the combiners report for one partition. *)
Definition row_ok (public : bool) (n_configs k : nat) (row : list umetric) : Prop :=
  exists ids count chunks,
    row = URaw ids count :: concat chunks /\ 0 <= ids /\ length chunks = n_configs /\ Forall (chunk_ok public k) chunks.

(** The metrics of a partition for one configuration. *)
Fixpoint keep_probability (chunk : list umetric) : Q :=
  match chunk with [] => 1%Q | UKeep p :: _ => p | _ :: l => keep_probability l end.
Definition errors_of (chunk : list umetric) : list CrossModel.sum_metrics :=
  flat_map (fun m => match m with USum s => [s] | _ => [] end) chunk.

(** The metrics of all partitions for configuration [c]. *)
Definition config_metrics {K} (c : nat) (pk : list (K * list partition_metrics)) : list partition_metrics :=
  flat_map (fun kv => match nth_error (snd kv) c with Some m => [m] | None => [] end) pk.

(** [r] is the cross-partition report over the partitions [ps], labelled with the
    configuration and its selection strategy. *)
Definition summarises (root : Q -> Q) (n_metrics : nat) (public : bool) (c : nat) (s : option strategy)
    (ps : list partition_metrics) (r : report) : Prop :=
  exists t r0, Permutation (leaves t) ps /\ cross_report root n_metrics public equal_weight t = Ok r0 /\
    r_index r = Z.of_nat c /\ r_errors r = r_errors r0 /\
    pi_public (r_partitions r) = pi_public (r_partitions r0) /\
    pi_dataset (r_partitions r) = pi_dataset (r_partitions r0) /\
    pi_non_public (r_partitions r) = pi_non_public (r_partitions r0) /\
    pi_empty (r_partitions r) = pi_empty (r_partitions r0) /\
    pi_kept (r_partitions r) = pi_kept (r_partitions r0) /\
    pi_strategy (r_partitions r) = s.

(** A number of privacy ids in the range [from, to); to = -1: no upper end. *)
Definition in_range (from to n : Z) : bool := (from <=? n) && ((to =? -1) || (n <? to)).

(** [e] is the error that the combiner [comb] must report for the contributions [ds] of the
    privacy ids to a partition (AnalysisSpec.metric_spec), with the noise of the
    configuration. *)
Definition error_spec (root : Q -> Q) (std : Q) (kind : noise) (ds : list pre) (comb : acombiner) (e : CrossModel.sum_metrics) : Prop :=
  exists s, (forall keep approx, metric_spec keep approx comb ds (MSum s)) /\
    sm_aggregation e = aggregation_of comb /\ sm_sum e = a_sum s /\ sm_min_error e = a_min s /\ sm_max_error e = a_max s /\
    sm_l0_error e = a_l0 s /\ sm_l0_std e = root (a_var s) /\ sm_noise_std e = std /\ sm_noise_kind e = kind.

(** The combiners wanted for one configuration of the parameters: partition selection and
    the aggregations, each with the bounds of this configuration. *)
Definition sums_wanted (l0 : Z) (bounds : list (option Q * option Q)) (cs : list acombiner) : Prop :=
  Forall2 (fun ib c => exists lo hi, snd ib = (Some lo, Some hi) /\
             c = ASum lo hi l0 (if Nat.eqb (length bounds) 1 then None else Some (fst ib)))
          (combine (seq 0 (length bounds)) bounds) cs.
Definition errors_wanted (ms : list metric) (u : uparams) (bounds : list (option Q * option Q)) (cs : list acombiner) : Prop :=
  exists sums counts pids, cs = sums ++ counts ++ pids /\
    (if has SUM ms then exists l0, u_l0 u = Some l0 /\ sums_wanted l0 bounds sums else sums = []) /\
    (if has COUNT ms then exists linf l0, u_linf u = Some linf /\ u_l0 u = Some l0 /\ counts = [ACount linf l0] else counts = []) /\
    (if has PRIVACY_ID_COUNT ms then exists l0, u_l0 u = Some l0 /\ pids = [APid l0] else pids = []).

(** The configuration passed the checks of MultiParameterConfiguration. *)
Definition config_valid (o : options) : Prop :=
  match o_config o with None => True | Some (c, n) => mconfig_size c = Ok n end.

(** What the metrics of a partition with the data [ds] are for the configuration with
    number [c] and parameters [ub]. *)
Definition partition_spec (root : Q -> Q) (std : nat -> Q) (keeps : nat -> Z -> Q) (approx : moments -> Z * list Q)
    (public : bool) (ms : list metric) (c : nat) (ub : uparams * list (option Q * option Q)) (ds : list pre) (pm : partition_metrics) : Prop :=
  let sel := if public then 0%nat else 1%nat in
  pm_ids pm = Z.of_nat (length ds) /\ pm_count pm = sumZ (map (fun d => fst (fst d)) ds) /\
  exists errs, errors_wanted ms (fst ub) (snd ub) errs /\
    let first := (1 + c * (sel + length errs))%nat in
    (if public then pm_keep pm = 1%Q
     else exists l0, u_l0 (fst ub) = Some l0 /\ metric_spec (keeps first) approx (ASelect l0) ds (MKeep (pm_keep pm))) /\
    Forall2 (fun jc e => error_spec root (std (fst jc)) (u_noise (fst ub)) ds (snd jc) e)
            (combine (seq (first + sel) (length errs)) errs) (pm_errors pm).

(** The selection strategy of a configuration. *)
Definition strategy_of (public : bool) (ss : list strategy) (c : nat) : option strategy :=
  if public then None else nth_error ss c.

(** What is said about the report of configuration [c]. *)
Definition report_ok {K} (root : Q -> Q) (n : nat) (public : bool) (ss : list strategy) (pk : list (K * list partition_metrics))
    (c : nat) (u : utility_report) : Prop :=
  summarises root n public c (strategy_of public ss c) (config_metrics c pk) (ur_report u) /\
  exists bins, ur_histogram u = Some bins /\
    StronglySorted (fun a b => 0 < br_to a <= br_from b) bins /\
    (forall b, In b bins ->
       let ps := filter (fun m => in_range (br_from b) (br_to b) (pm_ids m)) (config_metrics c pk) in
       ps <> [] /\ summarises root n public c (strategy_of public ss c) ps (br_report b)) /\
    (forall m, In m (config_metrics c pk) -> exists b, In b bins /\ in_range (br_from b) (br_to b) (pm_ids m) = true).


(** The parameter of configuration [i]: its own if the attribute is set, else the default. *)
Definition chosen {A B} (attr : option (list A)) (default : B) (inj : A -> B) (i : nat) (v : B) : Prop :=
  match attr with None => v = default | Some l => exists a, nth_error l i = Some a /\ v = inj a end.
(** Every attribute that is given is a non-empty list, and the bounds of sums are both
    numbers or both tuples. *)
Definition given_nonempty (c : mconfig) : Prop :=
  c_l0 (mc_bounds c) <> Some [] /\ c_linf (mc_bounds c) <> Some [] /\ mc_noise c <> Some [] /\ mc_strategy c <> Some [] /\
  match c_min_sum (mc_bounds c), c_max_sum (mc_bounds c) with
  | None, None => True
  | Some (Flat a), Some (Flat b) => a <> [] /\ b <> []
  | Some (Multi a), Some (Multi b) => a <> [] /\ b <> []
  | _, _ => False
  end.
Definition bounds_chosen (p : params) (c : config) (i : nat) (b : list (option Q * option Q)) : Prop :=
  match c_min_sum c, c_max_sum c with
  | Some (Flat mins), Some (Flat maxs) =>
      exists lo hi, nth_error mins i = Some lo /\ nth_error maxs i = Some hi /\ b = [(Some lo, Some hi)]
  | Some (Multi mins), Some (Multi maxs) =>
      exists los his, nth_error mins i = Some los /\ nth_error maxs i = Some his /\
        map fst b = map Some los /\ map snd b = map Some his
  | _, _ => b = [(min_sum_per_partition p, max_sum_per_partition p)]
  end.

(** The mechanism for which a combiner needs budget. *)
Definition mechanism_wanted (n : noise) (c : acombiner) : BudgetModel.mech_type :=
  match c with
  | ASelect _ => BudgetModel.GENERIC
  | _ => match n with LaplaceNoise => BudgetModel.LAPLACE | GaussianNoise => BudgetModel.GAUSSIAN end
  end.
(** The number of noisy aggregations: one sum per column, a count, a privacy id count. *)
Definition errors_number (ms : list metric) (columns : nat) : nat :=
  (if has SUM ms then columns else 0) + (if has COUNT ms then 1 else 0) + (if has PRIVACY_ID_COUNT ms then 1 else 0).
