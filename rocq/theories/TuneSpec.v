(** Vocabulary for C67: which arguments of tune are supported, what the candidates must
    be, and what the best one is. *)
From Coq Require Import List ZArith QArith Bool Permutation Sorted.
From Verif Require Import Base ParamsModel BackendModel BackendSpec BounderModel BounderSpec AnalysisModel CrossModel CrossSpec TuningModel
  UtilityModel UtilitySpec AnalyzeModel AnalyzeSpec TuneModel.
Import ListNotations.
Local Open Scope Z_scope.

(** A backend that merges and groups as it should; the order of to_list is arbitrary. *)
Definition fair {P} `{EqDec P} (run : runner P) : Prop :=
  (forall col, reduce_plan col (run_merge run col)) /\
  (forall col, reduce_plan col (run_cross run col)) /\
  (forall l, is_grouping l (run_group run l)) /\
  (forall l, Permutation (run_list run l) l).

Definition tunes_linf (o : tune_options) : bool := tt_linf (to_tuned o) && has COUNT (metrics (to_params o)).
Definition tunes_sum (o : tune_options) : bool := tt_max_sum (to_tuned o) && has SUM (metrics (to_params o)).

(** The arguments are supported: budget, metrics, function to minimize, sampling; the
    histograms that are used are not empty (of sums: one column, bins in increasing
    order, one with a positive maximum if there is only one); and every bound that the
    analysis needs is tuned or given. *)
Record supported (o : tune_options) (h : contribution_histograms) (public : bool) : Prop := {
  sup_eps : (0 < to_eps o)%Q;
  sup_delta : (0 <= to_delta o < 1)%Q;
  sup_private_delta : public = false -> ~ (to_delta o == 0)%Q;
  sup_tuned : let t := to_tuned o in tt_l0 t = true \/ tt_linf t = true \/ tt_max_sum t = true \/ tt_noise t = true;
  sup_no_min : tt_min_sum (to_tuned o) = false;
  sup_minimize : to_minimize o = AbsoluteError;
  sup_sampling : (0 < to_sampling o <= 1)%Q;
  sup_raw : to_preaggregated o = false;
  sup_metrics : Forall (fun m => m = COUNT \/ m = SUM \/ m = PRIVACY_ID_COUNT) (metrics (to_params o));
  sup_distinct : NoDup (metrics (to_params o));
  sup_select : metrics (to_params o) = [] -> public = false;
  sup_custom : custom_combiners (to_params o) = false;
  sup_enforced : contribution_bounds_already_enforced (to_params o) = false;
  sup_threshold : post_aggregation_thresholding (to_params o) = false;
  sup_candidates : 1 <= to_candidates o;
  sup_l0 : if tt_l0 (to_tuned o) then 1 <= ch_l0_max h
           else forall l0, max_partitions_contributed (to_params o) = Some l0 -> 0 < l0;
  sup_linf : if tunes_linf o then 1 <= ch_linf_max h
             else has COUNT (metrics (to_params o)) = true -> max_contributions_per_partition (to_params o) <> None;
  sup_sum : if tunes_sum o
            then exists maxs, ch_sum_bins h = [maxs] /\ StronglySorted Qlt maxs /\ maxs <> [] /\ ((2 <= length maxs)%nat \/ (0 < hd 0 maxs)%Q)
            else has SUM (metrics (to_params o)) = true ->
                 min_sum_per_partition (to_params o) <> None /\ max_sum_per_partition (to_params o) <> None }.

(** There is something to analyse: a public partition, or a row in a sampled one. *)
Definition something {U P V} `{EqDec P} (p : params) (hash : P -> Z) (rate : Q) (public : option (list P)) (rows : list (U * P * V)) : Prop :=
  (exists k pub, public = Some pub /\ In k pub) \/
  (exists r, In r (counted p public rows) /\ partition_kept hash rate (snd (fst r)) = true).

(** ** The candidates *)

(** The bounds of a candidate: those that are tuned are in the range of the histogram,
    the others are the given ones (1 partition if none is given). *)
Definition wanted_bounds (o : tune_options) (h : contribution_histograms) (u : uparams) (b : list (option Q * option Q)) : Prop :=
  let p := to_params o in
  (exists l0, u_l0 u = Some l0 /\ 1 <= l0 /\
     if tt_l0 (to_tuned o) then l0 <= ch_l0_max h
     else l0 = match max_partitions_contributed p with Some l => l | None => 1 end) /\
  (if tunes_linf o then exists linf, u_linf u = Some linf /\ 1 <= linf <= ch_linf_max h
   else u_linf u = max_contributions_per_partition p) /\
  (if tunes_sum o then exists maxs hi, ch_sum_bins h = [maxs] /\ In hi maxs /\ b = [(Some 0%Q, Some hi)]
   else b = [(min_sum_per_partition p, max_sum_per_partition p)]).

(** The standard deviation of the noise for [l0] partitions and one contribution. *)
Definition std_of (orc : strategy_oracle) (k : noise) (budget : Q * Q) (l0 : Z) : Q :=
  match k with
  | LaplaceNoise => laplace_std orc (fst budget) l0 1
  | GaussianNoise => gaussian_std orc (fst budget) (snd budget) l0 1
  end.
(** Laplace noise without delta, else the noise with the smaller deviation. *)
Definition least_noise (orc : strategy_oracle) (budget : Q * Q) (l0 : Z) (k : noise) : Prop :=
  (snd budget == 0 -> k = LaplaceNoise)%Q /\
  (~ snd budget == 0 -> forall k', std_of orc k budget l0 <= std_of orc k' budget l0)%Q.
(** The partition selection with the smaller threshold (the one of TruncatedGeometric is
    that of Laplace thresholding); Laplace thresholding itself is never chosen. *)
Definition least_threshold (orc : strategy_oracle) (budget : Q * Q) (l0 : Z) (s : strategy) : Prop :=
  let of s := match s with
              | ParamsModel.GaussianThresholding => gaussian_threshold orc (fst budget) (snd budget) l0
              | _ => laplace_threshold orc (fst budget) (snd budget) l0
              end in
  s <> ParamsModel.LaplaceThresholding /\ forall s', (of s <= of s')%Q.

(** The budget that the choice of the strategy assumes for the noise: all of it for
    public partitions; half of it for private ones, the other half for the selection of
    partitions; and for PRIVACY_ID_COUNT the whole epsilon and half of delta, since the
    selection is thought to be done by thresholding the noisy count. *)
Definition assumed_budget (o : tune_options) (public : bool) : Q * Q :=
  if public then (to_eps o, to_delta o)
  else if has PRIVACY_ID_COUNT (metrics (to_params o)) then (to_eps o, to_delta o / 2)%Q
  else (to_eps o / 2, to_delta o / 2)%Q.

(** The noise and the selection strategy of a candidate: a tuned noise is the one with
    the smaller deviation for the number of partitions of the candidate. *)
Definition wanted_strategy (orc : strategy_oracle) (o : tune_options) (public : bool) (u : uparams) : Prop :=
  let ms := metrics (to_params o) in
  let n := Z.of_nat (length ms) in
  exists l0, u_l0 u = Some l0 /\
  (ms <> [] -> if tt_noise (to_tuned o) then least_noise orc (assumed_budget o public) (l0 * n) (u_noise u)
               else u_noise u = noise_kind (to_params o)) /\
  (if public then u_strategy u = partition_selection_strategy (to_params o)
   else match ms with
        | [] => least_threshold orc (to_eps o, to_delta o) l0 (u_strategy u)
        | _ => if has PRIVACY_ID_COUNT ms
               then exists k, least_noise orc (assumed_budget o false) (l0 * n) k /\
                    u_strategy u = match k with
                                   | LaplaceNoise => ParamsModel.LaplaceThresholding
                                   | GaussianNoise => ParamsModel.GaussianThresholding
                                   end
               else least_threshold orc (assumed_budget o false) (l0 * n) (u_strategy u)
        end).

(** ** The choice *)

(** The metric whose error is minimized. *)
Definition decisive (ms : list metric) : metric :=
  if has SUM ms then SUM else if has COUNT ms then COUNT else PRIVACY_ID_COUNT.
(** The number that is minimized: the root mean square error of the decisive metric,
    averaged over the partitions with their probabilities to be kept as weights. *)
Definition average_rmse (root : Q -> Q) (pms : list partition_metrics) : Q :=
  average pm_keep (fun pm => root (bias (metric_of 0 pm) * bias (metric_of 0 pm) + CrossSpec.spread (metric_of 0 pm))%Q) pms.
(** [b] is the first position of the smallest number. *)
Definition first_smallest (l : list Q) (b : nat) : Prop :=
  exists e, nth_error l b = Some e /\
    forall i x, nth_error l i = Some x -> (e <= x)%Q /\ ((i < b)%nat -> (e < x)%Q).
