(** Model of pipeline_dp/dataset_histograms (count histograms, sum histograms,
    quantiles, ratio of dropped data), of the pre-aggregation of
    /repo/analysis/pre_aggregation.py, and of
    private_contribution_bounds.generate_possible_contribution_bounds.

    Simplifications.  The attributes [name], [lower], [upper] of
    hist.Histogram are left out: a histogram is its list of bins.  Float
    arithmetic is exact (rationals).  Values have one column. *)
From Coq Require Import List ZArith QArith Qround Bool.
From Verif Require Import Base BackendModel.
Import ListNotations.

(** ** FrequencyBin *)

(** hist.FrequencyBin: /repo/pipeline_dp/dataset_histograms/histograms.py:21-60. *)
Record bin (V : Type) := mkBin {
  b_lower : V;
  b_upper : V;
  b_count : Z;
  b_sum : V;
  b_max : V;
  b_min : V
}.
Arguments mkBin {V} _ _ _ _ _ _.
Arguments b_lower {V} _.
Arguments b_upper {V} _.
Arguments b_count {V} _.
Arguments b_sum {V} _.
Arguments b_max {V} _.
Arguments b_min {V} _.

(** FrequencyBin.__add__ for integer bins, with its two assertions:
    histograms.py:47-51, 58-60.  An earlier exception propagates. *)
Definition bin_add (ra rb : result (bin Z)) : result (bin Z) :=
  rbind ra (fun a => rbind rb (fun b =>
    if negb (b_lower a =? b_lower b)%Z then Err AssertionError
    else if negb (b_upper a =? b_upper b)%Z then Err AssertionError
    else Ok (mkBin (b_lower a) (b_upper a) (b_count a + b_count b)%Z
                   (b_sum a + b_sum b)%Z (Z.max (b_max a) (b_max b))
                   (Z.min (b_min a) (b_min b))))).

(** The first exception in a list, or all values. *)
Fixpoint sequence {A} (l : list (result A)) : result (list A) :=
  match l with
  | [] => Ok []
  | r :: l' => rbind r (fun a => rmap (cons a) (sequence l'))
  end.

(** [sorted(bins, key=lambda bin: bin.lower)]: stable insertion sort with the
    key and its order as arguments. *)
Fixpoint insert_by {A} (le : A -> A -> bool) (x : A) (l : list A) : list A :=
  match l with
  | [] => [x]
  | y :: l' => if le x y then x :: y :: l' else y :: insert_by le x l'
  end.
Definition sort_by {A} (le : A -> A -> bool) (l : list A) : list A :=
  fold_right (insert_by le) [] l.

Definition lower_leb (a b : bin Z) : bool := (b_lower a <=? b_lower b)%Z.

(** ** Logarithmic bins *)

(** The loop [while value > bound: bound *= 10].  The number of iterations is
    an explicit argument. *)
Fixpoint grow_bound (fuel : nat) (value bound : Z) : Z :=
  match fuel with
  | O => bound
  | S f => if (bound <? value)%Z then grow_bound f value (bound * 10)%Z else bound
  end.

(** _to_bin_lower_upper_logarithmic:
    /repo/pipeline_dp/dataset_histograms/count_histogram_computation.py:35-54.
    [log2_up value] iterations are enough for the loop, because the bound at
    least doubles (lemma [grow_bound_spec] shows that the loop has ended). *)
Definition log_bin (value : Z) : Z * Z :=
  let bound := grow_bound (Z.to_nat (Z.log2_up value)) value 1000 in
  let round_base := (bound / 1000)%Z in
  let lower := (value / round_base * round_base)%Z in
  let bin_size := if negb (value =? bound)%Z then round_base else (round_base * 10)%Z in
  (lower, (lower + bin_size)%Z).

(** _map_to_frequency_bin: count_histogram_computation.py:116-126. *)
Definition to_frequency_bin (vf : Z * Z) : Z * result (bin Z) :=
  let '(value, frequency) := vf in
  let '(lo, up) := log_bin value in
  (lo, Ok (mkBin lo up frequency (frequency * value)%Z value value)).

(** The last part of _convert_frequency_bins_into_histogram
    (count_histogram_computation.py:138-150): drop the keys, to one list,
    sort. *)
Definition bins_to_histogram (col : list (Z * result (bin Z))) : result (list (bin Z)) :=
  rmap (sort_by lower_leb) (sequence (map snd col)).

(** _compute_frequency_histogram_helper on LocalBackend:
    count_histogram_computation.py:100-150. *)
Definition histogram_of_frequencies (col : list (Z * Z)) : result (list (bin Z)) :=
  bins_to_histogram (combine_per_key bin_add (map to_frequency_bin col)).

(** The same when the backend reduces by key in the order given by [plan]
    (SparkRDDBackend.reduce_per_key, pipeline_backend.py:464-465). *)
Definition histogram_by_plan (plan : list (Z * tree (result (bin Z)))) : result (list (bin Z)) :=
  bins_to_histogram (spark_by_key (reduce_tree bin_add) plan).

(** _compute_frequency_histogram: count_histogram_computation.py:57-73. *)
Definition frequency_histogram (col : list Z) : result (list (bin Z)) :=
  histogram_of_frequencies (count_per_element col).

(** Python's [round]: to the nearest integer, ties to the even one. *)
Definition py_round (q : Q) : Z :=
  let f := Qfloor (q + (1 # 2)) in
  if Qeq_bool (inject_Z f) (q + (1 # 2)) && Z.odd f then (f - 1)%Z else f.

(** _compute_weighted_frequency_histogram: count_histogram_computation.py:76-97. *)
Definition weighted_frequency_histogram (col : list (Z * Q)) : result (list (bin Z)) :=
  histogram_of_frequencies
    (map_values py_round (map_values sumQ (group_by_key col))).

(** ** Histogram methods *)

(** Histogram.total_count, total_sum, max_value: histograms.py:124-131.
    max_value of an empty histogram raises (IndexError). *)
Definition total_count {V} (h : list (bin V)) : Z := sumZ (map b_count h).
Definition total_sum (h : list (bin Z)) : Z := sumZ (map b_sum h).
Definition max_value {V} (h : list (bin V)) : result V :=
  match rev h with
  | [] => Err IndexError
  | b :: _ => Ok (b_max b)
  end.

(** The inner loop of quantiles: [qs] are the quantiles not yet answered, the
    last one first; [acc] is [result] reversed.
    histograms.py:159-161. *)
Fixpoint take_quantiles {V} (lower : V) (ratio : Q) (qs : list Q) (acc : list V)
  : list Q * list V :=
  match qs with
  | [] => ([], acc)
  | q :: qs' => if Qle_bool ratio q then take_quantiles lower ratio qs' (lower :: acc)
                else (qs, acc)
  end.

(** The outer loop: histograms.py:156-161; [bins] is [self.bins[::-1]]. *)
Fixpoint quantiles_loop {V} (total : Z) (bins : list (bin V)) (count_smaller : Z)
    (qs : list Q) (acc : list V) : list Q * list V :=
  match bins with
  | [] => (qs, acc)
  | b :: bins' =>
      let count_smaller' := (count_smaller - b_count b)%Z in
      let ratio := (inject_Z count_smaller' / inject_Z total)%Q in
      let '(qs', acc') := take_quantiles (b_lower b) ratio qs acc in
      quantiles_loop total bins' count_smaller' qs' acc'
  end.

Fixpoint sortedQ (q : list Q) : bool :=
  match q with
  | x :: ((y :: _) as q') => Qle_bool x y && sortedQ q'
  | _ => true
  end.

(** Histogram.quantiles: histograms.py:133-164.  If a quantile is left after
    the loop, [bin[0]] raises TypeError (a FrequencyBin is not subscriptable).
    [result[::-1]] is [acc] as built here. *)
Definition quantiles {V} (h : list (bin V)) (q : list Q) : result (list V) :=
  if negb (sortedQ q) then Err AssertionError
  else let total := total_count h in
       if (total =? 0)%Z then Err ValueError
       else match quantiles_loop total (rev h) total (rev q) [] with
            | ([], acc) => Ok acc
            | (_ :: _, _) => Err TypeError
            end.

(** The loop of compute_ratio_dropped: histograms.py:198-205; [bins] is
    [bins[::-1]], [acc] is [ratio_dropped] reversed. *)
Fixpoint ratio_loop (total : Z) (bins : list (bin Z)) (dropped larger previous : Z)
    (acc : list (Z * Q)) : list (Z * Q) :=
  match bins with
  | [] => acc
  | b :: bins' =>
      let current := b_lower b in
      let dropped' := (dropped + (larger * (previous - current)
                                  + (b_sum b - b_count b * current)))%Z in
      ratio_loop total bins' dropped' (larger + b_count b)%Z current
        ((current, (inject_Z dropped' / inject_Z total)%Q) :: acc)
  end.

(** compute_ratio_dropped: histograms.py:168-207. *)
Definition compute_ratio_dropped (h : list (bin Z)) : result (list (Z * Q)) :=
  match rev h with
  | [] => Ok []
  | last :: _ =>
      let total := total_sum h in
      if (total =? 0)%Z then Err ZeroDivisionError
      else let previous := b_lower last in
           let start := if negb (b_max last =? previous)%Z then [(b_max last, 0%Q)] else [] in
           Ok ((0%Z, 1%Q) :: ratio_loop total (rev h) 0 0 previous start)
  end.

(** ** Candidate bounds *)

(** The loop of generate_possible_contribution_bounds with the number of
    iterations as an argument; every iteration increases [current]. *)
Fixpoint bounds_loop (fuel : nat) (upper current power : Z) : list Z :=
  match fuel with
  | O => []
  | S f =>
      if (current <=? upper)%Z then
        let power' := if (power <=? current)%Z then (power * 10)%Z else power in
        current :: bounds_loop f upper (current + Z.max 1 (power' / 1000))%Z power'
      else []
  end.

(** private_contribution_bounds.generate_possible_contribution_bounds:
    /repo/pipeline_dp/private_contribution_bounds.py:179-196.  [current_bound]
    starts at 1 and grows by at least 1, so [upper] iterations are enough. *)
Definition possible_bounds (upper : Z) : list Z :=
  bounds_loop (Z.to_nat upper) upper 1 10.

(** ** Histograms of a raw dataset *)

(** _compute_l0_contributions_histogram (on distinct pairs) and
    _compute_l1_contributions_histogram (on all pairs):
    count_histogram_computation.py:167-217. *)
Definition per_privacy_id_histogram {P K} `{EqDec P} (col : list (P * K))
  : result (list (bin Z)) :=
  frequency_histogram (map snd (count_per_element (map fst col))).

(** _compute_linf_contributions_histogram: count_histogram_computation.py:220-241. *)
Definition linf_histogram {P K} `{EqDec P} `{EqDec K} (col : list (P * K))
  : result (list (bin Z)) :=
  frequency_histogram (map snd (count_per_element col)).

(** _compute_partition_count_histogram (on all pairs) and
    _compute_partition_privacy_id_count_histogram (on distinct pairs):
    count_histogram_computation.py:244-298. *)
Definition per_partition_histogram {P K} `{EqDec K} (col : list (P * K))
  : result (list (bin Z)) :=
  frequency_histogram (map snd (count_per_element (map snd col))).

(** ** Sum histograms *)

(** LowerUpperGenerator: /repo/pipeline_dp/dataset_histograms/
    sum_histogram_computation.py:41-85; the fields computed by the
    constructor. *)
Record generator := mkGen {
  g_left : Q;
  g_right : Q;
  g_num : Z;
  g_len : Q
}.
Definition make_generator (left right : Q) (num_buckets : Z) : result generator :=
  if negb (Qle_bool left right) then Err AssertionError
  else if (num_buckets =? 0)%Z then Err ZeroDivisionError
  else Ok (mkGen left right
                 (if negb (Qle_bool right left) then num_buckets else 1%Z)
                 ((right - left) / inject_Z num_buckets)%Q).

(** [int(x)] of a float truncates toward zero. *)
Definition py_int (q : Q) : Z := if Qle_bool 0 q then Qfloor q else (- Qfloor (- q))%Z.

(** get_bucket_index: sum_histogram_computation.py:68-75. *)
Definition bucket_index (g : generator) (x : Q) : Z :=
  if Qle_bool (g_right g) x then (g_num g - 1)%Z
  else if Qle_bool x (g_left g) then 0%Z
  else py_int ((x - g_left g) / g_len g)%Q.

(** get_lower_upper, _get_lower, _get_upper: sum_histogram_computation.py:77-85. *)
Definition lower_upper (g : generator) (x : Q) : Q * Q :=
  let i := bucket_index g x in
  ((g_left g + inject_Z i * g_len g)%Q, (g_left g + inject_Z (i + 1) * g_len g)%Q).

Definition Qmax2 (x y : Q) : Q := if Qle_bool y x then x else y.
Definition Qmin2 (x y : Q) : Q := if Qle_bool x y then x else y.

(** FrequencyBin.__add__ for float bins. *)
Definition bin_addQ (ra rb : result (bin Q)) : result (bin Q) :=
  rbind ra (fun a => rbind rb (fun b =>
    if negb (Qeq_bool (b_lower a) (b_lower b)) then Err AssertionError
    else if negb (Qeq_bool (b_upper a) (b_upper b)) then Err AssertionError
    else Ok (mkBin (b_lower a) (b_upper a) (b_count a + b_count b)%Z
                   (b_sum a + b_sum b)%Q (Qmax2 (b_max a) (b_max b))
                   (Qmin2 (b_min a) (b_min b))))).

(** Dictionary keys that are floats: equality of reduced fractions is equality
    of rationals. *)
#[export] Instance EqDec_Q : EqDec Q.
Proof.
  intros [a b] [c d].
  destruct (Z.eq_dec a c) as [->|N]; [|right; congruence].
  destruct (Pos.eq_dec b d) as [->|N]; [left; reflexivity | right; congruence].
Defined.

Definition lower_lebQ (a b : bin Q) : bool := Qle_bool (b_lower a) (b_lower b).

(** pipeline_functions.min_max_per_key for one key:
    /repo/pipeline_dp/pipeline_functions.py:99-116. *)
Definition min_max (vs : list Q) : option (Q * Q) :=
  match map (fun x => (x, x)) vs with
  | [] => None
  | p :: ps => Some (fold_left (fun x y => (Qmin2 (fst x) (fst y), Qmax2 (snd x) (snd y))) ps p)
  end.

(** _compute_frequency_histogram_per_key for one value column:
    sum_histogram_computation.py:88-193.  [None] is the absent histogram of an
    empty dataset. *)
Definition sum_histogram (num_buckets : Z) (vs : list Q) : result (option (list (bin Q))) :=
  match min_max vs with
  | None => Ok None
  | Some (lo, hi) =>
      rbind (make_generator lo hi num_buckets) (fun g =>
        rmap (fun bins => Some (sort_by lower_lebQ bins))
          (sequence (map snd (combine_per_key bin_addQ
             (map (fun x => let '(l, u) := lower_upper g x in
                            (Qred l, Ok (mkBin l u 1%Z x x x))) vs)))))
  end.

(** _compute_linf_sum_contributions_histogram:
    sum_histogram_computation.py:223-252. *)
Definition linf_sum_histogram {P K} `{EqDec P} `{EqDec K} (num_buckets : Z)
    (col : list ((P * K) * Q)) : result (option (list (bin Q))) :=
  sum_histogram num_buckets (map snd (map_values sumQ (group_by_key col))).

(** _compute_partition_sum_histogram: sum_histogram_computation.py:255-281. *)
Definition partition_sum_histogram {P K} `{EqDec K} (num_buckets : Z)
    (col : list ((P * K) * Q)) : result (option (list (bin Q))) :=
  sum_histogram num_buckets
    (map snd (map_values sumQ (group_by_key (map (fun r => (snd (fst r), snd r)) col)))).

(** NUMBER_OF_BUCKETS: sum_histogram_computation.py:38. *)
Definition number_of_buckets : Z := 10000.

(** hist.DatasetHistograms (histograms.py:210-220). *)
Record dataset_histograms := {
  h_l0 : result (list (bin Z));
  h_l1 : result (list (bin Z));
  h_linf : result (list (bin Z));
  h_linf_sum : result (option (list (bin Q)));
  h_count_per_partition : result (list (bin Z));
  h_privacy_id_per_partition : result (list (bin Z));
  h_sum_per_partition : result (option (list (bin Q)))
}.

(** compute_dataset_histograms: /repo/pipeline_dp/dataset_histograms/
    computing_histograms.py:81-139.  Rows are (privacy id, partition key,
    value), as extracted. *)
Definition compute_dataset_histograms {P K} `{EqDec P} `{EqDec K} (num_buckets : Z)
    (rows : list ((P * K) * Q)) : dataset_histograms :=
  let col := map fst rows in
  let col_distinct := distinct col in
  {| h_l0 := per_privacy_id_histogram col_distinct;
     h_l1 := per_privacy_id_histogram col;
     h_linf := linf_histogram col;
     h_linf_sum := linf_sum_histogram num_buckets rows;
     h_count_per_partition := per_partition_histogram col;
     h_privacy_id_per_partition := per_partition_histogram col_distinct;
     h_sum_per_partition := partition_sum_histogram num_buckets rows |}.

(** ** Pre-aggregation *)

(** (count, sum, n_partitions, n_contributions). *)
Record preagg := mkPre { p_count : Z; p_sum : Q; p_partitions : Z; p_contributions : Z }.

(** analysis/contribution_bounders._sum_values for one column:
    /repo/analysis/contribution_bounders.py:142-164. *)
Definition sum_values (vs : list Q) : Q :=
  match vs with
  | [] => 0
  | [v] => v
  | _ => sumQ vs
  end.

(** L0LinfAnalysisContributionBounder.bound_contributions with
    [aggregate_fn = lambda x: x] (/repo/analysis/contribution_bounders.py:22-83)
    and collect_values_per_partition_key_per_privacy_id
    (/repo/pipeline_dp/contribution_bounders.py:249-280), followed by dropping
    the privacy id (/repo/analysis/pre_aggregation.py:44-60).  [keep] is the
    partition sampler ([fun _ => true] when the probability is 1). *)
Definition analysis_rows {P K} `{EqDec P} `{EqDec K} (keep : K -> bool)
    (rows : list ((P * K) * Q)) : list ((P * K) * preagg) :=
  flat_map (fun g =>
      let '(pid, pkvs) := g in
      let parts := group_by_key pkvs in
      let n_partitions := Z.of_nat (length parts) in
      let n_contributions := sumZ (map (fun p => Z.of_nat (length (snd p))) parts) in
      flat_map (fun p => if keep (fst p)
                         then [((pid, fst p), mkPre (Z.of_nat (length (snd p))) (sum_values (snd p))
                                                    n_partitions n_contributions)]
                         else []) parts)
    (group_by_key (map (fun r => (fst (fst r), (snd (fst r), snd r))) rows)).

Definition preaggregate {P K} `{EqDec P} `{EqDec K} (keep : K -> bool)
    (rows : list ((P * K) * Q)) : list (K * preagg) :=
  map (fun r => (snd (fst r), snd r)) (analysis_rows keep rows).

(** The histograms on pre-aggregated data: count_histogram_computation.py:304-429
    and sum_histogram_computation.py:284-350. *)
Definition pre_l0 {K} (col : list (K * preagg)) : result (list (bin Z)) :=
  weighted_frequency_histogram
    (map (fun r => (p_partitions (snd r), (1 / inject_Z (p_partitions (snd r)))%Q)) col).
Definition pre_l1 {K} (col : list (K * preagg)) : result (list (bin Z)) :=
  weighted_frequency_histogram
    (map (fun r => (p_contributions (snd r), (1 / inject_Z (p_partitions (snd r)))%Q)) col).
Definition pre_linf {K} (col : list (K * preagg)) : result (list (bin Z)) :=
  frequency_histogram (map (fun r => p_count (snd r)) col).
Definition pre_linf_sum {K} (num_buckets : Z) (col : list (K * preagg))
  : result (option (list (bin Q))) :=
  sum_histogram num_buckets (map (fun r => p_sum (snd r)) col).
Definition pre_partition_count {K} `{EqDec K} (col : list (K * preagg)) : result (list (bin Z)) :=
  frequency_histogram (map snd (sum_per_key (map_values p_count col))).
Definition pre_partition_privacy_id_count {K} `{EqDec K} (col : list (K * preagg))
  : result (list (bin Z)) :=
  frequency_histogram (map snd (count_per_element (map fst col))).
Definition pre_partition_sum {K} `{EqDec K} (num_buckets : Z) (col : list (K * preagg))
  : result (option (list (bin Q))) :=
  sum_histogram num_buckets (map snd (map_values sumQ (group_by_key (map_values p_sum col)))).

(** compute_dataset_histograms_on_preaggregated_data:
    computing_histograms.py:142-190. *)
Definition compute_preaggregated_histograms {K} `{EqDec K} (num_buckets : Z)
    (col : list (K * preagg)) : dataset_histograms :=
  {| h_l0 := pre_l0 col;
     h_l1 := pre_l1 col;
     h_linf := pre_linf col;
     h_linf_sum := pre_linf_sum num_buckets col;
     h_count_per_partition := pre_partition_count col;
     h_privacy_id_per_partition := pre_partition_privacy_id_count col;
     h_sum_per_partition := pre_partition_sum num_buckets col |}.
