(** Model of /repo/pipeline_dp/dataset_histograms/histogram_error_estimator.py.

    Ratios and thresholds are rationals, standard deviations and errors are reals
    (the code takes square roots of floats).  The thresholds of count histograms are
    integers in the code; here they are injected into the rationals. *)
From Coq Require Import List ZArith QArith Qreals Reals Bool.
From Verif Require Import Base ParamsModel HistModel.
Import ListNotations.

(** ** bisect.bisect_left (Python library, used at line 120) *)

(** Comparison of tuples of two numbers. *)
Definition pair_lt (a b : Q * Q) : bool :=
  negb (Qle_bool (fst b) (fst a)) || (Qeq_bool (fst a) (fst b) && negb (Qle_bool (snd b) (snd a))).

(** while lo < hi: mid = (lo + hi) // 2; if a[mid] < x: lo = mid + 1 else: hi = mid.
    The interval shrinks in every round, so [length a] rounds are enough. *)
Fixpoint bisect_loop (fuel : nat) (a : list (Q * Q)) (x : Q * Q) (lo hi : nat) : nat :=
  match fuel with
  | O => lo
  | S f => if (lo <? hi)%nat
           then let mid := ((lo + hi) / 2)%nat in
                if pair_lt (nth mid a (0, 0)) x then bisect_loop f a x (S mid) hi
                else bisect_loop f a x lo mid
           else lo
  end.
Definition bisect_left (a : list (Q * Q)) (x : Q * Q) : nat := bisect_loop (length a) a x 0 (length a).

(** ** ErrorEstimator *)

(** _get_ratio_dropped: 114-128.  An empty list has no last element (IndexError); so
    does index 0 - 1 = -1 wrap to the last element. *)
Definition get_ratio_dropped (ratios : list (Q * Q)) (bound : Q) : result Q :=
  if Qle_bool bound 0 then Ok 1
  else match rev ratios with
  | [] => Err IndexError
  | last :: _ =>
      if negb (Qle_bool bound (fst last)) then Ok 0
      else let index := bisect_left ratios (bound, 0) in
           match nth_error ratios index with
           | None => Err IndexError
           | Some (x2, y2) =>
               if Qeq_bool x2 bound then Ok y2
               else let '(x1, y1) := match index with O => last | S i => nth i ratios (0, 0) end in
                    if Qeq_bool (x2 - x1) 0 then Err ZeroDivisionError
                    else Ok ((y1 * (x2 - bound) + y2 * (bound - x1)) / (x2 - x1))
           end
  end.

Local Open Scope R_scope.

(** The attributes set by __init__: 32-48.  The partition histogram is the list of
    (sum, count) of its bins. *)
Record estimator := Estimator {
  e_base_std : R;
  e_metric : metric;
  e_noise : noise;
  e_l0 : list (Q * Q);
  e_linf : list (Q * Q);
  e_partitions : list (Q * Z) }.

(** _get_stddev_for_dp_mechanism: 50-65.  [sigma eps delta] is the std of PyDP's
    GaussianMechanism of sensitivity 1; without delta PyDP raises TypeError.  An epsilon
    of 0 raises ZeroDivisionError. *)
Definition base_std (sigma : Q -> Q -> R) (eps : Q) (delta : option Q) (n : noise) : result R :=
  match n with
  | LaplaceNoise => match delta with
                    | Some _ => Err ValueError
                    | None => if Qeq_bool eps 0 then Err ZeroDivisionError else Ok (sqrt 2 / Q2R eps)
                    end
  | GaussianNoise => match delta with None => Err TypeError | Some d => Ok (sigma eps d) end
  end.
Definition make_estimator (sigma : Q -> Q -> R) (eps : Q) (delta : option Q) (m : metric) (n : noise)
    (l0 linf : list (Q * Q)) (partitions : list (Q * Z)) : result estimator :=
  rmap (fun s => Estimator s m n l0 linf partitions) (base_std sigma eps delta n).

(** _get_stddev: 130-138.  math.sqrt of a negative number raises ValueError. *)
Definition get_stddev (e : estimator) (l0 : Z) (linf : Q) : result R :=
  match e_noise e with
  | LaplaceNoise => Ok (e_base_std e * IZR l0 * Q2R linf)
  | GaussianNoise => if (l0 <? 0)%Z then Err ValueError else Ok (e_base_std e * sqrt (IZR l0) * Q2R linf)
  end.

(** _estimate_rmse_impl: 187-197. *)
Fixpoint sum_rmse (ratio std : R) (bins : list (Q * Z)) : result R :=
  match bins with
  | [] => Ok 0
  | (s, c) :: bins' =>
      if (c =? 0)%Z then Err ZeroDivisionError
      else let average := Q2R s / IZR c in
           let rmse := sqrt ((ratio * average) ^ 2 + std ^ 2) in
           rmap (fun rest => IZR c * rmse + rest) (sum_rmse ratio std bins')
  end.
Definition estimate_rmse_impl (ratio std : R) (bins : list (Q * Z)) : result R :=
  rbind (sum_rmse ratio std bins) (fun s =>
    let num_partitions := sumZ (map snd bins) in
    if (num_partitions =? 0)%Z then Err ZeroDivisionError else Ok (s / IZR num_partitions)).

(** estimate_rmse: 67-105.  The bounds of SUM may be floats, so [linf] is rational. *)
Definition estimate_rmse (e : estimator) (l0 : Z) (linf : option Q) : result R :=
  rbind (match e_metric e, linf with
         | PRIVACY_ID_COUNT, _ => Ok 1%Q
         | _, Some b => Ok b
         | _, None => Err ValueError
         end) (fun b =>
  rbind (get_ratio_dropped (e_l0 e) (inject_Z l0)) (fun r0 =>
  rbind (match e_metric e with PRIVACY_ID_COUNT => Ok 0%Q | _ => get_ratio_dropped (e_linf e) b end) (fun rinf =>
  let ratio := (1 - (1 - r0) * (1 - rinf))%Q in
  rbind (get_stddev e l0 b) (fun std =>
  estimate_rmse_impl (Q2R ratio) std (e_partitions e))))).

(** ** Creation *)

Definition ratios_of (l : list (Z * Q)) : list (Q * Q) := map (fun tr => (inject_Z (fst tr), snd tr)) l.
Definition partition_bins (h : list (bin Z)) : list (Q * Z) := map (fun b => (inject_Z (b_sum b), b_count b)) h.

(** create_estimator_for_count_and_privacy_id_count: 141-184; exceptions of the
    histograms propagate. *)
Definition create_count_estimator (sigma : Q -> Q -> R) (d : dataset_histograms) (eps : Q) (delta : option Q)
    (m : metric) (n : noise) : result estimator :=
  match m with
  | COUNT | PRIVACY_ID_COUNT =>
      rbind (h_l0 d) (fun l0 => rbind (compute_ratio_dropped l0) (fun r0 =>
      rbind (h_linf d) (fun linf => rbind (compute_ratio_dropped linf) (fun rinf =>
      rbind (match m with COUNT => h_count_per_partition d | _ => h_privacy_id_per_partition d end) (fun ph =>
      make_estimator sigma eps delta m n (ratios_of r0) (ratios_of rinf) (partition_bins ph))))))
  | _ => Err ValueError
  end.

(** compute_ratio_dropped on a float histogram: histograms.py:168-207. *)
Fixpoint ratio_loopQ (total : Q) (bins : list (bin Q)) (dropped : Q) (larger : Z) (previous : Q)
    (acc : list (Q * Q)) : list (Q * Q) :=
  match bins with
  | [] => acc
  | b :: bins' =>
      let current := b_lower b in
      let dropped' := (dropped + (inject_Z larger * (previous - current)
                                  + (b_sum b - inject_Z (b_count b) * current)))%Q in
      ratio_loopQ total bins' dropped' (larger + b_count b)%Z current ((current, (dropped' / total)%Q) :: acc)
  end.
Definition compute_ratio_droppedQ (h : list (bin Q)) : result (list (Q * Q)) :=
  match rev h with
  | [] => Ok []
  | last :: _ =>
      let total := sumQ (map b_sum h) in
      if Qeq_bool total 0 then Err ZeroDivisionError
      else let previous := b_lower last in
           let start := if negb (Qeq_bool (b_max last) previous) then [(b_max last, 0%Q)] else [] in
           Ok ((0%Q, 1%Q) :: ratio_loopQ total (rev h) 0 0 previous start)
  end.

(** create_estimator_for_sum: 199-242, for one sum.  Without histograms (an empty
    dataset) [None[sum_index]] raises TypeError. *)
Definition create_sum_estimator (sigma : Q -> Q -> R) (d : dataset_histograms) (eps : Q) (delta : option Q)
    (n : noise) : result estimator :=
  rbind (h_l0 d) (fun l0 => rbind (compute_ratio_dropped l0) (fun r0 =>
  rbind (h_linf_sum d) (fun linf => rbind (h_sum_per_partition d) (fun ph =>
  match linf, ph with
  | Some hl, Some hp =>
      rbind (compute_ratio_droppedQ hl) (fun rinf =>
      make_estimator sigma eps delta SUM n (ratios_of r0) rinf (map (fun b => (b_sum b, b_count b)) hp))
  | _, _ => Err TypeError
  end)))).
