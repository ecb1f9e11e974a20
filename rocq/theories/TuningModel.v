(** Model of the choice of candidates in /repo/analysis/parameter_tuning.py and of
    MultiParameterConfiguration in /repo/analysis/data_structures.py. *)
From Coq Require Import List ZArith QArith Qround Bool.
From Verif Require Import Base HistModel.
Import ListNotations.
Local Open Scope Z_scope.

(** ** _find_candidates_constant_relative_step: parameter_tuning.py:269-300 *)

(** The loop, 290-296: [ceils i] is math.ceil(accumulated) in iteration [i], an
    arbitrary number since [step] and [accumulated] are floats (an infinite
    [accumulated], for which math.ceil raises, is not modelled). [n] iterations are
    left, starting with number [i]. *)
Fixpoint step_loop (ceils : nat -> Z) (max_value : Z) (n i : nat) (previous : Z) : list Z :=
  match n with
  | O => []
  | S n' => if max_value <=? previous then []
            else let next := Z.max (previous + 1) (ceils i) in
                 next :: step_loop ceils max_value n' (S i) next
  end.

(** candidates[-1] = max_value: 299. *)
Fixpoint set_last {A} (x : A) (l : list A) : list A :=
  match l with
  | [] => []
  | [_] => [x]
  | y :: l' => y :: set_last x l'
  end.

(** The whole function for the histogram's max_value and max_candidates. *)
Definition constant_relative_step (ceils : nat -> Z) (max_value max_candidates : Z) : result (list Z) :=
  if max_value <? 1 then Err AssertionError
  else let m := Z.min max_candidates max_value in
       if m <=? 0 then Err AssertionError
       else if m =? 1 then Ok [1]
       else Ok (set_last max_value (1 :: step_loop ceils max_value (Z.to_nat (m - 1)) 1 1)).

(** ** _find_candidates_bins_max_values_subsample: parameter_tuning.py:303-318 *)

(** np.linspace(start, stop, num) for integers, computed exactly. *)
Definition linspace (start stop : Z) (num : nat) : list Q :=
  match num with
  | O => []
  | S O => [inject_Z start]
  | S (S _ as m) => map (fun i => inject_Z start + inject_Z (Z.of_nat i) * (inject_Z (stop - start) / inject_Z (Z.of_nat m)))%Q
                        (seq 0 (S m))
  end.

(** [maxs]: the max of each bin.  np.round is [py_round]. *)
Definition bins_max_values_subsample (maxs : list Q) (max_candidates : Z) : result (list Q) :=
  match maxs with
  | [] => Err IndexError
  | m0 :: _ =>
      let from := if Qle_bool m0 0 then 1 else 0 in
      let num := Z.min max_candidates (Z.of_nat (length maxs) - from) in
      if num <? 0 then Err ValueError
      else Ok (map (fun q => nth (Z.to_nat (py_round q)) maxs 0%Q)
                   (linspace from (Z.of_nat (length maxs) - 1) (Z.to_nat num)))
  end.

(** ** MultiParameterConfiguration: data_structures.py:23-100 *)

(** min_sum_per_partition and max_sum_per_partition: numbers or tuples (one number per
    column). *)
Inductive sums := Flat (l : list Q) | Multi (l : list (list Q)).
Definition sums_len (s : sums) : nat := match s with Flat l => length l | Multi l => length l end.
Record config := Config {
  c_l0 : option (list Z);
  c_linf : option (list Z);
  c_min_sum : option sums;
  c_max_sum : option sums
}.

(** Lengths of the truthy attributes: data_structures.py:57-58. *)
Definition olen {A} (len : A -> nat) (o : option A) : list nat :=
  match o with
  | Some a => if Nat.eqb (len a) 0 then [] else [len a]
  | None => []
  end.
Definition config_sizes (c : config) : list nat :=
  olen (@length Z) (c_l0 c) ++ olen (@length Z) (c_linf c) ++ olen sums_len (c_min_sum c) ++ olen sums_len (c_max_sum c).

(** common_value_len: data_structures.py:79-81. *)
Definition common_len (l : list (list Q)) : option nat :=
  match l with
  | [] => None
  | a :: l' => if forallb (fun b => Nat.eqb (length b) (length a)) l' then Some (length a) else None
  end.

(** __post_init__: data_structures.py:55-94; the size of an accepted configuration is the
    common length.  [Flat] mixed with [Multi] skips the column check. *)
Definition make_config (c : config) : result (config * nat) :=
  match config_sizes c with
  | [] => Err ValueError
  | n :: sizes =>
      if negb (forallb (Nat.eqb n) sizes) then Err ValueError
      else if negb (Bool.eqb (match c_min_sum c with Some _ => true | None => false end)
                             (match c_max_sum c with Some _ => true | None => false end)) then Err ValueError
      else match c_min_sum c, c_max_sum c with
           | Some (Multi mins), Some (Multi maxs) =>
               match mins with
               | [] => Ok (c, n)
               | _ => match common_len mins, common_len maxs with
                      | Some a, Some b => if Nat.eqb a b then Ok (c, n) else Err ValueError
                      | _, _ => Err ValueError
                      end
               end
           | _, _ => Ok (c, n)
           end
  end.

(** ** _find_candidate_parameters: parameter_tuning.py:118-219 *)

(** _pad_list, _duplicate_each_element, _duplicate_list: parameter_tuning.py:222-238.
    [a[0]] of an empty list raises IndexError. *)
Definition pad_list {A} (a : list A) (size : nat) : result (list A) :=
  if (length a <? size)%nat
  then match a with
       | [] => Err IndexError
       | x :: _ => Ok (a ++ repeat x (size - length a))
       end
  else Ok a.
Definition duplicate_each {A} (a : list A) (n : nat) : list A := flat_map (fun x => repeat x n) a.
Definition duplicate_list {A} (a : list A) (n : nat) : list A := concat (repeat a n).

(** list(zip of the columns): as many tuples as the shortest column has elements. *)
Definition min_length (l : list (list Q)) : nat :=
  match l with [] => O | a :: l' => fold_left (fun n b => Nat.min n (length b)) l' (length a) end.
Definition zip_columns (cols : list (list Q)) : list (list Q) :=
  map (fun i => map (fun c => nth i c 0%Q) cols) (seq 0 (min_length cols)).

Fixpoint rmapM {A B} (f : A -> result B) (l : list A) : result (list B) :=
  match l with
  | [] => Ok []
  | a :: l' => rbind (f a) (fun b => rmap (cons b) (rmapM f l'))
  end.

(** What the function reads: which bounds are tuned (combined with the requested
    metrics, 139-143), the bound given in the parameters, the limit, and the
    histograms (largest values, and the bins' maxima for each sum column; one column
    is a Histogram, several a list). *)
Record tuning := Tuning {
  t_l0 : bool;
  t_count : bool;
  t_sum : bool;
  t_given_l0 : option Z;
  t_max_candidates : Z;
  t_l0_max : Z;
  t_linf_max : Z;
  t_sum_bins : list (list Q)
}.

(** int(np.sqrt(max_candidates)) is [Z.sqrt]. *)
Definition l0_candidates (ceils : nat -> Z) (t : tuning) : result (list Z) :=
  if t_l0 t
  then constant_relative_step ceils (t_l0_max t)
         (if t_count t || t_sum t then Z.sqrt (t_max_candidates t) else t_max_candidates t)
  else Ok [match t_given_l0 t with Some l0 => if l0 =? 0 then 1 else l0 | None => 1 end].

(** 158-219. [maxl] is max_linf_len after 184; 195 raises it to the number of sum
    columns. *)
Definition find_candidates (ceils0 ceils1 : nat -> Z) (t : tuning) : result (config * nat) :=
  rbind (l0_candidates ceils0 t) (fun l0 =>
  let max_linf := t_max_candidates t / Z.of_nat (length l0) in
  rbind (if t_count t then rmap Some (constant_relative_step ceils1 (t_linf_max t) max_linf) else Ok None) (fun counts =>
  rbind (if t_sum t then rmap Some (rmapM (fun maxs => bins_max_values_subsample maxs max_linf) (t_sum_bins t)) else Ok None) (fun cols =>
  let len1 := match counts with Some c => length c | None => 1%nat end in
  let len2 := match cols with
              | Some cs => fold_left (fun n c => Nat.max n (length c)) cs len1
              | None => len1
              end in
  rbind (match counts with Some c => rmap Some (pad_list c len2) | None => Ok None end) (fun counts =>
  rbind (match cols with Some cs => rmap Some (rmapM (fun c => pad_list c len2) cs) | None => Ok None end) (fun cols =>
  let len3 := match cols with Some cs => Nat.max len2 (length cs) | None => len2 end in
  let max_sum := match cols with
                 | Some [c] => Some (Flat c)
                 | Some cs => Some (Multi (zip_columns cs))
                 | None => None
                 end in
  let min_sum := match max_sum with
                 | Some (Flat c) => Some (Flat (repeat 0%Q (length c)))
                 | Some (Multi l) => Some (Multi (repeat (repeat 0%Q (length (t_sum_bins t))) (length l)))
                 | None => None
                 end in
  let dup := fun s => match s with
                      | Flat l => Flat (duplicate_list l (length l0))
                      | Multi l => Multi (duplicate_list l (length l0))
                      end in
  make_config (Config (Some (duplicate_each l0 len3))
                      (match counts with Some c => Some (duplicate_list c (length l0)) | None => None end)
                      (match min_sum with Some s => Some (dup s) | None => None end)
                      (match max_sum with Some s => Some (dup s) | None => None end))))))).

(** The bounds that get_aggregate_params returns for configuration number [i]
    (data_structures.py:100-128): max_partitions_contributed,
    max_contributions_per_partition, the pairs (min, max) of sums; None where the
    value of the blueprint is kept.  An index out of range raises IndexError, here
    None. *)
Definition config_at (c : config) (i : nat) : option Z * option Z * option (list (Q * Q)) :=
  (match c_l0 c with Some l => nth_error l i | None => None end,
   match c_linf c with Some l => nth_error l i | None => None end,
   match c_min_sum c, c_max_sum c with
   | Some (Flat a), Some (Flat b) =>
       match nth_error a i, nth_error b i with Some x, Some y => Some [(x, y)] | _, _ => None end
   | Some (Multi a), Some (Multi b) =>
       match nth_error a i, nth_error b i with Some x, Some y => Some (combine x y) | _, _ => None end
   | _, _ => None
   end).

(** ** Choice of the best configuration: parameter_tuning.py:420-455 *)

(** np.argmin: the first position of the smallest number. *)
Fixpoint argmin_from (best_i : nat) (best : Q) (i : nat) (l : list Q) : nat :=
  match l with
  | [] => best_i
  | x :: l' => if Qle_bool best x then argmin_from best_i best (S i) l' else argmin_from i x (S i) l'
  end.
Definition argmin (l : list Q) : result nat :=
  match l with [] => Err ValueError | x :: l' => Ok (argmin_from O x 1 l') end.

(** A report: (configuration_index, rmse of the first metric).  [has_metrics]: whether
    aggregate_params.metrics is non-empty; index_best = -1 otherwise. *)
Definition tune_result (has_metrics : bool) (size : nat) (reports : list (Z * Q)) : result (Z * list (Z * Q)) :=
  if negb (Nat.eqb (length reports) size) then Err AssertionError
  else let sorted := sort_by (fun a b => fst a <=? fst b) reports in
       if has_metrics then rmap (fun i => (Z.of_nat i, sorted)) (argmin (map snd sorted))
       else Ok (-1, sorted).

(** ** DP strategy: dp_strategy_selector.py *)
Inductive strategy_noise := SLaplace | SGaussian.
Inductive selection_strategy := TruncatedGeometric | LaplaceThresholding | GaussianThresholding.
Record dp_strategy := Strategy {
  s_noise : option strategy_noise;
  s_selection : option selection_strategy;
  s_post_threshold : bool
}.
(** External functions: standard deviations of the noises for (epsilon, delta, l0, linf)
    and thresholds for (epsilon, delta, l0). *)
Record strategy_oracle := Oracle {
  gaussian_std : Q -> Q -> Z -> Z -> Q;
  laplace_std : Q -> Z -> Z -> Q;
  laplace_threshold : Q -> Q -> Z -> Q;
  gaussian_threshold : Q -> Q -> Z -> Q
}.
(** select_noise_kind: 138-150. *)
Definition select_noise_kind (o : strategy_oracle) (eps delta : Q) (l0 linf : Z) : strategy_noise :=
  if Qeq_bool delta 0 then SLaplace
  else if negb (Qle_bool (laplace_std o eps l0 linf) (gaussian_std o eps delta l0 linf)) then SGaussian
  else SLaplace.
(** select_partition_selection_strategy: 156-195. *)
Definition select_selection (o : strategy_oracle) (eps delta : Q) (l0 : Z) : selection_strategy :=
  if negb (Qle_bool (gaussian_threshold o eps delta l0) (laplace_threshold o eps delta l0)) then TruncatedGeometric
  else GaussianThresholding.
(** noise_to_thresholding(..).to_partition_selection_strategy(): used at 109-110. *)
Definition thresholding_of (n : strategy_noise) : selection_strategy :=
  match n with SLaplace => LaplaceThresholding | SGaussian => GaussianThresholding end.
(** get_dp_strategy: 64-125, with the check of __init__ (44-49): [n_metrics] metrics, [pid]
    if PRIVACY_ID_COUNT is one of them. *)
Definition get_dp_strategy (o : strategy_oracle) (eps delta : Q) (n_metrics : nat) (pid public : bool) (l0 linf : Z)
  : result dp_strategy :=
  if Qeq_bool delta 0 && negb public then Err ValueError
  else Ok (
    if Nat.eqb n_metrics 0 then Strategy None (Some (select_selection o eps delta l0)) false
    else let l0 := l0 * Z.of_nat n_metrics in
         if public then Strategy (Some (select_noise_kind o eps delta l0 linf)) None false
         else if pid
              then let n := select_noise_kind o eps (delta / 2)%Q l0 1 in
                   Strategy (Some n) (Some (thresholding_of n)) true
              else Strategy (Some (select_noise_kind o (eps / 2)%Q (delta / 2)%Q l0 linf))
                            (Some (select_selection o (eps / 2)%Q (delta / 2)%Q l0)) false).
