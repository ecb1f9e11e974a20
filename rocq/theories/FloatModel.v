(** Model of aggregations of values that may be the special floats inf, -inf and nan:
    /repo/pipeline_dp/combiners.py, /repo/pipeline_dp/dp_engine.py.  Nothing between the value
    extractor and the noise checks for them (aggregate_params.py:679-681 only checks the bounds).
    Finite floats are rational numbers, as in CombinerModel; there is no overflow. *)
From Coq Require Import List ZArith QArith Qminmax Bool.
From Verif Require Import Base BackendModel BounderModel ParamsModel SensModel CombinerModel EngineModel.
Import ListNotations.

Inductive num := Fin (q : Q) | PosInf | NegInf | NaN.

(** IEEE 754 addition, subtraction and multiplication of floats. *)
Definition add (a b : num) : num :=
  match a, b with
  | Fin x, Fin y => Fin (x + y)
  | NaN, _ | _, NaN | PosInf, NegInf | NegInf, PosInf => NaN
  | PosInf, _ | _, PosInf => PosInf
  | NegInf, _ | _, NegInf => NegInf
  end.
Definition opposite (a : num) : num :=
  match a with Fin x => Fin (- x) | PosInf => NegInf | NegInf => PosInf | NaN => NaN end.
Definition sub (a b : num) : num :=
  match a, b with
  | Fin x, Fin y => Fin (x - y)
  | _, _ => add a (opposite b)
  end.
Definition infinity_times (positive : bool) (sign : comparison) : num :=
  match sign with
  | Eq => NaN
  | Gt => if positive then PosInf else NegInf
  | Lt => if positive then NegInf else PosInf
  end.
Definition sign_of (a : num) : comparison :=
  match a with Fin q => Qcompare q 0 | PosInf => Gt | NegInf => Lt | NaN => Eq end.
Definition mul (a b : num) : num :=
  match a, b with
  | Fin x, Fin y => Fin (x * y)
  | NaN, _ | _, NaN => NaN
  | PosInf, y => infinity_times true (sign_of y)
  | NegInf, y => infinity_times false (sign_of y)
  | x, PosInf => infinity_times true (sign_of x)
  | x, NegInf => infinity_times false (sign_of x)
  end.
(** Division by a positive number. *)
Definition div_pos (a : num) (d : Q) : num := match a with Fin x => Fin (x / d) | _ => a end.

(** np.clip, np.minimum(hi, np.maximum(a, lo)), which propagate nan. *)
Definition clip_num (lo hi : Q) (a : num) : num :=
  match a with Fin q => Fin (clip lo hi q) | PosInf => Fin hi | NegInf => Fin (Qmin lo hi) | NaN => NaN end.

(** sum and np.sum; the order does not matter for special values. *)
Definition sum_num (l : list num) : num := fold_right add (Fin 0) l.

(** Accumulators of the combiners with numbers; [XErr] for quantile trees and vectors,
    which are not modelled here. *)
Inductive xacc := XInt (z : Z) | XFloat (a : num) | XMean (n : Z) (s : num) | XVar (n : Z) (s ss : num) | XErr.

(** create_accumulator: combiners.py:255, 298, 347, 407-412, 476-483, 546-556. *)
Definition x_create (c : combiner) (vs : list num) : xacc :=
  match c with
  | CCount => XInt (Z.of_nat (length vs))
  | CPidCount | CThresh => XInt (match vs with [] => 0 | _ => 1 end)
  | CSum true lo hi => XFloat (clip_num lo hi (sum_num vs))
  | CSum false lo hi => XFloat (sum_num (map (clip_num lo hi) vs))
  | CMean lo hi _ => XMean (Z.of_nat (length vs)) (sum_num (map (fun v => sub (clip_num lo hi v) (Fin (middle lo hi))) vs))
  | CVariance lo hi _ =>
      let normalized v := sub (clip_num lo hi v) (Fin (middle lo hi)) in
      XVar (Z.of_nat (length vs)) (sum_num (map normalized vs)) (sum_num (map (fun v => mul (normalized v) (normalized v)) vs))
  | CQuantile _ | CVector _ => XErr
  end.

(** merge_accumulators: combiners.py:258-260, 301-303, 350-352, 414-415, 485-489, 558-562. *)
Definition x_merge (c : combiner) (a b : xacc) : xacc :=
  match c, a, b with
  | (CCount | CPidCount | CThresh), XInt x, XInt y => XInt (x + y)
  | CSum _ _ _, XFloat x, XFloat y => XFloat (add x y)
  | CMean _ _ _, XMean n s, XMean n' s' => XMean (n + n') (add s s')
  | CVariance _ _ _, XVar n s q, XVar n' s' q' => XVar (n + n') (add s s') (add q q')
  | _, _, _ => XErr
  end.

(** Noise added to a float: dp_computations.py:456-458, 508-510; PyDP's mechanisms are
    assumed to give back an infinity or nan unchanged. *)
Definition noised (f : Q -> Q) (a : num) : num := match a with Fin q => Fin (f q) | _ => a end.

(** MeanMechanism.compute_mean: dp_computations.py:565-571. *)
Definition x_compute_mean (nz : noises) (mid : Q) (n : Z) (s : num) : Q * num * num :=
  let dp_count := n_count nz (inject_Z n) in
  let denominator := Qmax 1 dp_count in
  let dp_mean := add (Fin mid) (div_pos (noised (n_sum nz) s) denominator) in
  (dp_count, mul dp_mean (Fin dp_count), dp_mean).

(** _compute_mean_for_normalized_sum and compute_dp_var: dp_computations.py:263-365. *)
Definition x_mean_for_normalized_sum (nz : Q -> Q) (dp_count : Q) (s : num) (lo hi : Q) : num :=
  if Qeq_bool lo hi then Fin lo else div_pos (noised nz s) (Qmax 1 dp_count).
Definition x_compute_dp_var (nz : noises) (lo hi : Q) (n : Z) (s ss : num) : Q * num * num * num :=
  let dp_count := n_count nz (inject_Z n) in
  let dp_mean := x_mean_for_normalized_sum (n_sum nz) dp_count s lo hi in
  let sq := squares_interval lo hi in
  let dp_mean_squares := x_mean_for_normalized_sum (n_squares nz) dp_count ss (fst sq) (snd sq) in
  let dp_var := sub dp_mean_squares (mul dp_mean dp_mean) in
  let dp_mean' := if negb (Qeq_bool lo hi) then add dp_mean (Fin (middle lo hi)) else dp_mean in
  (dp_count, mul dp_mean' (Fin dp_count), dp_mean', dp_var).

(** compute_metrics: combiners.py:262-263, 305-306, 354-358, 417-418, 491-500, 564-575.
    [None]: Python's None. *)
Definition x_compute_metrics (nz : noises) (c : combiner) (a : xacc) : result (list (mname * option num)) :=
  match c, a with
  | CCount, XInt z => Ok [(NCount, Some (Fin (n_count nz (inject_Z z))))]
  | CPidCount, XInt z => Ok [(NPidCount, Some (Fin (n_count nz (inject_Z z))))]
  | CThresh, XInt z => Ok [(NPidCount, option_map Fin (n_thresh nz z))]
  | CSum _ _ _, XFloat q => Ok [(NSum, Some (noised (n_sum nz) q))]
  | CMean lo hi names, XMean n s =>
      let '(dp_count, dp_sum, dp_mean) := x_compute_mean nz (middle lo hi) n s in
      Ok ([(NMean, Some dp_mean)]
          ++ (if existsb (eqb NCount) names then [(NCount, Some (Fin dp_count))] else [])
          ++ (if existsb (eqb NSum) names then [(NSum, Some dp_sum)] else []))
  | CVariance lo hi names, XVar n s ss =>
      let '(dp_count, dp_sum, dp_mean, dp_var) := x_compute_dp_var nz lo hi n s ss in
      Ok ([(NVariance, Some dp_var)]
          ++ (if existsb (eqb NCount) names then [(NCount, Some (Fin dp_count))] else [])
          ++ (if existsb (eqb NSum) names then [(NSum, Some dp_sum)] else [])
          ++ (if existsb (eqb NMean) names then [(NMean, Some dp_mean)] else []))
  | _, _ => Err TypeError
  end.

(** CompoundCombiner: combiners.py:750-789. *)
Definition x_cacc := (Z * list xacc)%type.
Definition x_compound_create (cs : list combiner) (vs : list num) : x_cacc := (1%Z, map (fun c => x_create c vs) cs).
Fixpoint x_merge_all (cs : list combiner) (a b : list xacc) : list xacc :=
  match cs, a, b with
  | c :: cs', x :: a', y :: b' => x_merge c x y :: x_merge_all cs' a' b'
  | _, _, _ => []
  end.
Definition x_compound_merge (cs : list combiner) (a b : x_cacc) : x_cacc := ((fst a + fst b)%Z, x_merge_all cs (snd a) (snd b)).
Fixpoint x_combine_metrics (nzs : nat -> noises) (i : nat) (cs : list combiner) (accs : list xacc)
    (sofar : list (mname * option num)) : result (list (mname * option num)) :=
  match cs, accs with
  | c :: cs', a :: accs' =>
      rbind (x_compute_metrics (nzs i) c a) (fun d =>
        if existsb (fun kv => existsb (eqb (fst kv)) (map fst sofar)) d
        then Err GenericException
        else x_combine_metrics nzs (S i) cs' accs' (sofar ++ d))
  | _, _ => Ok sofar
  end.

(** DPEngine._aggregate: dp_engine.py:109-189, as in EngineModel. *)
Definition x_contributions {U P} `{EqDec U} `{EqDec P}
    (p : params) (cs : list combiner) (sm : sampling U P) (public : option (list P))
    (rows : list (U * P * num)) : result (list (P * x_cacc)) :=
  let rows1 := match public with
               | Some pub => if public_partitions_already_filtered p then rows else drop_partitions pub rows
               | None => rows
               end in
  if contribution_bounds_already_enforced p
  then Ok (map (fun r => (snd (fst r), x_compound_create cs [snd r])) rows1)
  else rmap (map (fun e => (snd (fst e), snd e)))
            (bound_contributions p (compound_expects_sampling cs) sm (x_compound_create cs) rows1).
Definition x_raw_accumulators {U P} `{EqDec U} `{EqDec P}
    (p : params) (cs : list combiner) (sm : sampling U P) (public : option (list P))
    (rows : list (U * P * num)) : result (list (P * x_cacc)) :=
  rmap (fun col =>
          let col1 := match public with
                      | Some (k :: ks) => add_empty_public_partitions col (k :: ks) (x_compound_create cs [])
                      | _ => col
                      end in
          combine_per_key (x_compound_merge cs) col1)
       (x_contributions p cs sm public rows).
Definition x_selected_accumulators {U P} `{EqDec U} `{EqDec P}
    (p : params) (cs : list combiner) (sm : sampling U P) (should_keep : P -> Z -> bool)
    (public : option (list P)) (rows : list (U * P * num)) : result (list (P * x_cacc)) :=
  rbind (x_raw_accumulators p cs sm public rows) (fun col =>
    if selects_privately p public then
      match max_rows_per_privacy_id p with
      | Some m => Ok (select_private_partitions m should_keep col)
      | None => Err TypeError
      end
    else Ok col).
Definition x_above_threshold (m : list (mname * option num)) : bool :=
  negb (existsb (fun kv => match kv with (NPidCount, None) => true | _ => false end) m).
Definition x_aggregate {U P} `{EqDec U} `{EqDec P}
    (p : params) (sm : sampling U P) (should_keep : P -> Z -> bool) (nz : P -> nat -> noises)
    (public : option (list P)) (rows : list (U * P * num))
  : result (list (P * list (mname * option num))) :=
  rbind (create_compound_combiner p) (fun cs =>
  rbind (x_selected_accumulators p cs sm should_keep public rows) (fun col =>
  rmap (fun out => if post_aggregation_thresholding p
                   then filter (fun row => x_above_threshold (snd row)) out else out)
       (map_result (fun row => rmap (pair (fst row))
                                    (x_combine_metrics (nz (fst row)) 0 cs (snd (snd row)) [])) col))).
