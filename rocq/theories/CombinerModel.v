(** Model of /repo/pipeline_dp/combiners.py.

    Values are numbers or vectors.  Accumulators are one sum type; a Python
    exception raised while creating or merging accumulators is the absorbing
    accumulator [AErr] (an exception aborts the pipeline).  Noise is an
    argument.  Serialization (pickling) and explain_computation texts are not
    modelled. *)
From Coq Require Import List ZArith QArith Qabs Qminmax Qreduction Bool.
From Verif Require Import Base BackendModel ParamsModel SensModel.
Import ListNotations.
Local Open Scope Q_scope.

(** What the value extractor returns: a number, or a vector for VECTOR_SUM.
    Giving a vector to a scalar metric is outside of the model (counted as 0). *)
Inductive value := Num (q : Q) | Vec (l : list Q).
Definition num_of (v : value) : Q := match v with Num q => q | Vec _ => 0 end.

(** Names of metrics in the output (field names of MetricsTuple).  The
    percentile name (combiners.py:634-644) is an injective text of the number,
    kept here as the number in lowest terms. *)
Inductive mname := NCount | NPidCount | NSum | NMean | NVariance | NVectorSum | NPercentile (p : Q).
#[export] Instance EqDec_Q : EqDec Q.
Proof. intros [a b] [c d]. destruct (Z.eq_dec a c); [destruct (Pos.eq_dec b d)|];
  [left; congruence | right; congruence | right; congruence]. Defined.
#[export] Instance EqDec_mname : EqDec mname.
Proof.
  intros a b. destruct a, b; try (left; reflexivity); try (right; discriminate).
  destruct (eq_dec p p0) as [->|N]; [left; reflexivity | right; congruence].
Defined.

(** The combiner classes.  [CSum per_partition lo hi] etc. carry the fields read
    after construction. *)
Inductive combiner :=
| CCount                                   (* combiners.py:241-280 *)
| CPidCount                                (* combiners.py:283-325 *)
| CThresh                                  (* combiners.py:328-382 *)
| CSum (per_partition : bool) (lo hi : Q)  (* combiners.py:385-437 *)
| CMean (lo hi : Q) (names : list mname)   (* combiners.py:440-519 *)
| CVariance (lo hi : Q) (names : list mname) (* combiners.py:522-587 *)
| CQuantile (ps : list Q)                  (* combiners.py:590-669 *)
| CVector (size : Z).                      (* combiners.py:800-846 *)

Inductive acc :=
| AInt (z : Z)
| AFloat (q : Q)
| AMean (n : Z) (s : Q)
| AVar (n : Z) (s ss : Q)
| ATree (entries : list Q)  (* QuantileTree of PyDP: a multiset of entries *)
| ANone                     (* Python None, VectorSumCombiner on no values *)
| AVec (l : list Q)
| AErr.

(** Elementwise sum of two numpy arrays; different shapes raise. *)
Fixpoint vadd (a b : list Q) : option (list Q) :=
  match a, b with
  | [], [] => Some []
  | x :: a', y :: b' => option_map (cons (x + y)) (vadd a' b')
  | _, _ => None
  end.
Definition avec_add (a b : acc) : acc :=
  match a, b with
  | AVec x, AVec y => match vadd x y with Some z => AVec z | None => AErr end
  | _, _ => AErr
  end.

(** The loop of VectorSumCombiner.create_accumulator: combiners.py:812-827.  A
    scalar has shape () and is rejected too. *)
Definition vector_step (size : Z) (sum : acc) (v : value) : acc :=
  match sum, v with
  | AErr, _ => AErr
  | _, Num _ => AErr
  | ANone, Vec l => if (Z.of_nat (length l) =? size)%Z then AVec l else AErr
  | s, Vec l => if (Z.of_nat (length l) =? size)%Z then avec_add s (AVec l) else AErr
  end.

(** X.create_accumulator(values): combiners.py:255, 298, 347, 407-412, 476-483,
    546-556, 612-616, 812-827. *)
Definition create (c : combiner) (vs : list value) : acc :=
  match c with
  | CCount => AInt (Z.of_nat (length vs))
  | CPidCount | CThresh => AInt (match vs with [] => 0 | _ => 1 end)
  | CSum true lo hi => AFloat (clip lo hi (sumQ (map num_of vs)))
  | CSum false lo hi => AFloat (sumQ (map (fun v => clip lo hi (num_of v)) vs))
  | CMean lo hi _ =>
      AMean (Z.of_nat (length vs)) (sumQ (map (fun v => clip lo hi (num_of v) - middle lo hi) vs))
  | CVariance lo hi _ =>
      AVar (Z.of_nat (length vs))
           (sumQ (map (fun v => clip lo hi (num_of v) - middle lo hi) vs))
           (sumQ (map (fun v => (clip lo hi (num_of v) - middle lo hi)
                                * (clip lo hi (num_of v) - middle lo hi)) vs))
  | CQuantile _ => ATree (map num_of vs)
  | CVector size => fold_left (vector_step size) vs ANone
  end.

(** X.merge_accumulators: combiners.py:258-260, 301-303, 350-352, 414-415,
    485-489, 558-562, 618-625, 829-831. *)
Definition merge (c : combiner) (a b : acc) : acc :=
  match c, a, b with
  | (CCount | CPidCount | CThresh), AInt x, AInt y => AInt (x + y)
  | CSum _ _ _, AFloat x, AFloat y => AFloat (x + y)
  | CMean _ _ _, AMean n s, AMean n' s' => AMean (n + n') (s + s')
  | CVariance _ _ _, AVar n s q, AVar n' s' q' => AVar (n + n') (s + s') (q + q')
  | CQuantile _, ATree l, ATree l' => ATree (l ++ l')
  | CVector _, AVec _, AVec _ => avec_add a b
  | _, _, _ => AErr
  end.

(** X.expects_per_partition_sampling: combiners.py:79-83 (default True),
    324-325, 376-377, 423-424. *)
Definition expects_sampling (c : combiner) : bool :=
  match c with
  | CPidCount | CThresh => false
  | CSum per_partition _ _ => negb per_partition
  | _ => true
  end.

(** X.metrics_names: combiners.py:265, 308, 360, 420, 502, 577, 634-644, 840. *)
Definition names_of (c : combiner) : list mname :=
  match c with
  | CCount => [NCount]
  | CPidCount | CThresh => [NPidCount]
  | CSum _ _ _ => [NSum]
  | CMean _ _ names | CVariance _ _ names => names
  | CQuantile ps => map (fun p => NPercentile (Qred p)) ps
  | CVector _ => [NVectorSum]
  end.

(** A released value. *)
Inductive released := RNum (q : Q) | RNone | RVec (l : list Q).

(** The randomness of one combiner: the noise functions of its mechanisms,
    [n_thresh] = ThresholdingMechanism.noised_value_if_should_keep,
    [n_quantiles] = QuantileTree.compute_quantiles, [n_vector] =
    dp_computations.add_noise_vector (modelled in VectorModel). *)
Record noises := Noises {
  n_count : Q -> Q;
  n_sum : Q -> Q;
  n_squares : Q -> Q;
  n_thresh : Z -> option Q;
  n_quantiles : list Q -> list Q -> list Q;
  n_vector : list Q -> list Q }.

(** MeanMechanism.compute_mean: dp_computations.py:565-571. *)
Definition compute_mean (nz : noises) (mid : Q) (n : Z) (s : Q) : Q * Q * Q :=
  let dp_count := n_count nz (inject_Z n) in
  let denominator := Qmax 1 dp_count in
  let dp_mean := mid + n_sum nz s / denominator in
  (dp_count, dp_mean * dp_count, dp_mean).

(** _compute_mean_for_normalized_sum: dp_computations.py:263-303; [nz] adds the
    noise. *)
Definition mean_for_normalized_sum (nz : Q -> Q) (dp_count s lo hi : Q) : Q :=
  if Qeq_bool lo hi then lo else nz s / Qmax 1 dp_count.

(** compute_dp_var: dp_computations.py:306-365. *)
Definition compute_dp_var (nz : noises) (lo hi : Q) (n : Z) (s ss : Q) : Q * Q * Q * Q :=
  let dp_count := n_count nz (inject_Z n) in
  let dp_mean := mean_for_normalized_sum (n_sum nz) dp_count s lo hi in
  let sq := squares_interval lo hi in
  let dp_mean_squares := mean_for_normalized_sum (n_squares nz) dp_count ss (fst sq) (snd sq) in
  let dp_var := dp_mean_squares - dp_mean * dp_mean in
  let dp_mean' := if negb (Qeq_bool lo hi) then dp_mean + middle lo hi else dp_mean in
  (dp_count, dp_mean' * dp_count, dp_mean', dp_var).

(** X.compute_metrics, a dictionary in insertion order: combiners.py:262-263,
    305-306, 354-358, 417-418, 491-500, 564-575, 627-632, 833-838.  On the
    accumulator of another combiner or after an exception: error. *)
Definition compute_metrics (nz : noises) (c : combiner) (a : acc) : result (list (mname * released)) :=
  match c, a with
  | CCount, AInt z => Ok [(NCount, RNum (n_count nz (inject_Z z)))]
  | CPidCount, AInt z => Ok [(NPidCount, RNum (n_count nz (inject_Z z)))]
  | CThresh, AInt z =>
      Ok [(NPidCount, match n_thresh nz z with Some q => RNum q | None => RNone end)]
  | CSum _ _ _, AFloat q => Ok [(NSum, RNum (n_sum nz q))]
  | CMean lo hi names, AMean n s =>
      let '(dp_count, dp_sum, dp_mean) := compute_mean nz (middle lo hi) n s in
      Ok ([(NMean, RNum dp_mean)]
          ++ (if existsb (eqb NCount) names then [(NCount, RNum dp_count)] else [])
          ++ (if existsb (eqb NSum) names then [(NSum, RNum dp_sum)] else []))
  | CVariance lo hi names, AVar n s ss =>
      let '(dp_count, dp_sum, dp_mean, dp_var) := compute_dp_var nz lo hi n s ss in
      Ok ([(NVariance, RNum dp_var)]
          ++ (if existsb (eqb NCount) names then [(NCount, RNum dp_count)] else [])
          ++ (if existsb (eqb NSum) names then [(NSum, RNum dp_sum)] else [])
          ++ (if existsb (eqb NMean) names then [(NMean, RNum dp_mean)] else []))
  | CQuantile ps, ATree l =>
      Ok (combine (names_of (CQuantile ps)) (map RNum (n_quantiles nz l (map (fun p => p / 100) ps))))
  | CVector _, AVec l => Ok [(NVectorSum, RVec (n_vector nz l))]
  | _, _ => Err TypeError
  end.

(** ** CompoundCombiner: combiners.py:698-797 *)

(** Compound accumulators: (row count, internal accumulators). *)
Definition cacc := (Z * list acc)%type.

(** CompoundCombiner.__init__ with return_named_tuple = True:
    combiners.py:733-748. *)
Definition has_duplicates {A} `{EqDec A} (l : list A) : bool :=
  negb (length l =? length (distinct l))%nat.
Definition compound_init (cs : list combiner) : result (list combiner) :=
  raise_if (has_duplicates (flat_map names_of cs)) ValueError (Ok cs).

(** create_accumulator: combiners.py:750-754. *)
Definition compound_create (cs : list combiner) (vs : list value) : cacc :=
  (1%Z, map (fun c => create c vs) cs).

(** merge_accumulators: combiners.py:756-765 ([zip] stops at the shortest). *)
Fixpoint merge_all (cs : list combiner) (a b : list acc) : list acc :=
  match cs, a, b with
  | c :: cs', x :: a', y :: b' => merge c x y :: merge_all cs' a' b'
  | _, _, _ => []
  end.
Definition compound_merge (cs : list combiner) (a b : cacc) : cacc :=
  ((fst a + fst b)%Z, merge_all cs (snd a) (snd b)).

(** The loop of compute_metrics; [i] is the index of the first combiner of [cs];
    [nzs i] is the randomness of the combiner with index [i].  dict.update adds
    at the end because all keys are new. *)
Fixpoint combine_metrics (nzs : nat -> noises) (i : nat) (cs : list combiner) (accs : list acc)
    (sofar : list (mname * released)) : result (list (mname * released)) :=
  match cs, accs with
  | c :: cs', a :: accs' =>
      rbind (compute_metrics (nzs i) c a) (fun d =>
        if existsb (fun kv => existsb (eqb (fst kv)) (map fst sofar)) d
        then Err GenericException
        else combine_metrics nzs (S i) cs' accs' (sofar ++ d))
  | _, _ => Ok sofar
  end.

(** compute_metrics, named tuple variant: combiners.py:767-789. *)
Definition compound_metrics (nzs : nat -> noises) (cs : list combiner) (a : cacc)
  : result (list (mname * released)) :=
  combine_metrics nzs 0 cs (snd a) [].

(** expects_per_partition_sampling: combiners.py:796-797. *)
Definition compound_expects_sampling (cs : list combiner) : bool := existsb expects_sampling cs.

(** ** create_compound_combiner: combiners.py:849-922 *)

(** [if cond: combiners.append(...)]. *)
Definition append_if (b : bool) (mk : result combiner) (k : result (list combiner)) : result (list combiner) :=
  if b then rbind mk (fun c => rmap (cons c) k) else k.

(** The constructors.  SumCombiner: combiners.py:394-405; MeanCombiner:
    451-474 (its checks of metrics_to_compute cannot fail here). *)
Definition new_count (p : params) : result combiner := rmap (fun _ => CCount) (sens_count p).
Definition new_pid_count (p : params) : result combiner :=
  rmap (fun _ => CPidCount) (sens_privacy_id_count p).
Definition new_thresh (p : params) : result combiner :=
  rmap (fun _ => CThresh) (sens_privacy_id_count p).
Definition new_sum (p : params) : result combiner :=
  rbind (sens_sum p) (fun _ =>
    if bounds_per_partition_are_set p
    then match min_sum_per_partition p, max_sum_per_partition p with
         | Some lo, Some hi => Ok (CSum true lo hi) | _, _ => Err TypeError end
    else match min_value p, max_value p with
         | Some lo, Some hi => Ok (CSum false lo hi) | _, _ => Err TypeError end).
Definition new_mean (p : params) (names : list mname) : result combiner :=
  match min_value p, max_value p with
  | Some lo, Some hi =>
      rbind (sens_count p) (fun _ => rmap (fun _ => CMean lo hi names) (sens_normalized_sum p))
  | _, _ => Err TypeError
  end.
Definition new_variance (p : params) (names : list mname) : result combiner :=
  match min_value p, max_value p with
  | Some lo, Some hi => Ok (CVariance lo hi names) | _, _ => Err TypeError
  end.
(** With vector_size = None every vector is rejected (shape != (None,)). *)
Definition new_vector (p : params) : result combiner :=
  Ok (CVector (match vector_size p with Some n => n | None => -1 end)).

Definition percentiles (ms : list metric) : list Q :=
  flat_map (fun m => match m with PERCENTILE p => [p] | _ => [] end) ms.

Definition when (b : bool) (n : mname) : list mname := if b then [n] else [].

Definition create_combiners (p : params) : result (list combiner) :=
  let ms := metrics p in
  let k4 := append_if (match percentiles ms with [] => false | _ => true end)
                      (Ok (CQuantile (percentiles ms))) (Ok []) in
  let k3 := append_if (has VECTOR_SUM ms) (new_vector p) k4 in
  let k2 := append_if (has PRIVACY_ID_COUNT ms)
              (if post_aggregation_thresholding p then new_thresh p else new_pid_count p) k3 in
  if has VARIANCE ms then
    append_if true (new_variance p ([NVariance] ++ when (has MEAN ms) NMean
                                    ++ when (has COUNT ms) NCount ++ when (has SUM ms) NSum)) k2
  else if has MEAN ms then
    append_if true (new_mean p ([NMean] ++ when (has COUNT ms) NCount ++ when (has SUM ms) NSum)) k2
  else
    append_if (has COUNT ms) (new_count p) (append_if (has SUM ms) (new_sum p) k2).

Definition create_compound_combiner (p : params) : result (list combiner) :=
  rbind (create_combiners p) compound_init.

(** Number of request_budget calls made for a combiner by
    create_compound_combiner: combiners.py:855-920; every request has
    weight = budget_weight. *)
Definition requests (c : combiner) : nat := match c with CMean _ _ _ => 2 | _ => 1 end.

(** The quantities of an accumulator that a combiner adds noise to and the
    sensitivities given to the noise mechanism.  AdditiveMechanismMixin:
    combiners.py:120-139 with 249-253, 291-295, 388-392, 399-402;
    MeanCombiner: 470-474, 514-519; VarianceCombiner: 564-567 with
    dp_computations.py:323-357 (no noise is added to the sum when
    min_value == max_value).  PostAggregationThresholdingCombiner (336-346,
    379-382) hands only the L0 sensitivity to the thresholding strategy. *)
Inductive quantity := QCount | QSum | QSquares.
Definition var_sens (p : params) (linf : option Q) : result sens :=
  match max_partitions_contributed p, linf with
  | Some l0, Some q => Ok (Sens (Some l0) (Some q) (Some (l1_sensitivity l0 q)) (Some (l2sq_sensitivity l0 q)))
  | _, _ => Err TypeError
  end.
Definition noise_plan (p : params) (c : combiner) : list (quantity * result sens) :=
  match c with
  | CCount => [(QCount, sens_count p)]
  | CPidCount | CThresh => [(QCount, sens_privacy_id_count p)]
  | CSum _ _ _ => [(QSum, sens_sum p)]
  | CMean _ _ _ => [(QCount, sens_count p); (QSum, sens_normalized_sum p)]
  | CVariance lo hi _ =>
      match max_contributions_per_partition p with
      | Some linf =>
          [(QCount, var_sens p (Some (var_linf_count linf)))]
          ++ (if Qeq_bool lo hi then [] else [(QSum, var_sens p (var_linf_sum linf lo hi))])
          ++ (if Qeq_bool (fst (squares_interval lo hi)) (snd (squares_interval lo hi)) then []
              else [(QSquares, var_sens p (var_linf_squares linf lo hi))])
      | None => [(QCount, Err TypeError)]
      end
  | CQuantile _ | CVector _ => []
  end.
