(** Model of the per-partition utility analysis:
    /repo/analysis/per_partition_combiners.py and
    /repo/analysis/poisson_binomial.py.

    NumPy arrays are lists, floats are rationals.  The metrics contain the
    variance of the l0 error instead of its square root and leave out the
    standard deviation of the noise, which does not depend on the data. *)
From Coq Require Import List ZArith QArith Qminmax Bool.
From Verif Require Import Base SensModel BackendModel.
Import ListNotations.
Local Open Scope Q_scope.

(** ** poisson_binomial.py *)

(** Element-wise addition of arrays of the same length. *)
Definition vadd (a b : list Q) : list Q := map (fun xy => fst xy + snd xy) (combine a b).

(** One step of the loop of compute_pmf: poisson_binomial.py:45-49. *)
Definition pmf_step (pmf : list Q) (p : Q) : list Q :=
  vadd (map (fun x => x * (1 - p)) pmf ++ [0]) (0 :: map (fun x => x * p) pmf).

(** compute_pmf: poisson_binomial.py:39-50 (the start of the PMF is 0). *)
Definition compute_pmf (probabilities : list Q) : list Q := fold_left pmf_step probabilities [1].

(** ** Accumulators of the combiners *)

(** SumOfRandomVariablesMoments and __add__: per_partition_combiners.py:68-82. *)
Record moments := Moments { m_count : Z; m_exp : Q; m_var : Q; m_third : Q }.
Definition moments_add (a b : moments) : moments :=
  Moments (m_count a + m_count b) (m_exp a + m_exp b) (m_var a + m_var b) (m_third a + m_third b).

(** _probabilities_to_moments: per_partition_combiners.py:85-94. *)
Definition probabilities_to_moments (ps : list Q) : moments :=
  Moments (Z.of_nat (length ps)) (sumQ ps) (sumQ (map (fun p => p * (1 - p)) ps))
          (sumQ (map (fun p => p * (1 - p) * (1 - 2 * p)) ps)).

(** MAX_PROBABILITIES_IN_ACCUMULATOR: per_partition_combiners.py:29. *)
Definition max_probabilities : nat := 100.

(** _merge_list: per_partition_combiners.py:163-173. *)
Definition merge_list {A} (a b : list A) : list A :=
  if (length b <=? length a)%nat then a ++ b else b ++ a.

(** PartitionSelectionAccumulator: per_partition_combiners.py:154-160.  The two
    parts are exclusive, so it is a sum type. *)
Inductive sel_acc := Probs (ps : list Q) | Mom (m : moments).
Definition to_moments (a : sel_acc) : moments :=
  match a with Probs ps => probabilities_to_moments ps | Mom m => m end.

(** _merge_partition_selection_accumulators: per_partition_combiners.py:176-190. *)
Definition merge_sel (a b : sel_acc) : sel_acc :=
  match a, b with
  | Probs p, Probs q =>
      if (length p + length q <=? max_probabilities)%nat then Probs (merge_list p q)
      else Mom (moments_add (to_moments a) (to_moments b))
  | _, _ => Mom (moments_add (to_moments a) (to_moments b))
  end.

(** The pre-aggregated data of one privacy id in the partition: count, sum (or one
    sum per column), number of partitions of the privacy id
    (per_partition_combiners.py:31-33). *)
Inductive sumval := Scalar (q : Q) | Cols (l : list Q).
Definition pre := (Z * sumval * Z)%type.

(** Combiners with the parameters they read: RawStatisticsCombiner,
    PartitionSelectionCombiner (max_partitions_contributed), SumCombiner
    (min/max_sum_per_partition, max_partitions_contributed, i_column),
    CountCombiner (max_contributions_per_partition, max_partitions_contributed),
    PrivacyIdCountCombiner (max_partitions_contributed). *)
Inductive acombiner :=
| ARaw
| ASelect (max_partitions : Z)
| ASum (lo hi : Q) (max_partitions : Z) (i_column : option nat)
| ACount (linf : Z) (max_partitions : Z)
| APid (max_partitions : Z).

(** SumCombiner.AccumulatorType: sum, clipping-to-min error, clipping-to-max error,
    expected l0 error, variance of the l0 error. *)
Record sum_acc := SumAcc { a_sum : Q; a_min : Q; a_max : Q; a_l0 : Q; a_var : Q }.
Inductive aacc := RawAcc (ids count : Z) | SelAcc (s : sel_acc) | SumA (s : sum_acc).

(** The probability that l0 bounding keeps the contribution:
    per_partition_combiners.py:205-206, 259-260. *)
Definition keep_prob (max_partitions n : Z) : Q :=
  if (0 <? n)%Z then Qmin 1 (inject_Z max_partitions / inject_Z n) else 0.

(** [partition_sum] as an array of numbers, with the selection of a column:
    per_partition_combiners.py:246-256.  NumPy makes a one-dimensional array from an
    empty list, for which [:, i] raises IndexError; so does a column out of range.
    Using tuples where numbers are expected is outside of the model (TypeError). *)
Fixpoint scalars (l : list sumval) : result (list Q) :=
  match l with
  | [] => Ok []
  | Scalar q :: l' => rmap (cons q) (scalars l')
  | Cols _ :: _ => Err TypeError
  end.
Fixpoint nth_column (i : nat) (l : list sumval) : result (list Q) :=
  match l with
  | [] => Ok []
  | Cols c :: l' => match nth_error c i with
                    | Some q => rmap (cons q) (nth_column i l')
                    | None => Err IndexError
                    end
  | Scalar _ :: _ => Err IndexError
  end.
Definition column (i : option nat) (l : list sumval) : result (list Q) :=
  match i with
  | None => scalars l
  | Some i => match l with [] => Err IndexError | _ => nth_column i l end
  end.

(** SumCombiner.create_accumulator on arrays: per_partition_combiners.py:246-277. *)
Definition sum_create (lo hi : Q) (max_partitions : Z) (sums : list Q) (ns : list Z) : sum_acc :=
  let vn := combine sums ns in
  let err := fun v => clip lo hi v - v in
  SumAcc (sumQ sums)
         (sumQ (map (fun v => if negb (Qle_bool lo v) then err v else 0) sums))
         (sumQ (map (fun v => if negb (Qle_bool v hi) then err v else 0) sums))
         (sumQ (map (fun x => - clip lo hi (fst x) * (1 - keep_prob max_partitions (snd x))) vn))
         (sumQ (map (fun x => clip lo hi (fst x) * clip lo hi (fst x) * keep_prob max_partitions (snd x)
                              * (1 - keep_prob max_partitions (snd x))) vn)).

(** create_accumulator of the combiners: per_partition_combiners.py:201-211, 246-277,
    312-319, 336-344, 356-360.  Arguments: the arrays of counts, sums and numbers of
    partitions. *)
Definition acreate (c : acombiner) (counts : list Z) (sums : list sumval) (ns : list Z) : result aacc :=
  match c with
  | ARaw => Ok (RawAcc (Z.of_nat (length counts)) (sumZ counts))
  | ASelect mp => Ok (SelAcc (merge_sel (Probs (map (keep_prob mp) ns)) (Probs [])))
  | ASum lo hi mp i => rmap (fun vs => SumA (sum_create lo hi mp vs ns)) (column i sums)
  | ACount linf mp => Ok (SumA (sum_create 0 (inject_Z linf) mp (map inject_Z counts) ns))
  | APid mp => Ok (SumA (sum_create 0 1 mp (map (fun c => if (0 <? c)%Z then 1 else 0) counts) ns))
  end.

(** merge_accumulators: per_partition_combiners.py:56-58, 213-217. *)
Definition amerge (a b : aacc) : aacc :=
  match a, b with
  | RawAcc i c, RawAcc i' c' => RawAcc (i + i') (c + c')
  | SelAcc s, SelAcc s' => SelAcc (merge_sel s s')
  | SumA s, SumA s' => SumA (SumAcc (a_sum s + a_sum s') (a_min s + a_min s') (a_max s + a_max s')
                                     (a_l0 s + a_l0 s') (a_var s + a_var s'))
  | _, _ => a
  end.

(** ** CompoundCombiner: per_partition_combiners.py:367-471 *)

Definition sparse := (list Z * list sumval * list Z)%type.
Definition dense := (Z * list aacc)%type.
Definition cacc := (option sparse * option dense)%type.

(** create_accumulator: 398-408; [None] stands for empty data. *)
Definition ccreate (d : option pre) : cacc :=
  match d with
  | None => (Some ([], [], []), None)
  | Some (c, s, n) => (Some ([c], [s], [n]), None)
  end.

(** _to_dense: 410-421. *)
Fixpoint acreate_all (cs : list acombiner) (counts : list Z) (sums : list sumval) (ns : list Z) : result (list aacc) :=
  match cs with
  | [] => Ok []
  | c :: cs' => rbind (acreate c counts sums ns) (fun a => rmap (cons a) (acreate_all cs' counts sums ns))
  end.
Definition to_dense (cs : list acombiner) (s : sparse) : result dense :=
  match s with
  | (counts, sums, ns) => rmap (pair (Z.of_nat (length counts))) (acreate_all cs counts sums ns)
  end.

(** _merge_sparse: 423-428. *)
Definition merge_sparse (a b : option sparse) : option sparse :=
  match a, b with
  | None, _ => b
  | _, None => a
  | Some (c, s, n), Some (c', s', n') => Some (merge_list c c', merge_list s s', merge_list n n')
  end.

(** _merge_dense: 430-435, with combiners.CompoundCombiner.merge_accumulators
    (combiners.py:755-764). *)
Definition merge_dense (a b : option dense) : option dense :=
  match a, b with
  | None, _ => b
  | _, None => a
  | Some (n, l), Some (n', l') => Some ((n + n')%Z, map (fun xy => amerge (fst xy) (snd xy)) (combine l l'))
  end.

(** merge_accumulators: 437-448 (the rest of the method, 450-465, is unreachable). *)
Definition cmerge (cs : list acombiner) (a b : cacc) : result cacc :=
  let sparse_res := merge_sparse (fst a) (fst b) in
  let merge_res := merge_dense (snd a) (snd b) in
  match sparse_res with
  | Some (counts, sums, ns) =>
      if (2 * length cs <? length counts)%nat
      then rmap (fun d => (None, merge_dense merge_res (Some d))) (to_dense cs (counts, sums, ns))
      else Ok (sparse_res, merge_res)
  | None => Ok (None, merge_res)
  end.

(** ** Metrics *)

(** compute_probability_to_keep and _compute_pmf: per_partition_combiners.py:122-151.
    [keep i] is probability_of_keep(i) of the partition selection strategy; [approx]
    is the refined normal approximation compute_pmf_approximation
    (poisson_binomial.py:62-87) as a function of the moments: (start,
    probabilities). *)
Definition expected_keep (keep : Z -> Q) (start : Z) (pmf : list Q) : Q :=
  sumQ (map (fun ip => snd ip * keep (fst ip)) (combine (map (fun i => (start + Z.of_nat i)%Z) (seq 0 (length pmf))) pmf)).
Definition probability_to_keep (keep : Z -> Q) (approx : moments -> Z * list Q) (s : sel_acc) : result Q :=
  match s with
  | Probs [] => Err AttributeError
  | Probs ps => Ok (expected_keep keep 0 (compute_pmf ps))
  | Mom m => Ok (expected_keep keep (fst (approx m)) (snd (approx m)))
  end.

Inductive ametric := MRaw (ids count : Z) | MKeep (p : Q) | MSum (s : sum_acc).

(** compute_metrics of the combiners: 219-227, 279-290, 362-364. *)
Definition acompute (keep : Z -> Q) (approx : moments -> Z * list Q) (a : aacc) : result ametric :=
  match a with
  | RawAcc i c => Ok (MRaw i c)
  | SelAcc s => rmap MKeep (probability_to_keep keep approx s)
  | SumA s => Ok (MSum s)
  end.

(** CompoundCombiner.compute_metrics: 467-471 with combiners.py:766-773.  [keeps j]:
    the selection strategy of combiner number [j].  The compound accumulator cannot
    be (None, None). *)
Fixpoint acompute_all (keeps : nat -> Z -> Q) (approx : moments -> Z * list Q) (j : nat) (l : list aacc)
  : result (list ametric) :=
  match l with
  | [] => Ok []
  | a :: l' => rbind (acompute (keeps j) approx a) (fun m => rmap (cons m) (acompute_all keeps approx (S j) l'))
  end.
Definition ccompute (keeps : nat -> Z -> Q) (approx : moments -> Z * list Q) (cs : list acombiner) (a : cacc)
  : result (list ametric) :=
  let fin := match fst a with
             | Some s => rmap (fun d => merge_dense (snd a) (Some d)) (to_dense cs s)
             | None => Ok (snd a)
             end in
  rbind fin (fun od => match od with
                       | Some d => acompute_all keeps approx 0 (snd d)
                       | None => Err TypeError
                       end).

Fixpoint map_tree {A B} (f : A -> B) (t : tree A) : tree B :=
  match t with Leaf a => Leaf (f a) | Node l r => Node (map_tree f l) (map_tree f r) end.

(** Merging along a tree chosen by the runner: the merge of BackendModel.reduce_tree,
    with exceptions. *)
Definition rlift {A} (f : A -> A -> result A) (a b : result A) : result A :=
  rbind a (fun x => rbind b (fun y => f x y)).
Definition analyse (keeps : nat -> Z -> Q) (approx : moments -> Z * list Q) (cs : list acombiner)
    (t : tree (option pre)) : result (list ametric) :=
  rbind (reduce_tree (rlift (cmerge cs)) (map_tree (fun d => Ok (ccreate d)) t)) (ccompute keeps approx cs).
