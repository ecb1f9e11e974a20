(** Vocabulary for C41-C43: independent survivals, uniform sampling of partitions,
    finite distributions. *)
From Coq Require Import List ZArith QArith Qminmax Bool Permutation.
From Verif Require Import Base SensModel BackendModel AnalysisModel.
Import ListNotations.
Local Open Scope Q_scope.

(** ** Independent survivals (C42) *)

(** All outcomes of [n] contributions: which of them survive. *)
Fixpoint outcomes (n : nat) : list (list bool) :=
  match n with
  | O => [[]]
  | S n' => map (cons false) (outcomes n') ++ map (cons true) (outcomes n')
  end.
(** The probability of an outcome, contribution [i] surviving with probability
    [ps i] independently of the others. *)
Fixpoint outcome_prob (ps : list Q) (bs : list bool) : Q :=
  match ps, bs with
  | p :: ps', b :: bs' => (if b then p else 1 - p) * outcome_prob ps' bs'
  | _, _ => 1
  end.
Definition survivors (bs : list bool) : nat := length (filter (fun b => b) bs).
Definition survival_prob (ps : list Q) (k : nat) : Q :=
  sumQ (map (outcome_prob ps) (filter (fun bs => Nat.eqb (survivors bs) k) (outcomes (length ps)))).
(** The expectation of a function of the number of survivors. *)
Definition survivors_expectation (ps : list Q) (h : nat -> Q) : Q :=
  sumQ (map (fun bs => outcome_prob ps bs * h (survivors bs)) (outcomes (length ps))).

(** ** Uniform sampling of partitions (C43) *)

(** All the ways to choose [k] elements of [l]. *)
Fixpoint subsets {A} (k : nat) (l : list A) : list (list A) :=
  match k, l with
  | O, _ => [[]]
  | S _, [] => []
  | S k', x :: l' => map (cons x) (subsets k' l') ++ subsets k l'
  end.

(** A finite distribution of numbers: (value, probability). *)
Definition dist := list (Q * Q).
Definition expectation (d : dist) : Q := sumQ (map (fun vp => fst vp * snd vp) d).
Definition variance (d : dist) : Q :=
  sumQ (map (fun vp => (fst vp - expectation d) * (fst vp - expectation d) * snd vp) d).
(** The sum of independent variables. *)
Fixpoint sum_dist (ds : list dist) : dist :=
  match ds with
  | [] => [(0, 1)]
  | d :: ds' => flat_map (fun a => map (fun b => (fst a + fst b, snd a * snd b)) (sum_dist ds')) d
  end.

(** The contribution of a privacy id to the partition: the value [v] aggregated in
    this partition, the number [n] of its partitions and the position [j] of this
    partition among them. *)
Record contribution := Contribution { c_value : Q; c_partitions : nat; c_position : nat }.
Definition valid_contribution (c : contribution) : Prop := (c_position c < c_partitions c)%nat.

(** What contribution bounding makes of it: min(L0, n) of the n partitions are chosen
    uniformly; the value is clipped if this partition is chosen and dropped
    otherwise. *)
Definition bounded (L0 : nat) (lo hi : Q) (c : contribution) : dist :=
  let samples := subsets (Nat.min L0 (c_partitions c)) (seq 0 (c_partitions c)) in
  map (fun s => (if mem (c_position c) s then clip lo hi (c_value c) else 0,
                 1 / inject_Z (Z.of_nat (length samples)))) samples.

(** ** Metrics of a partition (C41) *)

(** Equality of metrics as numbers. *)
Definition metric_eq (a b : ametric) : Prop :=
  match a, b with
  | MRaw i c, MRaw i' c' => i = i' /\ c = c'
  | MKeep p, MKeep p' => p == p'
  | MSum s, MSum s' => a_sum s == a_sum s' /\ a_min s == a_min s' /\ a_max s == a_max s' /\
                       a_l0 s == a_l0 s' /\ a_var s == a_var s'
  | _, _ => False
  end.
Definition moments_eq (a b : moments) : Prop :=
  m_count a = m_count b /\ m_exp a == m_exp b /\ m_var a == m_var b /\ m_third a == m_third b.
(** The approximation is a function of the numbers, not of their representation. *)
Definition numeric (approx : moments -> Z * list Q) : Prop :=
  forall m m', moments_eq m m' -> fst (approx m) = fst (approx m') /\ Forall2 Qeq (snd (approx m)) (snd (approx m')).

(** The contribution of a privacy id, for a combiner working on sums ([i] is the
    column). *)
Definition value_of (i : option nat) (d : pre) : option Q :=
  match i, snd (fst d) with
  | None, Scalar q => Some q
  | Some i, Cols l => nth_error l i
  | _, _ => None
  end.

(** A privacy id with [n] partitions keeps a given one of them with this probability
    when at most [mp] are kept; it never does when it has none (an empty public
    partition). *)
Definition survival_probability (mp n : Z) : Q :=
  if (n <=? 0)%Z then 0 else if (mp <? n)%Z then inject_Z mp / inject_Z n else 1.

(** Mean and central moments of the number of survivors. *)
Definition survivor_moments (ps : list Q) : moments :=
  let mean := survivors_expectation ps (fun k => inject_Z (Z.of_nat k)) in
  let deviation := fun k => inject_Z (Z.of_nat k) - mean in
  Moments (Z.of_nat (length ps)) mean
    (survivors_expectation ps (fun k => deviation k * deviation k))
    (survivors_expectation ps (fun k => deviation k * deviation k * deviation k)).

(** The expectation of [keep] under the (approximate) probabilities of [start],
    [start] + 1, ... *)
Fixpoint approximate_keep (keep : Z -> Q) (start : Z) (pmf : list Q) : Q :=
  match pmf with
  | [] => 0
  | p :: pmf' => p * keep start + approximate_keep keep (start + 1)%Z pmf'
  end.

(** What the metrics of combiner [c] must be for the data [ds] of the partition. *)
Definition sum_metrics (lo hi : Q) (mp : Z) (vns : list (Q * Z)) : sum_acc :=
  let total := fun f => sumQ (map (fun vn => f (fst vn) (survival_probability mp (snd vn))) vns) in
  SumAcc (total (fun v _ => v))
         (total (fun v _ => if Qlt_le_dec v lo then clip lo hi v - v else 0))
         (total (fun v _ => if Qlt_le_dec hi v then clip lo hi v - v else 0))
         (total (fun v p => - (clip lo hi v * (1 - p))))
         (total (fun v p => clip lo hi v * clip lo hi v * (p * (1 - p)))).
Definition metric_spec (keep : Z -> Q) (approx : moments -> Z * list Q) (c : acombiner) (ds : list pre) (m : ametric) : Prop :=
  let ns := map snd ds in
  let counts := map (fun d => fst (fst d)) ds in
  match c with
  | ARaw => metric_eq m (MRaw (Z.of_nat (length ds)) (sumZ counts))
  | ASelect mp =>
      let ps := map (survival_probability mp) ns in
      if (length ds <=? 100)%nat
      then metric_eq m (MKeep (survivors_expectation ps (fun k => keep (Z.of_nat k))))
      else metric_eq m (MKeep (let a := approx (survivor_moments ps) in approximate_keep keep (fst a) (snd a)))
  | ASum lo hi mp i =>
      exists vs, map (value_of i) ds = map Some vs /\ metric_eq m (MSum (sum_metrics lo hi mp (combine vs ns)))
  | ACount linf mp => metric_eq m (MSum (sum_metrics 0 (inject_Z linf) mp (combine (map inject_Z counts) ns)))
  | APid mp => metric_eq m (MSum (sum_metrics 0 1 mp (combine (map (fun c => if (0 <? c)%Z then 1 else 0) counts) ns)))
  end.

(** The sums have the shape that the combiners expect; a partition selection is not
    asked for an empty partition; with several columns there are no empty
    accumulators (see the refuted theorem). *)
Definition given (leaves : list (option pre)) : list pre :=
  flat_map (fun d => match d with Some x => [x] | None => [] end) leaves.
Definition shape_ok (leaves : list (option pre)) (c : acombiner) : Prop :=
  match c with
  | ASum _ _ _ i => (forall d, In d (given leaves) -> value_of i d <> None) /\ (i <> None -> ~ In None leaves)
  | ASelect _ => given leaves <> []
  | _ => True
  end.

(** ** The data behind the metrics of the combiners working with sums (C43) *)

(** The bounds of the values of a partition and of the number of partitions. *)
Definition sum_bounds (c : acombiner) : option (Q * Q * Z) :=
  match c with
  | ASum lo hi mp _ => Some (lo, hi, mp)
  | ACount linf mp => Some (0, inject_Z linf, mp)
  | APid mp => Some (0, 1, mp)
  | _ => None
  end.
(** The value that the combiner aggregates. *)
Definition combiner_value (c : acombiner) (d : pre) : option Q :=
  match c with
  | ASum _ _ _ i => value_of i d
  | ACount _ _ => Some (inject_Z (fst (fst d)))
  | APid _ => Some (if (0 <? fst (fst d))%Z then 1 else 0)
  | _ => None
  end.
(** The pre-aggregated row [d] describes the contribution [c] of a privacy id. *)
Definition describes (comb : acombiner) (c : contribution) (d : pre) : Prop :=
  valid_contribution c /\ combiner_value comb d = Some (c_value c) /\ snd d = Z.of_nat (c_partitions c).
