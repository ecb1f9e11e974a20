(** Vocabulary for C73: the exact distribution of a released metric. *)
From Coq Require Import List ZArith QArith Qminmax Qreals Reals Bool.
From Verif Require Import Base BackendModel BackendSpec ParamsModel SensModel CombinerModel EngineModel EngineSpec
  LaplaceSpec SelectSpec DistSpec DpSpec.
Import ListNotations.
Local Open Scope R_scope.

(** Metric [n] of partition [k] in what is visible of the result; [None] if the
    partition or the metric is not there. *)
Definition metric {P} `{EqDec P} (keys : list P) (k : P) (n : mname) (o : outcome P) : option Q :=
  match o with
  | Ok (ms, _) =>
      match find (fun e => eqb (fst e) k) (combine keys ms) with
      | Some (_, Some d) => match find (fun e => eqb (fst e) n) d with Some (_, RNum q) => Some q | _ => None end
      | _ => None
      end
  | Err _ => None
  end.

(** Metric [n] of a combiner, from the noised count, sum and sum of squares, and from
    what thresholding answers.  MEAN and VARIANCE work with distances from the middle of
    the range. *)
Definition of_noised (cb : combiner) (n : mname) (above count sum squares : Q) : option Q :=
  (let average x := x / Qmax 1 count in
   match cb, n with
   | CCount, NCount | CPidCount, NPidCount => Some count
   | CThresh, NPidCount => Some above
   | CSum _ _ _, NSum => Some sum
   | CMean _ _ _, NCount | CVariance _ _ _, NCount => Some count
   | CMean lo hi _, NMean => Some (middle lo hi + average sum)
   | CMean lo hi _, NSum => Some ((middle lo hi + average sum) * count)
   | CVariance lo hi _, NMean => Some (if Qeq_bool lo hi then lo else average sum + middle lo hi)
   | CVariance lo hi _, NSum => Some ((if Qeq_bool lo hi then lo else average sum + middle lo hi) * count)
   | CVariance lo hi _, NVariance =>
       let mean := if Qeq_bool lo hi then lo else average sum in
       let '(lo2, hi2) := squares_interval lo hi in
       Some ((if Qeq_bool lo2 hi2 then lo2 else average squares) - mean * mean)
   | _, _ => None
   end)%Q.

(** The rows of partition [k]; what the noised quantities stand for. *)
Definition rows_in {U P V} `{EqDec P} (k : P) (rows : list (U * P * V)) : list (U * P * V) :=
  filter (fun r => eqb (snd (fst r)) k) rows.
Definition truth {U P} `{EqDec U} `{EqDec P} (cb : combiner) (qt : quantity) (k : P) (rows : list (U * P * value)) : Q :=
  (let number {A} (l : list A) := inject_Z (Z.of_nat (length l)) in
   let total lo hi (f : Q -> Q) := sumQ (map (fun r => f (clip lo hi (num_of (snd r)))) (rows_in k rows)) in
   match cb, qt with
   | (CCount | CMean _ _ _ | CVariance _ _ _), QCount => number (rows_in k rows)
   | (CPidCount | CThresh), QCount => number (ids_of k rows)
   | CSum false lo hi, QSum => total lo hi (fun x => x)
   | CSum true lo hi, QSum => sumQ (map (fun u => clip lo hi (sumQ (map num_of (values_of (u, k) rows)))) (ids_of k rows))
   | (CMean lo hi _ | CVariance lo hi _), QSum => total lo hi (fun x => x - middle lo hi)
   | CVariance lo hi _, QSquares => total lo hi (fun x => (x - middle lo hi) * (x - middle lo hi))
   | _, _ => 0
   end)%Q.

(** The noise that PyDP adds to the values [X] has mean zero.  (Results of PyDP are
    floats, hence bounded, so it cannot be without bias for all values.) *)
Definition kind_of (m : mechanism) : noise :=
  match m with Laplace _ _ | LaplaceStd _ _ => LaplaceNoise | Gaussian _ _ _ | GaussianStd _ _ => GaussianNoise end.
Definition unbiased (py : pydp) (kind : noise) (X : list Q) : Prop :=
  forall m eps delta x, promises m eps delta -> kind_of m = kind -> In x X -> mixture (py_noise py m x) Q2R = Q2R x.

(** The expected value of a metric that is always released. *)
Definition expected {P} `{EqDec P} (keys : list P) (k : P) (n : mname) (d : dist (outcome P)) : R :=
  mixture d (fun o => match metric keys k n o with Some q => Q2R q | None => 0 end).

(** The metrics that are a noised quantity. *)
Definition stands_for (cb : combiner) (n : mname) : option quantity :=
  match cb, n with
  | (CCount | CMean _ _ _ | CVariance _ _ _), NCount | CPidCount, NPidCount => Some QCount
  | CSum _ _ _, NSum => Some QSum
  | _, _ => None
  end.
