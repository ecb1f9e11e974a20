(** Specification vocabulary for combiners. *)
From Coq Require Import List ZArith QArith Bool Permutation.
From Verif Require Import Base ParamsModel SensModel CombinerModel.
Import ListNotations.
Local Open Scope Q_scope.

(** Two accumulators that hold the same numbers. *)
Inductive acc_eq : acc -> acc -> Prop :=
| eq_int z : acc_eq (AInt z) (AInt z)
| eq_float q q' : q == q' -> acc_eq (AFloat q) (AFloat q')
| eq_mean n s s' : s == s' -> acc_eq (AMean n s) (AMean n s')
| eq_var n s s' q q' : s == s' -> q == q' -> acc_eq (AVar n s q) (AVar n s' q')
| eq_tree l l' : Permutation l l' -> acc_eq (ATree l) (ATree l')
| eq_none : acc_eq ANone ANone
| eq_vec l l' : Forall2 Qeq l l' -> acc_eq (AVec l) (AVec l')
| eq_err : acc_eq AErr AErr.

Definition cacc_eq (a b : cacc) : Prop := fst a = fst b /\ Forall2 acc_eq (snd a) (snd b).

(** Values of the right kind for a combiner. *)
Definition vector_of (n : Z) (v : value) : Prop :=
  match v with Vec l => Z.of_nat (length l) = n | Num _ => False end.
Definition fits (c : combiner) (vs : list value) : Prop :=
  match c with CVector n => vs <> [] /\ Forall (vector_of n) vs | _ => True end.

(** Coordinate sums of vectors of length [n]. *)
Definition coord (i : nat) (v : value) : Q := match v with Vec l => nth i l 0 | Num _ => 0 end.

(** What a metric has to hold for a partition to which several privacy ids
    contributed the value lists [groups]. *)
Definition nonempty {A} (l : list A) : bool := match l with [] => false | _ => true end.

Definition total (c : combiner) (groups : list (list value)) : acc :=
  let all := concat groups in
  let n := Z.of_nat (length all) in
  match c with
  | CCount => AInt n
  | CPidCount | CThresh => AInt (Z.of_nat (length (filter nonempty groups)))
  | CSum true lo hi => AFloat (sumQ (map (fun g => clip lo hi (sumQ (map num_of g))) groups))
  | CSum false lo hi => AFloat (sumQ (map (fun v => clip lo hi (num_of v)) all))
  | CMean lo hi _ =>
      AMean n (sumQ (map (fun v => clip lo hi (num_of v)) all) - inject_Z n * middle lo hi)
  | CVariance lo hi _ =>
      AVar n (sumQ (map (fun v => clip lo hi (num_of v)) all) - inject_Z n * middle lo hi)
           (sumQ (map (fun v => (clip lo hi (num_of v) - middle lo hi) ^ 2) all))
  | CQuantile _ => ATree (map num_of all)
  | CVector m => AVec (map (fun i => sumQ (map (coord i) all)) (seq 0 (Z.to_nat m)))
  end.

(** Arithmetic mean and population variance. *)
Definition meanQ (l : list Q) : Q := sumQ l / inject_Z (Z.of_nat (length l)).
Definition varianceQ (l : list Q) : Q :=
  sumQ (map (fun x => (x - meanQ l) ^ 2) l) / inject_Z (Z.of_nat (length l)).

(** No noise is added. *)
Definition no_noise (nz : noises) : Prop :=
  (forall q, n_count nz q == q) /\ (forall q, n_sum nz q == q) /\ (forall q, n_squares nz q == q).

(** The value released under a name. *)
Definition released_as (n : mname) (q : Q) (d : list (mname * released)) : Prop :=
  exists q', In (n, RNum q') d /\ q' == q.

(** The name under which a requested metric is released. *)
Definition name_of (m : metric) : mname :=
  match m with
  | COUNT => NCount | PRIVACY_ID_COUNT => NPidCount | SUM => NSum | MEAN => NMean
  | VARIANCE => NVariance | VECTOR_SUM => NVectorSum | PERCENTILE p => NPercentile (Qred p)
  end.
