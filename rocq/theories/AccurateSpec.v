(** Vocabulary for C85: how far released values are from the truth. *)
From Coq Require Import List ZArith QArith Qminmax Qabs Qreals Reals Bool.
From Verif Require Import Base BackendModel ParamsModel SensModel CombinerModel EngineModel EngineSpec
  LaplaceSpec SelectSpec DistSpec DpSpec LawSpec RoundModel RoundSpec.
Import ListNotations.
Local Open Scope Q_scope.

(** The number of rows and of partitions that one privacy id may have. *)
Definition rows_allowed (p : params) : Q :=
  match max_contributions p, max_partitions_contributed p, max_contributions_per_partition p with
  | Some m, _, _ => inject_Z m
  | None, Some l0, Some linf => inject_Z (l0 * linf)
  | _, _, _ => 0
  end.
Definition partitions_allowed (p : params) : Q :=
  match max_contributions p, max_partitions_contributed p with
  | Some m, _ => inject_Z m
  | None, Some l0 => inject_Z l0
  | _, _ => 0
  end.

(** By how much one privacy id may change a quantity, over all the partitions. *)
Definition influence (p : params) (cb : combiner) (qt : quantity) : option Q :=
  match cb, qt with
  | (CCount | CMean _ _ _ | CVariance _ _ _), QCount => Some (rows_allowed p)
  | CPidCount, QCount => Some (partitions_allowed p)
  | CSum false lo hi, QSum => Some (rows_allowed p * Qmax (Qabs lo) (Qabs hi))
  | CSum true lo hi, QSum => Some (partitions_allowed p * Qmax (Qabs lo) (Qabs hi))
  | CMean lo hi _, QSum => Some (rows_allowed p * ((hi - lo) / 2))
  | _, _ => None
  end.
(** The epsilon for a quantity, from the budgets of its combiner. *)
Definition epsilon_for (cb : combiner) (qt : quantity) (bs : list (Q * Q)) : option Q :=
  match cb, qt, bs with
  | (CCount | CPidCount), QCount, [(e, _)] | CSum _ _ _, QSum, [(e, _)] => Some e
  | CMean _ _ _, QCount, [(e, _); _] | CMean _ _ _, QSum, [_; (e, _)] => Some e
  | CVariance _ _ _, QCount, [(e, _)] => Some (e / 3)
  | _, _, _ => None
  end.

(** The mean of the values of partition [k], clipped to [lo, hi]. *)
Definition true_mean {U P} `{EqDec P} (lo hi : Q) (k : P) (rows : list (U * P * value)) : Q :=
  sumQ (map (fun r => clip lo hi (num_of (snd r))) (rows_in k rows)) / inject_Z (Z.of_nat (length (rows_in k rows))).

(** Metric [n] of partition [k] is released, and [E] holds of it. *)
Definition released_as {P} `{EqDec P} (keys : list P) (k : P) (n : mname) (E : Q -> bool) (o : outcome P) : bool :=
  match metric keys k n o with Some v => E v | None => false end.
