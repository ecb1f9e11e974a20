(** Vocabulary for C76: when two runs release the same. *)
From Coq Require Import List ZArith QArith Bool Permutation.
From Verif Require Import Base ParamsModel SensModel CombinerModel.
Import ListNotations.

(** The same released value; numbers are compared as numbers. *)
Definition same_value (a b : released) : Prop :=
  match a, b with
  | RNum x, RNum y => x == y
  | RNone, RNone => True
  | RVec x, RVec y => Forall2 Qeq x y
  | _, _ => False
  end.
Definition same_metrics (a b : list (mname * released)) : Prop :=
  Forall2 (fun x y => fst x = fst y /\ same_value (snd x) (snd y)) a b.

(** The same partitions with the same metrics, in whatever order. *)
Definition same_release {P} (a b : list (P * list (mname * released))) : Prop :=
  exists a', Permutation a a' /\ Forall2 (fun x y => fst x = fst y /\ same_metrics (snd x) (snd y)) a' b.

(** The randomness of a combiner acts on numbers, not on the way in which they are
    written down, and a quantile tree does not know the order of its entries. *)
Definition numeric_noise (nz : noises) : Prop :=
  (forall x y, x == y -> n_count nz x == n_count nz y) /\
  (forall x y, x == y -> n_sum nz x == n_sum nz y) /\
  (forall x y, x == y -> n_squares nz x == n_squares nz y) /\
  (forall l l' ps, Permutation l l' -> Forall2 Qeq (n_quantiles nz l ps) (n_quantiles nz l' ps)) /\
  (forall l l', Forall2 Qeq l l' -> Forall2 Qeq (n_vector nz l) (n_vector nz l')).

(** The bounds are positive, as AggregateParams demands. *)
Definition positive_bounds (p : params) : Prop :=
  (forall m, max_contributions p = Some m -> (0 < m)%Z) /\
  (forall m, max_partitions_contributed p = Some m -> (0 < m)%Z) /\
  (forall m, max_contributions_per_partition p = Some m -> (0 < m)%Z).
