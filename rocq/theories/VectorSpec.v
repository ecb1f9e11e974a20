(** Vocabulary for VECTOR_SUM. *)
From Coq Require Import List ZArith QArith Qreals Reals.
From Verif Require Import Base BackendModel ParamsModel SensModel CombinerModel EngineModel VectorModel.
Import ListNotations.
Local Open Scope R_scope.

Definition norm (k : norm_kind) : list R -> R :=
  match k with L1 => norm_l1 | L2 => norm_l2 | _ => norm_linf end.

(** The vector sum of combiner number [i] in partition [k]; empty if there is none. *)
Definition raw_vector {P} `{EqDec P} (i : nat) (k : P) (col : list (P * cacc)) : list Q :=
  match find (fun e => eqb (fst e) k) col with
  | Some e => match nth_error (snd (snd e)) i with Some (AVec l) => l | _ => [] end
  | None => []
  end.

(** Coordinate [j] of what is released for partition [k], before noise; 0 if
    there is no such partition. *)
Definition clipped_coordinate {P} `{EqDec P} (kind : norm_kind) (max_norm : R) (i j : nat) (k : P) (col : list (P * cacc)) : R :=
  match clip_vector (map Q2R (raw_vector i k col)) max_norm kind with Ok w => nth j w 0 | Err _ => 0 end.

(** The noise mechanism of a coordinate covers the change [d] over the partitions. *)
Definition covers_real {P} (m : mechanism) (keys : list P) (d : P -> R) : Prop :=
  match m with
  | Laplace _ l1 | LaplaceStd _ l1 => sumR (map (fun k => Rabs (d k)) keys) <= Q2R l1
  | Gaussian _ _ l2sq | GaussianStd _ l2sq => sumR (map (fun k => d k * d k) keys) <= Q2R l2sq
  end.

(** All values are vectors of size [n]; the norm of every vector is at most [b]. *)
Definition vectors (n : Z) (values : list value) : Prop :=
  forall v, In v values -> exists l, v = Vec l /\ Z.of_nat (length l) = n.
Definition norm_at_most (kind : norm_kind) (b : R) (values : list value) : Prop :=
  forall l, In (Vec l) values -> norm kind (map Q2R l) <= b.
