(** Vocabulary for the statements about the error estimator. *)
From Coq Require Import List ZArith QArith Qreals Reals.
From Verif Require Import Base ParamsModel SensModel BackendModel BackendSpec HistModel HistSpec VectorModel.
Import ListNotations.

(** The fraction of the total of the contributions [xs] that is lost when each is bounded
    to [bound]. *)
Definition ratio_lost (bound : Z) (xs : list Z) : Q := (inject_Z (excess bound xs) / inject_Z (sumZ xs))%Q.

Local Open Scope R_scope.

(** The error of a partition of size [n] that loses the fraction [ratio] and gets noise
    of standard deviation [std]; its average over partitions. *)
Definition rmse (ratio std n : R) : R := sqrt ((ratio * n) ^ 2 + std ^ 2).
Definition average_rmse (ratio std : R) (sizes : list Z) : R :=
  sumR (map (fun n => rmse ratio std (IZR n)) sizes) / INR (length sizes).
Definition average_size (sizes : list Z) : R := IZR (sumZ sizes) / INR (length sizes).

(** The standard deviation of the noise with bounds [l0] and [linf]. *)
Definition noise_std (sigma : Q -> Q -> R) (eps : Q) (delta : option Q) (n : noise) (l0 linf : Z) : R :=
  match n, delta with
  | LaplaceNoise, _ => sqrt 2 * (IZR l0 * IZR linf) / Q2R eps
  | GaussianNoise, Some d => sigma eps d * sqrt (IZR l0) * IZR linf
  | GaussianNoise, None => 0
  end.

(** The budget that can be given with a noise kind. *)
Definition valid_budget (eps : Q) (delta : option Q) (n : noise) : Prop :=
  match n with LaplaceNoise => delta = None /\ ~ (eps == 0)%Q | GaussianNoise => delta <> None end.

(** The standard deviation of a noise mechanism; [sigma eps delta] is that of the
    Gaussian mechanism of sensitivity 1. *)
Definition mechanism_std (sigma : Q -> Q -> R) (m : mechanism) : R :=
  match m with
  | Laplace eps l1 => sqrt 2 * (Q2R l1 / Q2R eps)
  | LaplaceStd s l1 => Q2R s * Q2R l1
  | Gaussian eps delta l2sq => sigma eps delta * sqrt (Q2R l2sq)
  | GaussianStd s l2sq => Q2R s * sqrt (Q2R l2sq)
  end.

(** The contributions in a dataset of (privacy id, partition key) pairs. *)
Definition partitions_per_id {P K} `{EqDec P} `{EqDec K} (col : list (P * K)) : list Z :=
  map (fun p => Z.of_nat (length (distinct (values_of p col)))) (distinct (map fst col)).
Definition rows_per_pair {P K} `{EqDec P} `{EqDec K} (col : list (P * K)) : list Z :=
  map (fun pr => Z.of_nat (occ pr col)) (distinct col).
Definition rows_per_partition {P K} `{EqDec P} `{EqDec K} (col : list (P * K)) : list Z :=
  map (fun k => Z.of_nat (occ k (map snd col))) (distinct (map snd col)).
Definition ids_per_partition {P K} `{EqDec P} `{EqDec K} (col : list (P * K)) : list Z :=
  map (fun k => Z.of_nat (occ k (map snd (distinct col)))) (distinct (map snd col)).
