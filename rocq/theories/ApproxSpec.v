(** Vocabulary for C79. *)
From Coq Require Import List ZArith QArith Qreals Reals.
From Verif Require Import Base VectorModel AnalysisModel AnalysisSpec.
Import ListNotations.
Local Open Scope R_scope.

(** Independent contributions that survive with the probabilities [ps]: the probability that
    exactly / at most [k] survive, and the probability that the partition is kept. *)
Definition chance_of (ps : list Q) (k : nat) : R := Q2R (survival_prob ps k).
Definition chance_at_most (ps : list Q) (k : Z) : R := sumR (map (chance_of ps) (seq 0 (Z.to_nat (k + 1)))).
Definition true_keep (ps : list Q) (keep : Z -> R) : R :=
  sumR (map (fun k => chance_of ps k * keep (Z.of_nat k)) (seq 0 (S (length ps)))).

(** What partition selection strategies promise: more privacy ids are not kept less likely. *)
Definition reasonable (keep : Z -> R) : Prop :=
  (forall n, 0 <= keep n <= 1) /\ (forall a b, (a <= b)%Z -> keep a <= keep b).

Definition probabilities (ps : list Q) : Prop := Forall (fun p => (0 <= p <= 1)%Q) ps.

(** The normal approximation of the probability of at most [k], with continuity correction and
    correction for skewness: Hong, On computing the distribution function for the Poisson
    binomial distribution, section 3.3. *)
Definition normal_at_most (cdf pdf : R -> R) (ps : list Q) (k : Z) : R :=
  let mean := Q2R (sumQ ps) in
  let sigma := sqrt (Q2R (sumQ (map (fun p => p * (1 - p)) ps)%Q)) in
  let skewness := Q2R (sumQ (map (fun p => p * (1 - p) * (1 - 2 * p)) ps)%Q) / sigma ^ 3 in
  let x := (IZR k + 1 / 2 - mean) / sigma in
  cdf x + skewness * (1 - x ^ 2) * pdf x / 6.
