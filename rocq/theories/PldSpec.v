(** Vocabulary for the PLD accountant. *)
From Coq Require Import List Reals.
From Verif Require Import Base PldModel.
Import ListNotations.
Local Open Scope R_scope.

(** [h] respects the budget and is minimal up to the search threshold 1e-4. *)
Definition minimal_noise (eps_at : R -> result R) (te h : R) : Prop :=
  0 < h /\ (exists e, eps_at h = Ok e /\ e <= te) /\
  exists low, 0 <= low < h /\ h - low <= / 10000 /\ (low = 0 \/ exists e, eps_at low = Ok e /\ te < e).

(** The privacy loss distribution of the mechanism that a granted request
    allows: Laplace noise of the granted standard deviation (scale std/sqrt 2),
    Gaussian noise of that standard deviation, or an (eps, delta) mechanism. *)
Definition granted (m : pmech) : option pld :=
  match p_type m, p_std m, p_budget m with
  | PLaplace, Some s, _ => Some (FromLaplace (s / sqrt 2))
  | PGaussian, Some s, _ => Some (FromGaussian s)
  | PGeneric, _, Some (e, d) => Some (FromPrivacyParameters e d)
  | _, _, _ => None
  end.

(** The epsilon that a granted request spends when the total delta is 0: the
    Laplace mechanism with the granted (sensitivity-relative) noise, or the
    granted epsilon. *)
Definition spent (m : pmech) : R :=
  match p_type m, p_std m, p_budget m with
  | PLaplace, Some s, _ => p_sens m / (s / sqrt 2)
  | PGeneric, _, Some (e, _) => e
  | _, _, _ => 0
  end.
