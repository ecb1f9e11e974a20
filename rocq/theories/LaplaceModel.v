(** Model of the Laplace mechanism of /repo/pipeline_dp/dp_computations.py.

    PyDP's LaplaceMechanism is external; it is modelled by the ideal continuous
    Laplace distribution of scale sensitivity / epsilon (its [diversity]).  The
    rounding and snapping that PyDP applies to the samples are not modelled. *)
From Coq Require Import List ZArith QArith Qreals Reals.
From Verif Require Import Base ParamsModel SensModel CombinerModel.
Import ListNotations.
Local Open Scope R_scope.

(** The density at [y] of x + Laplace(b). *)
Definition laplace_density (b x y : R) : R := / (2 * b) * exp (- (Rabs (y - x) / b)).

(** The epsilon given to PyDP: dp_computations.py:435-440 (create_from_epsilon) and
    442-454 (create_from_std_deviation: b = stddev / sqrt 2, epsilon = 1 / b).
    Gaussian mechanisms are not modelled here ([None]). *)
Definition pydp_laplace (m : mechanism) : option (R * R) :=
  match m with
  | Laplace eps l1 => Some (Q2R eps, Q2R l1)
  | LaplaceStd sd l1 => let b := Q2R sd / sqrt 2 in Some (1 / b, Q2R l1)
  | _ => None
  end.

(** LaplaceMechanism.add_noise(x) returns y: dp_computations.py:456-457; density 0
    stands for a mechanism that is not Laplace. *)
Definition noise_density (m : mechanism) (x y : R) : R :=
  match pydp_laplace m with
  | Some (eps, sensitivity) => laplace_density (sensitivity / eps) x y
  | None => 0
  end.

(** The noised quantities of a compound combiner, in the order in which the budget of
    their mechanisms is requested (combiners.py:855-920): number of the combiner,
    quantity, sensitivities. *)
Definition noised_quantities (p : params) (cs : list combiner) : list (nat * quantity * result sens) :=
  flat_map (fun ic => map (fun qs => (fst ic, fst qs, snd qs)) (noise_plan p (snd ic)))
           (combine (seq 0 (length cs)) cs).

(** The MechanismSpec of a mechanism after compute_budgets of the naive accountant:
    the noise kind of the parameters and the epsilon granted (Laplace mechanisms get
    no delta); combiners.py:132-137, budget_accounting.py:40-111. *)
Definition granted_spec (p : params) (eps : Q) : mspec := MSpec (noise_kind p) None eps 0.
