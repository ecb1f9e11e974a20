(** Model of the vector functions of /repo/pipeline_dp/dp_computations.py.

    Coordinates are real numbers (the L2 norm needs a square root).  A vector
    whose norm is 0 is left as it is: numpy computes max_norm / 0.0 = inf (or
    nan for max_norm = 0) and [min(1, .)] returns 1. *)
From Coq Require Import List ZArith QArith Reals.
From Verif Require Import Base ParamsModel SensModel CombinerModel.
Import ListNotations.
Local Open Scope R_scope.

(** np.linalg.norm(vec, ord) for ord = 1, 2, inf (numpy documentation). *)
Definition sumR (l : list R) : R := fold_right Rplus 0 l.
Definition norm_l1 (v : list R) : R := sumR (map Rabs v).
Definition norm_l2 (v : list R) : R := sqrt (sumR (map (fun x => x * x) v)).
Definition norm_linf (v : list R) : R := fold_right Rmax 0 (map Rabs v).

(** _clip_vector: dp_computations.py:197-208. *)
Definition scale_to (max_norm norm : R) (v : list R) : list R :=
  if Req_EM_T norm 0 then v else map (fun x => x * Rmin 1 (max_norm / norm)) v.
Definition clip_vector (v : list R) (max_norm : R) (k : norm_kind) : result (list R) :=
  match k with
  | Linf => Ok (map (fun x => Rmin (Rmax x (- max_norm)) max_norm) v)
  | L1 => Ok (scale_to max_norm (norm_l1 v) v)
  | L2 => Ok (scale_to max_norm (norm_l2 v) v)
  | L0 => Err NotImplementedError
  end.

(** The mechanism applied to each coordinate by add_noise_vector
    (dp_computations.py:211-229 with 153-183 and 78-103) for the parameters of
    CombinerParams.additive_vector_noise_params (combiners.py:171-184).
    Arithmetic with a missing bound raises TypeError; so does the division by a
    missing vector_size. *)
Definition vector_mechanism (p : params) (eps delta : Q) : result mechanism :=
  match max_partitions_contributed p, max_contributions_per_partition p, vector_size p with
  | Some l0, Some linf, Some n =>
      match noise_kind p with
      | LaplaceNoise => Ok (Laplace (eps / inject_Z n) (l1_sensitivity l0 (inject_Z linf)))
      | GaussianNoise => Ok (Gaussian (eps / inject_Z n) (delta / inject_Z n) (l2sq_sensitivity l0 (inject_Z linf)))
      end
  | _, _, _ => Err TypeError
  end.
