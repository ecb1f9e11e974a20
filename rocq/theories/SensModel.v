(** Model of the sensitivities and additive mechanisms of
    /repo/pipeline_dp/dp_computations.py.

    Square roots: an L2 sensitivity is kept as its square, a rational
    ([s_l2sq]); [sqrt l0 * linf] becomes [l0 * linf^2].  All values involved are
    positive, so no information is lost.  RealProps.v restates the results with
    the real square root. *)
From Coq Require Import List ZArith QArith Qabs Qminmax Bool.
From Verif Require Import Base ParamsModel.
Import ListNotations.
Local Open Scope Q_scope.

(** compute_middle: dp_computations.py:71-75. *)
Definition middle (lo hi : Q) : Q := lo + (hi - lo) / 2.

(** compute_squares_interval: dp_computations.py:63-68. *)
Definition squares_interval (lo hi : Q) : Q * Q :=
  if negb (Qle_bool 0 lo) && negb (Qle_bool hi 0)
  then (0, Qmax (lo * lo) (hi * hi))
  else (lo * lo, hi * hi).

(** np.clip(x, lo, hi) = minimum(maximum(x, lo), hi) (numpy documentation). *)
Definition clip (lo hi x : Q) : Q := Qmin (Qmax x lo) hi.

(** Sensitivities: dp_computations.py:578-585. *)
Record sens := Sens {
  s_l0 : option Z;
  s_linf : option Q;
  s_l1 : option Q;
  s_l2sq : option Q }.

Definition nonpos (o : option Q) : bool :=
  match o with Some q => Qle_bool q 0 | None => false end.

(** Sensitivities.__post_init__: dp_computations.py:585-618.  [l2sq] is the
    square of the L2 sensitivity given (a caller giving a non-positive L2
    sensitivity is outside of this model; no caller does).  The comparison of a
    given L2 with l0 and linf (lines 614-618) is on the squares, with the
    tolerance dropped; no caller in the library gives all of them. *)
Definition mk_sens (l0 : option Z) (linf l1 l2sq : option Q) : result sens :=
  raise_if (match l0 with Some z => (z <=? 0)%Z | None => false end) ValueError (
  raise_if (nonpos linf) ValueError (
  raise_if (nonpos l1) ValueError (
  raise_if (nonpos l2sq) ValueError (
  match l0, linf with
  | None, None => Ok (Sens None None l1 l2sq)
  | Some z, Some q =>
      let l1' := inject_Z z * q in
      let l2sq' := inject_Z z * (q * q) in
      raise_if (match l1 with
                | Some x => negb (Qle_bool (Qabs (l1' - x)) (1 # 1000000000000))
                | None => false end) ValueError (
      raise_if (match l2sq with Some x => negb (Qeq_bool l2sq' x) | None => false end) ValueError (
      Ok (Sens (Some z) (Some q)
               (Some (match l1 with Some x => x | None => l1' end))
               (Some (match l2sq with Some x => x | None => l2sq' end)))))
  | _, _ => Err ValueError
  end)))).

Definition injZ (o : option Z) : option Q := option_map inject_Z o.

(** compute_sensitivities_for_count: dp_computations.py:718-724. *)
Definition sens_count (p : params) : result sens :=
  match max_contributions p with
  | Some m => mk_sens None None (Some (inject_Z m)) (Some (inject_Z m * inject_Z m))
  | None => mk_sens (max_partitions_contributed p) (injZ (max_contributions_per_partition p)) None None
  end.

(** compute_sensitivities_for_privacy_id_count: dp_computations.py:727-732. *)
Definition sens_privacy_id_count (p : params) : result sens :=
  match max_contributions p with
  | Some m => mk_sens None None (Some (inject_Z m)) (Some (inject_Z m))
  | None => mk_sens (max_partitions_contributed p) (Some 1) None None
  end.

(** [max_abs_values]: dp_computations.py:738. *)
Definition max_abs (x y : Q) : Q := Qmax (Qabs x) (Qabs y).

(** compute_sensitivities_for_sum: dp_computations.py:735-749.  Arithmetic on a
    missing (None) bound raises TypeError. *)
Definition sens_sum (p : params) : result sens :=
  match min_value p, max_value p with
  | Some lo, Some hi =>
      match max_contributions p with
      | Some m =>
          if (m =? 0)%Z
          then Err TypeError
          else mk_sens None None (Some (max_abs lo hi * inject_Z m))
                       (Some ((max_abs lo hi * inject_Z m) * (max_abs lo hi * inject_Z m)))
      | None =>
          match max_contributions_per_partition p with
          | Some linf => mk_sens (max_partitions_contributed p) (Some (max_abs lo hi * inject_Z linf)) None None
          | None => Err TypeError
          end
      end
  | _, _ =>
      match min_sum_per_partition p, max_sum_per_partition p with
      | Some lo, Some hi => mk_sens (max_partitions_contributed p) (Some (max_abs lo hi)) None None
      | _, _ => Err TypeError
      end
  end.

(** compute_sensitivities_for_normalized_sum: dp_computations.py:763-772. *)
Definition sens_normalized_sum (p : params) : result sens :=
  match min_value p, max_value p with
  | Some lo, Some hi =>
      let a := (hi - lo) / 2 in
      match max_contributions p with
      | Some m =>
          if (m =? 0)%Z then Err TypeError
          else mk_sens None None (Some (a * inject_Z m)) (Some ((a * inject_Z m) * (a * inject_Z m)))
      | None =>
          match max_contributions_per_partition p with
          | Some linf => mk_sens (max_partitions_contributed p) (Some (a * inject_Z linf)) None None
          | None => Err TypeError
          end
      end
  | _, _ => Err TypeError
  end.

(** compute_sensitivities: dp_computations.py:752-760. *)
Definition compute_sensitivities (m : metric) (p : params) : result sens :=
  match m with
  | COUNT => sens_count p
  | PRIVACY_ID_COUNT => sens_privacy_id_count p
  | SUM => sens_sum p
  | _ => Err ValueError
  end.

(** The Linf sensitivity that compute_dp_var uses for its three mechanisms
    (count, normalized sum, normalized sum of squares), all with
    l0 = max_partitions_contributed: dp_computations.py:334-365 and 293-295.
    [None]: min_value == max_value, no noise is added and the mean is reported
    as min_value (dp_computations.py:291-292). *)
Definition mean_linf (max_contrib : Z) (lo hi : Q) : option Q :=
  if Qeq_bool lo hi then None
  else Some (inject_Z max_contrib * Qabs (middle lo hi - lo)).
Definition var_linf_count (max_contrib : Z) : Q := inject_Z max_contrib.
Definition var_linf_sum (max_contrib : Z) (lo hi : Q) : option Q := mean_linf max_contrib lo hi.
Definition var_linf_squares (max_contrib : Z) (lo hi : Q) : option Q :=
  mean_linf max_contrib (fst (squares_interval lo hi)) (snd (squares_interval lo hi)).

(** compute_l1_sensitivity / the square of compute_l2_sensitivity:
    dp_computations.py:78-103. *)
Definition l1_sensitivity (l0 : Z) (linf : Q) : Q := inject_Z l0 * linf.
Definition l2sq_sensitivity (l0 : Z) (linf : Q) : Q := inject_Z l0 * (linf * linf).

(** The noise mechanisms that the library asks PyDP for.  [Laplace eps s]:
    LaplaceMechanism(epsilon=eps, sensitivity=s), scale s/eps.
    [Gaussian eps delta s2]: sensitivity^2 = s2.  The [...Std] variants are
    create_from_std_deviation (noise std / sensitivity given). *)
Inductive mechanism :=
| Laplace (eps l1 : Q)
| LaplaceStd (normalized_std l1 : Q)
| Gaussian (eps delta l2sq : Q)
| GaussianStd (normalized_std l2sq : Q).

(** MechanismSpec as read by create_additive_mechanism: noise kind,
    noise_standard_deviation if set, eps, delta
    (/repo/pipeline_dp/budget_accounting.py:40-111). *)
Record mspec := MSpec { ms_kind : noise; ms_std : option Q; ms_eps : Q; ms_delta : Q }.

(** create_additive_mechanism: dp_computations.py:621-646. *)
Definition create_additive_mechanism (sp : mspec) (s : sens) : result mechanism :=
  match ms_kind sp with
  | LaplaceNoise =>
      match s_l1 s with
      | None => Err ValueError
      | Some l1 => match ms_std sp with
                   | Some sd => Ok (LaplaceStd sd l1)
                   | None => Ok (Laplace (ms_eps sp) l1)
                   end
      end
  | GaussianNoise =>
      match s_l2sq s with
      | None => Err ValueError
      | Some l2 => match ms_std sp with
                   | Some sd => Ok (GaussianStd sd l2)
                   | None => Ok (Gaussian (ms_eps sp) (ms_delta sp) l2)
                   end
      end
  end.

(** equally_split_budget: dp_computations.py:232-260. *)
Fixpoint split_loop (eps delta : Q) (n : Z) (k : nat) (eps_used delta_used : Q)
    (budgets : list (Q * Q)) : list (Q * Q) :=
  match k with
  | O => budgets ++ [(eps - eps_used, delta - delta_used)]
  | S k' =>
      let b := (eps / inject_Z n, delta / inject_Z n) in
      split_loop eps delta n k' (eps_used + fst b) (delta_used + snd b) (budgets ++ [b])
  end.
Definition equally_split_budget (eps delta : Q) (n : Z) : result (list (Q * Q)) :=
  if (n <=? 0)%Z then Err ValueError
  else Ok (split_loop eps delta n (Z.to_nat (n - 1)) 0 0 []).
