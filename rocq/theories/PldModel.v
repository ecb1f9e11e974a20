(** Model of PLDBudgetAccountant, /repo/pipeline_dp/budget_accounting.py:411-619.

    Numbers are reals (the code uses math.sqrt(2)).  The privacy-loss library is
    an argument: [lib plds delta] is get_epsilon_for_delta(delta) of the
    composition of [plds].  Weights are the ones after budget scopes have been left
    (scopes: BudgetModel).  Loops take a number of rounds [fuel] and return None if
    they have not finished by then. *)
From Coq Require Import List ZArith Reals.
From Verif Require Import Base.
Import ListNotations.
Local Open Scope R_scope.

(** MechanismType: /repo/pipeline_dp/aggregate_params.py:92-97.  One constructor
    for both thresholding types, the accountant does not tell them apart. *)
Inductive pld_type := PLaplace | PGaussian | PThresholding | PGeneric.

(** MechanismSpec and MechanismSpecInternal: budget_accounting.py:40-118. *)
Record pmech := PMech {
  p_type : pld_type;
  p_sens : R;
  p_weight : R;
  p_std : option R;
  p_budget : option (R * R) }.

(** A privacy loss distribution: budget_accounting.py:592-615.  The
    discretization interval is left to the library. *)
Inductive pld :=
| FromLaplace (scale : R)
| FromGaussian (std : R)
| FromPrivacyParameters (eps delta : R).

(** PLDBudgetAccountant.request_budget: budget_accounting.py:464-508. *)
Definition pld_request (finalized : bool) (total_delta : R) (ms : list pmech)
    (t : pld_type) (sens weight : R) (count : Z) (noise_std : option R) : result (list pmech) :=
  if finalized then Err GenericException
  else if negb (count =? 1)%Z then Err NotImplementedError
  else match noise_std with
  | Some _ => Err NotImplementedError
  | None =>
      match t with
      | PGaussian => if Req_EM_T total_delta 0 then Err AssertionError
                     else Ok (ms ++ [PMech t sens weight None None])
      | _ => Ok (ms ++ [PMech t sens weight None None])
      end
  end.

(** Float division. *)
Definition rdiv (x y : R) : result R := if Req_EM_T y 0 then Err ZeroDivisionError else Ok (x / y).

(** Body of the loop of _compose_distributions: budget_accounting.py:592-617.
    [last] is the variable [pld]; it keeps its value for thresholding types. *)
Definition pld_of (te td std : R) (m : pmech) (last : option pld) : result (option pld) :=
  match p_type m with
  | PLaplace => rmap (fun x => Some (FromLaplace x)) (rdiv (p_sens m * std / sqrt 2) (p_weight m))
  | PGaussian => rmap (fun x => Some (FromGaussian x)) (rdiv (p_sens m * std) (p_weight m))
  | PGeneric => rbind (rdiv (sqrt 2) std) (fun e =>
                rmap (fun x => Some (FromPrivacyParameters e (x * td))) (rdiv e te))
  | PThresholding => Ok last
  end.

(** _compose_distributions: budget_accounting.py:579-619.  [composed] and [last]
    are the Python variables; None is Python's None. *)
Fixpoint compose_loop (te td std : R) (ms : list pmech) (composed : option (list pld)) (last : option pld)
  : result (option (list pld)) :=
  match ms with
  | [] => Ok composed
  | m :: ms' =>
      rbind (pld_of te td std m last) (fun l =>
        compose_loop te td std ms'
          (match composed, l with
           | None, None => None
           | None, Some x => Some [x]
           | Some c, Some x => Some (c ++ [x])
           | Some c, None => Some c
           end) l)
  end.
Definition compose_distributions (te td : R) (ms : list pmech) (std : R) : result (option (list pld)) :=
  compose_loop te td std ms None None.

(** pld.get_epsilon_for_delta(total_delta) of the composition. *)
Definition pld_epsilon (lib : list pld -> R -> R) (te td : R) (ms : list pmech) (std : R) : result R :=
  rbind (compose_distributions te td ms std) (fun c =>
    match c with Some l => Ok (lib l td) | None => Err AttributeError end).

(** _calculate_max_noise_std: budget_accounting.py:569-577.  The loop is entered
    because total_epsilon + 1 > total_epsilon. *)
Fixpoint max_noise_loop (fuel : nat) (eps_at : R -> result R) (te max_noise_std : R) : option (result R) :=
  match fuel with
  | O => None
  | S f =>
      let m := max_noise_std * 2 in
      match eps_at m with
      | Err e => Some (Err e)
      | Ok eps => if Rlt_dec te eps then max_noise_loop f eps_at te m else Some (Ok m)
      end
  end.

(** The loop of _find_minimum_noise_std: budget_accounting.py:555-567. *)
Definition threshold : R := / 10000.
Fixpoint search_loop (fuel : nat) (eps_at : R -> result R) (te low high : R) : option (result R) :=
  if Rlt_dec (low + threshold) high then
    match fuel with
    | O => None
    | S f =>
        let mid := (high - low) / 2 + low in
        match eps_at mid with
        | Err e => Some (Err e)
        | Ok eps => if Rle_dec eps te then search_loop f eps_at te low mid
                    else search_loop f eps_at te mid high
        end
    end
  else Some (Ok high).
Definition find_minimum_noise_std (fuel : nat) (eps_at : R -> result R) (te : R) : option (result R) :=
  match max_noise_loop fuel eps_at te 1 with
  | None => None
  | Some (Err e) => Some (Err e)
  | Some (Ok m) => search_loop fuel eps_at te 0 m
  end.

(** The last loop of compute_budgets: budget_accounting.py:535-543. *)
Definition set_noise (te td min_std : R) (m : pmech) : result pmech :=
  rbind (rdiv (p_sens m * min_std) (p_weight m)) (fun std =>
    match p_type m with
    | PGeneric =>
        rbind (rdiv (sqrt 2) std) (fun e0 =>
        rmap (fun x => PMech (p_type m) (p_sens m) (p_weight m) (Some std) (Some (e0, x * td))) (rdiv e0 te))
    | _ => Ok (PMech (p_type m) (p_sens m) (p_weight m) (Some std) (p_budget m))
    end).
Fixpoint set_noises (te td min_std : R) (ms : list pmech) : result (list pmech) :=
  match ms with
  | [] => Ok []
  | m :: ms' => rbind (set_noise te td min_std m) (fun x => rmap (cons x) (set_noises te td min_std ms'))
  end.

(** compute_budgets after the checks: budget_accounting.py:520-543.  The checks of
    declared aggregations, of open scopes and of a second call are the ones of
    the naive accountant (BudgetModel). *)
Definition pld_compute_budgets (fuel : nat) (lib : list pld -> R -> R) (te td : R) (ms : list pmech)
  : option (result (list pmech)) :=
  match ms with
  | [] => Some (Ok [])
  | _ =>
      match (if Req_EM_T td 0
             then Some (rmap (fun x => x * sqrt 2) (rdiv (fold_left (fun a m => a + p_weight m) ms 0) te))
             else find_minimum_noise_std fuel (pld_epsilon lib te td ms) te) with
      | None => None
      | Some (Err e) => Some (Err e)
      | Some (Ok min_std) => Some (set_noises te td min_std ms)
      end
  end.

(** LaplaceMechanism.create_from_std_deviation:
    /repo/pipeline_dp/dp_computations.py:412-425; the epsilon given to PyDP. *)
Definition laplace_epsilon (normalized_std : R) : R := 1 / (normalized_std / sqrt 2).
