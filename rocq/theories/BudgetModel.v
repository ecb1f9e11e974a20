(** Model of pipeline_dp/budget_accounting.py: NaiveBudgetAccountant with scopes. *)
From Coq Require Import List ZArith QArith Bool.
From Verif Require Import Base.
Import ListNotations.
Local Open Scope Q_scope.

(** aggregate_params.py:92-97 MechanismType. *)
Inductive mech_type := LAPLACE | GAUSSIAN | LAPLACE_THRESHOLDING | GAUSSIAN_THRESHOLDING | GENERIC.

(** budget_accounting.py:40-58, 113-118: MechanismSpec together with
    MechanismSpecInternal. One record = one mechanism object; its position in the
    accountant's list of mechanisms is its identity (the same object is referenced
    by the accountant and by the scopes, so weights are shared).
    Simplification: [sensitivity] and [_noise_standard_deviation] are dropped
    (the naive accountant never reads them). *)
Record mech := Mech {
  m_type : mech_type;
  m_weight : Q;
  m_count : Z;
  m_eps : option Q;
  m_delta : option Q }.

(** budget_accounting.py:106-107 MechanismSpec.use_delta *)
Definition use_delta (m : mech) : bool :=
  match m_type m with LAPLACE => false | _ => true end.

(** budget_accounting.py:67-85 MechanismSpec.eps / .delta getters *)
Definition get_eps (m : mech) : result Q :=
  match m_eps m with Some e => Ok e | None => Err AssertionError end.
Definition get_delta (m : mech) : result Q :=
  match m_delta m with Some d => Ok d | None => Err AssertionError end.

(** budget_accounting.py:128-155, 273-280: state of the accountant. Each entry of
    [scopes] is (weight, indices of registered mechanisms), innermost scope first. *)
Record acct := Acct {
  total_eps : Q;
  total_delta : Q;
  exp_num : option Z;
  exp_weights : option (list Q);
  actual_weights : list Q;
  mechs : list mech;
  scopes : list (Q * list nat);
  finalized : bool }.

(** input_validators.py:17-34 *)
Definition validate_epsilon_delta (e d : Q) : result unit :=
  if Qle_bool e 0 then Err ValueError
  else if negb (Qle_bool 0 d) then Err ValueError
  else if Qle_bool 1 d then Err ValueError
  else Ok tt.

(** budget_accounting.py:128-155 BudgetAccountant.__init__ *)
Definition new_accountant (e d : Q) (num : option Z) (ws : option (list Q)) : result acct :=
  match validate_epsilon_delta e d with
  | Err x => Err x
  | Ok _ =>
    match num, ws with
    | Some _, Some _ => Err ValueError
    | Some n, None =>
        if (n <=? 0)%Z then Err ValueError
        else Ok (Acct e d num ws [] [] [] false)
    | None, _ => Ok (Acct e d num ws [] [] [] false)
    end
  end.

(** Calls on the accountant. [Enter]/[Exit] are __enter__/__exit__ of a scope
    object created by scope(weight); [StartAgg] is
    _compute_budget_for_aggregation (called once by every DPEngine API call). *)
Inductive op :=
| Request (t : mech_type) (w : Q) (count : Z) (noise_std : option Q)
| Enter (w : Q)
| Exit
| StartAgg (w : Q)
| Compute.

(** What a call returns. *)
Inductive out :=
| OutUnit
| OutMech (i : nat)                 (* the MechanismSpec object number i *)
| OutBudget (b : option (Q * Q)).   (* announced (epsilon, delta) or None *)

Definition set_mechs (s : acct) (ms : list mech) : acct :=
  Acct (total_eps s) (total_delta s) (exp_num s) (exp_weights s)
       (actual_weights s) ms (scopes s) (finalized s).
Definition set_scopes (s : acct) (sc : list (Q * list nat)) : acct :=
  Acct (total_eps s) (total_delta s) (exp_num s) (exp_weights s)
       (actual_weights s) (mechs s) sc (finalized s).
Definition set_final (s : acct) : acct :=
  Acct (total_eps s) (total_delta s) (exp_num s) (exp_weights s)
       (actual_weights s) (mechs s) (scopes s) true.
Definition add_actual (s : acct) (w : Q) : acct :=
  Acct (total_eps s) (total_delta s) (exp_num s) (exp_weights s)
       (actual_weights s ++ [w]) (mechs s) (scopes s) (finalized s).

(** budget_accounting.py:249-259 _register_mechanism: append to the global list
    and to every scope on the stack. *)
Definition register (s : acct) (m : mech) : acct :=
  let i := length (mechs s) in
  set_scopes (set_mechs s (mechs s ++ [m]))
             (map (fun sc => (fst sc, snd sc ++ [i])) (scopes s)).

(** budget_accounting.py:333-378 NaiveBudgetAccountant.request_budget *)
Definition request_budget (s : acct) (t : mech_type) (w : Q) (c : Z) (nstd : option Q)
  : acct * result out :=
  if finalized s then (s, Err GenericException)
  else match nstd with
  | Some _ => (s, Err NotImplementedError)
  | None =>
    match t with
    | GAUSSIAN =>
        if Qeq_bool (total_delta s) 0 then (s, Err ValueError)
        else (register s (Mech t w c None None), Ok (OutMech (length (mechs s))))
    | _ => (register s (Mech t w c None None), Ok (OutMech (length (mechs s))))
    end
  end.

(** mechanism.weight *= factor (budget_accounting.py:298) for the object number [i]. *)
Definition scale_mech (f : Q) (m : mech) : mech :=
  Mech (m_type m) (m_weight m * f) (m_count m) (m_eps m) (m_delta m).
Fixpoint update_at (i : nat) (g : mech -> mech) (ms : list mech) : list mech :=
  match ms, i with
  | [], _ => []
  | m :: ms', O => g m :: ms'
  | m :: ms', S i' => m :: update_at i' g ms'
  end.
Definition weight_at (ms : list mech) (i : nat) : Q :=
  match nth_error ms i with Some m => m_weight m | None => 0 end.

(** budget_accounting.py:289-298 BudgetAccountantScope._normalise_mechanism_weights *)
Definition normalise (w : Q) (idx : list nat) (ms : list mech) : result (list mech) :=
  match idx with
  | [] => Ok ms
  | _ =>
    let total := sumQ (map (weight_at ms) idx) in
    if Qeq_bool total 0 then Err ZeroDivisionError
    else
      let factor := w / total in
      Ok (fold_left (fun acc i => update_at i (scale_mech factor) acc) idx ms)
  end.

(** budget_accounting.py:264-265, 285-287: __exit__ pops the scope from the
    accountant's stack and then normalises it. Simplification: scopes are left in
    last-in-first-out order (Python "with" blocks of one thread). Exit with an empty
    stack is list.pop() on an empty list. *)
Definition exit_scope (s : acct) : acct * result out :=
  match scopes s with
  | [] => (s, Err IndexError)
  | (w, idx) :: rest =>
    let s1 := set_scopes s rest in
    match normalise w idx (mechs s1) with
    | Ok ms => (set_mechs s1 ms, Ok OutUnit)
    | Err e => (s1, Err e)
    end
  end.

(** Python truth value of an optional int / optional list. *)
Definition truthyZ (n : option Z) : bool :=
  match n with Some z => negb (z =? 0)%Z | None => false end.
Definition truthyL {A} (l : option (list A)) : bool :=
  match l with Some (_ :: _) => true | _ => false end.

(** budget_accounting.py:189-213 _compute_budget_for_aggregation *)
Definition start_agg (s : acct) (w : Q) : acct * result out :=
  let s1 := add_actual s w in
  match exp_num s with
  | Some n =>
      if negb (n =? 0)%Z
      then (s1, Ok (OutBudget (Some (total_eps s / inject_Z n, total_delta s / inject_Z n))))
      else (s1, Ok (OutBudget None))
  | None =>
    match exp_weights s with
    | Some (x :: l) =>
        let t := sumQ (x :: l) in
        if Qeq_bool t 0 then (s1, Err ZeroDivisionError)
        else (s1, Ok (OutBudget (Some (total_eps s * (w / t), total_delta s * (w / t)))))
    | _ => (s1, Ok (OutBudget None))
    end
  end.

(** [w1 == w2 for w1, w2 in zip(...)] *)
Fixpoint all_eq (l1 l2 : list Q) : bool :=
  match l1, l2 with
  | x :: l1', y :: l2' => Qeq_bool x y && all_eq l1' l2'
  | _, _ => true
  end.

(** budget_accounting.py:215-247 _check_aggregation_restrictions *)
Definition check_restrictions (s : acct) : result unit :=
  let actual := actual_weights s in
  let r1 :=
    match exp_num s with
    | Some n =>
      if negb (n =? 0)%Z then
        if negb (Z.of_nat (length actual) =? n)%Z then Err ValueError
        else if negb (forallb (fun w => Qeq_bool w 1) actual) then Err ValueError
        else Ok tt
      else Ok tt
    | None => Ok tt
    end in
  match r1 with
  | Err e => Err e
  | Ok _ =>
    match exp_weights s with
    | Some (x :: l) =>
      if negb (Nat.eqb (length actual) (length (x :: l))) then Err ValueError
      else if negb (all_eq actual (x :: l)) then Err ValueError
      else Ok tt
    | _ => Ok tt
    end
  end.

(** budget_accounting.py:393-397: weighted totals. *)
Definition total_weight_eps (ms : list mech) : Q :=
  fold_left (fun acc m => acc + m_weight m * inject_Z (m_count m)) ms 0.
Definition total_weight_delta (ms : list mech) : Q :=
  fold_left (fun acc m => if use_delta m then acc + m_weight m * inject_Z (m_count m) else acc)
            ms 0.

(** budget_accounting.py:399-408: eps/delta of one mechanism. *)
Definition set_budget (te td twe twd : Q) (m : mech) : mech :=
  let eps := if Qeq_bool twe 0 then 0 else te * m_weight m / twe in
  let delta := if use_delta m
               then if Qeq_bool twd 0 then 0 else td * m_weight m / twd
               else 0 in
  Mech (m_type m) (m_weight m) (m_count m) (Some eps) (Some delta).

(** budget_accounting.py:267-270, 380-408 NaiveBudgetAccountant.compute_budgets *)
Definition compute_budgets (s : acct) : acct * result out :=
  match check_restrictions s with
  | Err e => (s, Err e)
  | Ok _ =>
    if finalized s then (s, Err GenericException)
    else
      let s1 := set_final s in
      match mechs s with
      | [] => (s1, Ok OutUnit)
      | ms =>
        match scopes s with
        | _ :: _ => (s1, Err GenericException)
        | [] =>
          let twe := total_weight_eps ms in
          let twd := total_weight_delta ms in
          (set_mechs s1 (map (set_budget (total_eps s) (total_delta s) twe twd) ms),
           Ok OutUnit)
        end
      end
  end.

(** One call. *)
Definition step (s : acct) (o : op) : acct * result out :=
  match o with
  | Request t w c n => request_budget s t w c n
  | Enter w => (set_scopes s ((w, []) :: scopes s), Ok OutUnit)
  | Exit => exit_scope s
  | StartAgg w => start_agg s w
  | Compute => compute_budgets s
  end.

(** A history of calls; exceptions raised by a call are caught by the caller, which
    goes on using the accountant. *)
Definition run (s : acct) (ops : list op) : acct :=
  fold_left (fun st o => fst (step st o)) ops s.

(** The results of the calls of a history, in order. *)
Fixpoint outs (s : acct) (ops : list op) : list (result out) :=
  match ops with
  | [] => []
  | o :: ops' => snd (step s o) :: outs (fst (step s o)) ops'
  end.
