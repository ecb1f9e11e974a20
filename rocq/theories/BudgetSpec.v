(** Vocabulary for the budget properties (C01-C05). It talks about calls on the
    accountant and what they return. *)
From Coq Require Import List ZArith QArith Bool.
From Verif Require Import Base BudgetModel.
Import ListNotations.
Local Open Scope Q_scope.

(** The budget requests of a history that were granted (returned a mechanism spec),
    in order: (mechanism type, weight, count). *)
Fixpoint granted (ops : list op) (rs : list (result out)) : list (mech_type * Q * Z) :=
  match ops, rs with
  | Request t w c _ :: ops', Ok _ :: rs' => (t, w, c) :: granted ops' rs'
  | _ :: ops', _ :: rs' => granted ops' rs'
  | _, _ => []
  end.
Definition req_type (r : mech_type * Q * Z) : mech_type := fst (fst r).
Definition req_weight (r : mech_type * Q * Z) : Q := snd (fst r).
Definition req_count (r : mech_type * Q * Z) : Z := snd r.

(** All epsilons (deltas) of the specs handed out are readable and are [es]. *)
Definition read_eps (s : acct) (es : list Q) : Prop :=
  Forall2 (fun m e => get_eps m = Ok e) (mechs s) es.
Definition read_delta (s : acct) (ds : list Q) : Prop :=
  Forall2 (fun m d => get_delta m = Ok d) (mechs s) ds.

(** sum over i of counts[i] * xs[i] *)
Definition weighted_sum (counts : list Z) (xs : list Q) : Q :=
  sumQ (map (fun cx => inject_Z (fst cx) * snd cx) (combine counts xs)).

(** A history uses only positive weights and counts. *)
Definition op_pos (o : op) : Prop :=
  match o with
  | Request _ w c _ => 0 < w /\ (0 < c)%Z
  | Enter w => 0 < w
  | _ => True
  end.

Definition uses_delta (t : mech_type) : bool :=
  match t with LAPLACE => false | _ => true end.

(** Trees of nested scopes: a mechanism with a weight, or a scope with a weight and
    its contents. *)
Inductive item :=
| IMech (t : mech_type) (w : Q)
| IScope (w : Q) (l : list item).

Definition item_weight (i : item) : Q :=
  match i with IMech _ w => w | IScope w _ => w end.

(** Number of mechanisms in a tree. *)
Fixpoint leaves (i : item) : nat :=
  match i with
  | IMech _ _ => 1
  | IScope _ l => fold_right (fun x n => (leaves x + n)%nat) 0%nat l
  end.

(** The calls made by code with this scope structure. *)
Fixpoint item_ops (i : item) : list op :=
  match i with
  | IMech t w => [Request t w 1 None]
  | IScope w l => Enter w :: flat_map item_ops l ++ [Exit]
  end.

(** How a budget [b] flows down the tree: a scope splits what it gets among its
    (non-empty) members in proportion to their weights. *)
Definition live_weight (l : list item) : Q :=
  sumQ (map (fun x => if Nat.eqb (leaves x) 0 then 0 else item_weight x) l).
Fixpoint share (b : Q) (i : item) : list Q :=
  match i with
  | IMech _ _ => [b]
  | IScope _ l => flat_map (fun x => share (b * (item_weight x / live_weight l)) x) l
  end.

(** Every weight in the tree is positive; Gaussian mechanisms only if allowed. *)
Fixpoint item_ok (gauss : bool) (i : item) : Prop :=
  match i with
  | IMech t w => 0 < w /\ (t = GAUSSIAN -> gauss = true)
  | IScope w l => 0 < w /\ fold_right (fun x P => item_ok gauss x /\ P) True l
  end.

(** One DP aggregation as the engine performs it (dp_engine.py:97-107): a scope with
    the aggregation's weight around its budget requests, and the announcement of the
    aggregation's budget. *)
Definition agg_ops (a : Q * list item) : list op :=
  Enter (fst a) :: flat_map item_ops (snd a) ++ [StartAgg (fst a); Exit].

(** Budgets announced by the history, in order. *)
Fixpoint announced (ops : list op) (rs : list (result out)) : list (Q * Q) :=
  match ops, rs with
  | StartAgg _ :: ops', Ok (OutBudget (Some b)) :: rs' => b :: announced ops' rs'
  | _ :: ops', _ :: rs' => announced ops' rs'
  | _, _ => []
  end.

(** Calls that must fail once budgets are computed. *)
Definition is_request_or_compute (o : op) : bool :=
  match o with Request _ _ _ _ => true | Compute => true | _ => false end.

(** What a user can read from the specs handed out so far. *)
Definition readings (s : acct) : list (result Q * result Q) :=
  map (fun m => (get_eps m, get_delta m)) (mechs s).

(** compute_budgets returned normally somewhere in the history. *)
Fixpoint computed (ops : list op) (rs : list (result out)) : bool :=
  match ops, rs with
  | Compute :: ops', Ok _ :: rs' => true
  | _ :: ops', _ :: rs' => computed ops' rs'
  | _, _ => false
  end.

(** Weights of the aggregations performed in a history. *)
Definition performed (ops : list op) : list Q :=
  flat_map (fun o => match o with StartAgg w => [w] | _ => [] end) ops.

(** What was performed is what was declared: the number of aggregations (all of
    weight 1) when a number is declared, the list of weights when weights are. *)
Definition matches_declaration (num : option Z) (ws : option (list Q)) (done : list Q) : Prop :=
  (forall n, num = Some n -> Z.of_nat (length done) = n /\ Forall (fun w => w == 1) done) /\
  (forall l, ws = Some l -> l <> [] -> Forall2 Qeq done l).
