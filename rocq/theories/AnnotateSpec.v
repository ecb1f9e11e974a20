(** Vocabulary for C84. *)
From Coq Require Import String List ZArith QArith Bool.
From Verif Require Import Base BudgetModel BudgetSpec AnnotateModel.
Import ListNotations.
Local Open Scope Q_scope.

(** One call of DPEngine: aggregate or select_partitions with a weight and the requests made
    inside, or add_dp_noise with a mechanism type and a weight. *)
Inductive engine_call :=
| Aggregation (weight : Q) (requests : list item)
| Noise (kind : mech_type) (weight : Q).

Definition as_method (c : engine_call) : method :=
  match c with
  | Aggregation w l => Scoped w (flat_map item_ops l)
  | Noise t w => AddNoise t w
  end.

(** All calls on the accountant by a program. *)
Definition method_ops (m : method) : list op := before m ++ after m.
Definition program_ops (cs : list engine_call) : list op := flat_map (fun c => method_ops (as_method c)) cs.

(** The budget_weight that the caller passed. *)
Definition asked_weight (c : engine_call) : Q :=
  match c with Aggregation w _ => w | Noise _ w => w end.

(** The weight with which the call takes part in the split of the budget. *)
Definition counted_weight (c : engine_call) : Q :=
  match c with Aggregation w _ => w | Noise _ _ => 1 end.

Definition mechanisms_of (c : engine_call) : nat :=
  match c with Aggregation w l => leaves (IScope w l) | Noise _ _ => 1 end.

(** Weights are positive, Gaussian noise only with a positive delta, and every aggregation
    requests something. *)
Definition usable (d : Q) (c : engine_call) : Prop :=
  0 < asked_weight c /\
  match c with
  | Aggregation w l => Forall (item_ok (negb (Qeq_bool d 0))) l /\ leaves (IScope w l) <> 0%nat
  | Noise t _ => t = GAUSSIAN -> Qeq_bool d 0 = false
  end.

(** Every annotator in turn, with its own label and the same parameters and budget. *)
Definition annotated {C Pm} (annotators : list (annotator C Pm)) (labels : list string)
    (params : Pm) (budget : option (Q * Q)) (col : C) : C :=
  fold_left (fun c al => fst al c (snd al) params budget) (combine annotators labels) col.

(** The budget that is due to a call with weight [w], by what the accountant was told when
    it was created: an equal part for each of [num] aggregations, or a part in proportion to
    the weights [ws]; unknown if neither was declared. *)
Definition due (e d : Q) (num : option Z) (ws : option (list Q)) (w : Q) : option (Q * Q) :=
  match num, ws with
  | Some n, _ => Some (e / inject_Z n, d / inject_Z n)
  | None, Some (x :: l) => Some (e * (w / sumQ (x :: l)), d * (w / sumQ (x :: l)))
  | None, _ => None
  end.
