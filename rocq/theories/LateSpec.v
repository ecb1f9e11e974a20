(** Specification for C62, over traces: lists of events with their outcomes. *)
From Coq Require Import List ZArith QArith Bool.
From Verif Require Import Base ParamsModel SensModel BudgetModel CombinerModel SelectModel LateModel.
Import ListNotations.

Definition happened (t : list (event * outcome)) (n : nat) (e : event) (o : outcome) : Prop :=
  nth_error t n = Some (e, o).

(** compute_budgets was called and did not raise. *)
Definition computed (t : list (event * outcome)) : Prop := In (Account Compute, OAcct (Ok OutUnit)) t.

(** The fields of the AggregateParams object after the trace. *)
Fixpoint params_after (p : params) (t : list (event * outcome)) : params :=
  match t with
  | [] => p
  | (Edit p', _) :: t' => params_after p' t'
  | _ :: t' => params_after p t'
  end.

(** Combiner j is the one constructed, when the parameters were p, as an instance of c with
    the budgets number [is], or a copy of it, or a copy of a copy, ... *)
Inductive comes_from (p0 : params) : list (event * outcome) -> nat -> class -> params -> list nat -> Prop :=
| constructed t n j c is :
    happened t n (Construct c is) (OObject j) ->
    comes_from p0 t j c (params_after p0 (firstn n t)) is
| copied t n j0 j c p is :
    happened t n (Transfer j0) (OObject j) -> comes_from p0 (firstn n t) j0 c p is ->
    comes_from p0 t j c p is.

(** Combiner j was serialized on its way before the budgets were computed. *)
Inductive early_copy : list (event * outcome) -> nat -> Prop :=
| early_now t n j0 j :
    happened t n (Transfer j0) (OObject j) -> ~ computed (firstn n t) -> early_copy t j
| early_before t n j0 j :
    happened t n (Transfer j0) (OObject j) -> early_copy (firstn n t) j0 -> early_copy t j.

(** The accountant has granted budget (e, d) to the mechanism number i of type ty. *)
Definition granted (a : acct) (i : nat) (ty : mech_type) (e d : Q) : Prop :=
  exists m, nth_error (mechs a) i = Some m /\ m_type m = ty /\ m_eps m = Some e /\ m_delta m = Some d.

(** Additive noise with exactly that budget and those sensitivities. *)
Inductive additive_for : mech_type -> Q -> Q -> sens -> mechanism -> Prop :=
| for_laplace ty e d s l1 :
    (ty = LAPLACE \/ ty = LAPLACE_THRESHOLDING) -> s_l1 s = Some l1 -> additive_for ty e d s (Laplace e l1)
| for_gaussian ty e d s l2 :
    (ty = GAUSSIAN \/ ty = GAUSSIAN_THRESHOLDING) -> s_l2sq s = Some l2 -> additive_for ty e d s (Gaussian e d l2).

(** The mechanism that a combiner of class c for parameters p and the budgets number [is] of the
    accountant has to use. *)
Inductive right_mechanism (a : acct) : class -> params -> list nat -> built -> Prop :=
| right_additive c p i ty e d s m :
    (c = KCount /\ sens_count p = Ok s \/ c = KPidCount /\ sens_privacy_id_count p = Ok s \/
     c = KSum /\ sens_sum p = Ok s) ->
    granted a i ty e d -> additive_for ty e d s m ->
    right_mechanism a c p [i] (BAdditive m)
| right_thresholding p i ty st e d s :
    (ty = LAPLACE_THRESHOLDING /\ st = LaplaceThresholding \/
     ty = GAUSSIAN_THRESHOLDING /\ st = GaussianThresholding) ->
    granted a i ty e d -> sens_privacy_id_count p = Ok s ->
    right_mechanism a KThresh p [i]
      (BThresholding (create_partition_selection_strategy st e d (s_l0 s) (pre_threshold p)))
| right_mean p i1 i2 ty1 ty2 e1 d1 e2 d2 lo hi sc ss m1 m2 :
    granted a i1 ty1 e1 d1 -> granted a i2 ty2 e2 d2 ->
    min_value p = Some lo -> max_value p = Some hi ->
    sens_count p = Ok sc -> sens_normalized_sum p = Ok ss ->
    additive_for ty1 e1 d1 sc m1 -> additive_for ty2 e2 d2 ss m2 ->
    right_mechanism a KMean p [i1; i2] (BMean (lo + (hi - lo) / 2)%Q m1 m2)
| right_params p i ty e d :
    granted a i ty e d -> right_mechanism a KWithParams p [i] (BParams e d p).
