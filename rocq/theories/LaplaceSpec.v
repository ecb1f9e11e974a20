(** Vocabulary for C40: aggregations over public partitions and the density of
    everything that they release. *)
From Coq Require Import List ZArith QArith Qreals Reals.
From Verif Require Import Base BackendModel ParamsModel SensModel CombinerModel EngineModel EngineSpec
  BudgetModel BudgetSpec VectorModel LaplaceModel.
Import ListNotations.
Local Open Scope R_scope.

Definition prodR (l : list R) : R := fold_right Rmult 1 l.

(** A call of DPEngine.aggregate with public partitions. *)
Record query (U P : Type) := Query {
  q_params : params;
  q_combiners : list combiner;
  q_sampling : sampling U P;
  q_public : list P;
  q_rows : list (U * P * value) }.
Arguments Query {U P}. Arguments q_params {U P}. Arguments q_combiners {U P}.
Arguments q_sampling {U P}. Arguments q_public {U P}. Arguments q_rows {U P}.

(** The same call on the dataset without privacy id [u], and with other random choices. *)
Definition remove_id {U P} `{EqDec U} (u : U) (q : query U P) : query U P :=
  Query (q_params q) (q_combiners q) (q_sampling q) (q_public q) (without u (q_rows q)).
Definition with_sampling {U P} (q : query U P) (sm : sampling U P) : query U P :=
  Query (q_params q) (q_combiners q) sm (q_public q) (q_rows q).

(** The partitions of the result and their exact values before noise. *)
Definition q_keys {U P} `{EqDec P} (q : query U P) : list P := distinct (q_public q).
Definition exact {U P} `{EqDec U} `{EqDec P} (q : query U P) (i : nat) (qt : quantity) (k : P) : R :=
  match raw_accumulators (q_params q) (q_combiners q) (q_sampling q) (Some (q_public q)) (q_rows q) with
  | Ok col => Q2R (raw_value (quantity_of qt) i k col)
  | Err _ => 0
  end.

(** An accepted call with Laplace noise whose metrics are COUNT, SUM, MEAN or
    PRIVACY_ID_COUNT, with contribution bounding by the library. *)
Definition simple_metric (m : metric) : Prop :=
  match m with COUNT | SUM | MEAN | PRIVACY_ID_COUNT => True | _ => False end.
Definition laplace_query {U P} `{EqDec U} `{EqDec P} (q : query U P) : Prop :=
  noise_kind (q_params q) = LaplaceNoise /\
  Forall simple_metric (metrics (q_params q)) /\
  post_aggregation_thresholding (q_params q) = false /\
  exists col, standard_run (q_params q) (q_combiners q) (q_sampling q) (Some (q_public q)) (q_rows q) (q_keys q) col.

(** The budget requests made for the call (combiners.py:855-920). *)
Definition budget_requests {U P} (q : query U P) : list (mech_type * Q * Z) :=
  repeat (LAPLACE, budget_weight (q_params q), 1%Z) (list_sum (map requests (q_combiners q))).

(** Everything noised by the calls: (number of the call, call, number of the combiner,
    quantity, sensitivities). *)
Definition all_quantities {U P} (qs : list (query U P))
  : list (nat * query U P * (nat * quantity * result sens)) :=
  flat_map (fun jq => map (pair jq) (noised_quantities (q_params (snd jq)) (q_combiners (snd jq))))
           (combine (seq 0 (length qs)) qs).

(** The density with which noise calibrated to [s] with budget [eps] turns the exact
    values [x] into [y], on all the partitions [keys]. *)
Definition quantity_density {P} (p : params) (s : result sens) (eps : Q) (keys : list P) (x y : P -> R) : R :=
  match rbind s (create_additive_mechanism (granted_spec p eps)) with
  | Ok m => prodR (map (fun k => noise_density m (x k) (y k)) keys)
  | Err _ => 0
  end.

(** The density of the release [y]: [y j i qt k] is the noisy value of quantity [qt]
    of combiner [i] of call [j] in partition [k]; [es] are the epsilons granted, in
    order.  The values released are functions of [y] (see C20). *)
Definition release_density {U P} `{EqDec U} `{EqDec P} (qs : list (query U P)) (es : list Q)
    (y : nat -> nat -> quantity -> P -> R) : R :=
  prodR (map (fun e => match e with
                       | ((j, q, (i, qt, s)), eps) =>
                           quantity_density (q_params q) s eps (q_keys q) (exact q i qt) (y j i qt)
                       end)
             (combine (all_quantities qs) es)).

(** Two densities within a factor exp(eps) of each other. *)
Definition close (eps a b : R) : Prop := a <= exp eps * b /\ b <= exp eps * a.

(** Random contribution bounding: the density of the release when the random choices
    are drawn from a finite distribution [dist]. *)
Definition mixture {A} (dist : list (R * A)) (f : A -> R) : R :=
  sumR (map (fun wa => fst wa * f (snd wa)) dist).
Definition resample {U P} (qs : list (query U P)) (sms : list (sampling U P)) : list (query U P) :=
  map (fun qs => with_sampling (fst qs) (snd qs)) (combine qs sms).
