(** Vocabulary for C60: aggregations without public partitions and the joint
    distribution of everything that they release. *)
From Coq Require Import List ZArith QArith Qreals Reals.
From Verif Require Import Base BackendModel ParamsModel SensModel CombinerModel EngineModel EngineSpec
  BudgetModel BudgetSpec VectorModel LaplaceModel LaplaceSpec SelectModel SelectSpec.
Import ListNotations.
Local Open Scope R_scope.

(** A call of DPEngine.aggregate without public partitions; [pq_keys] lists the
    partitions that may be released, in any order. *)
Record pquery (U P : Type) := PQuery {
  pq_params : params;
  pq_combiners : list combiner;
  pq_sampling : sampling U P;
  pq_keys : list P;
  pq_rows : list (U * P * value) }.
Arguments PQuery {U P}. Arguments pq_params {U P}. Arguments pq_combiners {U P}.
Arguments pq_sampling {U P}. Arguments pq_keys {U P}. Arguments pq_rows {U P}.

Definition premove_id {U P} `{EqDec U} (u : U) (q : pquery U P) : pquery U P :=
  PQuery (pq_params q) (pq_combiners q) (pq_sampling q) (pq_keys q) (without u (pq_rows q)).
Definition pwith_sampling {U P} (q : pquery U P) (sm : sampling U P) : pquery U P :=
  PQuery (pq_params q) (pq_combiners q) sm (pq_keys q) (pq_rows q).

(** An accepted call with Laplace noise whose metrics are COUNT, SUM, MEAN or
    PRIVACY_ID_COUNT, with contribution bounding and partition selection by the
    library. *)
Definition private_query {U P} `{EqDec U} `{EqDec P} (q : pquery U P) : Prop :=
  noise_kind (pq_params q) = LaplaceNoise /\
  Forall simple_metric (metrics (pq_params q)) /\
  post_aggregation_thresholding (pq_params q) = false /\
  public_partitions_already_filtered (pq_params q) = false /\
  max_contributions (pq_params q) = None /\
  incl (map (fun r => snd (fst r)) (pq_rows q)) (pq_keys q) /\
  exists col, standard_run (pq_params q) (pq_combiners q) (pq_sampling q) None (pq_rows q) (pq_keys q) col.

(** The budget requests of the call: the mechanisms of the combiners
    (dp_engine.py:113-122), then partition selection (176-178, 334-335). *)
Definition private_requests {U P} (q : pquery U P) : list (mech_type * Q * Z) :=
  (repeat (LAPLACE, budget_weight (pq_params q), 1%Z) (list_sum (map requests (pq_combiners q)))
   ++ [selection_request])%list.

(** The budgets of a call: epsilons of the mechanisms of its combiners, epsilon and
    delta of partition selection. *)
Record grant := Grant { g_noise : list Q; g_eps : Q; g_delta : Q }.

(** The budgets granted, in the order of the requests, divided among the calls. *)
Fixpoint grants {U P} (qs : list (pquery U P)) (es ds : list Q) : list grant :=
  match qs with
  | [] => []
  | q :: qs' =>
      let n := list_sum (map requests (pq_combiners q)) in
      Grant (firstn n es) (nth n es 0%Q) (nth n ds 0%Q) :: grants qs' (skipn (S n) es) (skipn (S n) ds)
  end.

(** The probability that exactly the partitions marked in [S] are selected. *)
Definition set_probability {U P} `{EqDec U} `{EqDec P} (pydp : selector -> Z -> R)
    (q : pquery U P) (g : grant) (S : list bool) : R :=
  expectation (coins (pq_keys q) (length (pq_rows q)))
    (fun c => pydp (aggregate_selector (pq_params q) (g_eps g) (g_delta g)) (snd c)) (fun heads =>
    match selected_accumulators (pq_params q) (pq_combiners q) (pq_sampling q) (answers heads) None (pq_rows q) with
    | Ok col => indicator (eqb (shown (pq_keys q) (map fst col)) S)
    | Err _ => 0
    end).

(** The exact values before noise, and the density of the noisy values [y] on the
    selected partitions. *)
Definition private_exact {U P} `{EqDec U} `{EqDec P} (q : pquery U P) (i : nat) (qt : quantity) (k : P) : R :=
  match raw_accumulators (pq_params q) (pq_combiners q) (pq_sampling q) None (pq_rows q) with
  | Ok col => Q2R (raw_value (quantity_of qt) i k col)
  | Err _ => 0
  end.
Definition marked {P} (keys : list P) (S : list bool) : list P := map fst (filter snd (combine keys S)).
Definition values_density {U P} `{EqDec U} `{EqDec P} (q : pquery U P) (g : grant) (S : list bool)
    (y : nat -> quantity -> P -> R) : R :=
  prodR (map (fun e => match e with
                       | ((i, qt, s), eps) =>
                           quantity_density (pq_params q) s eps (marked (pq_keys q) S) (private_exact q i qt) (y i qt)
                       end)
             (combine (noised_quantities (pq_params q) (pq_combiners q)) (g_noise g))).

(** All the calls: [Ss] has the set selected by each call, [y j] its noisy values. *)
Definition joint_probability {U P} `{EqDec U} `{EqDec P} (pydp : selector -> Z -> R)
    (qgs : list (pquery U P * grant)) (Ss : list (list bool)) : R :=
  prodR (map (fun x => set_probability pydp (fst (fst x)) (snd (fst x)) (snd x)) (combine qgs Ss)).
Definition joint_density {U P} `{EqDec U} `{EqDec P} (qgs : list (pquery U P * grant)) (Ss : list (list bool))
    (y : nat -> nat -> quantity -> P -> R) : R :=
  prodR (map (fun x => values_density (fst (fst (snd x))) (snd (fst (snd x))) (snd (snd x)) (y (fst x)))
             (combine (seq 0 (length qgs)) (combine qgs Ss))).

(** Sum over all sets that the calls may select. *)
Fixpoint all_sets (sizes : list nat) (F : list (list bool) -> R) : R :=
  match sizes with
  | [] => F []
  | n :: ns => outcomes n (fun S => all_sets ns (fun Ss => F (S :: Ss)))
  end.

(** An event is a region of noisy values for every [Ss].  [integral Ss f] stands for
    the integral of [f] over the region of [Ss]; nothing else is assumed about it than
    the following. *)
Definition region_integrals {P} (integral : list (list bool) -> ((nat -> nat -> quantity -> P -> R) -> R) -> R) : Prop :=
  (forall Ss f g, (forall y, 0 <= f y <= g y) -> integral Ss f <= integral Ss g) /\
  (forall Ss c f, 0 <= c -> integral Ss (fun y => c * f y) = c * integral Ss f).

(** The probability that the release of all calls is in the event. *)
Definition release_probability {U P} `{EqDec U} `{EqDec P} (pydp : selector -> Z -> R)
    (integral : list (list bool) -> ((nat -> nat -> quantity -> P -> R) -> R) -> R)
    (qs : list (pquery U P)) (gs : list grant) : R :=
  all_sets (map (fun q => length (pq_keys q)) qs) (fun Ss =>
    joint_probability pydp (combine qs gs) Ss * integral Ss (joint_density (combine qs gs) Ss)).

Definition presample {U P} (qs : list (pquery U P)) (sms : list (sampling U P)) : list (pquery U P) :=
  map (fun x => pwith_sampling (fst x) (snd x)) (combine qs sms).
