(** Vocabulary for C71: aggregations with a PLDBudgetAccountant as random programs, and
    what is assumed of PyDP and of the library of privacy loss distributions. *)
From Coq Require Import String List ZArith QArith Qreals Reals Bool.
From Verif Require Import Base BackendModel ParamsModel SensModel CombinerModel EngineModel EngineSpec
  BudgetModel BudgetSpec VectorModel LaplaceModel LaplaceSpec SelectModel SelectSpec WrapperModel DistSpec DpSpec PldModel PldDpModel.
Import ListNotations.
Local Open Scope R_scope.

(** ** PyDP *)

(** The distributions of add_noise(x) of LaplaceMechanism(epsilon, sensitivity) and of
    GaussianMechanism.create_from_standard_deviation(std), and the probability that
    should_keep(n) is True for a strategy of a name, epsilon, delta, number of partitions
    and pre-threshold. *)
Record real_pydp := RealPydp {
  rp_laplace : R -> Q -> Q -> dist Q;
  rp_gaussian : R -> Q -> dist Q;
  rp_keep : string -> R -> R -> option Z -> option Z -> Z -> R }.

Definition distributions (rp : real_pydp) : Prop :=
  (forall eps l1 x, is_dist (rp_laplace rp eps l1 x)) /\ (forall std x, is_dist (rp_gaussian rp std x)).

(** Laplace noise on values that differ by at most the sensitivity in the l1 norm. *)
Definition l1_within (l1 : Q) (xs xs' : list Q) : Prop :=
  length xs = length xs' /\ (l1_norm (combine xs xs') (fun e => fst e - snd e) <= l1)%Q.
Definition l2_within (l2sq : Q) (xs xs' : list Q) : Prop :=
  length xs = length xs' /\ (l2sq_norm (combine xs xs') (fun e => fst e - snd e) <= l2sq)%Q.
Definition laplace_private (rp : real_pydp) : Prop :=
  forall eps l1 xs xs' E, 0 < eps -> (0 < l1)%Q -> l1_within l1 xs xs' ->
    indistinguishable eps 0 (prob (independent (rp_laplace rp eps l1) xs) E) (prob (independent (rp_laplace rp eps l1) xs') E).

(** Partition selection keeps its promise (a delta of 1 or more promises nothing but
    that empty partitions are never kept). *)
Definition keep_private (rp : real_pydp) : Prop :=
  forall name eps delta l0 pre, 0 < eps -> 0 <= delta -> (0 < l0)%Z ->
    In name ["truncated_geometric"; "laplace"; "gaussian"]%string ->
    (forall t, pre = Some t -> (0 < t)%Z) ->
    private_strategy (rp_keep rp name eps delta (Some l0) pre) l0 eps delta.

(** ** The library of privacy loss distributions *)

(** [a] and [b] are the distributions of what a mechanism releases on two datasets, and
    the privacy loss distribution [l] stands for that mechanism: Laplace noise of scale
    [s] times the l1 sensitivity, Gaussian noise of standard deviation [s] times the l2
    sensitivity, or any (e, d)-differentially private mechanism. *)
Definition stands_for (rp : real_pydp) (l : pld) (a b : dist (list Q)) : Prop :=
  match l with
  | FromLaplace s => exists eps l1 xs xs', 0 < eps /\ (0 < l1)%Q /\ s = 1 / eps /\ l1_within l1 xs xs' /\
      a = independent (rp_laplace rp eps l1) xs /\ b = independent (rp_laplace rp eps l1) xs'
  | FromGaussian s => exists std l2sq xs xs', 0 < std /\ (0 < l2sq)%Q /\ s = std / sqrt (Q2R l2sq) /\ l2_within l2sq xs xs' /\
      a = independent (rp_gaussian rp std) xs /\ b = independent (rp_gaussian rp std) xs'
  | FromPrivacyParameters e d => is_dist a /\ is_dist b /\ forall E, indistinguishable e d (prob a E) (prob b E)
  end.

(** The composition theorem of the library: when it reports at most [eps] for [delta],
    the mechanisms together are (eps, delta)-differentially private.  [infinity] stands
    for the float inf, which the library reports when there is no such epsilon: reports
    from [infinity] on mean nothing. *)
Definition composition_sound (infinity : R) (lib : list pld -> R -> R) (rp : real_pydp) : Prop :=
  forall (ms : list (pld * (dist (list Q) * dist (list Q)))) eps delta,
    Forall (fun m => stands_for rp (fst m) (fst (snd m)) (snd (snd m))) ms ->
    0 < delta -> lib (map fst ms) delta <= eps -> eps < infinity ->
    forall E, indistinguishable eps delta
      (prob (independent (fun m => fst (snd m)) ms) E) (prob (independent (fun m => snd (snd m)) ms) E).

Definition keeps_promises (infinity : R) (lib : list pld -> R -> R) (rp : real_pydp) : Prop :=
  distributions rp /\ laplace_private rp /\ keep_private rp /\ composition_sound infinity lib rp.

(** ** Calls *)

(** COUNT, PRIVACY_ID_COUNT, SUM and MEAN, with public partitions or private partition
    selection, without thresholding.  DPEngine accepts fewer: with this accountant it
    asks for public partitions ([engine_accepts]).  For thresholding see
    C71_thresholding_refuted. *)
Definition valid_pld_call {U P} `{EqDec U} `{EqDec P} (c : call U P) : Prop :=
  valid_call c /\ Forall (fun m => In m [COUNT; PRIVACY_ID_COUNT; SUM; MEAN]) (metrics (c_params c)) /\
  post_aggregation_thresholding (c_params c) = false.

(** DPEngine.aggregate accepts the call with an accountant that is not a
    NaiveBudgetAccountant. *)
Definition engine_accepts {U P} (c : call U P) : Prop :=
  check_accountant false (is_some (c_public c)) (metrics (c_params c)) false = Ok tt.

(** Which of the budget requests of the call is for quantity [qt] of combiner [i]. *)
Definition position (cs : list combiner) (i : nat) (qt : quantity) : nat :=
  list_sum (map requests (firstn i cs)) +
  match nth_error cs i, qt with Some (CMean _ _ _), QSum => 1 | _, _ => 0 end.

(** The specs of the requests of each call. *)
Fixpoint divide_specs {U P} (cs : list (call U P)) (ms : list pmech) : list (list pmech) :=
  match cs with
  | [] => []
  | c :: cs' => firstn (length (call_requests c)) ms :: divide_specs cs' (skipn (length (call_requests c)) ms)
  end.

(** ** The random program *)
Definition ask (rp : real_pydp) (m : std_mechanism) (x : Q) : dist Q :=
  match m with
  | StdLaplace eps l1 => rp_laplace rp eps l1 x
  | StdGaussian std => rp_gaussian rp std x
  end.
(** A PyDP mechanism can be made of these numbers. *)
Definition sensible (sm : std_mechanism) : Prop :=
  match sm with StdLaplace eps l1 => 0 < eps /\ (0 < l1)%Q | StdGaussian std => 0 < std end.
Definition mechanism_of {U P} (c : call U P) (ms : list pmech) (i : nat) (qt : quantity) : option std_mechanism :=
  match nth_error (c_combiners c) i, nth_error ms (position (c_combiners c) i qt) with
  | Some cb, Some m =>
      match find (fun e => eqb (fst e) qt) (noise_plan (c_params c) cb) with
      | Some (_, s) =>
          match rbind s (fun s => rbind (read_std m) (fun std => create_from_std (noise_kind (c_params c)) std s)) with
          | Ok sm => Some sm
          | Err _ => None
          end
      | None => None
      end
  | _, _ => None
  end.
Definition add_std_noise {U P} (rp : real_pydp) (c : call U P) (ms : list pmech) (i : nat) (qt : quantity) (x : Q) : dist Q :=
  match mechanism_of c ms i qt with Some sm => ask rp sm x | None => dret 0%Q end.
Definition keep_probability {U P} (rp : real_pydp) (c : call U P) (ms : list pmech) (n : Z) : R :=
  match nth_error ms (list_sum (map requests (c_combiners c))) with
  | Some m =>
      match read_budget m with
      | Ok (eps, delta) => rp_keep rp (strategy_name (partition_selection_strategy (c_params c))) eps delta
                             (max_partitions_contributed (c_params c)) (pre_threshold (c_params c)) n
      | Err _ => 0
      end
  | None => 0
  end.

(** One execution of the call; [N] and [X] as in [run_call] of DpSpec. *)
Definition run_pld_call {U P} `{EqDec U} `{EqDec P} (rp : real_pydp) (N : nat) (X : list Q) (c : call U P) (ms : list pmech)
  : dist (outcome P) :=
  let keys := c_keys c in
  dbind (random_function (fun kn : P * Z => let p := keep_probability rp c ms (snd kn) in [(p, true); (1 - p, false)]) false
           (if selects_privately (c_params c) (c_public c) then list_prod keys (counts N) else [])) (fun keep =>
  dbind (random_function (fun s : nat * quantity * P * Q => match s with (i, qt, k, x) => add_std_noise rp c ms i qt x end) 0%Q
           (list_prod (list_prod (list_prod (seq 0 (length (c_combiners c))) [QCount; QSum; QSquares]) keys) X)) (fun noise =>
  dret (rmap (seen keys)
    (aggregate (c_params c) (c_sampling c) (fun k n => keep (k, n))
       (fun k i => Noises (fun x => noise (i, QCount, k, x)) (fun x => noise (i, QSum, k, x)) (fun x => noise (i, QSquares, k, x))
                          (fun n => None) (fun l qs => []) (fun v => []))
       (c_public c) (c_rows c))))).

Fixpoint run_pld_calls {U P} `{EqDec U} `{EqDec P} (rp : real_pydp) (N : nat) (X : list Q) (cms : list (call U P * list pmech))
  : dist (list (outcome P)) :=
  match cms with
  | [] => dret []
  | (c, ms) :: cms' => dbind (run_pld_call rp N X c ms) (fun o => dbind (run_pld_calls rp N X cms') (fun os => dret (o :: os)))
  end.

(** The weight of every request for partition selection is at most 1. *)
Definition selection_weights (ms : list mech) : Prop := Forall (fun m => m_type m = GENERIC -> (m_weight m <= 1)%Q) ms.
