(** Vocabulary for C61: DPEngine.aggregate as a random program, and what is assumed of
    PyDP. *)
From Coq Require Import String List ZArith QArith Qminmax Qreals Reals Bool Permutation.
From Verif Require Import Base BackendModel ParamsModel SensModel CombinerModel EngineModel EngineSpec
  BudgetModel BudgetSpec VectorModel LaplaceModel LaplaceSpec SelectModel SelectSpec WrapperModel DistSpec DpModel
  EnforcedSpec QuantileModel VectorSpec.
Import ListNotations.
Local Open Scope R_scope.

#[export] Instance EqDec_quantity : EqDec quantity.
Proof. intros [] []; (left; reflexivity) || (right; discriminate). Defined.

(** ** PyDP *)

(** The random behaviour of PyDP's objects: the distributions of add_noise(x) and of
    noised_value_if_should_keep(n), the probability that should_keep(n) is True, and the
    distribution of the answers of compute_quantiles for a tree with given entries.
    [py_vector] is add_noise again, for a coordinate of a clipped vector, which is a real
    number in the model.  The results are floats, hence the finite distributions. *)
Record pydp := Pydp {
  py_noise : mechanism -> Q -> dist Q;
  py_keep : selector -> Z -> R;
  py_noised : selector -> Z -> dist (option Q);
  py_quantiles : quantile_query -> list Q -> dist (list Q);
  py_vector : mechanism -> R -> dist Q }.

(** The guarantee that a mechanism is asked to give. *)
Definition promises (m : mechanism) (eps delta : Q) : Prop :=
  match m with
  | Laplace e l1 => (0 < e)%Q /\ (0 < l1)%Q /\ eps = e /\ delta = 0%Q
  | Gaussian e d l2sq => (0 < e)%Q /\ (0 < d)%Q /\ (d < 1)%Q /\ (0 < l2sq)%Q /\ eps = e /\ delta = d
  | _ => False
  end.

(** Vectors of values whose difference is covered by the sensitivity of the mechanism
    become (eps, delta)-indistinguishable when noise is added to each coordinate. *)
Definition noise_contract (noise : mechanism -> Q -> dist Q) : Prop :=
  (forall m x, is_dist (noise m x)) /\
  forall m eps delta, promises m eps delta ->
    forall xs xs' E, length xs = length xs' ->
      covers m (combine xs xs') (fun e => (fst e - snd e)%Q) ->
      indistinguishable (Q2R eps) (Q2R delta)
        (prob (independent (noise m) xs) E) (prob (independent (noise m) xs') E).

(** The same for real values. *)
Definition vector_contract (noise : mechanism -> R -> dist Q) : Prop :=
  (forall m x, is_dist (noise m x)) /\
  forall m eps delta, promises m eps delta ->
    forall xs xs' E, length xs = length xs' ->
      covers_real m (combine xs xs') (fun e => fst e - snd e) ->
      indistinguishable (Q2R eps) (Q2R delta)
        (prob (independent (noise m) xs) E) (prob (independent (noise m) xs') E).

(** Thresholding: nothing is released for an empty partition, and the noised counts of
    the kept partitions are (eps, delta)-differentially private. *)
Definition private_thresholding (noised : Z -> dist (option Q)) (l0 : Z) (eps delta : R) : Prop :=
  (forall n w o, (n <= 0)%Z -> In (w, o) (noised n) -> w = 0 \/ o = None) /\
  forall ns ns' E, neighbouring l0 ns ns' ->
    indistinguishable eps delta (prob (independent noised ns) E) (prob (independent noised ns') E).
Definition thresholding_contract (noised : selector -> Z -> dist (option Q)) : Prop :=
  (forall sel n, is_dist (noised sel n)) /\
  forall sel l0, sel_l0 sel = Some l0 -> (0 < l0)%Z -> (0 < sel_eps sel)%Q -> (0 <= sel_delta sel < 1)%Q ->
    In (sel_name sel) ["laplace"; "gaussian"]%string ->
    (forall t, sel_pre sel = Some t -> (0 < t)%Z) ->
    private_thresholding (noised sel) l0 (Q2R (sel_eps sel)) (Q2R (sel_delta sel)).

(** Quantile trees: when at most [l0] trees have further entries, at most [linf] each, the
    answers for all the trees are (eps, delta)-indistinguishable.  The bounds [l0] and
    [linf], the budget and the type of the noise are those given to compute_quantiles. *)
Definition neighbouring_trees (l0 linf : Z) (ts ts' : list (list Q)) : Prop :=
  exists extras : list (list Q),
    Forall2 (fun t t'e => Permutation t (fst t'e ++ snd t'e)) ts (combine ts' extras) /\ length extras = length ts' /\
    Forall (fun e => (Z.of_nat (length e) <= linf)%Z) extras /\
    (Z.of_nat (length (filter (fun e => match e with [] => false | _ => true end) extras)) <= l0)%Z.
Definition quantiles_contract (quantiles : quantile_query -> list Q -> dist (list Q)) : Prop :=
  (forall q l, is_dist (quantiles q l)) /\
  forall q l0 linf lo hi,
    qq_lower q = Some lo -> qq_upper q = Some hi -> (lo < hi)%Q -> (0 < qq_height q)%Z -> (1 < qq_branching q)%Z ->
    (0 < qq_eps q)%Q -> (0 <= qq_delta q < 1)%Q -> (qq_noise q = "gaussian"%string -> (0 < qq_delta q)%Q) ->
    In (qq_noise q) ["laplace"; "gaussian"]%string ->
    qq_l0 q = Some l0 -> qq_linf q = Some linf -> (0 < l0)%Z -> (0 < linf)%Z ->
    forall ts ts' E, neighbouring_trees l0 linf ts ts' ->
      indistinguishable (Q2R (qq_eps q)) (Q2R (qq_delta q))
        (prob (independent (quantiles q) ts) E) (prob (independent (quantiles q) ts') E).

Definition pydp_keeps_promises (py : pydp) : Prop :=
  noise_contract (py_noise py) /\ pydp_contract (py_keep py) /\ thresholding_contract (py_noised py) /\
  quantiles_contract (py_quantiles py) /\ vector_contract (py_vector py).

(** ** Calls of DPEngine.aggregate *)

(** [c_keys] lists the partitions that may be in the result, in any order. *)
Record call (U P : Type) := Call {
  c_params : params;
  c_combiners : list combiner;
  c_sampling : sampling U P;
  c_public : option (list P);
  c_keys : list P;
  c_rows : list (U * P * value) }.
Arguments Call {U P}. Arguments c_params {U P}. Arguments c_combiners {U P}. Arguments c_sampling {U P}.
Arguments c_public {U P}. Arguments c_keys {U P}. Arguments c_rows {U P}.

Definition forget {U P} `{EqDec U} (u : U) (c : call U P) : call U P :=
  Call (c_params c) (c_combiners c) (c_sampling c) (c_public c) (c_keys c) (without u (c_rows c)).
Definition redraw {U P} (c : call U P) (sm : sampling U P) : call U P :=
  Call (c_params c) (c_combiners c) sm (c_public c) (c_keys c) (c_rows c).

(** An accepted call with any metrics, with public partitions, with
    private ones or with post-aggregation thresholding; either the library bounds the
    contributions or the user has done it.  What is asked of the parameters beyond the
    checks of the library: max_contributions needs public partitions (see
    C59_max_contributions_refuted); VARIANCE needs a range whose squares are covered
    (see C17_variance_squares_refuted); PERCENTILE needs min_value < max_value; bounds on the sum
    per partition are not used together with contribution_bounds_already_enforced (see
    C69_partition_sum_refuted); VECTOR_SUM needs a norm for which its noise is sufficient (see
    C19_exactly), partitions that are not public (see C24_vector_sum_refuted), contribution
    bounding by the library, and values that are vectors of the declared size. *)
Definition row_keys {U P} (rows : list (U * P * value)) : list P := map (fun r => snd (fst r)) rows.
Definition range_covered (lo hi : Q) : Prop :=
  (~ (lo < 0 /\ 0 < hi) \/ (hi - lo) * (hi - lo) <= 2 * Qmax (lo * lo) (hi * hi))%Q.
Definition vector_covered {P} (p : params) (public : option (list P)) : Prop :=
  public = None /\ contribution_bounds_already_enforced p = false /\
  exists n kind max_norm linf,
    vector_size p = Some n /\ (0 < n)%Z /\ vector_norm_kind p = Some kind /\ kind <> L0 /\
    vector_max_norm p = Some max_norm /\ (0 <= max_norm)%Q /\
    max_contributions_per_partition p = Some linf /\ (2 * max_norm <= inject_Z linf)%Q.
Definition valid_params {P} (p : params) (public : option (list P)) : Prop :=
  check_aggregate_params true true p = Ok tt /\
  (In VECTOR_SUM (metrics p) -> vector_covered p public) /\
  (public = None \/ post_aggregation_thresholding p = true -> max_contributions p = None) /\
  (In VARIANCE (metrics p) -> forall lo hi, min_value p = Some lo -> max_value p = Some hi -> range_covered lo hi) /\
  (forall x, In (PERCENTILE x) (metrics p) -> exists lo hi, min_value p = Some lo /\ max_value p = Some hi /\ (lo < hi)%Q) /\
  (contribution_bounds_already_enforced p = true -> min_sum_per_partition p = None).
Definition valid_call {U P} `{EqDec U} `{EqDec P} (c : call U P) : Prop :=
  let p := c_params c in
  valid_params p (c_public c) /\
  match c_public c with
  | None => public_partitions_already_filtered p = false /\ incl (row_keys (c_rows c)) (c_keys c)
  | Some pub => (forall k, In k (c_keys c) <-> In k pub) /\
                (public_partitions_already_filtered p = true -> incl (row_keys (c_rows c)) pub)
  end /\
  (In VECTOR_SUM (metrics p) -> forall n, vector_size p = Some n -> vectors n (map snd (c_rows c))) /\
  exists col, standard_run p (c_combiners c) (c_sampling c) (c_public c) (c_rows c) (c_keys c) col \/
              trusted_run p (c_combiners c) (c_sampling c) (c_public c) (c_rows c) (c_keys c) col.

(** The budget requests of the call: combiners.py:855-920, then dp_engine.py:334-335. *)
Definition call_requests {U P} (c : call U P) : list (mech_type * Q * Z) :=
  (flat_map (fun cb => repeat (request_type (c_params c) cb, budget_weight (c_params c), 1%Z) (requests cb)) (c_combiners c)
   ++ if selects_privately (c_params c) (c_public c) then [selection_request] else [])%list.

(** The budgets (epsilon, delta) of a call: of its combiners in the order of the
    requests, and of partition selection. *)
Record budgets := Budgets { b_noise : list (Q * Q); b_selection : Q * Q }.
Fixpoint divide {U P} (cs : list (call U P)) (bs : list (Q * Q)) : list budgets :=
  match cs with
  | [] => []
  | c :: cs' =>
      let n := list_sum (map requests (c_combiners c)) in
      Budgets (firstn n bs) (nth n bs (0, 0)%Q) :: divide cs' (skipn (length (call_requests c)) bs)
  end.

(** The budgets of combiner [i]. *)
Fixpoint slices (cs : list combiner) (bs : list (Q * Q)) : list (list (Q * Q)) :=
  match cs with
  | [] => []
  | cb :: cs' => firstn (requests cb) bs :: slices cs' (skipn (requests cb) bs)
  end.
Definition own {U P} (c : call U P) (b : budgets) (i : nat) : list (Q * Q) := nth i (slices (c_combiners c) (b_noise b)) [].
(** How a combiner uses its budgets: MeanCombiner has one for the count and one for the
    sum; VarianceCombiner has one, which compute_dp_var divides by three
    (dp_computations.py:323-327). *)
Definition shares (cb : combiner) (bs : list (Q * Q)) : list (quantity * (Q * Q)) :=
  match cb, bs with
  | (CCount | CPidCount | CThresh), [b] => [(QCount, b)]
  | CSum _ _ _, [b] => [(QSum, b)]
  | CMean _ _ _, [b; b'] => [(QCount, b); (QSum, b')]
  | CVariance _ _ _, [(eps, delta)] =>
      match equally_split_budget eps delta 3 with
      | Ok [b; b'; b''] => [(QCount, b); (QSum, b'); (QSquares, b'')]
      | _ => []
      end
  | _, _ => []
  end.
(** The sensitivities and the budget of quantity [qt] of combiner [i]. *)
Definition budget_of {U P} (c : call U P) (b : budgets) (i : nat) (qt : quantity) : option (result sens * (Q * Q)) :=
  match nth_error (c_combiners c) i with
  | Some cb =>
      match find (fun e => eqb (fst e) qt) (noise_plan (c_params c) cb), find (fun e => eqb (fst e) qt) (shares cb (own c b i)) with
      | Some (_, s), Some (_, eb) => Some (s, eb)
      | _, _ => None
      end
  | None => None
  end.

(** ** The random program *)

(** What PyDP answers when the mechanism of quantity [qt] of combiner [i] gets [x], and
    when the thresholding mechanism of combiner [i] gets the count [n]. *)
Definition add_noise {U P} (py : pydp) (c : call U P) (b : budgets) (i : nat) (qt : quantity) (x : Q) : dist Q :=
  match budget_of c b i qt with
  | Some (s, (eps, delta)) =>
      match rbind s (create_additive_mechanism (MSpec (noise_kind (c_params c)) None eps delta)) with
      | Ok m => py_noise py m x
      | Err _ => dret 0%Q
      end
  | None => dret 0%Q
  end.
Definition threshold {U P} (py : pydp) (c : call U P) (b : budgets) (i : nat) (n : Z) : dist (option Q) :=
  match budget_of c b i QCount with
  | Some (_, (eps, delta)) =>
      match thresholding_mechanism (c_params c) eps delta with
      | Ok sel => py_noised py sel n
      | Err _ => dret None
      end
  | None => dret None
  end.
(** What PyDP answers when combiner [i] asks for the quantiles [qs] of a tree with the
    entries [l], or for noise for the vector [l]: the vector is clipped, then noise is
    added to each of its coordinates (add_noise_vector, dp_computations.py:211-229). *)
Definition noised_vector (py : pydp) (p : params) (eps delta : Q) (l : list Q) : dist (list Q) :=
  match vector_size p, vector_norm_kind p, vector_max_norm p, vector_mechanism p eps delta with
  | Some n, Some kind, Some max_norm, Ok m =>
      match clip_vector (map Q2R l) (Q2R max_norm) kind with
      | Ok w => independent (fun j => py_vector py m (nth j w 0)) (seq 0 (Z.to_nat n))
      | Err _ => dret []
      end
  | _, _, _, _ => dret []
  end.
Definition with_quantiles (qs : list Q) (q : quantile_query) : quantile_query :=
  QQuery (qq_lower q) (qq_upper q) (qq_height q) (qq_branching q) (qq_eps q) (qq_delta q) (qq_l0 q) (qq_linf q) qs (qq_noise q).
Definition ask_tree {U P} (py : pydp) (c : call U P) (b : budgets) (i : nat) (l qs : list Q) : dist (list Q) :=
  match nth_error (c_combiners c) i, own c b i with
  | Some (CQuantile ps), [(eps, delta)] =>
      py_quantiles py (with_quantiles qs (quantile_query_of (c_params c) eps delta ps)) l
  | Some (CVector _), [(eps, delta)] => noised_vector py (c_params c) eps delta l
  | _, _ => dret []
  end.
Definition should_keep {U P} (py : pydp) (c : call U P) (b : budgets) (n : Z) : dist bool :=
  let p := py_keep py (aggregate_selector (c_params c) (fst (b_selection b)) (snd (b_selection b))) n in
  [(p, true); (1 - p, false)].

(** What is visible of the result: the metrics of every partition of [keys], and any
    other partitions.  The order of the partitions is not part of it (see
    C61_order_of_the_result_refuted). *)
Definition seen {P M} `{EqDec P} (keys : list P) (out : list (P * M)) : list (option M) * list P :=
  (map (fun k => option_map snd (find (fun e => eqb (fst e) k) out)) keys,
   filter (fun k => negb (mem k keys)) (map fst out)).
Definition outcome (P : Type) : Type := result (list (option (list (mname * released))) * list P).

(** One execution of the call.  Every question that the library may ask is answered
    independently of the others: should_keep for a partition and a count of at most
    [N]; the noise for a quantity of a combiner in a partition, when the exact value is
    in [X]; thresholding for a combiner, a partition and a count of at most [N]; the
    quantiles or the noisy vector for a combiner in a partition, when the entries of the
    tree and the wanted quantiles, or the vector and no quantiles, are in [T]. *)
Definition counts (N : nat) : list Z := map Z.of_nat (seq 0 (S N)).
Definition run_call {U P} `{EqDec U} `{EqDec P} (py : pydp) (N : nat) (X : list Q) (T : list (list Q * list Q))
    (c : call U P) (b : budgets) : dist (outcome P) :=
  let keys := c_keys c in
  let is := seq 0 (length (c_combiners c)) in
  dbind (random_function (fun kn : P * Z => should_keep py c b (snd kn)) false
           (if selects_privately (c_params c) (c_public c) then list_prod keys (counts N) else [])) (fun keep =>
  dbind (random_function (fun s : nat * quantity * P * Q => match s with (i, qt, k, x) => add_noise py c b i qt x end) 0%Q
           (list_prod (list_prod (list_prod is [QCount; QSum; QSquares]) keys) X)) (fun noise =>
  dbind (random_function (fun s : nat * P * Z => match s with (i, k, n) => threshold py c b i n end) None
           (list_prod (list_prod is keys) (counts N))) (fun noised =>
  dbind (random_function (fun s : nat * P * (list Q * list Q) => match s with (i, k, (l, qs)) => ask_tree py c b i l qs end) []
           (list_prod (list_prod is keys) T)) (fun answers =>
  dret (rmap (seen keys)
    (aggregate (c_params c) (c_sampling c) (fun k n => keep (k, n))
       (fun k i => Noises (fun x => noise (i, QCount, k, x)) (fun x => noise (i, QSum, k, x)) (fun x => noise (i, QSquares, k, x))
                          (fun n => noised (i, k, n)) (fun l qs => answers (i, k, (l, qs))) (fun v => answers (i, k, (v, []))))
       (c_public c) (c_rows c))))))).

(** [N], [X] and [T] are large enough for the call. *)
Definition large_enough {U P} `{EqDec U} `{EqDec P} (N : nat) (X : list Q) (T : list (list Q * list Q)) (c : call U P) : Prop :=
  forall col, raw_accumulators (c_params c) (c_combiners c) (c_sampling c) (c_public c) (c_rows c) = Ok col ->
  forall k, In k (c_keys c) ->
    (row_count k col <= Z.of_nat N)%Z /\
    forall i, (raw_value count_of i k col <= inject_Z (Z.of_nat N))%Q /\
              (forall qt, In (raw_value (quantity_of qt) i k col) X) /\
              (forall ps, nth_error (c_combiners c) i = Some (CQuantile ps) ->
                 In (raw_tree i k col, map (fun x => x / 100)%Q ps) T) /\
              (forall n, nth_error (c_combiners c) i = Some (CVector n) -> In (raw_vector i k col, []) T).

(** All the calls, one after the other. *)
Fixpoint run_calls {U P} `{EqDec U} `{EqDec P} (py : pydp) (N : nat) (X : list Q) (T : list (list Q * list Q))
    (cbs : list (call U P * budgets))
  : dist (list (outcome P)) :=
  match cbs with
  | [] => dret []
  | (c, b) :: cbs' => dbind (run_call py N X T c b) (fun o => dbind (run_calls py N X T cbs') (fun os => dret (o :: os)))
  end.

(** The calls with other random choices for contribution bounding. *)
Definition redrawn {U P} (calls : list (call U P)) (sms : list (sampling U P)) : list (call U P) :=
  map (fun cs => redraw (fst cs) (snd cs)) (combine calls sms).

(** A budget (epsilon, delta) that can be used for a request. *)
Definition granted_ok (r : mech_type * Q * Z) (ed : Q * Q) : Prop :=
  (0 < fst ed)%Q /\ (0 <= snd ed < 1)%Q /\ (req_type r = GAUSSIAN -> (0 < snd ed)%Q).
