(** Vocabulary for C68: what custom combiners get and what they promise. *)
From Coq Require Import List ZArith QArith Qreals Reals Bool.
From Verif Require Import Base BackendModel BackendSpec BounderModel BounderSpec ParamsModel SensModel BudgetModel BudgetSpec
  CombinerModel EngineModel EngineSpec SelectModel SelectSpec VectorModel LaplaceSpec DistSpec DpSpec CustomModel.
Import ListNotations.
Local Open Scope R_scope.

(** ** Budgets and parameters of its own *)

(** Consecutive parts of a list, of the given sizes. *)
Fixpoint slices {T} (sizes : list nat) (l : list T) : list (list T) :=
  match sizes with
  | [] => []
  | n :: sizes' => firstn n l :: slices sizes' (skipn n l)
  end.

(** The parameters a combiner is given: those of the call, without the combiners. *)
Definition own_params (p : params) : params :=
  {| metrics := metrics p; noise_kind := noise_kind p;
     max_partitions_contributed := max_partitions_contributed p;
     max_contributions_per_partition := max_contributions_per_partition p;
     max_contributions := max_contributions p; budget_weight := budget_weight p;
     min_value := min_value p; max_value := max_value p;
     min_sum_per_partition := min_sum_per_partition p; max_sum_per_partition := max_sum_per_partition p;
     custom_combiners := false;
     vector_norm_kind := vector_norm_kind p; vector_max_norm := vector_max_norm p; vector_size := vector_size p;
     contribution_bounds_already_enforced := contribution_bounds_already_enforced p;
     public_partitions_already_filtered := public_partitions_already_filtered p;
     partition_selection_strategy := partition_selection_strategy p; pre_threshold := pre_threshold p;
     post_aggregation_thresholding := post_aggregation_thresholding p;
     perform_cross_partition_contribution_bounding := perform_cross_partition_contribution_bounding p |}.

Section Requests.
Context {U P V A O : Type} (cls : nat -> custom V A O).

(** What object [a] and call [q] ask for. *)
Definition object_requests (q : query U P V) (a : nat) : list request :=
  cu_requests (cls a) (own_params (q_params q)).
Definition query_requests (q : query U P V) : list request :=
  (flat_map (object_requests q) (q_objects q)
   ++ if selects_privately (q_params q) (q_public q) then [selection_request] else [])%list.

(** The combiners of call [q] with the call's parameters, when [bs] are the budgets
    granted to this call: each combiner has what was granted to its own requests. *)
Definition own_combiners (q : query U P V) (bs : list (Q * Q)) : list (ready V A O) :=
  map (fun ab => make_ready (cls (fst ab)) (own_params (q_params q)) (snd ab))
      (combine (q_objects q) (slices (map (fun a => length (object_requests q a)) (q_objects q)) bs)).
(** The budget of partition selection is the one after those of the combiners. *)
Definition own_selection (q : query U P V) (bs : list (Q * Q)) : Q * Q :=
  nth (length (flat_map (object_requests q) (q_objects q))) bs (0, 0)%Q.
(** The budgets of all the calls, split by call. *)
Definition per_query (qs : list (query U P V)) (bs : list (Q * Q)) : list (list (Q * Q)) :=
  slices (map (fun q => length (query_requests q)) qs) bs.
End Requests.

(** ** What the combiners compute *)

(** The accumulator of a partition in which the privacy ids contribute the groups of
    values [gs]. *)
Definition merged {V A O} (c : ready V A O) (gs : list (list V)) : option A :=
  match map (r_create c) gs with
  | [] => None
  | a :: l => Some (fold_left (r_merge c) l a)
  end.

(** The rows that take part: of the public partitions, if there are any. *)
Definition taking_part {U P V} `{EqDec P} (q : query U P V) : list (U * P * V) :=
  match q_public q with
  | Some pub => if public_partitions_already_filtered (q_params q) then q_rows q
                else filter (fun r => mem (snd (fst r)) pub) (q_rows q)
  | None => q_rows q
  end.
(** The groups of partition [k]: one for each privacy id kept in it, and an empty one for
    each time that [k] is in the public partitions. *)
Definition groups {U P V} `{EqDec P} (public : option (list P)) (kept : list ((U * P) * list V)) (k : P) : list (list V) :=
  (map snd (filter (fun e => eqb (snd (fst e)) k) kept)
   ++ match public with Some pub => map (fun _ => []) (filter (fun k' => eqb k' k) pub) | None => [] end)%list.

(** What one privacy unit contributes: its groups, one for each partition. *)
Definition unit_bounded {V} (p : params) (sampled : bool) (gs : list (list V)) : Prop :=
  match max_contributions p with
  | Some m => (Z.of_nat (length (concat gs)) <= m)%Z /\ Forall (fun g => g <> []) gs
  | None => (forall l0, max_partitions_contributed p = Some l0 -> (Z.of_nat (length gs) <= l0)%Z) /\
            (sampled = true -> forall linf, max_contributions_per_partition p = Some linf ->
               Forall (fun g => (Z.of_nat (length g) <= linf)%Z) gs)
  end.

(** Accepted calls whose contribution bounds are enforced by the library.
    [keys] lists the partitions that may be in the result. *)
Definition valid_query {U P V} `{EqDec U} `{EqDec P} (keys : list P) (q : query U P V) : Prop :=
  let p := q_params q in
  q_objects q <> [] /\ accepted p /\ (metrics p = [] /\ custom_combiners p = true) /\ check_aggregate_params true true p = Ok tt /\
  contribution_bounds_already_enforced p = false /\
  valid_sampling p (q_sampling q) /\ promised p (q_rows q) /\ NoDup keys /\
  match q_public q with
  | None => public_partitions_already_filtered p = false /\ max_contributions p = None /\
            incl (map (fun r => snd (fst r)) (q_rows q)) keys
  | Some pub => (forall k, In k keys <-> In k pub) /\
                (public_partitions_already_filtered p = true -> incl (map (fun r => snd (fst r)) (q_rows q)) pub)
  end.

(** ** The promise of a custom combiner *)

(** The groups of values of one partition, with and without the group [d] of a privacy
    unit (None: it has none there). *)
Definition one_less {V} (d : option (list V)) (gs gs' : list (list V)) : Prop :=
  match d with
  | None => gs' = gs
  | Some g => exists xs ys, gs = (xs ++ g :: ys)%list /\ gs' = (xs ++ ys)%list
  end.
(** The same for several partitions; there are values of other privacy units or an empty
    group in each. *)
Definition unit_removed {V} (p : params) (sampled : bool) (gss gss' : list (list (list V))) : Prop :=
  exists ds, length ds = length gss /\ length gss' = length gss /\
    Forall (fun t => one_less (fst t) (fst (snd t)) (snd (snd t))) (combine ds (combine gss gss')) /\
    unit_bounded p sampled (flat_map (fun d => match d with Some g => [g] | None => [] end) ds) /\
    Forall (fun gs => gs <> []) gss /\ Forall (fun gs => gs <> []) gss'.

(** The result of combiner [c] for one partition is random. *)
Definition answer {V A B} (c : custom V A (dist B)) (p : params) (bs : list (Q * Q)) (gs : list (list V)) : dist B :=
  match merged (make_ready c p bs) gs with Some a => cu_compute c p bs a | None => [] end.

(** The combiner is differentially private with the budgets that it requested, provided
    that privacy units are bounded as the aggregate parameters say. *)
Definition keeps_promise {V A B} (c : custom V A (dist B)) (p : params) (bs : list (Q * Q)) : Prop :=
  (forall a, is_dist (cu_compute c p bs a)) /\
  forall gss gss', unit_removed p (cu_expects_sampling c) gss gss' ->
    forall E, indistinguishable (Q2R (sumQ (map fst bs))) (Q2R (sumQ (map snd bs)))
      (prob (independent (answer c p bs) gss) E) (prob (independent (answer c p bs) gss') E).

(** ** The random program *)

(** Every partition is kept or not, then every combiner answers for every partition that
    is kept.  [b] is the budget of partition selection. *)
Definition flip (keep : selector -> Z -> R) (p : params) (b : Q * Q) (n : option Z) : dist bool :=
  match n with
  | None => dret true
  | Some n => let w := keep (aggregate_selector p (fst b) (snd b)) n in [(w, true); (1 - w, false)]
  end.
Definition seen_outcome (P B : Type) : Type := result (list (option (list B)) * list P).
Definition draw {P B} `{EqDec P} (keep : selector -> Z -> R) (p : params) (b : Q * Q) (keys : list P)
    (out : result (list (P * (option Z * list (dist B))))) : dist (seen_outcome P B) :=
  match out with
  | Err e => dret (Err e)
  | Ok rows =>
      dbind (independent (fun row => flip keep p b (fst (snd row))) rows) (fun bits =>
      let kept := map fst (filter snd (combine rows bits)) in
      dbind (independent (fun row => independent (fun d => d) (snd (snd row))) kept) (fun outs =>
      dret (Ok (seen keys (combine (map fst kept) outs)))))
  end.

(** All the calls are built, then budgets are computed ([bs]), then the calls are
    executed. *)
Fixpoint draw_all {U P V A B} `{EqDec U} `{EqDec P} (keep : selector -> Z -> R) (cls : nat -> custom V A (dist B)) (h : objects) (bs : list (Q * Q))
    (qs : list (query U P V * list P * nat)) : dist (list (seen_outcome P B)) :=
  match qs with
  | [] => dret []
  | (q, keys, n) :: qs' =>
      dbind (draw keep (q_params q) (nth n bs (0, 0)%Q) keys (execute cls h bs q)) (fun o =>
      dbind (draw_all keep cls h bs qs') (fun os => dret (o :: os)))
  end.
Definition run_queries {U P V A B} `{EqDec U} `{EqDec P} (keep : selector -> Z -> R) (cls : nat -> custom V A (dist B)) (bs : list (Q * Q))
    (qs : list (query U P V * list P)) : dist (list (seen_outcome P B)) :=
  let '(d, ns) := build_all cls (Driver (fun _ => None) []) (map fst qs) in
  draw_all keep cls (d_objects d) bs (combine qs ns).

Definition drop_unit {U P V} `{EqDec U} (u : U) (q : query U P V) : query U P V :=
  Query (q_params q) (q_objects q) (q_sampling q) (q_public q) (without u (q_rows q)).
(** The same call with other random choices of contribution bounding. *)
Definition resample {U P V} (q : query U P V) (sm : sampling U P) : query U P V :=
  Query (q_params q) (q_objects q) sm (q_public q) (q_rows q).
