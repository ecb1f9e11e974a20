(** Model of DPEngine.aggregate with custom combiners: CustomCombiner,
    create_compound_combiner_with_custom_combiners and the CompoundCombiner without
    named tuples of /repo/pipeline_dp/combiners.py, and DPEngine._aggregate of
    /repo/pipeline_dp/dp_engine.py. *)
From Coq Require Import List ZArith QArith Bool.
From Verif Require Import Base BackendModel BounderModel ParamsModel SensModel BudgetModel CombinerModel EngineModel SelectModel.
Import ListNotations.

Definition request : Type := mech_type * Q * Z.

(** A user's class that extends CustomCombiner: combiners.py:87-140, with the Combiner
    methods of 39-80.  Its methods use the aggregate parameters and the budgets that are
    stored in the object, and do not change them.  [cu_requests p] are the calls of
    budget_accountant.request_budget in request_budget.  Accumulators of all classes
    have the type [A] and results the type [O]. *)
Record custom (V A O : Type) := Custom {
  cu_expects_sampling : bool;
  cu_requests : params -> list request;
  cu_create : params -> list V -> A;
  cu_merge : params -> A -> A -> A;
  cu_compute : params -> list (Q * Q) -> A -> O }.
Arguments Custom {V A O}. Arguments cu_expects_sampling {V A O}. Arguments cu_requests {V A O}.
Arguments cu_create {V A O}. Arguments cu_merge {V A O}. Arguments cu_compute {V A O}.

(** [copy_aggregate_params.custom_combiners = None]: combiners.py:930-931. *)
Definition without_custom (p : params) : params :=
  Params (metrics p) (noise_kind p) (max_partitions_contributed p) (max_contributions_per_partition p)
    (max_contributions p) (budget_weight p) (min_value p) (max_value p) (min_sum_per_partition p)
    (max_sum_per_partition p) false (vector_norm_kind p) (vector_max_norm p) (vector_size p)
    (contribution_bounds_already_enforced p) (public_partitions_already_filtered p)
    (partition_selection_strategy p) (pre_threshold p) (post_aggregation_thresholding p)
    (perform_cross_partition_contribution_bounding p).

(** ** Building the computation *)

(** The combiner objects: what is stored in the object number [a].  Budgets are stored
    as references: the numbers of the requests. *)
Record fields := Fields { f_params : params; f_budgets : list nat }.
Definition objects := nat -> option fields.
Definition store (a : nat) (f : fields) (h : objects) : objects := fun b => if Nat.eqb b a then Some f else h b.

(** The driver: the combiner objects and the budget requests so far. *)
Record driver := Driver { d_objects : objects; d_requests : list request }.

(** One combiner: set_aggregate_params (combiners.py:126-133) and request_budget. *)
Definition set_up {V A O} (cls : nat -> custom V A O) (p : params) (d : driver) (a : nat) : driver :=
  let p' := without_custom p in
  let rs := cu_requests (cls a) p' in
  Driver (store a (Fields p' (seq (length (d_requests d)) (length rs))) (d_objects d)) (d_requests d ++ rs).

(** create_compound_combiner_with_custom_combiners: combiners.py:925-935. *)
Definition create_compound_with_custom {V A O} (cls : nat -> custom V A O) (p : params) (objs : list nat) (d : driver)
  : driver := fold_left (set_up cls p) objs d.

(** A call of DPEngine.aggregate: its parameters, whose custom_combiners are the objects
    [q_objects], the random choices of contribution bounding, the public partitions and
    the input. *)
Record query (U P V : Type) := Query {
  q_params : params;
  q_objects : list nat;
  q_sampling : sampling U P;
  q_public : option (list P);
  q_rows : list (U * P * V) }.
Arguments Query {U P V}. Arguments q_params {U P V}. Arguments q_objects {U P V}.
Arguments q_sampling {U P V}. Arguments q_public {U P V}. Arguments q_rows {U P V}.

(** The budget requests of a call: the combiners', then partition selection's
    (dp_engine.py:118-119, 183-184, 334-335).  The result is the driver and the number
    of the request of partition selection. *)
Definition build {U P V A O} (cls : nat -> custom V A O) (d : driver) (q : query U P V) : driver * nat :=
  let d1 := create_compound_with_custom cls (q_params q) (q_objects q) d in
  (if selects_privately (q_params q) (q_public q)
   then Driver (d_objects d1) (d_requests d1 ++ [selection_request]) else d1,
   length (d_requests d1)).

(** Several calls on the same engine. *)
Fixpoint build_all {U P V A O} (cls : nat -> custom V A O) (d : driver) (qs : list (query U P V)) : driver * list nat :=
  match qs with
  | [] => (d, [])
  | q :: qs' => let (d1, n) := build cls d q in let (d2, ns) := build_all cls d1 qs' in (d2, n :: ns)
  end.

(** ** Execution *)

(** The object as it is when the pipeline runs: collections are lazy, and the compound
    combiner refers to the objects. *)
Record ready (V A O : Type) := Ready {
  r_create : list V -> A;
  r_merge : A -> A -> A;
  r_compute : A -> O }.
Arguments Ready {V A O}. Arguments r_create {V A O}. Arguments r_merge {V A O}. Arguments r_compute {V A O}.
Definition make_ready {V A O} (c : custom V A O) (p : params) (bs : list (Q * Q)) : ready V A O :=
  Ready (cu_create c p) (cu_merge c p) (cu_compute c p bs).
(** [bs]: the budgets after compute_budgets, in the order of the requests.  An object
    without the fields raises AttributeError. *)
Definition read_object {V A O} (cls : nat -> custom V A O) (h : objects) (bs : list (Q * Q)) (a : nat) : result (ready V A O) :=
  match h a with
  | Some f => Ok (make_ready (cls a) (f_params f) (map (fun i => nth i bs (0, 0)%Q) (f_budgets f)))
  | None => Err AttributeError
  end.

(** CompoundCombiner.create_accumulator, merge_accumulators and compute_metrics with
    return_named_tuple=False: combiners.py:744-771. *)
Definition custom_create {V A O} (cs : list (ready V A O)) (vs : list V) : Z * list A :=
  (1%Z, map (fun c => r_create c vs) cs).
Definition custom_merge {V A O} (cs : list (ready V A O)) (a b : Z * list A) : Z * list A :=
  ((fst a + fst b)%Z, map (fun x => r_merge (fst x) (fst (snd x)) (snd (snd x))) (combine cs (combine (snd a) (snd b)))).
Definition custom_metrics {V A O} (cs : list (ready V A O)) (a : Z * list A) : list O :=
  map (fun x => r_compute (fst x) (snd x)) (combine cs (snd a)).

(** expects_per_partition_sampling: combiners.py:794-795. *)
Definition custom_expects {V A O} (cls : nat -> custom V A O) (objs : list nat) : bool :=
  existsb (fun a => cu_expects_sampling (cls a)) objs.

(** dp_engine.py:123-165: one accumulator per partition. *)
Definition custom_accumulators {U P V A O} `{EqDec U} `{EqDec P} (ex : bool) (cs : list (ready V A O)) (q : query U P V)
  : result (list (P * (Z * list A))) :=
  let p := q_params q in
  let rows := match q_public q with
              | Some pub => if public_partitions_already_filtered p then q_rows q else drop_partitions pub (q_rows q)
              | None => q_rows q
              end in
  rmap (fun col =>
          let col1 := match q_public q with
                      | Some (k :: ks) => add_empty_public_partitions col (k :: ks) (custom_create cs [])
                      | _ => col
                      end in
          combine_per_key (custom_merge cs) col1)
       (if contribution_bounds_already_enforced p
        then Ok (map (fun r => (snd (fst r), custom_create cs [snd r])) rows)
        else rmap (map (fun e => (snd (fst e), snd e)))
                  (bound_contributions p ex (q_sampling q) (custom_create cs) rows)).

(** dp_engine.py:167-187: for every partition the number of privacy ids given to
    should_keep (None without private partition selection), and the result of
    compute_metrics, which is computed only for the partitions that are kept. *)
Definition custom_result {U P V A O} `{EqDec U} `{EqDec P} (ex : bool) (cs : list (ready V A O)) (q : query U P V)
  : result (list (P * (option Z * list O))) :=
  rbind (custom_accumulators ex cs q) (fun col =>
    if selects_privately (q_params q) (q_public q) then
      match max_rows_per_privacy_id (q_params q) with
      | Some m => Ok (map (fun e => (fst e, (Some (divide_and_round_up (fst (snd e)) m), custom_metrics cs (snd e)))) col)
      | None => Err TypeError
      end
    else Ok (map (fun e => (fst e, (None, custom_metrics cs (snd e)))) col)).

(** The execution of a call, with the objects and the budgets as they are then. *)
Definition execute {U P V A O} `{EqDec U} `{EqDec P} (cls : nat -> custom V A O) (h : objects) (bs : list (Q * Q)) (q : query U P V)
  : result (list (P * (option Z * list O))) :=
  rbind (map_result (read_object cls h bs) (q_objects q)) (fun cs => custom_result (custom_expects cls (q_objects q)) cs q).
