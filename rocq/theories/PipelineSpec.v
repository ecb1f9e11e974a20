(** Vocabulary for C74: pipelines over private collections, from the source data to the
    released numbers. *)
From Coq Require Import String List ZArith QArith Qreals Reals Bool.
From Verif Require Import Base BackendModel BackendSpec ParamsModel SensModel CombinerModel EngineModel EngineSpec EnforcedSpec
  BudgetModel BudgetSpec LaplaceSpec SelectModel SelectSpec WrapperModel WrapperSpec DistSpec DpModel DpSpec.
Import ListNotations.
Local Open Scope R_scope.

(** ** Pipelines *)

Inductive framework := Beam | Spark.

(** What is asked of a private collection: an aggregation, with public partitions or
    without, or its partitions. *)
Inductive query (E P : Type) :=
| AskMetric (c : request E P) (public : option (list P))
| AskPartitions (r : raw_select_params) (extractor : E -> P).
Arguments AskMetric {E P}. Arguments AskPartitions {E P}.

(** A private collection is made from the source by the transformations [k_steps]; the
    query [k_query] is asked of it.  [k_keys] lists the partitions that may be in the
    result, in any order.  [k_limits] bound what PyDP may be asked (see [large_enough]). *)
Record ask (U E P : Type) := Ask {
  k_steps : list (transform U E unit);
  k_query : query E P;
  k_sampling : sampling (option U) P;
  k_keys : list P;
  k_limits : nat * list Q * list (list Q * list Q) }.
Arguments Ask {U E P}. Arguments k_steps {U E P}. Arguments k_query {U E P}. Arguments k_sampling {U E P}.
Arguments k_keys {U E P}. Arguments k_limits {U E P}.

(** What comes back.  When a call raises an exception the program ends. *)
Inductive reply (P : Type) :=
| Metrics (o : result (list (option released) * list P))
| Partitions (shown : list bool) (others : list P)
| Raised (e : exn).
Arguments Metrics {P}. Arguments Partitions {P}. Arguments Raised {P}.

(** A query is made, and the program goes on depending on the reply. *)
Inductive pipeline (U E P : Type) :=
| Finish
| Query (k : ask U E P) (next : reply P -> pipeline U E P).
Arguments Finish {U E P}. Arguments Query {U E P}.

(** ** The calls *)

Definition wrapper_params {E P} (fw : framework) (c : request E P) : raw_params :=
  match fw with Beam => beam_params c | Spark => spark_params c end.
Definition wrapper_run {U E P} `{EqDec U} `{EqDec P} (fw : framework) (w : world (option U) P) (c : request E P)
    (public : option (list P)) (col : list (U * E)) : result (list op * result (list (P * released))) :=
  match fw with Beam => beam_run w c public col | Spark => spark_run w c public col end.
Definition wrapper_select_params (fw : framework) (r : raw_select_params) : raw_select_params :=
  match fw with Beam => r | Spark => spark_select_params r end.
(** The privacy ids of engine rows have type [option U], since an extractor may be
    absent; here it is present. *)
Definition wrapper_select {U E P} `{EqDec U} `{EqDec P} (fw : framework) (w : world (option U) P) (r : raw_select_params)
    (extractor : E -> P) (col : list (U * E)) : result (list op * list P) :=
  let rows := map (fun x => (Some (fst x), snd x)) col in
  match fw with Beam => beam_select w r extractor rows | Spark => spark_select w r extractor rows end.

(** The private collection: source | MakePrivate | steps. *)
Definition collection {U E} (extractor : E -> U) (source : list E) (steps : list (transform U E unit)) : list (U * E) :=
  match pipes (make_private extractor source) steps with Ok (Some (Private col)) => col | _ => [] end.

(** The calls that a query makes on the accountant, or the exception that it raises;
    they do not depend on the data nor on the randomness (C74_calls_do_not_depend_on_data). *)
Definition no_world {U P} : world (option U) P :=
  World _ _ (Sampling _ _ (fun _ _ => []) (fun _ _ => [])) (fun _ _ _ _ _ => false)
    (fun _ _ => Noises (fun x => x) (fun x => x) (fun x => x) (fun _ => None) (fun _ qs => map (fun _ => 0%Q) qs) (fun l => l)).
Definition ask_calls {U E P} `{EqDec U} `{EqDec P} (fw : framework) (k : ask U E P) : result (list op) :=
  match k_query k with
  | AskMetric c public => rmap fst (wrapper_run fw (no_world (U := U)) c public [])
  | AskPartitions r extractor => rmap fst (wrapper_select fw (no_world (U := U)) r extractor [])
  end.

(** The budget requests among the calls on the accountant. *)
Definition requested (ops : list op) : list (mech_type * Q * Z) :=
  flat_map (fun o => match o with Request t w c _ => [(t, w, c)] | _ => [] end) ops.

(** ** The random execution *)

(** The engine call behind an aggregation, every row with its privacy id. *)
Definition engine_call {U E P} (fw : framework) (k : ask U E P) (c : request E P) (public : option (list P))
    (col : list (U * E)) : result (call (option U) P) :=
  rbind (post_init (wrapper_params fw c)) (fun p =>
  rmap (fun cs => Call p cs (k_sampling k) public (k_keys k) (map (beam_row c) col)) (create_compound_combiner p)).

(** All the randomness of an engine call, distributed as in [run_call]. *)
Definition random_world {U P A} `{EqDec U} `{EqDec P} (py : pydp) (N : nat) (X : list Q) (T : list (list Q * list Q))
    (c : call U P) (b : budgets) (f : world U P -> A) : dist A :=
  let keys := c_keys c in
  let is := seq 0 (length (c_combiners c)) in
  dbind (random_function (fun kn : P * Z => should_keep py c b (snd kn)) false
           (if selects_privately (c_params c) (c_public c) then list_prod keys (counts N) else [])) (fun keep =>
  dbind (random_function (fun s : nat * quantity * P * Q => match s with (i, qt, k, x) => add_noise py c b i qt x end) 0%Q
           (list_prod (list_prod (list_prod is [QCount; QSum; QSquares]) keys) X)) (fun noise =>
  dbind (random_function (fun s : nat * P * Z => match s with (i, k, n) => threshold py c b i n end) None
           (list_prod (list_prod is keys) (counts N))) (fun noised =>
  dbind (random_function (fun s : nat * P * (list Q * list Q) => match s with (i, k, (l, qs)) => ask_tree py c b i l qs end) []
           (list_prod (list_prod is keys) T)) (fun answers =>
  dret (f (World _ _ (c_sampling c) (fun _ _ _ k n => keep (k, n))
       (fun k i => Noises (fun x => noise (i, QCount, k, x)) (fun x => noise (i, QSum, k, x)) (fun x => noise (i, QSquares, k, x))
                          (fun n => noised (i, k, n)) (fun l qs => answers (i, k, (l, qs))) (fun v => answers (i, k, (v, [])))))))))).

Definition run_ask {U E P} `{EqDec U} `{EqDec P} (py : pydp) (fw : framework) (extractor : E -> U) (source : list E)
    (k : ask U E P) (bs : list (Q * Q)) : dist (reply P) :=
  let col := collection extractor source (k_steps k) in
  let '(N, X, T) := k_limits k in
  match k_query k with
  | AskMetric c public =>
      match engine_call fw k c public col with
      | Ok call =>
          let n := list_sum (map requests (c_combiners call)) in
          random_world py N X T call (Budgets (firstn n bs) (nth n bs (0, 0)%Q)) (fun w =>
            Metrics (rmap (seen (k_keys k)) (rbind (wrapper_run fw w c public col) snd)))
      | Err e => dret (Raised e)
      end
  | AskPartitions r partition =>
      let r' := wrapper_select_params fw r in
      let keep n := match int_of (rs_max_partitions_contributed r') with
                    | Some l0 => py_keep py (select_partitions_selector (rs_strategy r') l0 (int_of (rs_pre_threshold r'))
                                              (fst (nth 0 bs (0, 0)%Q)) (snd (nth 0 bs (0, 0)%Q))) n
                    | None => 0
                    end in
      dbind (random_function (fun kn : P * Z => [(keep (snd kn), true); (1 - keep (snd kn), false)]) false
               (list_prod (k_keys k) (counts (length col)))) (fun answers =>
      dret (match wrapper_select fw (World _ _ (k_sampling k) (fun _ _ _ pk n => answers (pk, n)) (w_noise (no_world (U := U)))) r partition col with
            | Ok (_, out) => Partitions (shown (k_keys k) out) (filter (fun pk => negb (mem pk (k_keys k))) out)
            | Err e => Raised e
            end))
  end.

(** All the replies of an execution; [bs] are the budgets (epsilon, delta) of the
    requests in order. *)
Fixpoint run_pipeline {U E P} `{EqDec U} `{EqDec P} (py : pydp) (fw : framework) (extractor : E -> U) (source : list E)
    (g : pipeline U E P) (bs : list (Q * Q)) : dist (list (reply P)) :=
  match g with
  | Finish => dret []
  | Query k next =>
      match ask_calls fw k with
      | Err e => dret [Raised e]
      | Ok ops =>
          let n := length (requested ops) in
          dbind (run_ask py fw extractor source k (firstn n bs)) (fun a =>
          dbind (run_pipeline py fw extractor source (next a) (skipn n bs)) (fun rest => dret (a :: rest)))
      end
  end.

(** ** What is asked of the user *)

(** The source without the elements of privacy id [u]. *)
Definition source_without {U E} `{EqDec U} (extractor : E -> U) (u : U) (source : list E) : list E :=
  filter (fun x => negb (eqb (extractor x) u)) source.

(** Only Map and FlatMap are used before the query; the random choices are legal; the
    partitions in the result are the public ones, or are among [k_keys].  A variance needs a
    range whose squares are covered (see C17_variance_squares_refuted); with
    contribution_bounds_already_enforced the contributions must be within the bounds. *)
Definition honest_ask {U E P} `{EqDec U} `{EqDec P} (fw : framework) (extractor : E -> U) (source : list E) (u : U)
    (k : ask U E P) : Prop :=
  let col := collection extractor source (k_steps k) in
  let '(N, X, T) := k_limits k in
  Forall stays_private (k_steps k) /\ NoDup (k_keys k) /\
  match k_query k with
  | AskMetric c public =>
      match public with
      | Some pub => forall pk, In pk (k_keys k) <-> In pk pub
      | None => incl (map (fun x => extract_partition c (snd x)) col) (k_keys k)
      end /\
      (forall p, post_init (wrapper_params fw c) = Ok p ->
         valid_sampling p (k_sampling k) /\
         (In VARIANCE (metrics p) -> forall lo hi, min_value p = Some lo -> max_value p = Some hi -> range_covered lo hi) /\
         (contribution_bounds_already_enforced p = true -> within_bounds p (map (beam_row c) col))) /\
      (forall cl, engine_call fw k c public col = Ok cl -> large_enough N X T cl /\ large_enough N X T (forget (Some u) cl))
  | AskPartitions r partition =>
      incl (map (fun x => partition (snd x)) col) (k_keys k) /\
      (forall l0, int_of (rs_max_partitions_contributed (wrapper_select_params fw r)) = Some l0 ->
         valid_source (Z.to_nat l0) (ch_pid (k_sampling k)))
  end.

(** The replies that a query can have. *)
Definition possible_reply {U E P} (k : ask U E P) (a : reply P) : Prop :=
  match k_query k, a with
  | AskMetric _ _, Metrics (Ok (vs, [])) => length vs = length (k_keys k)
  | AskPartitions _ _, Partitions bs [] => length bs = length (k_keys k)
  | _, _ => False
  end.

(** No call raises an exception, the user keeps to the rules, and whatever the replies,
    the calls on the accountant are [ops] in this order. *)
Inductive honest {U E P} `{EqDec U} `{EqDec P} (fw : framework) (extractor : E -> U) (source : list E) (u : U)
  : pipeline U E P -> list op -> Prop :=
| honest_finish : honest fw extractor source u Finish []
| honest_query k next ops ops' :
    ask_calls fw k = Ok ops ->
    honest_ask fw extractor source u k ->
    (forall a, possible_reply k a -> honest fw extractor source u (next a) ops') ->
    honest fw extractor source u (Query k next) (ops ++ ops').

(** The replies [replies] of an execution: one for each query, of the right kind. *)
Inductive replies_to {U E P} : pipeline U E P -> list (reply P) -> Prop :=
| replies_finish : replies_to Finish []
| replies_query k next a rest : possible_reply k a -> replies_to (next a) rest -> replies_to (Query k next) (a :: rest).
