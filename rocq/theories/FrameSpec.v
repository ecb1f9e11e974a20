(** Vocabulary for C78: DataFrame queries as random programs. *)
From Coq Require Import String List ZArith QArith Qreals Reals Bool Permutation.
From Verif Require Import Base BackendModel BackendSpec BounderSpec ParamsModel SensModel CombinerModel EngineModel EngineSpec
  BudgetModel BudgetSpec LaplaceSpec SelectModel SelectSpec WrapperModel DistSpec DpModel DpSpec PipelineSpec DataframeModel FrameModel.
Import ListNotations.
Local Open Scope R_scope.

#[export] Instance EqDec_pkey {C} `{EqDec C} : EqDec (pkey C).
Proof.
  intros [c|cs] [d|ds]; try (right; discriminate).
  - destruct (eq_dec c d) as [->|N]; [left; reflexivity | right; congruence].
  - destruct (eq_dec cs ds) as [->|N]; [left; reflexivity | right; congruence].
Defined.

Definition frame (C : Type) : Type := list string * list (list (out_cell C released)).

(** What is open in an execution of a query: the choices of contribution bounding; the
    groups that may be in the result; the limits on what PyDP may be asked (see
    [large_enough]). *)
Record setting (C : Type) := Setting {
  t_sampling : sampling C (pkey C);
  t_keys : list (pkey C);
  t_limits : nat * list Q * list (list Q * list Q) }.
Arguments Setting {C}. Arguments t_sampling {C}. Arguments t_keys {C}. Arguments t_limits {C}.

(** A query, its budget and kind of noise. *)
Record job (C : Type) := Job {
  j_query : query (pkey C);
  j_epsilon : Q;
  j_delta : Q;
  j_noise : noise;
  j_setting : setting C }.
Arguments Job {C}. Arguments j_query {C}. Arguments j_epsilon {C}. Arguments j_delta {C}. Arguments j_noise {C}. Arguments j_setting {C}.

(** The call of DPEngine.aggregate that the query makes, for the elements of the data frame. *)
Definition job_call {C} (number : C -> Q) (j : job C) (elements : list (C * pkey C * C)) : result (call C (pkey C)) :=
  rbind (post_init (query_params (j_query j) (j_noise j))) (fun p =>
  rmap (fun cs => Call p cs (t_sampling (j_setting j)) (q_public (j_query j)) (t_keys (j_setting j)) (map (element_row number) elements))
       (create_compound_combiner p)).

(** run_query as a random program: PyDP gets the budgets of the query's own accountant. *)
Definition run_job {C} `{EqDec C} (py : pydp) (zero : C) (chars : C -> result (list C)) (number : C -> Q)
    (columns : list string) (rows : list (list C)) (j : job C) : dist (result (frame C)) :=
  let q := j_query j in
  match rbind (to_collection zero q columns rows) (fun elements =>
        rbind (job_call number j elements) (fun c =>
        rmap (pair c) (query_budgets (j_epsilon j) (j_delta j) (aggregate_ops (c_params c) (c_public c) (c_combiners c))))) with
  | Err x => dret (Err x)
  | Ok (c, bs) =>
      let '(N, X, T) := t_limits (j_setting j) in
      let n := list_sum (map requests (c_combiners c)) in
      random_world py N X T c (Budgets (firstn n bs) (nth n bs (0, 0)%Q))
        (query_frame zero chars number (j_noise j) q columns rows)
  end.

(** Any queries on the same data frame, each with its own budget; which queries come next may
    depend on the frames that the earlier ones returned. *)
Inductive session (C : Type) :=
| Stop
| Ask (j : job C) (next : result (frame C) -> session C).
Arguments Stop {C}. Arguments Ask {C}.
Fixpoint run_session {C} `{EqDec C} (py : pydp) (zero : C) (chars : C -> result (list C)) (number : C -> Q)
    (columns : list string) (rows : list (list C)) (s : session C) : dist (list (result (frame C))) :=
  match s with
  | Stop => dret []
  | Ask j next => dbind (run_job py zero chars number columns rows j) (fun f =>
                  dbind (run_session py zero chars number columns rows (next f)) (fun fs => dret (f :: fs)))
  end.

(** The data frame without the rows of the privacy unit [u]. *)
Definition rows_without {C} `{EqDec C} (columns : list string) (privacy : string) (u : C) (rows : list (list C)) : list (list C) :=
  filter (fun row => match cell_at columns row privacy with Some c => negb (eqb c u) | None => true end) rows.

(** Frames with the same columns and rows; the order of the rows is not looked at (see
    C61_order_of_the_result_refuted), nor which of the rows raised the exception. *)
Definition same_frame {C} (f f' : result (frame C)) : Prop :=
  match f, f' with
  | Ok (fields, out), Ok (fields', out') => fields = fields' /\ Permutation out out'
  | Err _, Err _ => True
  | _, _ => False
  end.
Definition order_blind {C} (E : result (frame C) -> bool) : Prop := forall f f', same_frame f f' -> E f = E f'.

(** The query was made with QueryBuilder. *)
Definition built {C} (columns : list string) (privacy : string) (q : query (pkey C)) : Prop :=
  exists b0 calls b, new_builder columns privacy = Ok b0 /\ brun b0 calls = Ok b /\ build_query b = Ok q.

(** The query was made with QueryBuilder on this data frame, the budget is legal, the random
    choices are legal, and the setting is large enough. *)
Definition fit {C} `{EqDec C} (number : C -> Q) (zero : C) (columns : list string) (privacy : string) (rows : list (list C)) (u : C) (j : job C) : Prop :=
  let q := j_query j in
  let t := j_setting j in
  built columns privacy q /\ new_budget (j_epsilon j) (j_delta j) = Ok tt /\
  (forall l0, q_max_groups q = Some l0 -> valid_source (Z.to_nat l0) (ch_pid (t_sampling t))) /\
  (forall linf, q_max_contributions q = Some linf -> valid_source (Z.to_nat linf) (ch_pid_pk (t_sampling t))) /\
  NoDup (t_keys t) /\
  exists elements, to_collection zero q columns rows = Ok elements /\
  match q_public q with
  | Some pub => forall k, In k (t_keys t) <-> In k pub
  | None => incl (map (fun e => snd (fst e)) elements) (t_keys t)
  end /\
  let '(N, X, T) := t_limits t in
  forall c, job_call number j elements = Ok c -> large_enough N X T c /\ large_enough N X T (forget u c).

(** A session all of whose queries are fit, that does not look at the order of rows and
    whose budgets are at most ([e], [d]) in total whatever the queries return. *)
Inductive within {C} `{EqDec C} (number : C -> Q) (zero : C) (columns : list string) (privacy : string) (rows : list (list C)) (u : C)
  : session C -> Q -> Q -> Prop :=
| within_stop e d : (0 <= e)%Q -> (0 <= d)%Q -> within number zero columns privacy rows u Stop e d
| within_ask j next e d e' d' :
    fit number zero columns privacy rows u j ->
    (forall f f', same_frame f f' -> next f = next f') ->
    (forall f, within number zero columns privacy rows u (next f) e' d') ->
    (j_epsilon j + e' <= e)%Q -> (j_delta j + d' <= d)%Q ->
    within number zero columns privacy rows u (Ask j next) e d.
Definition orders_blind {C} (E : list (result (frame C)) -> bool) : Prop :=
  forall fs fs', Forall2 same_frame fs fs' -> E fs = E fs'.

(** The range of values of a query that asks for the metrics [ms]: AggregateParams wants
    min_value <= max_value; a sum of zeros and a mean of equal values have no sensitivity. *)
Definition good_range (ms : list agg) (lo hi : option Q) : Prop :=
  match lo, hi with
  | Some l, Some h => (l <= h)%Q /\ (In ASum ms -> ~ (l == 0 /\ h == 0))%Q /\ (In AMean ms -> (l < h)%Q)
  | None, None => forall m, In m ms -> m = ACount
  | _, _ => False
  end.
Definition strings_eqb (a b : list string) : bool := if list_eq_dec string_dec a b then true else false.
