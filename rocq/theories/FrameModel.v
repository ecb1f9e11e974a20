(** Model of Query.run_query of /repo/pipeline_dp/dataframes.py together with the engine and
    the accountant that it creates.  The conversions are in DataframeModel. *)
From Coq Require Import String List ZArith QArith Bool.
From Verif Require Import Base BackendModel ParamsModel SensModel CombinerModel EngineModel BudgetModel WrapperModel DataframeModel.
From Verif Require RecordModel.
Import ListNotations.

(** Budget.__post_init__: dataframes.py:27-34. *)
Definition new_budget (epsilon delta : Q) : result unit := validate_epsilon_delta epsilon delta.

(** The AggregateParams: dataframes.py:184-194. *)
Definition query_params {K} (q : query K) (nk : noise) : raw_params :=
  aggregate_params (map (fun m => agg_metric (fst m)) (q_metrics q))
    [KNoise nk; KL0 (option_map PInt (q_max_groups q)); KLinf (option_map PInt (q_max_contributions q));
     KMin (option_map Fin (q_min q)); KMax (option_map Fin (q_max q))].

(** The data extractors: dataframes.py:196-199; [number c] is the number in a cell. *)
Definition element_row {C} (number : C -> Q) (e : C * pkey C * C) : C * pkey C * value :=
  (fst (fst e), snd (fst e), Num (number (snd e))).

(** metrics._asdict(): dataframes.py:232. *)
Definition named {P} (out : list (P * list (mname * released))) : list (P * list (string * released)) :=
  map (fun pm => (fst pm, map (fun nv => (RecordModel.text (fst nv), snd nv)) (snd pm))) out.

(** dp_engine.aggregate: dataframes.py:201-205. *)
Definition query_engine {C} `{EqDec C} `{EqDec (pkey C)} (number : C -> Q) (nk : noise) (w : world C (pkey C))
    (q : query (pkey C)) (elements : list (C * pkey C * C)) : result (list (pkey C * list (string * released))) :=
  rbind (run_engine w (query_params q nk) (q_public q) (map (element_row number) elements)) (fun o => rmap named (snd o)).

(** The data frame returned by run_query, dataframes.py:167-244, when the randomness is [w]. *)
Definition query_frame {C} `{EqDec C} `{EqDec (pkey C)} (zero : C) (chars : C -> result (list C)) (number : C -> Q)
    (nk : noise) (q : query (pkey C)) (columns : list string) (rows : list (list C)) (w : world C (pkey C))
  : result (list string * list (list (out_cell C released))) :=
  run_query zero chars (query_engine number nk w) q columns rows.

(** The budgets (epsilon, delta) of the mechanisms, in the order of their requests:
    NaiveBudgetAccountant(epsilon, delta), the calls [ops] of the engine on it, and
    compute_budgets(); dataframes.py:180-183, 207. *)
Definition query_budgets (epsilon delta : Q) (ops : list op) : result (list (Q * Q)) :=
  rbind (new_accountant epsilon delta None None) (fun s0 =>
  rbind (map_result (fun r => r) (outs s0 ops)) (fun _ =>
  rbind (snd (step (run s0 ops) Compute)) (fun _ =>
  map_result (fun m => rbind (get_eps m) (fun e => rmap (pair e) (get_delta m)))
             (mechs (fst (step (run s0 ops) Compute)))))).
