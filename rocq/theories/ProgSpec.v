(** Vocabulary for C63: programs that call the methods of DPEngine, where later calls
    may depend on what earlier calls released. *)
From Coq Require Import String List ZArith QArith Qabs Qreals Reals Bool Permutation.
From Verif Require Import Base BackendModel BackendSpec ParamsModel SensModel CombinerModel EngineModel EngineSpec
  BudgetModel BudgetSpec ExpMechModel LaplaceSpec SelectModel SelectSpec WrapperModel DistSpec DpModel DpSpec.
Import ListNotations.
Local Open Scope R_scope.

(** ** Calls *)

(** A call of DPEngine.select_partitions.  [s_keys] lists the partitions that may be in
    the result, in any order. *)
Record selection (U P : Type) := Selection {
  s_bound : Z;
  s_strategy : strategy;
  s_pre : option Z;
  s_choices : source U;
  s_keys : list P;
  s_rows : list (U * P) }.
Arguments Selection {U P}. Arguments s_bound {U P}. Arguments s_strategy {U P}. Arguments s_pre {U P}.
Arguments s_choices {U P}. Arguments s_keys {U P}. Arguments s_rows {U P}.

(** A call of DPEngine.add_dp_noise: the caller has computed a value for each of
    [a_keys] from the rows by [a_values]. *)
Record addition (U P : Type) := Addition {
  a_kind : noise;
  a_l0 : Z;
  a_linf : Q;
  a_weight : Q;
  a_keys : list P;
  a_values : list (U * P * value) -> list (P * Q);
  a_rows : list (U * P * value) }.
Arguments Addition {U P}. Arguments a_kind {U P}. Arguments a_l0 {U P}. Arguments a_linf {U P}. Arguments a_weight {U P}.
Arguments a_keys {U P}. Arguments a_values {U P}. Arguments a_rows {U P}.

(** A call of DPEngine.calculate_private_contribution_bounds; [p_sigma] are the standard
    deviations of PyDP's Gaussian mechanism. *)
Record bounding (U P : Type) := Bounding {
  p_params : bounds_params;
  p_sigma : Q -> Q -> R -> R;
  p_partitions : list P;
  p_filtered : bool;
  p_rows : list (U * P * Q) }.
Arguments Bounding {U P}. Arguments p_params {U P}. Arguments p_sigma {U P}. Arguments p_partitions {U P}.
Arguments p_filtered {U P}. Arguments p_rows {U P}.

(** [N], [X] and [T] bound what PyDP may be asked, see [large_enough]. *)
Inductive operation (U P : Type) :=
| Aggregate (c : call U P) (N : nat) (X : list Q) (T : list (list Q * list Q))
| SelectPartitions (s : selection U P)
| AddNoise (a : addition U P)
| ContributionBounds (b : bounding U P).
Arguments Aggregate {U P}. Arguments SelectPartitions {U P}. Arguments AddNoise {U P}. Arguments ContributionBounds {U P}.

(** The same call on the data without privacy id [u]. *)
Definition forget_op {U P} `{EqDec U} (u : U) (o : operation U P) : operation U P :=
  match o with
  | Aggregate c N X T => Aggregate (forget u c) N X T
  | SelectPartitions s =>
      SelectPartitions (Selection (s_bound s) (s_strategy s) (s_pre s) (s_choices s) (s_keys s)
                          (filter (fun r => negb (eqb (fst r) u)) (s_rows s)))
  | AddNoise a =>
      AddNoise (Addition (a_kind a) (a_l0 a) (a_linf a) (a_weight a) (a_keys a) (a_values a) (without u (a_rows a)))
  | ContributionBounds b =>
      ContributionBounds (Bounding (p_params b) (p_sigma b) (p_partitions b) (p_filtered b) (without u (p_rows b)))
  end.

(** ** Accepted calls *)

Definition valid_selection {U P} `{EqDec P} (s : selection U P) : Prop :=
  check_select_params true true (RawSelect (Some (PInt (s_bound s))) 1 (s_strategy s) (option_map PInt (s_pre s))) = Ok tt /\
  valid_source (Z.to_nat (s_bound s)) (s_choices s) /\ NoDup (s_keys s) /\ incl (map snd (s_rows s)) (s_keys s).

(** What add_dp_noise relies on (dp_engine.py:561-571): the keys are distinct and do not
    depend on the data, and without [u] at most [a_l0] values are different, each by at
    most [a_linf]. *)
Definition exact_at {P} `{EqDec P} (col : list (P * Q)) (k : P) : Q :=
  match find (fun e => eqb (fst e) k) col with Some e => snd e | None => 0%Q end.
Definition valid_addition {U P} `{EqDec U} `{EqDec P} (u : U) (a : addition U P) : Prop :=
  check_add_noise_params (a_l0 a) (a_linf a) (a_weight a) = Ok tt /\
  NoDup (a_keys a) /\
  let col := a_values a (a_rows a) in
  let col' := a_values a (without u (a_rows a)) in
  Permutation (map fst col) (a_keys a) /\ Permutation (map fst col') (a_keys a) /\
  (forall k, In k (a_keys a) -> (Qabs (exact_at col k - exact_at col' k) <= a_linf a)%Q) /\
  (Z.of_nat (length (filter (fun k => negb (Qeq_bool (exact_at col k) (exact_at col' k))) (a_keys a))) <= a_l0 a)%Z.

Definition valid_bounding {U P} (b : bounding U P) : Prop :=
  let p := p_params b in
  check_private_bounds_params (Some (aggregation_noise_kind p)) (aggregation_eps p) (aggregation_delta p)
    (calculation_eps p) (Some (PInt (max_partitions_contributed_upper_bound p))) = Ok tt /\
  p_partitions b <> [].

Definition valid_op {U P} `{EqDec U} `{EqDec P} (u : U) (o : operation U P) : Prop :=
  match o with
  | Aggregate c N X T => valid_call c /\ large_enough N X T c /\ large_enough N X T (forget u c)
  | SelectPartitions s => valid_selection s
  | AddNoise a => valid_addition u a
  | ContributionBounds b => valid_bounding b
  end.

(** ** Budgets *)

(** What a call requests from the accountant: dp_engine.py:334-335 and 573-574 (weight
    and count are the defaults of budget_accounting.py:333-339).
    calculate_private_contribution_bounds requests nothing. *)
Definition op_requests {U P} (o : operation U P) : list (mech_type * Q * Z) :=
  match o with
  | Aggregate c _ _ _ => call_requests c
  | SelectPartitions _ => [selection_request]
  | AddNoise a => [(mech_of (a_kind a), 1%Q, 1%Z)]
  | ContributionBounds _ => []
  end.
(** What it spends besides. *)
Definition op_extra {U P} (o : operation U P) : Q :=
  match o with ContributionBounds b => calculation_eps (p_params b) | _ => 0%Q end.

(** ** Releases *)
Inductive answer (P : Type) :=
| Aggregated (o : outcome P)
| Selected (shown : list bool) (others : list P)
| Noised (o : result (list (option Q) * list P))
| Bounded (o : result Z).
Arguments Aggregated {P}. Arguments Selected {P}. Arguments Noised {P}. Arguments Bounded {P}.

(** The answers that a call can give. *)
Definition possible {U P} (o : operation U P) (a : answer P) : Prop :=
  match o, a with
  | Aggregate c _ _ _, Aggregated (Ok (ms, [])) => length ms = length (c_keys c)
  | SelectPartitions s, Selected bs [] => length bs = length (s_keys s)
  | AddNoise x, Noised (Ok (vs, [])) => length vs = length (a_keys x) /\ Forall (fun v => v <> None) vs
  | ContributionBounds b, Bounded (Ok z) => (1 <= z <= max_partitions_contributed_upper_bound (p_params b))%Z
  | _, _ => False
  end.

(** One call, with the budgets [bs] (epsilon, delta) of its requests. *)
Definition run_selection {U P} `{EqDec U} `{EqDec P} (py : pydp) (s : selection U P) (eps delta : Q) : dist (answer P) :=
  let keep n := py_keep py (select_partitions_selector (s_strategy s) (s_bound s) (s_pre s) eps delta) n in
  dbind (random_function (fun kn : P * Z => [(keep (snd kn), true); (1 - keep (snd kn), false)]) false
           (list_prod (s_keys s) (counts (length (s_rows s))))) (fun answers =>
  let out := select_partitions (Z.to_nat (s_bound s)) (s_choices s) (fun k n => answers (k, n)) (s_rows s) in
  dret (Selected (shown (s_keys s) out) (filter (fun k => negb (mem k (s_keys s))) out))).

Definition run_addition {U P} `{EqDec P} (py : pydp) (a : addition U P) (eps delta : Q) : dist (answer P) :=
  match add_dp_noise (MSpec (a_kind a) None eps delta) (a_l0 a) (a_linf a) (fun m _ x => py_noise py m x) (a_values a (a_rows a)) with
  | Ok col => dbind (independent (fun e : P * dist Q => dbind (snd e) (fun y => dret (fst e, y))) col)
                    (fun out => dret (Noised (Ok (seen (a_keys a) out))))
  | Err ex => dret (Noised (Err ex))
  end.

Definition run_bounding {U P} `{EqDec U} `{EqDec P} (b : bounding U P) : dist (answer P) :=
  match calculate_private_contribution_bounds (p_sigma b) (p_params b) (p_partitions b) (p_filtered b) (p_rows b) with
  | Ok d => map (fun zp => (snd zp, Bounded (Ok (fst zp)))) d
  | Err ex => dret (Bounded (Err ex))
  end.

Definition run_op {U P} `{EqDec U} `{EqDec P} (py : pydp) (o : operation U P) (bs : list (Q * Q)) : dist (answer P) :=
  match o with
  | Aggregate c N X T =>
      let n := list_sum (map requests (c_combiners c)) in
      dbind (run_call py N X T c (Budgets (firstn n bs) (nth n bs (0, 0)%Q))) (fun r => dret (Aggregated r))
  | SelectPartitions s => run_selection py s (fst (nth 0 bs (0, 0)%Q)) (snd (nth 0 bs (0, 0)%Q))
  | AddNoise a => run_addition py a (fst (nth 0 bs (0, 0)%Q)) (snd (nth 0 bs (0, 0)%Q))
  | ContributionBounds b => run_bounding b
  end.

(** ** Programs *)

(** A program makes a call and goes on depending on the answer. *)
Inductive program (U P : Type) :=
| Done
| Then (o : operation U P) (next : answer P -> program U P).
Arguments Done {U P}. Arguments Then {U P}.

(** The same program on the data without privacy id [u]. *)
Fixpoint forget_program {U P} `{EqDec U} (u : U) (g : program U P) : program U P :=
  match g with
  | Done => Done
  | Then o next => Then (forget_op u o) (fun a => forget_program u (next a))
  end.

(** All the calls are accepted; whatever the answers, the requests are [rs] in this
    order, and at most [x] is spent besides. *)
Inductive well_formed {U P} `{EqDec U} `{EqDec P} (u : U) : program U P -> list (mech_type * Q * Z) -> Q -> Prop :=
| well_formed_done x : (0 <= x)%Q -> well_formed u Done [] x
| well_formed_then o next rs x x' : valid_op u o ->
    (forall a, possible o a -> well_formed u (next a) rs x) ->
    (op_extra o + x <= x')%Q ->
    well_formed u (Then o next) (op_requests o ++ rs) x'.

(** All the releases of an execution. *)
Fixpoint run_program {U P} `{EqDec U} `{EqDec P} (py : pydp) (g : program U P) (bs : list (Q * Q)) : dist (list (answer P)) :=
  match g with
  | Done => dret []
  | Then o next =>
      let n := length (op_requests o) in
      dbind (run_op py o (firstn n bs)) (fun a =>
      dbind (run_program py (next a) (skipn n bs)) (fun rest => dret (a :: rest)))
  end.

(** The answers [answers] of an execution: one for each call, of the right kind. *)
Inductive follows {U P} : program U P -> list (answer P) -> Prop :=
| follows_done : follows Done []
| follows_then o next a rest : possible o a -> follows (next a) rest -> follows (Then o next) (a :: rest).
