(** What the caller of a private collection wrapper asks for, independent of the
    code of the wrappers. *)
From Coq Require Import List ZArith QArith Bool.
From Verif Require Import Base ParamsModel CombinerModel EngineModel BudgetModel WrapperModel.
Import ListNotations.

(** The aggregation parameters named by a request: every field of the caller's
    object at its place, everything else at the documented default. *)
Definition asked_params (ms : list metric) (nk : noise) (l0 linf : option pyint) (lo hi : option num)
    (weight : Q) (enforced : bool) (pre : option pyint) (custom : bool) : raw_params :=
  {| r_metrics := ms;
     r_noise_kind := nk;
     r_max_partitions_contributed := l0;
     r_max_contributions_per_partition := linf;
     r_max_contributions := None;
     r_budget_weight := weight;
     r_min_value := lo;
     r_max_value := hi;
     r_min_sum_per_partition := None;
     r_max_sum_per_partition := None;
     r_custom_combiners := custom;
     r_vector_norm_kind := None;
     r_vector_max_norm := None;
     r_vector_size := None;
     r_contribution_bounds_already_enforced := enforced;
     r_public_partitions_already_filtered := false;
     r_partition_selection_strategy := TruncatedGeometric;
     r_pre_threshold := pre;
     r_post_aggregation_thresholding := false;
     r_perform_cross_partition_contribution_bounding := true |}.

Definition asked_value {E P} (m : metric) (v : value_params E P) : raw_params :=
  asked_params [m] (v_noise_kind v) (v_max_partitions_contributed v)
    (v_max_contributions_per_partition v) (v_min_value v) (v_max_value v)
    (v_budget_weight v) (v_already_enforced v) (v_pre_threshold v) false.
Definition asked {E P} (c : request E P) : raw_params :=
  match c with
  | RVariance v => asked_value VARIANCE v
  | RMean v => asked_value MEAN v
  | RSum v => asked_value SUM v
  | RCount n =>
      asked_params [COUNT] (n_noise_kind n) (n_max_partitions_contributed n)
        (n_max_contributions_per_partition n) None None
        (n_budget_weight n) (n_already_enforced n) (n_pre_threshold n) false
  | RPidCount i =>
      asked_params [PRIVACY_ID_COUNT] (i_noise_kind i) (i_max_partitions_contributed i)
        (Some (PInt 1)) None None
        (i_budget_weight i) (i_already_enforced i) (i_pre_threshold i) false
  end.

Definition weight_of {E P} (c : request E P) : Q :=
  match c with
  | RVariance v | RMean v | RSum v => v_budget_weight v
  | RCount n => n_budget_weight n
  | RPidCount i => i_budget_weight i
  end.
Definition enforced_of {E P} (c : request E P) : bool :=
  match c with
  | RVariance v | RMean v | RSum v => v_already_enforced v
  | RCount n => n_already_enforced n
  | RPidCount i => i_already_enforced i
  end.
Definition pre_of {E P} (c : request E P) : option pyint :=
  match c with
  | RVariance v | RMean v | RSum v => v_pre_threshold v
  | RCount n => n_pre_threshold n
  | RPidCount i => i_pre_threshold i
  end.

(** The same request with other values of these three fields. *)
Definition with_fields {E P} (w : Q) (e : bool) (pre : option pyint) (c : request E P) : request E P :=
  let value v := ValueParams E P (v_max_partitions_contributed v) (v_max_contributions_per_partition v)
       (v_min_value v) (v_max_value v) (v_partition_extractor v) (v_value_extractor v)
       w (v_noise_kind v) e pre in
  match c with
  | RVariance v => RVariance (value v)
  | RMean v => RMean (value v)
  | RSum v => RSum (value v)
  | RCount n => RCount (CountParams E P (n_noise_kind n) (n_max_partitions_contributed n)
       (n_max_contributions_per_partition n) (n_partition_extractor n) w e pre)
  | RPidCount i => RPidCount (PidParams E P (i_noise_kind i) (i_max_partitions_contributed i)
       (i_partition_extractor i) w e pre)
  end.

Definition is_pid_count {E P} (c : request E P) : bool :=
  match c with RPidCount _ => true | _ => false end.

(** The engine run with exactly the asked parameters: one row (privacy id,
    partition, value) per element, the privacy id being absent when the caller
    promised that contribution bounds are enforced, then one number per
    partition. *)
Definition asked_row {U E P} (c : request E P) (x : U * E) : option U * P * value :=
  (if enforced_of c then None else Some (fst x),
   extract_partition c (snd x), extract_value c (snd x)).
Definition asked_run {U E P} `{EqDec U} `{EqDec P} (w : world (option U) P) (c : request E P)
    (public : option (list P)) (col : list (U * E)) : result (list op * result (list (P * released))) :=
  run_wrapper w (asked c) public (map (asked_row c) col) (field c).

(** CombinePerKey with exactly the asked parameters and public partitions. *)
Definition asked_combine {U P V A O} `{EqDec U} `{EqDec P} (w : world U P) (f : combine_fn V A O)
    (k : combine_params P) (col : list (U * (P * V))) : result (list op * result (list (P * O))) :=
  run_custom w
    (asked_params [] LaplaceNoise (k_max_partitions_contributed k) (k_max_contributions_per_partition k)
       None None (k_budget_weight k) false None true)
    f (k_public_partitions k) (map (fun x => (fst x, fst (snd x), snd (snd x))) col).

(** Elements and rows of one privacy id, and of all others. *)
Definition rows_of {U E} `{EqDec U} (u : U) (col : list (U * E)) : list (U * E) :=
  filter (fun x => eqb (fst x) u) col.
Definition rows_without {U E} `{EqDec U} (u : U) (col : list (U * E)) : list (U * E) :=
  filter (fun x => negb (eqb (fst x) u)) col.

(** What one element becomes: each map replaces it, each flat_map by all the
    elements that its function gives, in order. *)
Inductive becomes {U E O} : list (transform U E O) -> E -> list E -> Prop :=
| becomes_itself x : becomes [] x [x]
| becomes_map f ts x ys : becomes ts (f x) ys -> becomes (TMap f :: ts) x ys
| becomes_flat_map f ts x yss :
    Forall2 (becomes ts) (f x) yss -> becomes (TFlatMap f :: ts) x (concat yss).

(** A transformation that keeps the collection private. *)
Definition stays_private {U E O} (t : transform U E O) : Prop :=
  match t with TMap _ | TFlatMap _ => True | _ => False end.
