(** Specification vocabulary for the engine: neighbouring datasets, raw
    (not yet noised) results and the distances that noise is calibrated to. *)
From Coq Require Import List ZArith QArith Qabs Bool.
From Verif Require Import Base BackendModel BackendSpec BounderSpec ParamsModel SensModel CombinerModel EngineModel.
Import ListNotations.
Local Open Scope Q_scope.

(** The dataset without the rows of privacy id [u]. *)
Definition without {U P V} `{EqDec U} (u : U) (rows : list (U * P * V)) : list (U * P * V) :=
  filter (fun r => negb (eqb (fst (fst r)) u)) rows.

(** The quantities in an accumulator that noise is added to. *)
Definition count_of (a : acc) : Q :=
  match a with AInt z => inject_Z z | AMean n _ => inject_Z n | AVar n _ _ => inject_Z n | _ => 0 end.
Definition sum_of (a : acc) : Q :=
  match a with AFloat q => q | AMean _ s => s | AVar _ s _ => s | _ => 0 end.
Definition squares_of (a : acc) : Q :=
  match a with AVar _ _ q => q | _ => 0 end.

Definition quantity_of (q : quantity) : acc -> Q :=
  match q with QCount => count_of | QSum => sum_of | QSquares => squares_of end.

(** Parameters accepted by AggregateParams. *)
Definition accepted (p : params) : Prop := exists r, post_init r = Ok p.

(** Quantity [f] of combiner number [i] in partition [k]; 0 if there is no such
    partition. *)
Definition raw_value {P} `{EqDec P} (f : acc -> Q) (i : nat) (k : P) (col : list (P * cacc)) : Q :=
  match find (fun e => eqb (fst e) k) col with
  | Some e => match nth_error (snd (snd e)) i with Some a => f a | None => 0 end
  | None => 0
  end.

(** Distances between two results over the partitions [keys]. *)
Definition changed {P} (keys : list P) (d : P -> Q) : nat :=
  length (filter (fun k => negb (Qeq_bool (d k) 0)) keys).
Definition l1_norm {P} (keys : list P) (d : P -> Q) : Q := sumQ (map (fun k => Qabs (d k)) keys).
Definition l2sq_norm {P} (keys : list P) (d : P -> Q) : Q := sumQ (map (fun k => d k * d k) keys).

(** [d] respects the sensitivities [s]; L1 and L2 must be known (they calibrate
    Laplace and Gaussian noise). *)
Definition respects {P} (s : sens) (keys : list P) (d : P -> Q) : Prop :=
  (forall l0, s_l0 s = Some l0 -> (Z.of_nat (changed keys d) <= l0)%Z) /\
  (forall linf, s_linf s = Some linf -> forall k, In k keys -> Qabs (d k) <= linf) /\
  (exists l1, s_l1 s = Some l1 /\ l1_norm keys d <= l1) /\
  (exists l2sq, s_l2sq s = Some l2sq /\ l2sq_norm keys d <= l2sq).

(** The mechanism asked from PyDP covers the change [d]. *)
Definition covers {P} (m : mechanism) (keys : list P) (d : P -> Q) : Prop :=
  match m with
  | Laplace _ l1 | LaplaceStd _ l1 => l1_norm keys d <= l1
  | Gaussian _ _ l2sq | GaussianStd _ l2sq => l2sq_norm keys d <= l2sq
  end.

(** The random choices are draws of the right size without replacement. *)
Definition valid_sampling {U P} (p : params) (sm : sampling U P) : Prop :=
  match max_contributions p with
  | Some m => valid_source (Z.to_nat m) (ch_pid sm)
  | None =>
      (forall l0, max_partitions_contributed p = Some l0 -> valid_source (Z.to_nat l0) (ch_pid sm)) /\
      (forall linf, max_contributions_per_partition p = Some linf ->
         valid_source (Z.to_nat linf) (ch_pid_pk sm))
  end.

(** When the user switches cross-partition bounding off, they promise that each
    privacy id is in at most max_partitions_contributed partitions. *)
Definition promised {U P V} `{EqDec U} `{EqDec P} (p : params) (rows : list (U * P * V)) : Prop :=
  perform_cross_partition_contribution_bounding p = false ->
  forall u l0, max_partitions_contributed p = Some l0 ->
    (Z.of_nat (length (partitions_of u rows)) <= l0)%Z.

(** A run of the aggregation up to the raw accumulators: accepted parameters,
    contribution bounding performed by the library, [keys] a list of distinct
    partitions over which distances are measured. *)
Definition standard_run {U P} `{EqDec U} `{EqDec P} (p : params) (cs : list combiner) (sm : sampling U P)
    (public : option (list P)) (rows : list (U * P * value)) (keys : list P) (col : list (P * cacc)) : Prop :=
  accepted p /\ create_compound_combiner p = Ok cs /\
  contribution_bounds_already_enforced p = false /\
  valid_sampling p sm /\ promised p rows /\ NoDup keys /\
  raw_accumulators p cs sm public rows = Ok col.

(** Without privacy id [u] the run succeeds as well; quantity [qt] of combiner
    [i] = [c] changes within the sensitivities [s], which are the ones given to
    its noise mechanism; whatever the noise kind and the budget, the mechanism is
    created and covers the change. *)
Definition calibrated {U P} `{EqDec U} `{EqDec P} (p : params) (cs : list combiner) (sm : sampling U P)
    (public : option (list P)) (rows : list (U * P * value)) (keys : list P) (col : list (P * cacc))
    (u : U) (i : nat) (c : combiner) (qt : quantity) (s : sens) : Prop :=
  exists col',
    raw_accumulators p cs sm public (without u rows) = Ok col' /\
    let d := fun k => raw_value (quantity_of qt) i k col - raw_value (quantity_of qt) i k col' in
    In (qt, Ok s) (noise_plan p c) /\
    respects s keys d /\
    (forall sp, exists m, create_additive_mechanism sp s = Ok m /\ covers m keys d).

(** The number of privacy ids seen by partition selection in partition [k]. *)
Definition row_count {P} `{EqDec P} (k : P) (col : list (P * cacc)) : Z :=
  match find (fun e => eqb (fst e) k) col with Some e => fst (snd e) | None => 0%Z end.

(** The distinct privacy ids with rows in partition [k]. *)
Definition ids_of {U P V} `{EqDec U} `{EqDec P} (k : P) (rows : list (U * P * V)) : list U :=
  distinct (map (fun r => fst (fst r)) (filter (fun r => eqb (snd (fst r)) k) rows)).

(** The distinct partitions of privacy id [u] and privacy ids of partition [k] in
    a collection of (privacy id, partition) pairs. *)
Definition pairs_partitions {U P} `{EqDec U} `{EqDec P} (u : U) (rows : list (U * P)) : list P :=
  distinct (map snd (filter (fun r => eqb (fst r) u) rows)).
Definition pairs_ids {U P} `{EqDec U} `{EqDec P} (k : P) (rows : list (U * P)) : list U :=
  distinct (map fst (filter (fun r => eqb (snd r) k) rows)).
