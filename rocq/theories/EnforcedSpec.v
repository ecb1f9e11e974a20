(** Vocabulary for C69: contribution_bounds_already_enforced = True, where the library
    does not see the privacy ids and trusts the user to have bounded the contributions. *)
From Coq Require Import List ZArith QArith Qabs Bool Permutation.
From Verif Require Import Base BackendModel BackendSpec BounderSpec ParamsModel SensModel CombinerModel EngineModel EngineSpec.
Import ListNotations.

(** What the user promises: every privacy id has at most max_contributions rows; or it has
    rows in at most max_partitions_contributed partitions and in each of them at most
    max_contributions_per_partition rows. *)
Definition within_bounds {U P V} `{EqDec U} `{EqDec P} (p : params) (rows : list (U * P * V)) : Prop :=
  (forall m, max_contributions p = Some m -> forall u, (Z.of_nat (length (rows_of u rows)) <= m)%Z) /\
  (forall l0, max_partitions_contributed p = Some l0 -> forall u, (Z.of_nat (length (partitions_of u rows)) <= l0)%Z) /\
  (forall linf, max_contributions_per_partition p = Some linf ->
     forall u k, (Z.of_nat (length (values_of (u, k) rows)) <= linf)%Z).

(** The same parameters for a library that bounds the contributions itself. *)
Definition enforcing (p : params) : params :=
  Params (metrics p) (noise_kind p) (max_partitions_contributed p) (max_contributions_per_partition p)
    (max_contributions p) (budget_weight p) (min_value p) (max_value p)
    (min_sum_per_partition p) (max_sum_per_partition p) (custom_combiners p)
    (vector_norm_kind p) (vector_max_norm p) (vector_size p)
    false (public_partitions_already_filtered p)
    (partition_selection_strategy p) (pre_threshold p) (post_aggregation_thresholding p)
    (perform_cross_partition_contribution_bounding p).

(** A run in which the library trusts the user and the user keeps the promise. *)
Definition trusted_run {U P} `{EqDec U} `{EqDec P} (p : params) (cs : list combiner) (sm : sampling U P)
    (public : option (list P)) (rows : list (U * P * value)) (keys : list P) (col : list (P * cacc)) : Prop :=
  accepted p /\ create_compound_combiner p = Ok cs /\
  contribution_bounds_already_enforced p = true /\
  within_bounds p rows /\ NoDup keys /\
  raw_accumulators p cs sm public rows = Ok col.

(** The number of privacy ids that partition selection assumes to be in partition [k]:
    dp_engine.py:350-362. *)
Definition estimate {P} `{EqDec P} (p : params) (k : P) (col : list (P * cacc)) : Z :=
  match max_rows_per_privacy_id p with
  | Some m => divide_and_round_up (row_count k col) m
  | None => 0%Z
  end.

(** The values in the quantile tree of combiner [i] in partition [k]. *)
Definition tree_of (a : acc) : list Q := match a with ATree l => l | _ => [] end.
Definition raw_tree {P} `{EqDec P} (i : nat) (k : P) (col : list (P * cacc)) : list Q :=
  match find (fun e => eqb (fst e) k) col with
  | Some e => match nth_error (snd (snd e)) i with Some a => tree_of a | None => [] end
  | None => []
  end.

(** Removing a privacy id removes at most [linf] values from each of at most [l0] trees. *)
Definition tree_change {P} (l0 linf : Z) (keys : list P) (tree tree' : P -> list Q) : Prop :=
  exists extra : P -> list Q,
    (forall k, Permutation (tree k) (tree' k ++ extra k)) /\
    (forall k, (Z.of_nat (length (extra k)) <= linf)%Z) /\
    (Z.of_nat (length (filter (fun k => match extra k with [] => false | _ => true end) keys)) <= l0)%Z.
