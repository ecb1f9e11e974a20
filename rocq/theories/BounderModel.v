(** Model of /repo/pipeline_dp/contribution_bounders.py.

    A row (privacy_id, partition_key, value) is the triple [(pid, pk, v)], i.e.
    [((pid, pk), v)].  [agg] is the aggregate_fn argument.  The bounds are the
    fields of AggregateParams read by the bounder; params validation makes them
    positive integers (see ParamsModel).  The report generator is not modelled
    here.  The bounders are written against the local backend's primitives; the
    relational variants ([..._any]) allow any result that a backend's sampling
    and grouping may return. *)
From Coq Require Import List ZArith Bool Permutation PeanoNat.
From Verif Require Import Base BackendModel.
Import ListNotations.

(** [lambda pid, pk, v: ((pid, pk), v)]: contribution_bounders.py:78, 213, 239. *)
Definition key_by_pid_pk {U P V} (rows : list (U * P * V)) : list ((U * P) * V) :=
  map (fun r => ((fst (fst r), snd (fst r)), snd r)) rows.

(** [lambda pid, pk, v: (pid, (pk, v))]: contribution_bounders.py:127, 171. *)
Definition key_by_pid {U P V} (rows : list (U * P * V)) : list (U * (P * V)) :=
  map (fun r => (fst (fst r), (snd (fst r), snd r))) rows.

(** rekey_by_privacy_id_and_unnest / rekey_per_privacy_id_per_partition_key:
    contribution_bounders.py:104-111, 140-150, 185-195. *)
Definition unnest {U P A} (col : list (U * list (P * A))) : list ((U * P) * A) :=
  flat_map (fun x => map (fun pv => ((fst x, fst pv), snd pv)) (snd x)) col.

(** collect_values_per_partition_key_per_privacy_id:
    contribution_bounders.py:249-276. *)
Definition collect_values {U P V} `{EqDec P} (col : list (U * list (P * V)))
  : list (U * list (P * list V)) :=
  map_values group_by_key col.

(** SamplingCrossAndPerPartitionContributionBounder.bound_contributions:
    contribution_bounders.py:72-111. *)
Definition bound_cross_and_per {U P V A} `{EqDec U} `{EqDec P}
    (ch1 : source (U * P)) (ch2 : source U) (l0 linf : nat) (agg : list V -> A)
    (rows : list (U * P * V)) : list ((U * P) * A) :=
  let c1 := sample_fixed_per_key ch1 linf (key_by_pid_pk rows) in
  let c2 := map_values agg c1 in
  let c3 := map (fun x => (fst (fst x), (snd (fst x), snd x))) c2 in
  let c4 := sample_fixed_per_key ch2 l0 c3 in
  unnest c4.

(** SamplingPerPrivacyIdContributionBounder.bound_contributions:
    contribution_bounders.py:122-156. *)
Definition bound_per_privacy_id {U P V A} `{EqDec U} `{EqDec P}
    (ch : source U) (m : nat) (agg : list V -> A)
    (rows : list (U * P * V)) : list ((U * P) * A) :=
  let c1 := sample_fixed_per_key ch m (key_by_pid rows) in
  let c2 := collect_values c1 in
  map_values agg (unnest c2).

(** SamplingCrossPartitionContributionBounder.bound_contributions:
    contribution_bounders.py:168-201. *)
Definition bound_cross_partition {U P V A} `{EqDec U} `{EqDec P}
    (ch : source U) (l0 : nat) (agg : list V -> A)
    (rows : list (U * P * V)) : list ((U * P) * A) :=
  let c1 := group_by_key (key_by_pid rows) in
  let c2 := collect_values c1 in
  let c3 := map (fun x => (fst x, choose (ch (fst x) (length (snd x))) l0 (snd x))) c2 in
  map_values agg (unnest c3).

(** LinfSampler.bound_contributions: contribution_bounders.py:212-230. *)
Definition bound_linf {U P V A} `{EqDec U} `{EqDec P}
    (ch : source (U * P)) (linf : nat) (agg : list V -> A)
    (rows : list (U * P * V)) : list ((U * P) * A) :=
  map_values agg (sample_fixed_per_key ch linf (key_by_pid_pk rows)).

(** NoOpSampler.bound_contributions: contribution_bounders.py:236-246. *)
Definition bound_noop {U P V A} `{EqDec U} `{EqDec P} (agg : list V -> A)
    (rows : list (U * P * V)) : list ((U * P) * A) :=
  map_values agg (group_by_key (key_by_pid_pk rows)).

(** ** The same bounders on an arbitrary backend

    [is_sample n col out]: [out] is a possible result of
    backend.sample_fixed_per_key(col, n) (documented in
    pipeline_backend.py:118-131, "Returns collection with elements (key,
    Iterable[value]), ... sampled n values"); [is_grouping col out]: of
    backend.group_by_key(col).  Properties of the concrete backends proving
    these contracts are C12 and the lemmas of BackendProofs. *)
Definition key_values {K V} `{EqDec K} (k : K) (col : list (K * V)) : list V :=
  map snd (filter (fun kv => eqb (fst kv) k) col).

Definition is_sample {K V} `{EqDec K} (n : nat) (col : list (K * V)) (out : list (K * list V)) : Prop :=
  NoDup (map fst out) /\
  (forall k, In k (map fst out) <-> In k (map fst col)) /\
  (forall k vs, In (k, vs) out ->
     length vs = Nat.min n (length (key_values k col)) /\ submset vs (key_values k col)).

Definition is_grouping {K V} `{EqDec K} (col : list (K * V)) (out : list (K * list V)) : Prop :=
  NoDup (map fst out) /\
  (forall k, In k (map fst out) <-> In k (map fst col)) /\
  (forall k vs, In (k, vs) out -> Permutation vs (key_values k col)).

(** contribution_bounders.py:72-111 on any backend. *)
Definition bound_cross_and_per_any {U P V A} `{EqDec U} `{EqDec P}
    (l0 linf : nat) (agg : list V -> A) (rows : list (U * P * V)) (out : list ((U * P) * A)) : Prop :=
  exists c1 c4,
    is_sample linf (key_by_pid_pk rows) c1 /\
    is_sample l0 (map (fun x => (fst (fst x), (snd (fst x), snd x))) (map_values agg c1)) c4 /\
    Permutation out (unnest c4).

(** contribution_bounders.py:122-156 on any backend. *)
Definition bound_per_privacy_id_any {U P V A} `{EqDec U} `{EqDec P}
    (m : nat) (agg : list V -> A) (rows : list (U * P * V)) (out : list ((U * P) * A)) : Prop :=
  exists c1, is_sample m (key_by_pid rows) c1 /\
             Permutation out (map_values agg (unnest (collect_values c1))).

(** contribution_bounders.py:168-201 on any backend; the sampling of partitions
    is sampling_utils.choose_from_list_without_replacement on every backend. *)
Definition bound_cross_partition_any {U P V A} `{EqDec U} `{EqDec P}
    (ch : source U) (l0 : nat) (agg : list V -> A)
    (rows : list (U * P * V)) (out : list ((U * P) * A)) : Prop :=
  exists c1, is_grouping (key_by_pid rows) c1 /\
    Permutation out (map_values agg (unnest
      (map (fun x => (fst x, choose (ch (fst x) (length (snd x))) l0 (snd x))) (collect_values c1)))).

(** contribution_bounders.py:212-230 on any backend. *)
Definition bound_linf_any {U P V A} `{EqDec U} `{EqDec P}
    (linf : nat) (agg : list V -> A) (rows : list (U * P * V)) (out : list ((U * P) * A)) : Prop :=
  exists c1, is_sample linf (key_by_pid_pk rows) c1 /\ Permutation out (map_values agg c1).
