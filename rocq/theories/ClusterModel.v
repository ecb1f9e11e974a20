(** Model of the runs of DPEngine.aggregate and DPEngine.select_partitions on the
    distributed backends: BeamBackend (/repo/pipeline_dp/pipeline_backend.py:222-374) and
    SparkRDDBackend (pipeline_backend.py:377-474).

    A PCollection or an RDD has no order, what a stage does with an element of it may
    happen on any worker and accumulators are merged in whatever order the framework
    chooses.  So a stage is a relation between its input and what it may return; every
    collection is a list of which only the elements matter, hence the [Permutation] in
    each stage.  Rows are already extracted, as in EngineModel.  The functions of the
    user and of the library that run inside of one element (collect_values, the
    accumulators, the metrics) are the ones of EngineModel, BounderModel and
    CombinerModel.  Not modelled: retries of failed bundles, pickling. *)
From Coq Require Import List ZArith QArith Bool Permutation PeanoNat.
From Verif Require Import Base BackendModel BackendSpec BounderModel ParamsModel SensModel CombinerModel EngineModel.
Import ListNotations.

Inductive cluster := Beam | Spark.

(** ** The stages *)

(** map, map_tuple, map_values, flat_map, filter, keys, values: pipeline_backend.py:240-279,
    322-326, 387-423, 440-444 ([col'] is [f] applied to the elements of [col]). *)
Definition stage {A} (out col' : list A) : Prop := Permutation out col'.

(** sample_fixed_per_key.  Beam, pipeline_backend.py:328-330: combiners.Sample.FixedSizePerKey,
    Beam's own, only its documented result is used.  Spark, pipeline_backend.py:446-449. *)
Definition sampled_on {K V} `{EqDec K} (b : cluster) (n : nat) (col : list (K * V)) (out : list (K * list V)) : Prop :=
  match b with
  | Beam => is_sample n col out
  | Spark => exists plan : list (K * stree V),
      NoDup (map fst plan) /\
      (forall k, In k (map fst plan) <-> In k (map fst col)) /\
      (forall k t, In (k, t) plan -> valid_stree n t /\ Permutation (sleaves t) (values_of k col)) /\
      out = map (fun kt => (fst kt, spark_sample (snd kt))) plan
  end.

(** group_by_key: beam.GroupByKey and rdd.groupByKey, pipeline_backend.py:264-276, 408-420. *)
Definition grouped_on {K V} `{EqDec K} (col : list (K * V)) (out : list (K * list V)) : Prop :=
  is_grouping col out.

(** combine_accumulators_per_key: pipeline_backend.py:339-352, 457-462.  [truthy] is
    Python's truth value of an accumulator ([if res:]). *)
Definition combined_on {K A} `{EqDec K} (b : cluster) (truthy : A -> bool) (merge : A -> A -> A)
    (col out : list (K * A)) : Prop :=
  match b with
  | Beam => exists plan, beam_plan col plan /\
      map (fun ka => (fst ka, Some (snd ka))) out = map (fun ke => (fst ke, beam_eval truthy merge (snd ke))) plan
  | Spark => exists plan, reduce_plan col plan /\ out = spark_by_key (reduce_tree merge) plan
  end.

(** Public partitions: a Python list or set, or a PCollection / an RDD. *)
Inductive partition_set (P : Type) := InMemory (l : list P) | Collection (l : list P).
Arguments InMemory {P}. Arguments Collection {P}.
Definition set_keys {P} (s : partition_set P) : list P := match s with InMemory l | Collection l => l end.
(** [if public_partitions:] (dp_engine.py:157); a PCollection or an RDD is always true. *)
Definition is_truthy {P} (s : partition_set P) : bool :=
  match s with InMemory [] => false | _ => true end.

(** filter_by_key: pipeline_backend.py:281-320, 425-438. *)
Definition filtered_on {K V} `{EqDec K} (b : cluster) (s : partition_set K) (col out : list (K * V)) : Prop :=
  match b, s with
  | Beam, InMemory l => stage out (beam_filter_in_memory col l)
  | Beam, Collection l => stage out (beam_filter_join col l)
  | Spark, InMemory l => stage out (spark_filter_in_memory col l)
  | Spark, Collection l => stage out (spark_filter_rdd col l)
  end.

(** ** Contribution bounding: contribution_bounders.py:72-246, the choice of the bounder
    dp_engine.py:382-402.  Without a needed bound the stage raises: no result. *)
Definition bounded_on {U P V A} `{EqDec U} `{EqDec P} (b : cluster)
    (p : params) (expects_sampling : bool) (agg : list V -> A)
    (rows : list (U * P * V)) (out : list ((U * P) * A)) : Prop :=
  match max_contributions p with
  | Some m => m <> 0%Z /\ exists c1,
      sampled_on b (Z.to_nat m) (key_by_pid rows) c1 /\
      stage out (map_values agg (unnest (collect_values c1)))
  | None =>
    if perform_cross_partition_contribution_bounding p then
      if expects_sampling then
        match max_partitions_contributed p, max_contributions_per_partition p with
        | Some l0, Some linf => exists c1 c3 c4,
            sampled_on b (Z.to_nat linf) (key_by_pid_pk rows) c1 /\
            stage c3 (map (fun x => (fst (fst x), (snd (fst x), snd x))) (map_values agg c1)) /\
            sampled_on b (Z.to_nat l0) c3 c4 /\
            stage out (unnest c4)
        | _, _ => False
        end
      else match max_partitions_contributed p with
           | Some l0 => exists c1 draws,
               grouped_on (key_by_pid rows) c1 /\
               valid_source (Z.to_nat l0) draws /\
               stage out (map_values agg (unnest
                 (map (fun x => (fst x, choose (draws (fst x) (length (snd x))) (Z.to_nat l0) (snd x)))
                      (collect_values c1))))
           | None => False
           end
    else if expects_sampling then
      match max_contributions_per_partition p with
      | Some linf => exists c1,
          sampled_on b (Z.to_nat linf) (key_by_pid_pk rows) c1 /\ stage out (map_values agg c1)
      | None => False
      end
    else exists c1, grouped_on (key_by_pid_pk rows) c1 /\ stage out (map_values agg c1)
  end.

(** ** DPEngine._aggregate: dp_engine.py:109-189; the stages in their order.  [sk k n] is
    the answer of selector.should_keep(n) for partition [k] and [nz k i] the randomness of
    combiner [i] in partition [k]. *)
Definition prepared_on {U P V} `{EqDec P} (b : cluster) (p : params) (public : option (partition_set P))
    (rows rows1 : list (U * P * V)) : Prop :=
  match public with
  | Some s => if public_partitions_already_filtered p then rows1 = rows
              else exists kept, filtered_on b s (map (fun r => (snd (fst r), r)) rows) kept /\ stage rows1 (map snd kept)
  | None => rows1 = rows
  end.
Definition contributed_on {U P} `{EqDec U} `{EqDec P} (b : cluster) (p : params) (cs : list combiner)
    (rows1 : list (U * P * value)) (col : list (P * cacc)) : Prop :=
  if contribution_bounds_already_enforced p
  then stage col (map (fun r => (snd (fst r), compound_create cs [snd r])) rows1)
  else exists out, bounded_on b p (compound_expects_sampling cs) (compound_create cs) rows1 out /\
                   stage col (map (fun e => (snd (fst e), snd e)) out).
Definition with_empty_on {P} (cs : list combiner) (public : option (partition_set P)) (col col1 : list (P * cacc)) : Prop :=
  match public with
  | Some s => if is_truthy s then stage col1 (col ++ map (fun k => (k, compound_create cs [])) (set_keys s))
              else col1 = col
  | None => col1 = col
  end.
Definition chosen_on {P} (p : params) (sk : P -> Z -> bool) (public : option (partition_set P))
    (accs sel : list (P * cacc)) : Prop :=
  if selects_privately p (option_map set_keys public) then
    exists m, max_rows_per_privacy_id p = Some m /\ stage sel (select_private_partitions m sk accs)
  else sel = accs.
Definition released_on {P} (p : params) (cs : list combiner) (nz : P -> nat -> noises)
    (sel : list (P * cacc)) (out : list (P * list (mname * released))) : Prop :=
  exists mets,
    map_result (fun row => rmap (pair (fst row)) (compound_metrics (nz (fst row)) cs (snd row))) sel = Ok mets /\
    stage out (if post_aggregation_thresholding p then filter (fun row => above_threshold (snd row)) mets else mets).

Definition aggregate_on {U P} `{EqDec U} `{EqDec P} (b : cluster)
    (p : params) (sk : P -> Z -> bool) (nz : P -> nat -> noises)
    (public : option (partition_set P)) (rows : list (U * P * value))
    (out : list (P * list (mname * released))) : Prop :=
  exists cs rows1 col col1 accs sel,
    create_compound_combiner p = Ok cs /\
    prepared_on b p public rows rows1 /\
    contributed_on b p cs rows1 col /\
    with_empty_on cs public col col1 /\
    combined_on b (fun _ => true) (compound_merge cs) col1 accs /\
    chosen_on p sk public accs sel /\
    released_on p cs nz sel out.

(** ** DPEngine._select_partitions: dp_engine.py:236-290.  [unique u] is [list(set(pks))],
    in the order in which Python lists the set. *)
Definition select_partitions_on {U P} `{EqDec U} `{EqDec P} (b : cluster)
    (l0 : nat) (sk : P -> Z -> bool) (rows : list (U * P)) (out : list P) : Prop :=
  exists grouped (unique : U -> list P) draws col accs,
    grouped_on rows grouped /\
    (forall u pks, In (u, pks) grouped -> NoDup (unique u) /\ (forall k, In k (unique u) <-> In k pks)) /\
    valid_source l0 draws /\
    stage col (map (fun x => (snd x, compound_create [] []))
      (flat_map (fun x => map (fun k => (fst x, k)) (choose (draws (fst x) (length (unique (fst x)))) l0 (unique (fst x)))) grouped)) /\
    combined_on b (fun _ => true) (compound_merge []) col accs /\
    stage out (map fst (select_private_partitions 1 sk accs)).
