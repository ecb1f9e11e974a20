(** Model of the collection primitives of pipeline_dp/pipeline_backend.py.

    Collections are lists.  The local backend is modelled operation by
    operation.  Spark and Beam are modelled as far as PipelineDP's own code
    goes: the lambda functions handed to [reduceByKey] / [CombinePerKey] are
    modelled exactly; the engine's freedom (in which order and tree shape it
    applies them) is an explicit argument.  Laziness and stage names are not
    modelled in this file. *)
From Coq Require Import List ZArith Bool Permutation PeanoNat.
From Verif Require Import Base.
Import ListNotations.

(** ** Local backend *)

(** The step [d[key].append(value)] of a [defaultdict(list)] kept in insertion
    order.  /repo/pipeline_dp/pipeline_backend.py:503-511 (also
    /repo/pipeline_dp/contribution_bounders.py:268-272). *)
Fixpoint dict_append {K V} `{EqDec K} (k : K) (v : V) (d : list (K * list V))
  : list (K * list V) :=
  match d with
  | [] => [(k, [v])]
  | (k', vs) :: d' =>
      if eq_dec k k' then (k', vs ++ [v]) :: d' else (k', vs) :: dict_append k v d'
  end.

(** LocalBackend.group_by_key: pipeline_backend.py:503-511. *)
Definition group_by_key {K V} `{EqDec K} (col : list (K * V)) : list (K * list V) :=
  fold_left (fun d kv => dict_append (fst kv) (snd kv) d) col [].

(** LocalBackend.map_values: pipeline_backend.py:500-501. *)
Definition map_values {K V W} (f : V -> W) (col : list (K * V)) : list (K * W) :=
  map (fun kv => (fst kv, f (snd kv))) col.

(** LocalBackend.flat_map / map_tuple / filter are [flat_map] / [map] /
    [filter] of the standard library: pipeline_backend.py:494-498, 513-514. *)

(** Membership test [x in container] of Python lists and sets. *)
Definition mem {A} `{EqDec A} (x : A) (l : list A) : bool :=
  existsb (fun y => eqb x y) l.

(** LocalBackend.filter_by_key: pipeline_backend.py:516-522. *)
Definition filter_by_key {K V} `{EqDec K} (col : list (K * V)) (keys : list K)
  : list (K * V) :=
  filter (fun kv => mem (fst kv) keys) col.

(** [[values[i] for i in idx]].  An index out of range cannot occur for indices
    drawn from [range(len(values))]; it is dropped here. *)
Definition pick {V} (idx : list nat) (vs : list V) : list V :=
  flat_map (fun i => match nth_error vs i with Some v => [v] | None => [] end) idx.

(** The body shared by LocalBackend.sample_fixed_per_key
    (pipeline_backend.py:531-546, `if len(values) > n`) and
    sampling_utils.choose_from_list_without_replacement
    (/repo/pipeline_dp/sampling_utils.py:19-29, `if len(a) <= size`): [idx] is
    what [np.random.choice(range(len), n, replace=False)] returned. *)
Definition choose {V} (idx : list nat) (n : nat) (vs : list V) : list V :=
  if n <? length vs then pick idx vs else vs.

(** A random source: the index list drawn for a key [k] whose group has [m]
    elements. *)
Definition source (K : Type) := K -> nat -> list nat.

(** LocalBackend.sample_fixed_per_key: pipeline_backend.py:531-546. *)
Definition sample_fixed_per_key {K V} `{EqDec K} (ch : source K) (n : nat)
    (col : list (K * V)) : list (K * list V) :=
  map (fun kvs => (fst kvs, choose (ch (fst kvs) (length (snd kvs))) n (snd kvs)))
      (group_by_key col).

(** LocalBackend.combine_accumulators_per_key / reduce_per_key:
    [functools.reduce(merge, accumulators)] for each group.
    pipeline_backend.py:555-570.  Groups are never empty, so the case in which
    functools.reduce raises cannot occur; it contributes nothing here. *)
Definition combine_per_key {K A} `{EqDec K} (merge : A -> A -> A) (col : list (K * A))
  : list (K * A) :=
  flat_map (fun kvs => match snd kvs with
                       | [] => []
                       | a :: rest => [(fst kvs, fold_left merge rest a)]
                       end) (group_by_key col).

(** LocalBackend.sum_per_key: pipeline_backend.py:552-553. *)
Definition sum_per_key {K} `{EqDec K} (col : list (K * Z)) : list (K * Z) :=
  map_values sumZ (group_by_key col).

(** collections.Counter(col).items(): pipeline_backend.py:549-550. *)
Definition count_per_element {A} `{EqDec A} (col : list A) : list (A * Z) :=
  map_values sumZ (group_by_key (map (fun x => (x, 1%Z)) col)).

(** [set(col)]: pipeline_backend.py:575-581, dp_engine.py:237 etc.  The
    iteration order of a Python set is arbitrary; here first occurrence. *)
Fixpoint distinct_from {A} `{EqDec A} (seen : list A) (l : list A) : list A :=
  match l with
  | [] => []
  | x :: l' => if mem x seen then distinct_from seen l'
               else x :: distinct_from (x :: seen) l'
  end.
Definition distinct {A} `{EqDec A} (l : list A) : list A := distinct_from [] l.

(** ** Spark *)

(** An order in which [reduceByKey] combines the values of one key. *)
Inductive tree (A : Type) :=
| Leaf (a : A)
| Node (l r : tree A).
Arguments Leaf {A} a.
Arguments Node {A} l r.

Fixpoint leaves {A} (t : tree A) : list A :=
  match t with Leaf a => [a] | Node l r => leaves l ++ leaves r end.

(** [reduceByKey(f)] of one key along a tree:
    SparkRDDBackend.combine_accumulators_per_key, sum_per_key, reduce_per_key,
    pipeline_backend.py:451-465. *)
Fixpoint reduce_tree {A} (f : A -> A -> A) (t : tree A) : A :=
  match t with Leaf a => a | Node l r => f (reduce_tree f l) (reduce_tree f r) end.

(** The same with a random outcome at every inner node. *)
Inductive stree (A : Type) :=
| SLeaf (a : A)
| SNode (idx : list nat) (l r : stree A).
Arguments SLeaf {A} a.
Arguments SNode {A} idx l r.

Fixpoint sleaves {A} (t : stree A) : list A :=
  match t with SLeaf a => [a] | SNode _ l r => sleaves l ++ sleaves r end.

(** SparkRDDBackend.sample_fixed_per_key for one key:
    [mapValues(lambda x: [x]).reduceByKey(lambda x, y: random.sample(x + y,
    min(len(x) + len(y), n)))], pipeline_backend.py:446-449; [idx] are the
    positions drawn by random.sample at that node. *)
Fixpoint spark_sample {A} (t : stree A) : list A :=
  match t with
  | SLeaf a => [a]
  | SNode idx l r => pick idx (spark_sample l ++ spark_sample r)
  end.

(** A keyed reduce: for every key the tree the engine used.
    [spark_by_key] is the result collection for a list of (key, tree). *)
Definition spark_by_key {K A B} (f : tree A -> B) (plan : list (K * tree A)) : list (K * B) :=
  map (fun kt => (fst kt, f (snd kt))) plan.

(** SparkRDDBackend.filter_by_key, in-memory keys: pipeline_backend.py:430-434. *)
Definition spark_filter_in_memory {K V} `{EqDec K} (col : list (K * V)) (keys : list K)
  : list (K * V) :=
  filter (fun kv => mem (fst kv) (distinct keys)) col.

(** SparkRDDBackend.filter_by_key, RDD of keys:
    [rdd.join(keys.map(lambda x: (x, None))).map(lambda x: (x[0], x[1][0]))],
    pipeline_backend.py:436-438.  [join] is the relational inner join (Spark
    documentation): one output pair per pair of matching rows. *)
Definition join {K V W} `{EqDec K} (a : list (K * V)) (b : list (K * W)) : list (K * (V * W)) :=
  flat_map (fun kv => flat_map (fun kw =>
      if eq_dec (fst kv) (fst kw) then [(fst kv, (snd kv, snd kw))] else []) b) a.
Definition spark_filter_rdd {K V} `{EqDec K} (col : list (K * V)) (keys : list K)
  : list (K * V) :=
  map (fun x => (fst x, fst (snd x))) (join col (map (fun k => (k, tt)) keys)).

(** ** Beam *)

(** BeamBackend.filter_by_key, in-memory keys: pipeline_backend.py:304-309. *)
Definition beam_filter_in_memory {K V} `{EqDec K} (col : list (K * V)) (keys : list K)
  : list (K * V) :=
  filter (fun kv => mem (fst kv) (distinct keys)) col.

(** CoGroupByKey of two keyed collections (Beam documentation): every key of
    either side once, with the lists of its values on both sides. *)
Definition cogroup {K V W} `{EqDec K} (a : list (K * V)) (b : list (K * W))
  : list (K * (list V * list W)) :=
  map (fun k => (k, (map snd (filter (fun kv => eqb (fst kv) k) a),
                     map snd (filter (fun kw => eqb (fst kw) k) b))))
      (distinct (map fst a ++ map fst b)).

(** BeamBackend.filter_by_key, PCollection of keys, PartitionsFilterJoin:
    pipeline_backend.py:283-296, 311-320. *)
Definition beam_filter_join {K V} `{EqDec K} (col : list (K * V)) (keys : list K)
  : list (K * V) :=
  flat_map (fun kr =>
      let '(key, (values, to_keep)) := kr in
      match values with
      | [] => []
      | _ => match to_keep with
             | [] => []
             | _ => map (fun v => (key, v)) values
             end
      end)
    (cogroup col (map (fun k => (k, true)) keys)).

(** BeamBackend.combine_accumulators_per_key, the function given to
    CombinePerKey: pipeline_backend.py:342-349.  [truthy] is Python's truth
    value of an accumulator; [None] is falsy. *)
Definition beam_merge {A} (truthy : A -> bool) (merge : A -> A -> A) (accs : list (option A))
  : option A :=
  fold_left (fun res acc =>
      match res with
      | Some r => if truthy r
                  then match acc with Some a => Some (merge r a) | None => None end
                  else acc
      | None => acc
      end) accs None.

(** What Beam does with a plain function given to CombinePerKey (class
    CallableWrapperCombineFn): it applies the function to lists of elements and
    of earlier results of the function.  [bexp] is one such schedule for a key:
    an element or an application of the function to a list. *)
Inductive bexp (A : Type) :=
| BElem (a : A)
| BApp (l : list (bexp A)).
Arguments BElem {A} a.
Arguments BApp {A} l.

Fixpoint beam_eval {A} (truthy : A -> bool) (merge : A -> A -> A) (e : bexp A) : option A :=
  match e with
  | BElem a => Some a
  | BApp l => beam_merge truthy merge (map (beam_eval truthy merge) l)
  end.

Fixpoint belems {A} (e : bexp A) : list A :=
  match e with BElem a => [a] | BApp l => flat_map belems l end.

(** ** pipeline_functions.py *)

(** filter_by_key_with_sharding: /repo/pipeline_dp/pipeline_functions.py:119-159.
    [shards] is the list of random.randint(0, sharding_factor - 1) results, one
    per element; [filt] is the backend's filter_by_key. *)
Definition filter_by_key_with_sharding {K V} `{EqDec K}
    (filt : list ((K * nat) * V) -> list (K * nat) -> list ((K * nat) * V))
    (filt0 : list (K * V) -> list K -> list (K * V))
    (factor : nat) (shards : list nat) (col : list (K * V)) (keys : list K)
  : list (K * V) :=
  if 1 <? factor then
    let col1 := map (fun x => ((fst (fst x), snd x), snd (fst x))) (combine col shards) in
    let keys1 := flat_map (fun p => map (fun i => (p, i)) (seq 0 factor)) keys in
    map (fun kv => (fst (fst kv), snd kv)) (filt col1 keys1)
  else filt0 col keys.

(** size: /repo/pipeline_dp/pipeline_functions.py:31-40. *)
Definition size_col {A} (col : list A) : list Z :=
  map snd (count_per_element (map (fun _ => tt) col)).

(** min_max_per_key: /repo/pipeline_dp/pipeline_functions.py:99-116. *)
Definition min_max_per_key {K} `{EqDec K} (col : list (K * Z)) : list (K * (Z * Z)) :=
  combine_per_key (fun x y => (Z.min (fst x) (fst y), Z.max (snd x) (snd y)))
                  (map_values (fun x => (x, x)) col).
