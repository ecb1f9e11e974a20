(** Properties C12, C21, C28, C51 of the backends. *)
From Coq Require Import List ZArith Bool Permutation PeanoNat Lia.
From Verif Require Import Base BackendModel BackendSpec ListLemmas BackendProofs BackendProofs2.
Import ListNotations.

(** C12, local (and multi-process) backend. *)
Theorem C12_local_sampling {K V} `{EqDec K} (ch : source K) (n : nat) (col : list (K * V)) :
  valid_source n ch ->
  let out := sample_fixed_per_key ch n col in
  NoDup (map fst out) /\
  (forall k, In k (map fst out) <-> In k (map fst col)) /\
  (forall k vs, In (k, vs) out ->
     length vs = Nat.min n (length (values_of k col)) /\ submset vs (values_of k col)).
Proof. exact (local_sampling ch n col). Qed.
Print Assumptions C12_local_sampling.

(** C12, Spark: any merge tree, any draws. *)
Theorem C12_spark_sampling {K V} `{EqDec K} (n : nat) (col : list (K * V)) (plan : list (K * stree V)) :
  1 <= n ->
  NoDup (map fst plan) ->
  (forall k, In k (map fst plan) <-> In k (map fst col)) ->
  (forall k t, In (k, t) plan -> valid_stree n t /\ Permutation (sleaves t) (values_of k col)) ->
  let out := map (fun kt => (fst kt, spark_sample (snd kt))) plan in
  NoDup (map fst out) /\
  (forall k, In k (map fst out) <-> In k (map fst col)) /\
  (forall k vs, In (k, vs) out ->
     length vs = Nat.min n (length (values_of k col)) /\ submset vs (values_of k col)).
Proof. exact (spark_sampling n col plan). Qed.
Print Assumptions C12_spark_sampling.

(** C12 for sample size 0 fails on Spark: a key with a single element keeps it. *)
Theorem C12_spark_sampling_zero_refuted :
  exists (col : list (Z * Z)) (plan : list (Z * stree Z)),
    NoDup (map fst plan) /\
    (forall k, In k (map fst plan) <-> In k (map fst col)) /\
    (forall k t, In (k, t) plan -> valid_stree 0 t /\ Permutation (sleaves t) (values_of k col)) /\
    exists k vs, In (k, vs) (map (fun kt => (fst kt, spark_sample (snd kt))) plan) /\
                 length vs <> Nat.min 0 (length (values_of k col)).
Proof. exact spark_sampling_zero_refuted. Qed.
Print Assumptions C12_spark_sampling_zero_refuted.

Example C12_hypotheses_met :
  valid_source 2 (fun (k : Z) m => [m - 1; 0]) /\
  sample_fixed_per_key (fun (k : Z) m => [m - 1; 0]) 2
    [(1, 10); (2, 20); (1, 11); (1, 12); (2, 21)]%Z = [(1, [12; 10]); (2, [20; 21])]%Z /\
  valid_stree 2 (SNode [2; 0] (SNode [1; 0] (SLeaf 5%Z) (SLeaf 6%Z)) (SLeaf 7%Z)) /\
  spark_sample (SNode [2; 0] (SNode [1; 0] (SLeaf 5%Z) (SLeaf 6%Z)) (SLeaf 7%Z)) = [7; 6]%Z.
Proof.
  split; [|split; [reflexivity|split; [|reflexivity]]].
  - intros k m L. unfold valid_draw. split; [|split; [reflexivity|]].
    + constructor; [cbn; lia|]. constructor; [tauto|constructor].
    + repeat constructor; lia.
  - cbn. unfold valid_draw. repeat split; repeat constructor; cbn; lia.
Qed.

(** C21, Spark against local: every reduce tree. *)
Theorem C21_spark_combining_agrees {K A} `{EqDec K} (R : A -> A -> Prop) (merge : A -> A -> A)
    (col : list (K * A)) (plan : list (K * tree A)) :
  comm_semigroup R merge -> reduce_plan col plan ->
  let spark := map (fun kt => (fst kt, reduce_tree merge (snd kt))) plan in
  Permutation (map fst spark) (map fst (combine_per_key merge col)) /\
  (forall k a b, In (k, a) (combine_per_key merge col) -> In (k, b) spark -> R a b).
Proof. exact (spark_combining R merge col plan). Qed.
Print Assumptions C21_spark_combining_agrees.

(** C21, Beam against local: every bundling; [T] is a set of accumulators
    closed under merge whose members are truthy in Python. *)
Theorem C21_beam_combining_agrees {K A} `{EqDec K} (R : A -> A -> Prop) (merge : A -> A -> A)
    (truthy : A -> bool) (T : A -> Prop) (col : list (K * A)) (plan : list (K * bexp A)) :
  comm_semigroup R merge -> beam_plan col plan ->
  (forall x, T x -> truthy x = true) -> (forall x y, T x -> T y -> T (merge x y)) ->
  (forall k a, In (k, a) col -> T a) ->
  let beam := map (fun ke => (fst ke, beam_eval truthy merge (snd ke))) plan in
  Permutation (map fst beam) (map fst (combine_per_key merge col)) /\
  (forall k a r, In (k, a) (combine_per_key merge col) -> In (k, r) beam ->
     exists b, r = Some b /\ R a b).
Proof. exact (beam_combining R merge truthy T col plan). Qed.
Print Assumptions C21_beam_combining_agrees.

(** The local result itself: each key once, all its accumulators merged. *)
Theorem C21_local_combining {K A} `{EqDec K} (merge : A -> A -> A) (col : list (K * A)) :
  NoDup (map fst (combine_per_key merge col)) /\
  (forall k, In k (map fst (combine_per_key merge col)) <-> In k (map fst col)) /\
  (forall k a, In (k, a) (combine_per_key merge col) ->
     exists x rest, values_of k col = x :: rest /\ a = fold_left merge rest x).
Proof. exact (local_combining merge col). Qed.
Print Assumptions C21_local_combining.

(** Without truthiness Beam's result differs: a falsy accumulator (here 0 of a
    combiner that multiplies) is dropped by `if res:`. *)
Theorem C21_beam_falsy_accumulator_refuted :
  exists (merge : Z -> Z -> Z) (col : list (Z * Z)) (plan : list (Z * bexp Z)),
    comm_semigroup eq merge /\ beam_plan col plan /\
    combine_per_key merge col = [(1, 0)]%Z /\
    map (fun ke => (fst ke, beam_eval (fun x => negb (x =? 0)%Z) merge (snd ke))) plan = [(1%Z, Some 5%Z)].
Proof. exact beam_falsy_refuted. Qed.
Print Assumptions C21_beam_falsy_accumulator_refuted.

Example C21_hypotheses_met :
  let col := [(1, 10); (2, 20); (1, 11); (1, 12)]%Z in
  comm_semigroup eq Z.add /\
  reduce_plan col [(2%Z, Leaf 20%Z); (1%Z, Node (Leaf 12%Z) (Node (Leaf 10%Z) (Leaf 11%Z)))] /\
  beam_plan col [(2%Z, BElem 20%Z); (1%Z, BApp [BApp [BElem 11%Z; BElem 12%Z]; BElem 10%Z])].
Proof. exact combining_example. Qed.

(** C28 *)
Theorem C28_local_filter {K V} `{EqDec K} (col : list (K * V)) (keys : list K) :
  submset (filter_by_key col keys) col /\
  (forall k, values_of k (filter_by_key col keys) = if mem k keys then values_of k col else []).
Proof. exact (local_filter col keys). Qed.
Print Assumptions C28_local_filter.

Theorem C28_in_memory_filters_agree {K V} `{EqDec K} (col : list (K * V)) (keys : list K) :
  beam_filter_in_memory col keys = filter_by_key col keys /\
  spark_filter_in_memory col keys = filter_by_key col keys.
Proof. exact (in_memory_filters col keys). Qed.
Print Assumptions C28_in_memory_filters_agree.

Theorem C28_beam_join_agrees {K V} `{EqDec K} (col : list (K * V)) (keys : list K) :
  Permutation (beam_filter_join col keys) (filter_by_key col keys).
Proof. exact (beam_filter_join_Permutation col keys). Qed.
Print Assumptions C28_beam_join_agrees.

Theorem C28_spark_join_agrees_on_distinct_keys {K V} `{EqDec K} (col : list (K * V)) (keys : list K) :
  NoDup keys -> spark_filter_rdd col keys = filter_by_key col keys.
Proof. exact (spark_filter_rdd_NoDup col keys). Qed.
Print Assumptions C28_spark_join_agrees_on_distinct_keys.

(** With an RDD of keys that repeats a key, Spark repeats rows: each row appears
    as often as its key does in [keys]. *)
Theorem C28_spark_join_multiplies_rows {K V} `{EqDec K} (col : list (K * V)) (keys : list K) :
  spark_filter_rdd col keys = flat_map (fun kv => repeat kv (occ (fst kv) keys)) col.
Proof. exact (spark_filter_rdd_normal col keys). Qed.
Print Assumptions C28_spark_join_multiplies_rows.

Theorem C28_spark_join_agrees_refuted :
  exists (col : list (Z * Z)) (keys : list Z),
    ~ Permutation (spark_filter_rdd col keys) (filter_by_key col keys).
Proof. exact spark_join_refuted. Qed.
Print Assumptions C28_spark_join_agrees_refuted.

(** The sharded variant, on the local backend and with a Beam join. *)
Theorem C28_sharded_filter {K V} `{EqDec K} (factor : nat) (shards : list nat)
    (col : list (K * V)) (keys : list K) :
  length shards = length col -> Forall (fun i => i < factor) shards ->
  filter_by_key_with_sharding filter_by_key filter_by_key factor shards col keys
    = filter_by_key col keys /\
  Permutation (filter_by_key_with_sharding beam_filter_join beam_filter_join factor shards col keys)
              (filter_by_key col keys).
Proof. exact (sharded_filters factor shards col keys). Qed.
Print Assumptions C28_sharded_filter.

Example C28_hypotheses_met :
  NoDup [3; 1]%Z /\ length [2; 0; 1]%nat = length [(1, 5); (2, 6); (1, 7)]%Z /\
  Forall (fun i => i < 3) [2; 0; 1]%nat /\
  filter_by_key_with_sharding filter_by_key filter_by_key 3 [2; 0; 1]%nat
    [(1, 5); (2, 6); (1, 7)]%Z [3; 1]%Z = [(1, 5); (1, 7)]%Z.
Proof.
  repeat split; try reflexivity; repeat constructor; cbn; lia.
Qed.

(** C51: counting and size. *)
Theorem C51_count_per_element {A} `{EqDec A} (col : list A) :
  NoDup (map fst (count_per_element col)) /\
  (forall x n, In (x, n) (count_per_element col) <-> In x col /\ n = Z.of_nat (occ x col)) /\
  sumZ (map snd (count_per_element col)) = Z.of_nat (length col).
Proof. exact (count_per_element_correct col). Qed.
Print Assumptions C51_count_per_element.

Theorem C51_size {A} (col : list A) :
  col <> [] -> size_col col = [Z.of_nat (length col)].
Proof. exact (size_nonempty col). Qed.
Print Assumptions C51_size.

(** size() of an empty collection is an empty collection, not [0]. *)
Theorem C51_size_empty_refuted : exists col : list Z, size_col col <> [Z.of_nat (length col)].
Proof. exact size_empty_refuted. Qed.
Print Assumptions C51_size_empty_refuted.

Theorem C51_sum_per_key {K} `{EqDec K} (col : list (K * Z)) :
  NoDup (map fst (sum_per_key col)) /\
  (forall k s, In (k, s) (sum_per_key col) <-> In k (map fst col) /\ s = sumZ (values_of k col)) /\
  sumZ (map snd (sum_per_key col)) = sumZ (map snd col).
Proof. exact (sum_per_key_correct col). Qed.
Print Assumptions C51_sum_per_key.

Theorem C51_min_max_per_key {K} `{EqDec K} (col : list (K * Z)) :
  NoDup (map fst (min_max_per_key col)) /\
  (forall k, In k (map fst (min_max_per_key col)) <-> In k (map fst col)) /\
  (forall k lo hi, In (k, (lo, hi)) (min_max_per_key col) ->
     In (k, lo) col /\ In (k, hi) col /\ forall v, In (k, v) col -> (lo <= v <= hi)%Z).
Proof. exact (min_max_correct col). Qed.
Print Assumptions C51_min_max_per_key.

Example C51_hypotheses_met :
  [4; 5; 4]%Z <> [] /\ size_col [4; 5; 4]%Z = [3%Z] /\
  count_per_element [4; 5; 4]%Z = [(4, 2); (5, 1)]%Z /\
  min_max_per_key [(1, 5); (1, -3); (2, 0)]%Z = [(1, (-3, 5)); (2, (0, 0))]%Z.
Proof. repeat split; try reflexivity. discriminate. Qed.
