(** Properties C20, C22, C23 of the combiners. *)
From Coq Require Import List ZArith QArith Bool Permutation.
From Verif Require Import Base BackendModel BackendSpec BackendProofs BackendProofs2 ParamsModel SensModel
  CombinerModel CombinerSpec CombinerProofs CombinerProofs2 CombinerProofs3.
Import ListNotations.
Local Open Scope Q_scope.

(** C20: any order and any tree of merges of the same accumulators. *)
Theorem C20_merge_order_irrelevant (c : combiner) (t t' : tree acc) :
  Permutation (leaves t) (leaves t') ->
  acc_eq (reduce_tree (merge c) t) (reduce_tree (merge c) t').
Proof. exact (any_tree acc_eq (merge c) (merge_comm_semigroup c) t t'). Qed.
Print Assumptions C20_merge_order_irrelevant.

Theorem C20_compound_merge_order_irrelevant (cs : list combiner) (t t' : tree cacc) :
  Permutation (leaves t) (leaves t') ->
  cacc_eq (reduce_tree (compound_merge cs) t) (reduce_tree (compound_merge cs) t').
Proof. exact (any_tree cacc_eq (compound_merge cs) (compound_comm_semigroup cs) t t'). Qed.
Print Assumptions C20_compound_merge_order_irrelevant.

(** C20: the merged accumulator is the total over all contributions: [gs] are
    the value lists of the privacy ids of one partition. *)
Theorem C20_merged_is_total (c : combiner) (t : tree acc) (gs : list (list value)) :
  Permutation (leaves t) (map (create c) gs) -> gs <> [] -> Forall (fits c) gs ->
  acc_eq (reduce_tree (merge c) t) (total c gs).
Proof. exact (tree_of_creates c t gs). Qed.
Print Assumptions C20_merged_is_total.

Theorem C20_compound_merged_is_total (cs : list combiner) (t : tree cacc) (gs : list (list value)) :
  Permutation (leaves t) (map (compound_create cs) gs) -> gs <> [] ->
  (forall c, In c cs -> Forall (fits c) gs) ->
  cacc_eq (reduce_tree (compound_merge cs) t)
          (Z.of_nat (length gs), map (fun c => total c gs) cs).
Proof. exact (compound_tree cs t gs). Qed.
Print Assumptions C20_compound_merged_is_total.

(** C20: Spark and Beam agree with the local backend on compound accumulators
    (a non-empty tuple is truthy). *)
Theorem C20_compound_spark {K} `{EqDec K} (cs : list combiner) (col : list (K * cacc)) plan :
  reduce_plan col plan ->
  forall k a b, In (k, a) (combine_per_key (compound_merge cs) col) ->
    In (k, b) (map (fun kt => (fst kt, reduce_tree (compound_merge cs) (snd kt))) plan) -> cacc_eq a b.
Proof.
  exact (fun Hp => proj2 (spark_combining cacc_eq (compound_merge cs) col plan (compound_comm_semigroup cs) Hp)).
Qed.
Print Assumptions C20_compound_spark.

Theorem C20_compound_beam {K} `{EqDec K} (cs : list combiner) (col : list (K * cacc)) plan :
  beam_plan col plan ->
  forall k a r, In (k, a) (combine_per_key (compound_merge cs) col) ->
    In (k, r) (map (fun ke => (fst ke, beam_eval (fun _ => true) (compound_merge cs) (snd ke))) plan) ->
    exists b, r = Some b /\ cacc_eq a b.
Proof.
  exact (fun Hp => proj2 (beam_combining cacc_eq (compound_merge cs) (fun _ => true) (fun _ => True) col plan
           (compound_comm_semigroup cs) Hp (fun _ _ => eq_refl) (fun _ _ _ _ => I) (fun _ _ _ => I))).
Qed.
Print Assumptions C20_compound_beam.

(** A case with every kind of combiner. *)
Example C20_hypotheses_met :
  let cs := [CCount; CSum false 0 5; CPidCount; CMean 0 5 [NMean]; CVariance 0 5 [NVariance]; CQuantile [50]] in
  let gs := [[Num 1; Num 7]; [Num 2]; [Num 3; Num 4; Num (-1)]] in
  let t := Node (Leaf (compound_create cs [Num 3; Num 4; Num (-1)]))
                (Node (Leaf (compound_create cs [Num 1; Num 7])) (Leaf (compound_create cs [Num 2]))) in
  Permutation (leaves t) (map (compound_create cs) gs) /\
  (forall c, In c cs -> Forall (fits c) gs) /\
  cacc_eq (reduce_tree (compound_merge cs) t)
    (3%Z, [AInt 6; AFloat 15; AInt 3; AMean 6 0; AVar 6 0 (35 # 2); ATree [1; 7; 2; 3; 4; -1]]).
Proof.
  intros cs gs t. split.
  - cbn [leaves t app map gs].
    apply perm_trans with (compound_create cs [Num 1; Num 7] :: compound_create cs [Num 3; Num 4; Num (-1)] :: [compound_create cs [Num 2]]).
    + apply perm_swap.
    + apply perm_skip, perm_swap.
  - split.
    + intros c Hc. repeat (destruct Hc as [<-|Hc]; [repeat constructor|]). destruct Hc.
    + split; [reflexivity|]. cbn [snd].
      repeat (apply Forall2_cons; [first [constructor; vm_compute; reflexivity | idtac]|]).
      * constructor. cbn.
        apply (Permutation_app_comm [3; 4; -1] [1; 7; 2]).
      * apply Forall2_nil.
Qed.

Example C20_vector_case :
  let gs := [[Vec [1; 2]; Vec [3; 4]]; [Vec [10; 20]]] in
  Forall (fits (CVector 2)) gs /\
  merge (CVector 2) (create (CVector 2) [Vec [1; 2]; Vec [3; 4]]) (create (CVector 2) [Vec [10; 20]])
  = AVec [1 + 3 + 10; 2 + 4 + 20].
Proof. split; [repeat constructor; discriminate | reflexivity]. Qed.

(** VECTOR_SUM of a privacy id without values (the empty accumulator of a public
    partition) is None; merging it with anything raises. *)
Theorem C20_vector_empty_accumulator_refuted :
  exists vs, acc_eq (merge (CVector 2) (create (CVector 2) []) (create (CVector 2) vs)) AErr /\
             create (CVector 2) vs = AVec [1; 2].
Proof. exists [Vec [1; 2]]. split; [constructor | reflexivity]. Qed.
Print Assumptions C20_vector_empty_accumulator_refuted.

(** C22: [gs] are the kept values of the privacy ids of a partition, merged in
    any tree [t]. *)
Theorem C22_mean_without_noise (nz : noises) (lo hi : Q) (names : list mname)
    (gs : list (list value)) (t : tree acc) :
  no_noise nz -> concat gs <> [] ->
  Permutation (leaves t) (map (create (CMean lo hi names)) gs) ->
  exists d, compute_metrics nz (CMean lo hi names) (reduce_tree (merge (CMean lo hi names)) t) = Ok d /\
    let kept := map (fun v => clip lo hi (num_of v)) (concat gs) in
    released_as NMean (meanQ kept) d /\
    (In NCount names -> released_as NCount (inject_Z (Z.of_nat (length (concat gs)))) d) /\
    (In NSum names -> released_as NSum (sumQ kept) d).
Proof.
  intros Hn Ne Pm. apply mean_released; [exact Hn | exact Ne|].
  apply tree_of_creates; [exact Pm | intros ->; apply Ne; reflexivity | apply Forall_forall; intros; exact I].
Qed.
Print Assumptions C22_mean_without_noise.

Theorem C22_variance_without_noise (nz : noises) (lo hi : Q) (names : list mname)
    (gs : list (list value)) (t : tree acc) :
  lo <= hi -> no_noise nz -> concat gs <> [] ->
  Permutation (leaves t) (map (create (CVariance lo hi names)) gs) ->
  exists d, compute_metrics nz (CVariance lo hi names) (reduce_tree (merge (CVariance lo hi names)) t) = Ok d /\
    let kept := map (fun v => clip lo hi (num_of v)) (concat gs) in
    released_as NVariance (varianceQ kept) d /\
    (In NMean names -> released_as NMean (meanQ kept) d) /\
    (In NCount names -> released_as NCount (inject_Z (Z.of_nat (length (concat gs)))) d) /\
    (In NSum names -> released_as NSum (sumQ kept) d).
Proof.
  intros Hle Hn Ne Pm. apply variance_released; [exact Hle | exact Hn | exact Ne|].
  apply tree_of_creates; [exact Pm | intros ->; apply Ne; reflexivity | apply Forall_forall; intros; exact I].
Qed.
Print Assumptions C22_variance_without_noise.

(** In an empty partition (a public partition absent from the data) the
    noise-free mean is the middle of the range. *)
Theorem C22_empty_partition_mean (nz : noises) (lo hi : Q) (names : list mname) :
  no_noise nz ->
  exists d, compute_metrics nz (CMean lo hi names) (create (CMean lo hi names) []) = Ok d /\
            released_as NMean (middle lo hi) d.
Proof.
  intros [Hc [Hs _]]. eexists. split; [reflexivity|]. eexists. split; [left; reflexivity|].
  cbn [map sumQ fold_right]. rewrite Hs. unfold Qdiv. ring.
Qed.
Print Assumptions C22_empty_partition_mean.

Example C22_hypotheses_met :
  let nz := Noises (fun q => q) (fun q => q) (fun q => q) (fun z => Some (inject_Z z)) (fun _ q => q) (fun l => l) in
  no_noise nz /\
  (exists d, compute_metrics nz (CVariance 0 4 [NVariance; NMean])
     (merge (CVariance 0 4 [NVariance; NMean])
        (create (CVariance 0 4 [NVariance; NMean]) [Num 1; Num 9]) (create (CVariance 0 4 [NVariance; NMean]) [Num 1])) = Ok d
   /\ released_as NVariance 2 d /\ released_as NMean 2 d).
Proof.
  cbn zeta. split; [repeat split; reflexivity|]. eexists. split; [reflexivity|].
  split; eexists; (split; [cbn; auto|vm_compute; reflexivity]).
Qed.

(** C23: [gs] are the kept values of the privacy ids of a partition, merged in
    any tree; every requested metric is released exactly once and nothing else,
    each computed by a combiner that declares that metric from that combiner's
    total. *)
Theorem C23_requested_metrics_released (p : params) (cs : list combiner)
    (gs : list (list value)) (t : tree cacc) (nzs : nat -> noises) :
  create_compound_combiner p = Ok cs ->
  Permutation (leaves t) (map (compound_create cs) gs) -> gs <> [] ->
  (forall c, In c cs -> Forall (fits c) gs) ->
  (forall i l qs, length (n_quantiles (nzs i) l qs) = length qs) ->
  exists d, compound_metrics nzs cs (reduce_tree (compound_merge cs) t) = Ok d /\
    NoDup (map fst d) /\
    (forall n, In n (map fst d) <-> In n (map name_of (metrics p))) /\
    (forall n v, In (n, v) d -> exists i c a di,
       nth_error cs i = Some c /\ In n (names_of c) /\
       nth_error (snd (reduce_tree (compound_merge cs) t)) i = Some a /\ acc_eq a (total c gs) /\
       compute_metrics (nzs i) c a = Ok di /\ In (n, v) di).
Proof. exact (released_metrics p cs gs t nzs). Qed.
Print Assumptions C23_requested_metrics_released.

(** The duplicate check of CompoundCombiner fires exactly when one percentile is
    requested twice. *)
Theorem C23_only_repeated_percentiles_rejected (p : params) (cs : list combiner) :
  create_combiners p = Ok cs ->
  (create_compound_combiner p = Ok cs <-> NoDup (map Qred (percentiles (metrics p)))).
Proof.
  intro E. rewrite <- (names_nodup p cs E). unfold create_compound_combiner, compound_init, raise_if.
  rewrite E. cbn [rbind].
  rewrite <- no_duplicates_NoDup. destruct (has_duplicates _); split; congruence.
Qed.
Print Assumptions C23_only_repeated_percentiles_rejected.

Definition example_params (ms : list metric) : params :=
  Params ms LaplaceNoise (Some 2%Z) (Some 3%Z) None 1 (Some 0) (Some 5) None None false None None None
         false false TruncatedGeometric None false true.

Example C23_hypotheses_met :
  create_compound_combiner (example_params [SUM; PERCENTILE 50; MEAN; PRIVACY_ID_COUNT]) =
  Ok [CMean 0 5 [NMean; NSum]; CPidCount; CQuantile [50]].
Proof. reflexivity. Qed.
