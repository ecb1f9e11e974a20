(** Property C76: runs on Beam and on Spark against runs on the local backend. *)
From Coq Require Import List ZArith QArith Bool Permutation PeanoNat Lia.
From Verif Require Import Base BaseLemmas BackendModel BackendSpec ListLemmas BackendProofs BounderModel BounderSpec BounderProofs
  ParamsModel SensModel CombinerModel CombinerSpec EngineModel EngineSpec EngineProofs3 EngineProps EngineProps2
  ClusterModel ClusterSpec ClusterProofs ClusterProofs2 ClusterProofs3 ClusterProofs4 ClusterProofs5.
Import ListNotations.

Lemma accepted_positive p : accepted p -> positive_bounds p.
Proof.
  intro Ha. destruct (accepted_facts p Ha) as [_ [_ [_ Hm]]]. destruct (max_contributions p) as [m|] eqn:Em.
  - destruct Hm as [Pm [E1 E2]]. unfold positive_bounds. rewrite Em, E1, E2. split; [intros x E; injection E as <-; exact Pm|]. split; discriminate.
  - destruct Hm as [l0 [linf [E1 [E2 [P1 P2]]]]]. unfold positive_bounds. rewrite Em, E1, E2. split; [discriminate|].
    split; intros x E; injection E as <-; assumption.
Qed.

Lemma no_noise_numeric t : numeric_noise (no_noise t).
Proof.
  unfold numeric_noise, no_noise. cbn. split; [|split; [|split; [|split]]]; try (intros; assumption).
  intros l l' ps _. induction ps; constructor; [reflexivity | assumption].
Qed.

(** Whatever a run on Beam or Spark releases, a run on the local backend with some legal
    draws of the samples releases too, up to the order of the partitions. *)
Theorem C76_aggregate_on_clusters {U P} `{EqDec U} `{EqDec P} b p sk nz public (rows : list (U * P * value)) out :
  accepted p -> (forall k i, numeric_noise (nz k i)) ->
  (b = Spark -> public_partitions_already_filtered p = false -> forall l, public = Some (Collection l) -> NoDup l) ->
  aggregate_on b p sk nz public rows out ->
  exists sm out', valid_sampling p sm /\
    aggregate p sm sk nz (option_map set_keys public) rows = Ok out' /\ same_release out out'.
Proof.
  intros Ha Hn Hd Hr. destruct (aggregate_on_local b p sk nz public rows out (accepted_positive p Ha) Hn Hd Hr) as [sm [out' [Vs [Eo Kr]]]].
  exists sm, out'. split; [exact Vs|split; [exact Eo | apply krel_same_release; exact Kr]].
Qed.
Print Assumptions C76_aggregate_on_clusters.

(** And whatever a run on the local backend releases, some run on Beam and some run on
    Spark releases. *)
Theorem C76_local_runs_on_clusters {U P} `{EqDec U} `{EqDec P} b p (sm : sampling U P) sk nz public rows out :
  accepted p -> valid_sampling p sm ->
  (b = Spark -> public_partitions_already_filtered p = false -> forall l, public = Some (Collection l) -> NoDup l) ->
  aggregate p sm sk nz (option_map set_keys public) rows = Ok out -> aggregate_on b p sk nz public rows out.
Proof. intros Ha. apply local_aggregate_on. apply accepted_positive. exact Ha. Qed.
Print Assumptions C76_local_runs_on_clusters.

Theorem C76_select_partitions_on_clusters {U P} `{EqDec U} `{EqDec P} b l0 sk (rows : list (U * P)) :
  (forall out, select_partitions_on b l0 sk rows out ->
     exists ch : source U, valid_source l0 ch /\ Permutation out (select_partitions l0 ch sk rows)) /\
  (forall ch : source U, valid_source l0 ch -> select_partitions_on b l0 sk rows (select_partitions l0 ch sk rows)).
Proof. split; [intro out; apply select_on_local | intro ch; apply local_select_on]. Qed.
Print Assumptions C76_select_partitions_on_clusters.

(** Exactly the public partitions are released on Beam and Spark, each once. *)
Theorem C76_public_partitions_on_clusters {U P} `{EqDec U} `{EqDec P} b p sk nz s (rows : list (U * P * value)) out :
  accepted p -> (forall k i, numeric_noise (nz k i)) ->
  (b = Spark -> public_partitions_already_filtered p = false -> forall l, s = Collection l -> NoDup l) ->
  (public_partitions_already_filtered p = true -> forall r, In r rows -> In (snd (fst r)) (set_keys s)) ->
  post_aggregation_thresholding p = false ->
  aggregate_on b p sk nz (Some s) rows out ->
  NoDup (map fst out) /\ forall k, In k (map fst out) <-> In k (set_keys s).
Proof.
  intros Ha Hn Hd Hf Ht Hr.
  destruct (aggregate_on_local b p sk nz (Some s) rows out (accepted_positive p Ha) Hn) as [sm [out' [Vs [Eo Kr]]]]; [|exact Hr|].
  { intros Eb Ep l El. apply (Hd Eb Ep). injection El as ->. reflexivity. }
  cbn [option_map] in Eo. destruct (C24_public_partitions p sm sk nz (set_keys s) rows out' (fun _ => Vs) Hf Ht Eo) as [_ E].
  destruct Kr as [N [_ [Ek _]]]. split; [exact N|]. intro k. rewrite Ek. apply E.
Qed.
Print Assumptions C76_public_partitions_on_clusters.

(** A public partition that is twice in an RDD of public partitions counts its rows
    twice on Spark: no run on the local backend releases that. *)
Definition count_params : params := demo_params [COUNT] None.
Theorem C76_repeated_public_partition_on_spark_refuted :
  exists p sk nz l (rows : list (Z * Z * value)) out,
    accepted p /\ (forall k i, numeric_noise (nz k i)) /\
    aggregate_on Spark p sk nz (Some (Collection l)) rows out /\
    forall sm out', valid_sampling p sm -> aggregate p sm sk nz (Some l) rows = Ok out' -> ~ same_release out out'.
Proof.
  exists count_params, (fun _ _ => true), (fun _ _ => no_noise 0), [10; 10]%Z, [(1, 10, Num 1)]%Z, [(10%Z, [(NCount, RNum 2)])].
  split; [exists (raw_of count_params); reflexivity|]. split; [|split].
  - intros. apply no_noise_numeric.
  - exists [CCount], [(1, 10, Num 1); (1, 10, Num 1)]%Z, [(10, (1, [AInt 2]))]%Z,
      [(10, (1, [AInt 2])); (10, (1, [AInt 0])); (10, (1, [AInt 0]))]%Z, [(10, (3, [AInt 2]))]%Z, [(10, (3, [AInt 2]))]%Z.
    split; [reflexivity|]. split; [|split; [|split; [|split; [|split]]]].
    + exists [(10, (1, 10, Num 1)); (10, (1, 10, Num 1))]%Z. split; apply Permutation_refl.
    + exists [((1, 10), (1, [AInt 2]))]%Z. split; [|apply Permutation_refl].
      apply (bounded_any Spark count_params _ _ (first_sampling 2 2)).
      * apply accepted_positive. exists (raw_of count_params). reflexivity.
      * split; intros x X; inversion X; subst; apply first_n_valid.
      * vm_compute. reflexivity.
    + apply Permutation_refl.
    + pose proof (combined_any Spark (compound_merge [CCount]) [(10, (1, [AInt 2])); (10, (1, [AInt 0])); (10, (1, [AInt 0]))]%Z) as X.
      vm_compute (combine_per_key _ _) in X. exact X.
    + reflexivity.
    + exists [(10%Z, [(NCount, RNum 2)])]. split; [vm_compute; reflexivity | apply Permutation_refl].
  - intros sm out' _ E. vm_compute in E. injection E as <-. intros [a' [Pm F]].
    apply Permutation_length_1_inv in Pm. subst a'. inversion F as [|x y l l' [_ Sm] F' X1 X2]; subst. cbn in Sm.
    inversion Sm as [|x0 y0 l0 l1 [_ Sv] F'' X1 X2]; subst. cbn in Sv. discriminate Sv.
Qed.
Print Assumptions C76_repeated_public_partition_on_spark_refuted.

(** A run in which the bounds drop rows: privacy id 1 has three rows in partition 10 and
    is in three partitions. *)
Example C76_hypotheses_met :
  let p := demo_params [COUNT; SUM; PRIVACY_ID_COUNT] None in
  let nz := fun (_ : Z) (_ : nat) => no_noise 0 in
  accepted p /\ (forall k i, numeric_noise (nz k i)) /\ NoDup [10; 40]%Z /\
  (forall b, aggregate_on b p (fun _ _ => false) nz (Some (Collection [10; 40]%Z)) demo_rows
     [(10, [(NCount, RNum 2); (NSum, RNum 2); (NPidCount, RNum 1)]); (40, [(NCount, RNum 0); (NSum, RNum 0); (NPidCount, RNum 0)])]%Z) /\
  (forall b, select_partitions_on b 2 (fun _ n => (2 <=? n)%Z) (map fst demo_rows) [20%Z]).
Proof.
  cbn zeta. assert (Ha : accepted (demo_params [COUNT; SUM; PRIVACY_ID_COUNT] None)).
  { exists (raw_of (demo_params [COUNT; SUM; PRIVACY_ID_COUNT] None)). reflexivity. }
  assert (Nd : NoDup [10; 40]%Z). { repeat constructor; cbn; intuition discriminate. }
  split; [exact Ha|]. split; [intros; apply no_noise_numeric|]. split; [exact Nd|]. split.
  - intro b. apply (C76_local_runs_on_clusters b _ (first_sampling 2 2)); [exact Ha| | |vm_compute; reflexivity].
    + split; intros x X; inversion X; subst; apply first_n_valid.
    + intros _ _ l E. injection E as <-. exact Nd.
  - intro b. assert (X := proj2 (C76_select_partitions_on_clusters b 2 (fun _ n => (2 <=? n)%Z) (map fst demo_rows)) (fun _ => first_n 2) (first_n_valid 2)).
    vm_compute (select_partitions _ _ _ _) in X. exact X.
Qed.
