(** Property C38: validation of parameters. *)
From Coq Require Import List ZArith QArith Bool Lia Lqa.
From Verif Require Import Base BaseLemmas BackendModel ParamsModel ParamsSpec SensModel CombinerModel CombinerProps
  EngineModel EngineSpec EngineProps ParamsProofs.
Import ListNotations.
Local Open Scope Q_scope.

(** A parameter set is accepted exactly if it is valid; otherwise ValueError. *)
Theorem C38_accepted_iff_valid r :
  ((exists p, post_init r = Ok p) <-> valid r) /\ (~ valid r -> post_init r = Err ValueError).
Proof.
  split; [apply valid_iff|]. intro N. destruct (post_init r) as [p|e] eqn:E.
  - exfalso. apply N. apply valid_iff. exists p. exact E.
  - f_equal. eapply post_init_error. exact E.
Qed.
Print Assumptions C38_accepted_iff_valid.

(** Validation changes no field. *)
Theorem C38_fields_kept r p : post_init r = Ok p -> raw_of p = r.
Proof.
  intro E. assert (V : valid r) by (apply valid_iff; exists p; exact E). destruct V as [V1 V2 _ _ _ _ _ V8].
  unfold post_init in E. cbn zeta in E.
  repeat (apply (proj1 (raise_if_iff _ _ _ _)) in E; let B := fresh "B" in destruct E as [B E]). inversion E; subst p. clear - V1 V2 V8.
  assert (I : forall n, n = None \/ ParamsSpec.positive_int n -> option_map PInt (int_of n) = n).
  { intros n [->|[z [-> _]]]; reflexivity. }
  assert (F : forall a b, no_bounds a b \/ good_bounds a b -> option_map Fin (fin a) = a /\ option_map Fin (fin b) = b).
  { intros a b [[-> ->]|[x [y [-> [-> _]]]]]; split; reflexivity. }
  destruct (F (r_min_value r) (r_max_value r)) as [F1 F2]; [tauto|].
  destruct (F (r_min_sum_per_partition r) (r_max_sum_per_partition r)) as [F3 F4]; [tauto|].
  assert (I1 := I (r_max_partitions_contributed r)). assert (I2 := I (r_max_contributions_per_partition r)).
  assert (I3 := I (r_max_contributions r)). assert (I4 := I (r_pre_threshold r)).
  unfold raw_of. cbn -[option_map int_of fin]. rewrite F1, F2, F3, F4, I1, I2, I3, I4 by tauto.
  destruct r; reflexivity.
Qed.
Print Assumptions C38_fields_kept.

(** Accepted parameters are usable: the combiners can be created, unless the
    clipping range of MEAN is one point, the bounds of SUM are both 0, per-partition
    sum bounds are used with max_contributions, or one percentile is requested twice. *)
Theorem C38_accepted_are_usable p :
  accepted p ->
  (In MEAN (metrics p) -> ~ one_point (min_value p) (max_value p)) ->
  (In SUM (metrics p) -> ~ both_zero (min_value p) (max_value p) /\
     ~ both_zero (min_sum_per_partition p) (max_sum_per_partition p) /\
     (min_sum_per_partition p <> None -> max_contributions p = None)) ->
  NoDup (map Qred (percentiles (metrics p))) ->
  exists cs, create_compound_combiner p = Ok cs.
Proof.
  intros Ha Hm Hs Hp. destruct (combiners_created p Ha Hm Hs) as [cs E]. exists cs.
  apply (C23_only_repeated_percentiles_rejected p cs E). exact Hp.
Qed.
Print Assumptions C38_accepted_are_usable.

Definition bare_params (ms : list metric) (mc : option Z) (v s : option (Q * Q)) : params :=
  let b := match mc with Some _ => None | None => Some 2%Z end in
  Params ms LaplaceNoise b b mc 1 (option_map fst v) (option_map snd v) (option_map fst s) (option_map snd s)
         false None None None false false TruncatedGeometric None false true.

(** Each of the exceptions is accepted and fails later. *)
Theorem C38_degenerate_ranges_refuted :
  (exists p, accepted p /\ In MEAN (metrics p) /\ create_compound_combiner p = Err ValueError) /\
  (exists p, accepted p /\ In SUM (metrics p) /\ max_contributions p = None /\ create_compound_combiner p = Err ValueError) /\
  (exists p, accepted p /\ In SUM (metrics p) /\ min_sum_per_partition p = Some 0 /\ max_sum_per_partition p = Some 1 /\
             create_compound_combiner p = Err ValueError) /\
  (exists p, accepted p /\ create_compound_combiner p = Err ValueError /\ metrics p = [PERCENTILE 50; PERCENTILE 50]).
Proof.
  split; [|split; [|split]].
  - exists (bare_params [MEAN] None (Some (3, 3)) None).
    split; [exists (raw_of (bare_params [MEAN] None (Some (3, 3)) None)); reflexivity|]. split; [left; reflexivity | reflexivity].
  - exists (bare_params [SUM] None (Some (0, 0)) None).
    split; [exists (raw_of (bare_params [SUM] None (Some (0, 0)) None)); reflexivity|]. split; [left; reflexivity | split; reflexivity].
  - exists (bare_params [SUM] (Some 5%Z) None (Some (0, 1))).
    split; [exists (raw_of (bare_params [SUM] (Some 5%Z) None (Some (0, 1)))); reflexivity|]. split; [left; reflexivity | repeat split; reflexivity].
  - exists (bare_params [PERCENTILE 50; PERCENTILE 50] None (Some (0, 1)) None).
    split; [exists (raw_of (bare_params [PERCENTILE 50; PERCENTILE 50] None (Some (0, 1)) None)); reflexivity|]. split; reflexivity.
Qed.
Print Assumptions C38_degenerate_ranges_refuted.

(** A percentile together with VECTOR_SUM is accepted without value bounds; so is
    VECTOR_SUM without vector_size and norm. *)
Theorem C38_needed_bounds_present_refuted :
  (exists p q, accepted p /\ In (PERCENTILE q) (metrics p) /\ min_value p = None /\ max_value p = None) /\
  (exists p, accepted p /\ In VECTOR_SUM (metrics p) /\ vector_size p = None /\ vector_max_norm p = None).
Proof.
  split.
  - exists (bare_params [PERCENTILE 50; VECTOR_SUM] None None None), 50.
    split; [exists (raw_of (bare_params [PERCENTILE 50; VECTOR_SUM] None None None)); reflexivity|].
    split; [left; reflexivity | split; reflexivity].
  - exists (bare_params [VECTOR_SUM] None None None).
    split; [exists (raw_of (bare_params [VECTOR_SUM] None None None)); reflexivity|]. split; [left; reflexivity | split; reflexivity].
Qed.
Print Assumptions C38_needed_bounds_present_refuted.

(** What the engine checks in addition. *)
Theorem C38_engine_check col_ok extractors_ok p :
  check_aggregate_params col_ok extractors_ok p = Ok tt <->
  col_ok = true /\ extractors_ok = true /\
  (max_contributions p <> None -> forall m, In m (metrics p) -> In m [PRIVACY_ID_COUNT; COUNT; SUM; MEAN]) /\
  (contribution_bounds_already_enforced p = true -> ~ In PRIVACY_ID_COUNT (metrics p)) /\
  (post_aggregation_thresholding p = true -> In PRIVACY_ID_COUNT (metrics p)).
Proof.
  unfold check_aggregate_params. rewrite !raise_if_iff.
  assert (X : only [PRIVACY_ID_COUNT; COUNT; SUM; MEAN] (metrics p) = true <->
              forall m, In m (metrics p) -> In m [PRIVACY_ID_COUNT; COUNT; SUM; MEAN]).
  { rewrite only_forall. split; intros F m Hm; specialize (F m Hm); destruct m; cbn in *; intuition discriminate. }
  assert (Y := has_in PRIVACY_ID_COUNT (metrics p) ltac:(discriminate)).
  assert (Mc : max_contributions p <> None <-> is_some (max_contributions p) = true) by (destruct (max_contributions p); cbn; split; congruence).
  rewrite Mc, <- X, <- Y.
  destruct (is_some (max_contributions p)), (only [PRIVACY_ID_COUNT; COUNT; SUM; MEAN] (metrics p)), col_ok, extractors_ok,
    (contribution_bounds_already_enforced p), (post_aggregation_thresholding p), (has PRIVACY_ID_COUNT (metrics p)); cbn;
    intuition congruence.
Qed.
Print Assumptions C38_engine_check.

(** select_partitions, add_dp_noise and private contribution bounds. *)
Theorem C38_select_partitions_check col_ok extractors_ok r :
  check_select_params col_ok extractors_ok r = Ok tt <->
  col_ok = true /\ extractors_ok = true /\ ParamsSpec.positive_int (rs_max_partitions_contributed r) /\
  (rs_pre_threshold r = None \/ ParamsSpec.positive_int (rs_pre_threshold r)).
Proof.
  unfold check_select_params. rewrite !raise_if_iff. rewrite <- !positive_int_iff.
  destruct col_ok, extractors_ok, (rs_pre_threshold r), (not_positive_int (rs_max_partitions_contributed r)); cbn;
    intuition congruence.
Qed.
Print Assumptions C38_select_partitions_check.

Theorem C38_add_noise_check l0 linf w :
  (check_add_noise_params l0 linf w = Ok tt <-> (0 < l0)%Z /\ 0 < linf /\ 0 < w).
Proof.
  unfold check_add_noise_params. rewrite !raise_if_iff, Z.leb_gt.
  assert (X : forall q, Qle_bool q 0 = false <-> 0 < q).
  { intro q. destruct (Qle_bool q 0) eqn:E; [apply Qle_bool_iff in E; split; [discriminate | lra]|].
    split; [intros _|reflexivity]. apply Qnot_le_lt. intro L. apply Qle_bool_iff in L. congruence. }
  rewrite !X. intuition.
Qed.
Print Assumptions C38_add_noise_check.

Theorem C38_private_bounds_check kind ae ad ce ub :
  check_private_bounds_params kind ae ad ce ub = Ok tt <->
  0 < ae /\ 0 <= ad < 1 /\ 0 < ce /\ ParamsSpec.positive_int ub /\
  (kind = Some LaplaceNoise \/ kind = Some GaussianNoise /\ 0 < ad).
Proof.
  unfold check_private_bounds_params. cbn zeta. rewrite !raise_if_iff, !orb_false_iff, <- positive_int_iff, !negb_false_iff, !Qle_bool_iff.
  assert (X : forall a b, Qle_bool a b = false <-> b < a).
  { intros a b. destruct (Qle_bool a b) eqn:E; [apply Qle_bool_iff in E; split; [discriminate | lra]|].
    split; [intros _|reflexivity]. apply Qnot_le_lt. intro L. apply Qle_bool_iff in L. congruence. }
  rewrite !X. split.
  - intros [[[A1 A2] A3] [A4 [A5 [[[A6 _] _] [A7 _]]]]]. repeat split; try assumption.
    destruct kind as [[|]|]; [left; reflexivity | right; split; [reflexivity|] | discriminate].
    destruct (Qeq_bool ad 0) eqn:E; [discriminate|]. apply Qeq_bool_neq in E.
    destruct (Qlt_le_dec 0 ad); [assumption|]. exfalso. apply E. lra.
  - intros [A1 [[A2 A3] [A4 [A5 A6]]]]. split; [tauto|]. split; [destruct A6 as [->|[-> _]]; reflexivity|].
    split. { destruct A6 as [->|[-> P]]; [reflexivity|]. destruct (Qeq_bool ad 0) eqn:E; [|reflexivity]. apply Qeq_bool_eq in E. lra. }
    repeat split; try assumption; try lra; reflexivity.
Qed.
Print Assumptions C38_private_bounds_check.

Example C38_valid_exists : valid (raw_of (bare_params [MEAN; PRIVACY_ID_COUNT; PERCENTILE 90] None (Some (-(1), 5)) None)).
Proof. apply valid_iff. eexists. reflexivity. Qed.
Example C38_invalid_exists : ~ valid (raw_of (bare_params [MEAN] None None (Some (0, 1)))).
Proof. intro V. apply valid_iff in V. destruct V as [p E]. discriminate E. Qed.
Example C38_usable_hypotheses_met :
  let p := bare_params [SUM; MEAN; PERCENTILE 90; PERCENTILE 50] (Some 3%Z) (Some (-(1), 5)) None in
  accepted p /\ ~ one_point (min_value p) (max_value p) /\ ~ both_zero (min_value p) (max_value p) /\
  ~ both_zero (min_sum_per_partition p) (max_sum_per_partition p) /\ min_sum_per_partition p = None /\
  NoDup (map Qred (percentiles (metrics p))).
Proof.
  cbn zeta. split; [eexists (raw_of (bare_params [SUM; MEAN; PERCENTILE 90; PERCENTILE 50] (Some 3%Z) (Some (-(1), 5)) None)); reflexivity|].
  cbn. split; [|split; [|split; [|split]]].
  - intros [a [b [A [B E]]]]. inversion A; inversion B; subst. vm_compute in E. discriminate.
  - intros [a [b [A [B [_ E]]]]]. inversion B; subst. vm_compute in E. discriminate.
  - intros [a [b [A _]]]. discriminate.
  - reflexivity.
  - repeat constructor; cbn; intuition discriminate.
Qed.
