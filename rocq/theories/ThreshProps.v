(** C59, continued: what post-aggregation thresholding tells PyDP. *)
From Coq Require Import String List ZArith QArith Bool Lia Lqa.
From Verif Require Import Base BaseLemmas ParamsModel ParamsSpec SensModel BudgetModel CombinerModel SelectModel EngineModel EngineSpec EngineProofs3 DpModel SelectProps EngineProps.
Import ListNotations.

(** The mechanism is that of the noise kind, with the granted budget and the pre-threshold; its bound on the
    number of partitions is the declared one, except with max_contributions: then it gets None. *)
Theorem C59_bound_passed_to_thresholding p eps delta : accepted p ->
  exists l0,
    thresholding_mechanism p eps delta =
      Ok (Selector (match noise_kind p with LaplaceNoise => "laplace" | GaussianNoise => "gaussian" end)%string eps delta l0 (pre_threshold p)) /\
    (l0 = None <-> exists m, max_contributions p = Some m) /\
    (forall z, l0 = Some z -> max_partitions_contributed p = Some z).
Proof.
  intro Ha. destruct (accepted_facts p Ha) as [_ [_ [_ Hl]]]. unfold thresholding_mechanism, sens_privacy_id_count.
  destruct (max_contributions p) as [m|].
  - destruct Hl as [Pm _]. exists None.
    assert (N : nonpos (Some (inject_Z m)) = false).
    { unfold nonpos. destruct (Qle_bool (inject_Z m) 0) eqn:E; [|reflexivity]. apply Qle_bool_iff in E. change 0 with (inject_Z 0) in E. rewrite <- Zle_Qle in E. lia. }
    unfold mk_sens, raise_if. change (nonpos None) with false. rewrite N. cbn [rbind s_l0].
    split; [destruct (noise_kind p); reflexivity|]. split; [split; [intros _; eauto | reflexivity] | discriminate].
  - destruct Hl as (l0 & linf & E0 & _ & P0 & _). exists (Some l0). rewrite E0. unfold mk_sens, raise_if. change (nonpos None) with false.
    change (nonpos (Some 1%Q)) with false. destruct (l0 <=? 0)%Z eqn:El; [apply Z.leb_le in El; lia|]. cbn [rbind s_l0].
    split; [destruct (noise_kind p); reflexivity|]. split; [split; [discriminate | intros [m X]; discriminate] | intros z Ez; exact Ez].
Qed.
Print Assumptions C59_bound_passed_to_thresholding.

(** Such calls pass all checks of AggregateParams and of DPEngine, and their combiners are created. *)
Theorem C59_max_contributions_thresholding_refuted : exists p cs,
  accepted p /\ check_aggregate_params true true p = Ok tt /\ create_compound_combiner p = Ok cs /\ In CThresh cs /\
  post_aggregation_thresholding p = true /\
  forall eps delta sel, thresholding_mechanism p eps delta = Ok sel -> sel_l0 sel = None.
Proof.
  pose (p := Params [PRIVACY_ID_COUNT] LaplaceNoise None None (Some 2%Z) 1 None None None None false None None None false false TruncatedGeometric None true true).
  assert (A : accepted p) by (exists (raw_of p); vm_compute; reflexivity).
  exists p, [CThresh]. split; [exact A|]. split; [reflexivity|]. split; [vm_compute; reflexivity|]. split; [left; reflexivity|]. split; [reflexivity|].
  intros eps delta sel E. destruct (C59_bound_passed_to_thresholding p eps delta A) as (l0 & E' & N & _). rewrite E' in E. injection E as <-.
  apply N. exists 2%Z. reflexivity.
Qed.
Print Assumptions C59_max_contributions_thresholding_refuted.

(** The hypothesis is met without max_contributions. *)
Example C59_thresholding_hypothesis_met : exists p, accepted p /\
  thresholding_mechanism p 1 (1 # 10) = Ok (Selector "gaussian" 1 (1 # 10) (Some 3%Z) (Some 2%Z)).
Proof.
  pose (p := Params [PRIVACY_ID_COUNT] GaussianNoise (Some 3%Z) (Some 1%Z) None 1 None None None None false None None None false false TruncatedGeometric (Some 2%Z) true true).
  exists p. split; [exists (raw_of p); vm_compute; reflexivity | vm_compute; reflexivity].
Qed.
