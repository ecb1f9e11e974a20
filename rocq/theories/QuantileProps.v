(** Property C70: what PERCENTILE asks from PyDP's quantile trees is right. *)
From Coq Require Import String List ZArith QArith Bool Permutation Lia.
From Verif Require Import Base BaseLemmas ListLemmas BackendModel BackendSpec BounderModel BounderSpec BounderProofs ParamsModel ParamsProofs SensModel
  CombinerModel CombinerSpec EngineModel EngineSpec EngineProofs EngineProofs2 EngineProofs3 EngineProofs4 EngineProofs5
  EngineProps EngineProps2 CombinerProofs3 EnforcedSpec EnforcedProofs EnforcedProofs2 EnforcedProps QuantileModel.
Import ListNotations.
Local Close Scope Q_scope.

(** One run, with the contributions bounded by the library or by the user. *)
Definition bounded_run {U P} `{EqDec U} `{EqDec P} p cs (sm : sampling U P) public rows keys col : Prop :=
  standard_run p cs sm public rows keys col \/ trusted_run p cs sm public rows keys col.

(** The engine accepts PERCENTILE only with the bounds that PyDP gets, and they are positive. *)
Theorem C70_bounds_known p cs i ps eps delta a b :
  accepted p -> check_aggregate_params a b p = Ok tt ->
  create_compound_combiner p = Ok cs -> nth_error cs i = Some (CQuantile ps) ->
  exists l0 linf, (0 < l0)%Z /\ (0 < linf)%Z /\
    qq_l0 (quantile_query_of p eps delta ps) = Some l0 /\ qq_linf (quantile_query_of p eps delta ps) = Some linf /\
    max_partitions_contributed p = Some l0 /\ max_contributions_per_partition p = Some linf.
Proof.
  intros Ha Hc Hcs Hi. assert (Hf := accepted_facts p Ha). destruct Hf as [_ [_ [_ Hf]]].
  destruct (max_contributions p) as [m|] eqn:Em.
  - exfalso. unfold check_aggregate_params in Hc. apply raise_if_ok in Hc. destruct Hc as [X _]. rewrite Em in X. cbn [is_some andb] in X.
    apply negb_false_iff in X. assert (K := nth_constructed p cs i _ Hcs Hi). cbn [constructed] in K.
    assert (S0 : exists cs0, create_combiners p = Ok cs0 /\ cs = cs0).
    { unfold create_compound_combiner, compound_init in Hcs. destruct (create_combiners p) as [c0|]; cbn [rbind] in Hcs; [|discriminate].
      apply raise_if_ok in Hcs. destruct Hcs as [_ Y]. inversion Y. eauto. }
    assert (Ne : ps <> []).
    { destruct S0 as [cs0 [S1 <-]]. assert (F : Forall (fun c => c <> CQuantile []) cs).
      { unfold create_combiners in S1.
        assert (H2 : forall l, append_if (has PRIVACY_ID_COUNT (metrics p))
               (if post_aggregation_thresholding p then new_thresh p else new_pid_count p)
               (append_if (has VECTOR_SUM (metrics p)) (new_vector p)
                 (append_if (match percentiles (metrics p) with [] => false | _ => true end)
                      (Ok (CQuantile (percentiles (metrics p)))) (Ok []))) = Ok l -> Forall (fun c => c <> CQuantile []) l).
        { intros l El. eapply append_if_forall; [exact El| |].
          - intros c Ec. destruct (post_aggregation_thresholding p); apply rmap_const_inv in Ec; destruct Ec as [_ ->]; discriminate.
          - intros l' El'. eapply append_if_forall; [exact El'| |].
            + intros c Ec. unfold new_vector in Ec. repeat match type of Ec with context [match ?x with _ => _ end] => destruct x end; inversion Ec; discriminate.
            + intros l2 El2. apply append_if_split in El2. destruct El2 as [[Y [c [l3 [E1 [E2 ->]]]]]|[_ E2]]; [|inversion E2; constructor].
              inversion E2; subst l3. constructor; [|constructor]. inversion E1. destruct (percentiles (metrics p)); [discriminate|].
              intro Z0. discriminate Z0. }
        destruct (has VARIANCE (metrics p)).
        { eapply append_if_forall; [exact S1| |exact H2]. intros x Ex. unfold new_variance in Ex.
          destruct (min_value p), (max_value p); inversion Ex; discriminate. }
        destruct (has MEAN (metrics p)).
        { eapply append_if_forall; [exact S1| |exact H2]. intros x Ex. unfold new_mean in Ex.
          destruct (min_value p), (max_value p); try discriminate. destruct (sens_count p); cbn [rbind] in Ex; [|discriminate].
          apply rmap_const_inv in Ex. destruct Ex as [_ ->]. discriminate. }
        eapply append_if_forall; [exact S1| |].
        - intros x Ex. apply rmap_const_inv in Ex. destruct Ex as [_ ->]. discriminate.
        - intros l El. eapply append_if_forall; [exact El| |exact H2]. intros x Ex. unfold new_sum in Ex.
          destruct (sens_sum p); cbn [rbind] in Ex; [|discriminate].
          destruct (bounds_per_partition_are_set p);
            [destruct (min_sum_per_partition p), (max_sum_per_partition p) | destruct (min_value p), (max_value p)];
            inversion Ex; discriminate. }
      rewrite Forall_forall in F. intros ->. exact (F _ (nth_error_In _ _ Hi) eq_refl). }
    destruct ps as [|q ps]; [congruence|].
    assert (Iq : In q (percentiles (metrics p))) by (rewrite <- K; left; reflexivity).
    unfold percentiles in Iq. apply in_flat_map in Iq. destruct Iq as [m0 [Im Iq]]. destruct m0; try (exfalso; exact Iq).
    unfold only in X. rewrite forallb_forall in X. specialize (X _ Im). cbn in X. discriminate.
  - destruct Hf as [l0 [linf [E0 [Ei [P0 Pi]]]]]. exists l0, linf. cbn [quantile_query_of qq_l0 qq_linf]. repeat (split; [assumption|]). assumption.
Qed.
Print Assumptions C70_bounds_known.

(** Without a privacy id at most max_contributions_per_partition values are missing in each
    of at most max_partitions_contributed trees: the numbers that PyDP gets. *)
Theorem C70_one_id_influence {U P} `{EqDec U} `{EqDec P} p cs (sm : sampling U P) public rows keys col u i ps eps delta l0 linf :
  bounded_run p cs sm public rows keys col -> nth_error cs i = Some (CQuantile ps) ->
  qq_l0 (quantile_query_of p eps delta ps) = Some l0 -> qq_linf (quantile_query_of p eps delta ps) = Some linf ->
  exists col', raw_accumulators p cs sm public (without u rows) = Ok col' /\
    tree_change l0 linf keys (fun k => raw_tree i k col) (fun k => raw_tree i k col').
Proof.
  cbn [quantile_query_of qq_l0 qq_linf]. intros [R|R] Hi E0 Ei.
  - assert (E : raw_accumulators p cs sm public rows = Ok col) by (destruct R as [_ [_ [_ [_ [_ [_ E]]]]]]; exact E).
    destruct (raw_without_ok p cs sm public rows u col E) as [col' E']. exists col'. split; [exact E'|].
    exact (standard_trees p cs sm public rows keys col col' u i ps l0 linf R Hi E' E0 Ei).
  - assert (E : raw_accumulators p cs sm public rows = Ok col) by (destruct R as [_ [_ [_ [_ [_ E]]]]]; exact E).
    destruct (raw_without_ok p cs sm public rows u col E) as [col' E']. exists col'. split; [exact E'|].
    exact (trusted_trees p cs sm public rows keys col col' u i ps l0 linf R Hi E' E0 Ei).
Qed.
Print Assumptions C70_one_id_influence.

(** When the data are within the bounds, the tree of a partition has exactly the values of
    the partition. *)
Theorem C70_tree_has_the_values {U P} `{EqDec U} `{EqDec P} p cs (sm : sampling U P) public rows keys col i ps k :
  bounded_run p cs sm public rows keys col -> within_bounds p rows -> nth_error cs i = Some (CQuantile ps) ->
  match public with Some pub => public_partitions_already_filtered p = false -> In k pub | None => True end ->
  Permutation (raw_tree i k col) (map (fun r => num_of (snd r)) (filter (fun r => eqb (snd (fst r)) k) rows)).
Proof.
  intros R W Hi Hk.
  assert (Pb : filter (fun r => eqb (snd (fst r)) k) (to_bound p public rows) = filter (fun r => eqb (snd (fst r)) k) rows).
  { unfold to_bound. destruct public as [pub|]; [|reflexivity]. destruct (public_partitions_already_filtered p); [reflexivity|].
    rewrite drop_partitions_filter, filter_filter. apply filter_ext_In. intros r _.
    destruct (eqb (snd (fst r)) k) eqn:B; [|apply andb_false_r]. apply eqb_eq in B. rewrite B, andb_true_r.
    apply mem_true_iff. exact (Hk eq_refl). }
  rewrite <- Pb. destruct R as [[Ha [_ [Hb [_ [_ [_ E]]]]]]|[Ha [_ [Hb [_ [_ E]]]]]].
  - destruct (raw_tree_kept p cs sm public rows col i ps Hb Hi E) as [kept [Ek T]]. rewrite T.
    apply Permutation_map. apply filter_Permutation.
    exact (kept_complete p _ sm _ kept Ha (within_to_bound p public rows W) Ek).
  - rewrite (raw_tree_trusted p cs sm public rows col i ps k Hb Hi E). apply Permutation_refl.
Qed.
Print Assumptions C70_tree_has_the_values.

(** Under the name percentile_x the user gets PyDP's answer for the quantile x / 100. *)
Theorem C70_answers_labelled p cs i ps l (nz : noises) eps delta d :
  create_compound_combiner p = Ok cs -> nth_error cs i = Some (CQuantile ps) ->
  length (n_quantiles nz l (qq_quantiles (quantile_query_of p eps delta ps))) = length ps ->
  compute_metrics nz (CQuantile ps) (ATree l) = Ok d ->
  ps = flat_map (fun m => match m with PERCENTILE x => [x] | _ => [] end) (metrics p) /\
  length d = length ps /\
  forall j x, nth_error ps j = Some x ->
    exists q a, nth_error (qq_quantiles (quantile_query_of p eps delta ps)) j = Some q /\ (q == x / 100)%Q /\
      nth_error (n_quantiles nz l (qq_quantiles (quantile_query_of p eps delta ps))) j = Some a /\
      nth_error d j = Some (NPercentile (Qred x), RNum a).
Proof.
  intros Hcs Hi. cbn [quantile_query_of qq_quantiles]. intros L E. cbn [compute_metrics] in E.
  set (qs := map (fun x => (x / 100)%Q) ps) in *. set (an := n_quantiles nz l qs) in *. inversion E; subst d. clear E.
  assert (K := nth_constructed p cs i _ Hcs Hi). cbn [constructed] in K.
  split; [exact K|]. split; [rewrite combine_length; cbn [names_of]; rewrite !map_length, L; apply Nat.min_id|].
  intros j x Hj. exists (x / 100)%Q. assert (Lj : j < length an).
  { rewrite L. apply nth_error_Some. congruence. }
  destruct (nth_error an j) as [a|] eqn:Ea; [|apply nth_error_None in Ea; lia]. exists a.
  split; [unfold qs; rewrite nth_error_map, Hj; reflexivity|]. split; [reflexivity|]. split; [reflexivity|].
  assert (G : forall (A B : Type) (xs : list A) (ys : list B) n y z, nth_error xs n = Some y -> nth_error ys n = Some z ->
            nth_error (combine xs ys) n = Some (y, z)).
  { induction xs as [|x0 xs IH]; intros [|y0 ys] [|n] y z X Y; cbn in *; try discriminate; [congruence | eauto]. }
  apply G; [cbn [names_of]; rewrite nth_error_map, Hj; reflexivity | rewrite nth_error_map, Ea; reflexivity].
Qed.
Print Assumptions C70_answers_labelled.

(** PyDP adds the requested noise, with the budget of the combiner, on the requested range:
    two requests that differ in one of these ask PyDP different questions, so that no
    setting is dropped or replaced by another. *)
Theorem C70_noise_as_requested p p' eps delta eps' delta' ps :
  (qq_noise (quantile_query_of p eps delta ps) = "laplace"%string <-> noise_kind p = LaplaceNoise) /\
  (qq_noise (quantile_query_of p eps delta ps) = "gaussian"%string <-> noise_kind p = GaussianNoise) /\
  (quantile_query_of p eps delta ps = quantile_query_of p' eps' delta' ps <->
     noise_kind p = noise_kind p' /\ eps = eps' /\ delta = delta' /\ min_value p = min_value p' /\ max_value p = max_value p' /\
     max_partitions_contributed p = max_partitions_contributed p' /\
     max_contributions_per_partition p = max_contributions_per_partition p').
Proof.
  unfold quantile_query_of, noise_type. cbn [qq_noise]. split; [|split].
  - destruct (noise_kind p); split; congruence.
  - destruct (noise_kind p); split; congruence.
  - split.
    + intro E. injection E. intros En E0 E1 E2 E3 E4 E5. repeat (split; [|try congruence]); try congruence.
      destruct (noise_kind p), (noise_kind p'); congruence.
    + intros (En & -> & -> & E1 & E2 & E3 & E4). rewrite En, E1, E2, E3, E4. reflexivity.
Qed.
Print Assumptions C70_noise_as_requested.

(** ** The hypotheses are met *)
Definition percentile_params (enforced : bool) : params :=
  Params [PERCENTILE 50; COUNT; PERCENTILE 90] GaussianNoise (Some 2%Z) (Some 2%Z) None 1%Q (Some (-3)%Q) (Some 5%Q) None None false None None None
         enforced false TruncatedGeometric None false true.

(** Privacy id 1 has more rows than allowed. *)
Example C70_hypotheses_met :
  check_aggregate_params true true (percentile_params false) = Ok tt /\
  create_compound_combiner (percentile_params false) = Ok [CCount; CQuantile [50%Q; 90%Q]] /\
  exists col, bounded_run (percentile_params false) [CCount; CQuantile [50%Q; 90%Q]] (first_sampling 2 2) None demo_rows [10; 20; 30]%Z col /\
    raw_tree 1 10%Z col = [4; -2]%Q /\
    exists col', raw_accumulators (percentile_params false) [CCount; CQuantile [50%Q; 90%Q]] (first_sampling 2 2) None (without 1%Z demo_rows) = Ok col' /\
                 raw_tree 1 10%Z col' = [].
Proof.
  split; [reflexivity|]. split; [reflexivity|]. eexists. split; [|split].
  - left. split; [exists (raw_of (percentile_params false)); reflexivity|]. split; [reflexivity|]. split; [reflexivity|].
    split; [split; intros x X; inversion X; subst; apply first_n_valid|]. split; [discriminate|].
    split; [repeat constructor; cbn; intuition discriminate|]. vm_compute. reflexivity.
  - vm_compute. reflexivity.
  - eexists. split; vm_compute; reflexivity.
Qed.

Example C70_trusted_hypotheses_met :
  exists col, bounded_run (percentile_params true) [CCount; CQuantile [50%Q; 90%Q]] (first_sampling 0 0) None enforced_rows [10; 20]%Z col /\
    within_bounds (percentile_params true) enforced_rows /\ raw_tree 1 20%Z col = [1; 3; 3]%Q.
Proof.
  assert (W : within_bounds (percentile_params true) enforced_rows).
  { destruct C69_hypotheses_met as [_ [_ [_ [_ [_ [_ W]]]]]]. exact W. }
  eexists. split; [|split].
  - right. split; [exists (raw_of (percentile_params true)); reflexivity|]. split; [reflexivity|]. split; [reflexivity|].
    split; [exact W|]. split; [repeat constructor; cbn; intuition discriminate|]. vm_compute. reflexivity.
  - exact W.
  - vm_compute. reflexivity.
Qed.
