(** Property C58: the histogram-based error estimator. *)
From Coq Require Import List ZArith QArith Qreals Reals Bool Sorted Lia Lqa Lra.
From Verif Require Import Base BaseLemmas ListLemmas ParamsModel SensModel BackendModel BackendSpec
  HistModel HistSpec HistProofs HistProps VectorModel
  EstimatorModel EstimatorSpec EstimatorProofs EstimatorProofs2 EstimatorProofs3 EstimatorProofs4.
Import ListNotations.
Local Open Scope R_scope.

(** ** The ratio of lost data *)

(** For a histogram of contributions, the estimated fraction of the data lost by a
    bound is never below the true fraction and at most 0.01 above it; it is exact
    for bounds at the lower end of a bin and when no contribution reaches 1000. *)
Theorem C58_ratio_dropped : forall xs h b, Forall (fun x => (1 <= x)%Z) xs -> xs <> [] -> histogram_of xs h ->
  exists rs q, compute_ratio_dropped h = Ok rs /\ get_ratio_dropped (ratios_of rs) (inject_Z b) = Ok q /\
    (ratio_lost (Z.max 0 b) xs <= q <= ratio_lost (Z.max 0 b) xs + (1 # 100))%Q /\ (0 <= q <= 1)%Q /\
    ((b <= 0)%Z \/ In b (map b_lower h) \/ Forall (fun x => (x < 1000)%Z) xs -> (q == ratio_lost (Z.max 0 b) xs)%Q).
Proof.
  intros xs h b F N H. destruct (Z_le_gt_dec b 0) as [L|L].
  - destruct (ratio_estimate xs h 1 F N H ltac:(lia)) as (rs & _ & E & _). exists rs, 1%Q.
    assert (Z1 : (ratio_lost (Z.max 0 b) xs == 1)%Q).
    { rewrite Z.max_l by lia. unfold ratio_lost. rewrite (HistProofs3.excess_zero xs F).
      apply Qmult_inv_r. pose proof (EstimatorProofs2.sumZ_pos xs F N). intro E0. apply inject_inj in E0. lia. }
    split; [exact E|]. split.
    { unfold get_ratio_dropped. rewrite (proj2 (Qle_bool_iff _ _)); [reflexivity|]. change 0%Q with (inject_Z 0).
      rewrite <- Zle_Qle. lia. }
    rewrite Z1. split; [Lqa.lra|]. split; [Lqa.lra|]. reflexivity.
  - destruct (ratio_estimate xs h b F N H ltac:(lia)) as (rs & q & E & G & B & U & X). exists rs, q.
    rewrite Z.max_r by lia. pose proof (ratio_lost_bounds b xs ltac:(lia) F N).
    split; [exact E|]. split; [exact G|]. split; [exact B|]. split; [Lqa.lra|]. intros [C|C]; [lia | exact (X C)].
Qed.
Print Assumptions C58_ratio_dropped.

(** A larger bound never loses more data. *)
Theorem C58_ratio_monotone : forall xs h b b' rs q q', Forall (fun x => (1 <= x)%Z) xs -> xs <> [] ->
  histogram_of xs h -> (b <= b')%Z -> compute_ratio_dropped h = Ok rs ->
  get_ratio_dropped (ratios_of rs) (inject_Z b) = Ok q -> get_ratio_dropped (ratios_of rs) (inject_Z b') = Ok q' ->
  (q' <= q)%Q.
Proof. exact ratio_estimate_antitone. Qed.
Print Assumptions C58_ratio_monotone.

Example C58_ratio_case :
  let xs := [1; 2; 2; 5]%Z in
  exists h rs, frequency_histogram xs = Ok h /\ compute_ratio_dropped h = Ok rs /\
    rmap Qred (get_ratio_dropped (ratios_of rs) (inject_Z 2)) = Ok (3 # 10)%Q /\
    rmap Qred (get_ratio_dropped (ratios_of rs) (inject_Z 3)) = Ok (1 # 5)%Q /\
    (ratio_lost 3 xs == 1 # 5)%Q.
Proof. eexists. eexists. repeat split; vm_compute; reflexivity. Qed.

(** ** The error of partitions *)

(** The average over the bins of a histogram of partition sizes is the average error of
    the partitions: at most 1% below it, never above it, exact for sizes below 1000. *)
Theorem C58_rmse_of_sizes : forall ratio std sizes h, Forall (fun x => (1 <= x)%Z) sizes -> sizes <> [] ->
  histogram_of sizes h ->
  exists t, estimate_rmse_impl ratio std (partition_bins h) = Ok t /\
    t <= average_rmse ratio std sizes <= 101 / 100 * t /\
    (Forall (fun x => (x < 1000)%Z) sizes -> t = average_rmse ratio std sizes).
Proof. exact estimate_impl. Qed.
Print Assumptions C58_rmse_of_sizes.

(** ** The whole estimate *)

Definition below_1000 (l : list Z) : Prop := Forall (fun x => (x < 1000)%Z) l.

(** COUNT: for every dataset the estimate is within 1% and 0.02 average partition sizes
    of the error of the documented algorithm run on the exact data. *)
Theorem C58_count_estimate :
  forall (P K : Type) (EP : EqDec P) (EK : EqDec K) buckets (rows : list ((P * K) * Q)) sigma eps delta n e l0 linf,
  rows <> [] ->
  create_count_estimator sigma (compute_dataset_histograms buckets rows) eps delta COUNT n = Ok e ->
  (1 <= l0)%Z -> (1 <= linf)%Z ->
  let col := map fst rows in
  let ratio := (1 - (1 - ratio_lost l0 (partitions_per_id col)) * (1 - ratio_lost linf (rows_per_pair col)))%Q in
  let exact := average_rmse (Q2R ratio) (noise_std sigma eps delta n l0 linf) (rows_per_partition col) in
  exists est, estimate_rmse e l0 (Some (inject_Z linf)) = Ok est /\
    exact <= 101 / 100 * est /\ est <= exact + 2 / 100 * average_size (rows_per_partition col) /\
    (below_1000 (partitions_per_id col) -> below_1000 (rows_per_pair col) -> below_1000 (rows_per_partition col) ->
     est = exact).
Proof.
  intros P K EP EK buckets rows sigma eps delta n e l0 linf N C L0 Li col ratio exact.
  destruct (create_ok _ _ _ _ _ _ _ C) as (_ & _ & h0 & r0 & hi & ri & hp & E0 & R0 & Ei & Ri & Ep & s & Bs & ->).
  destruct (C31_dataset_histograms P K EP EK buckets rows) as ((h & A & H0 & _) & _ & (h' & A' & Hi & _) & (h'' & A'' & Hp & _) & _).
  cbn beta in Ep. rewrite E0 in A. rewrite Ei in A'. rewrite Ep in A''. injection A as <-. injection A' as <-. injection A'' as <-.
  fold col in H0, Hi, Hp.
  destruct (data_pos col) as (F1 & F2 & F3 & _).
  assert (Nc : col <> []) by (apply map_nonempty; exact N).
  destruct (data_nonempty col Nc) as (N1 & N2 & N3 & _).
  destruct (ratio_estimate _ _ l0 F1 N1 H0 L0) as (rs & q0 & X & G0 & B0 & U0 & Ex0).
  rewrite R0 in X. injection X as <-.
  destruct (ratio_estimate _ _ linf F2 N2 Hi Li) as (rs & qi & X & Gi & Bi & Ui & Exi).
  rewrite Ri in X. injection X as <-.
  pose proof (ratio_lost_bounds l0 _ ltac:(lia) F1 N1) as P0.
  pose proof (ratio_lost_bounds linf _ ltac:(lia) F2 N2) as Pi.
  destruct (estimate_impl (Q2R (1 - (1 - q0) * (1 - qi))) (noise_std sigma eps delta n l0 linf) _ _ F3 N3 Hp)
    as (est & Ee & Be & Ex).
  exists est. split.
  { unfold estimate_rmse. cbn [e_metric e_l0 e_linf e_partitions rbind]. rewrite G0. cbn [rbind]. rewrite Gi. cbn [rbind].
    rewrite (stddev_value sigma eps delta n s COUNT _ _ _ l0 linf Bs L0). cbn [rbind]. exact Ee. }
  destruct (combine_ratios (ratio_lost l0 (partitions_per_id col)) q0 (ratio_lost linf (rows_per_pair col)) qi) as [M D];
    try Lqa.lra. fold ratio in M, D.
  pose proof (average_over _ (2 / 100) _ (noise_std sigma eps delta n l0 linf) _ F3 N3 M D) as [V1 V2].
  fold exact in V1, V2. change (rows_per_partition col) with
    (map (fun k : K => Z.of_nat (occ k (map snd col))) (distinct (map snd col))) in *.
  split; [lra|]. split; [lra|]. intros S0 Si Sp. rewrite (Ex Sp). unfold exact. f_equal. apply Qeq_eqR. unfold ratio.
  rewrite (Ex0 (or_intror S0)), (Exi (or_intror Si)). reflexivity.
Qed.
Print Assumptions C58_count_estimate.

(** PRIVACY_ID_COUNT: the Linf bound plays no role. *)
Theorem C58_privacy_id_count_estimate :
  forall (P K : Type) (EP : EqDec P) (EK : EqDec K) buckets (rows : list ((P * K) * Q)) sigma eps delta n e l0 linf,
  rows <> [] ->
  create_count_estimator sigma (compute_dataset_histograms buckets rows) eps delta PRIVACY_ID_COUNT n = Ok e ->
  (1 <= l0)%Z ->
  let col := map fst rows in
  let exact := average_rmse (Q2R (ratio_lost l0 (partitions_per_id col))) (noise_std sigma eps delta n l0 1)
                 (ids_per_partition col) in
  exists est, estimate_rmse e l0 linf = Ok est /\
    exact <= 101 / 100 * est /\ est <= exact + 1 / 100 * average_size (ids_per_partition col) /\
    (below_1000 (partitions_per_id col) -> below_1000 (ids_per_partition col) -> est = exact).
Proof.
  intros P K EP EK buckets rows sigma eps delta n e l0 linf N C L0 col exact.
  destruct (create_ok _ _ _ _ _ _ _ C) as (_ & _ & h0 & r0 & hi & ri & hp & E0 & R0 & Ei & Ri & Ep & s & Bs & ->).
  destruct (C31_dataset_histograms P K EP EK buckets rows) as ((h & A & H0 & _) & _ & _ & _ & (h'' & A'' & Hp & _)).
  cbn beta in Ep. rewrite E0 in A. rewrite Ep in A''. injection A as <-. injection A'' as <-.
  fold col in H0, Hp.
  destruct (data_pos col) as (F1 & _ & _ & F3).
  assert (Nc : col <> []) by (apply map_nonempty; exact N).
  destruct (data_nonempty col Nc) as (N1 & _ & _ & N3).
  destruct (ratio_estimate _ _ l0 F1 N1 H0 L0) as (rs & q0 & X & G0 & B0 & U0 & Ex0).
  rewrite R0 in X. injection X as <-.
  pose proof (ratio_lost_bounds l0 _ ltac:(lia) F1 N1) as P0.
  destruct (estimate_impl (Q2R (1 - (1 - q0) * (1 - 0))) (noise_std sigma eps delta n l0 1) _ _ F3 N3 Hp)
    as (est & Ee & Be & Ex).
  exists est. split.
  { unfold estimate_rmse. cbn [e_metric e_l0 e_linf e_partitions rbind]. rewrite G0. cbn [rbind].
    pose proof (stddev_value sigma eps delta n s PRIVACY_ID_COUNT (ratios_of r0) (ratios_of ri) (partition_bins hp) l0 1 Bs L0) as Sd.
    change (inject_Z 1) with 1%Q in Sd. rewrite Sd. cbn [rbind]. exact Ee. }
  assert (Eq : Q2R (1 - (1 - q0) * (1 - 0)) = Q2R q0) by (apply Qeq_eqR; ring). rewrite Eq in Be, Ex.
  assert (M : 0 <= Q2R (ratio_lost l0 (partitions_per_id col)) <= Q2R q0).
  { split; [|apply Qle_Rle; exact (proj1 B0)]. replace 0 with (Q2R 0) by (unfold Q2R; cbn; lra). apply Qle_Rle. Lqa.lra. }
  assert (D : Q2R q0 <= Q2R (ratio_lost l0 (partitions_per_id col)) + 1 / 100).
  { replace (1 / 100) with (Q2R (1 # 100)) by (unfold Q2R; cbn; lra). rewrite <- Q2R_plus. apply Qle_Rle. exact (proj2 B0). }
  pose proof (average_over _ (1 / 100) _ (noise_std sigma eps delta n l0 1) _ F3 N3 M D) as [V1 V2].
  fold exact in V1, V2. change (ids_per_partition col) with
    (map (fun k : K => Z.of_nat (occ k (map snd (distinct col)))) (distinct (map snd col))) in *.
  split; [lra|]. split; [lra|]. intros S0 Sp. rewrite (Ex Sp). unfold exact. f_equal. apply Qeq_eqR.
  exact (Ex0 (or_intror S0)).
Qed.
Print Assumptions C58_privacy_id_count_estimate.

(** Estimators are created for these metrics exactly with a budget valid for the noise
    kind.  For the empty dataset there is no estimate. *)
Theorem C58_creation :
  forall (P K : Type) (EP : EqDec P) (EK : EqDec K) buckets (rows : list ((P * K) * Q)) sigma eps delta m n,
  ((exists e, create_count_estimator sigma (compute_dataset_histograms buckets rows) eps delta m n = Ok e) <->
   (m = COUNT \/ m = PRIVACY_ID_COUNT) /\ valid_budget eps delta n) /\
  (forall e l0 linf, create_count_estimator sigma (compute_dataset_histograms buckets rows) eps delta m n = Ok e ->
     (m = COUNT -> linf = None -> estimate_rmse e l0 linf = Err ValueError) /\
     (rows = [] -> (1 <= l0)%Z -> linf <> None -> estimate_rmse e l0 linf = Err IndexError)).
Proof.
  intros P K EP EK buckets rows sigma eps delta m n. split; [split|].
  - intros [e E]. destruct (create_ok _ _ _ _ _ _ _ E) as (M & V & _). auto.
  - intros [M V]. destruct (C31_dataset_histograms P K EP EK buckets rows) as ((h & A & H0 & _) & _ & (h' & A' & Hi & _) & (h'' & A'' & Hp & _) & (h3 & A3 & Hq & _)).
    destruct (data_pos (map fst rows)) as (F1 & F2 & _).
    assert (Ok1 : forall xs h, Forall (fun x => (1 <= x)%Z) xs -> histogram_of xs h -> exists r, compute_ratio_dropped h = Ok r).
    { intros xs g F H. destruct xs as [|x xs].
      - destruct H as (_ & Fd & _). destruct g as [|c g]; [exists []; reflexivity|]. exfalso.
        inversion Fd as [|? ? D _]; subst. destruct D as (_ & _ & _ & (Im & _) & _). destruct Im.
      - destruct (C33_ratio_dropped _ g F ltac:(discriminate) H) as (rs & _ & E & _). eauto. }
    destruct (Ok1 _ _ F1 H0) as [r0 R0]. destruct (Ok1 _ _ F2 Hi) as [ri Ri].
    assert (exists s, base_std sigma eps delta n = Ok s) as [s Bs].
    { unfold base_std, valid_budget in *. destruct n.
      - destruct V as [-> V]. destruct (Qeq_bool eps 0) eqn:Z0; [apply Qeq_bool_iff in Z0; contradiction | eauto].
      - destruct delta; [eauto | contradiction]. }
    unfold create_count_estimator, make_estimator.
    destruct M; subst m; rewrite A; cbn [rbind]; rewrite R0; cbn [rbind]; rewrite A'; cbn [rbind]; rewrite Ri; cbn [rbind];
      [rewrite A'' | rewrite A3]; cbn [rbind]; rewrite Bs; eexists; reflexivity.
  - intros e l0 linf E.
    destruct (create_ok _ _ _ _ _ _ _ E) as (M & _ & h0 & r0 & hi & ri & hp & E0 & R0 & Ei & Ri & Ep & s & Bs & ->). split.
    + intros -> ->. reflexivity.
    + intros -> L Nl. cbv in E0. injection E0 as <-. cbv in R0. injection R0 as <-.
      unfold estimate_rmse. cbn [e_metric e_l0]. destruct linf as [b|]; [|contradiction].
      assert (G : get_ratio_dropped (ratios_of []) (inject_Z l0) = Err IndexError).
      { unfold get_ratio_dropped. destruct (Qle_bool (inject_Z l0) 0) eqn:Z0; [|reflexivity].
        apply Qle_bool_iff in Z0. change 0%Q with (inject_Z 0) in Z0. rewrite <- Zle_Qle in Z0. lia. }
      destruct M; subst m; cbn [rbind]; rewrite G; reflexivity.
Qed.
Print Assumptions C58_creation.

(** The noise in the estimate is the noise of the mechanism which the engine would
    create with the same budget and bounds. *)
Theorem C58_noise_of_the_engine :
  forall sigma d eps delta m n e p l0 linf s mech,
  create_count_estimator sigma d eps delta m n = Ok e ->
  max_contributions p = None -> max_partitions_contributed p = Some l0 ->
  max_contributions_per_partition p = Some linf ->
  compute_sensitivities m p = Ok s ->
  create_additive_mechanism (MSpec n None eps (match delta with Some x => x | None => 0%Q end)) s = Ok mech ->
  get_stddev e l0 (match m with COUNT => inject_Z linf | _ => 1%Q end) = Ok (mechanism_std sigma mech).
Proof.
  intros sigma d eps delta m n e p l0 linf s mech C Mc Mp Ml Cs Cm.
  destruct (create_ok _ _ _ _ _ _ _ C) as (M & V & h0 & r0 & hi & ri & hp & _ & _ & _ & _ & _ & sd & Bs & ->).
  assert (Pm : exists b : Z, (1 <= b)%Z /\ (1 <= l0)%Z /\ match m with COUNT => inject_Z linf | _ => 1%Q end = inject_Z b /\
              s_l1 s = Some (inject_Z l0 * inject_Z b)%Q /\ s_l2sq s = Some (inject_Z l0 * (inject_Z b * inject_Z b))%Q).
  { destruct M; subst m.
    - cbn [compute_sensitivities] in Cs. unfold sens_count in Cs. rewrite Mc, Mp, Ml in Cs. cbn [injZ option_map] in Cs.
      unfold mk_sens, raise_if in Cs. destruct (l0 <=? 0)%Z eqn:E1; [discriminate|]. cbn [nonpos] in Cs.
      destruct (Qle_bool (inject_Z linf) 0) eqn:E2; [discriminate|]. injection Cs as <-. exists linf.
      apply Z.leb_gt in E1.
      assert (1 <= linf)%Z.
      { destruct (Z_le_gt_dec linf 0) as [L|L]; [|lia]. exfalso.
        rewrite (proj2 (Qle_bool_iff _ _)) in E2; [discriminate|]. change 0%Q with (inject_Z 0). rewrite <- Zle_Qle. lia. }
      repeat split; auto; lia.
    - cbn [compute_sensitivities] in Cs. unfold sens_privacy_id_count in Cs. rewrite Mc, Mp in Cs.
      unfold mk_sens, raise_if in Cs. destruct (l0 <=? 0)%Z eqn:E1; [discriminate|]. cbn [nonpos] in Cs.
      change (Qle_bool 1 0) with false in Cs. cbv iota in Cs. injection Cs as <-. exists 1%Z. apply Z.leb_gt in E1.
      repeat split; auto; lia. }
  destruct Pm as (b & Pb & Pl & -> & S1 & S2).
  rewrite (stddev_value sigma eps delta n sd m _ _ _ l0 b Bs Pl). f_equal.
  unfold create_additive_mechanism in Cm. cbn [ms_kind ms_std ms_eps ms_delta] in Cm.
  assert (0 <= IZR b) by (apply IZR_le; lia). assert (0 <= IZR l0) by (apply IZR_le; lia).
  destruct n, delta; cbn [valid_budget] in V; try (destruct V; discriminate); try contradiction.
  - rewrite S1 in Cm. injection Cm as <-. cbn [noise_std mechanism_std]. rewrite Q2R_mult, !Q2R_inject. unfold Rdiv. ring.
  - rewrite S2 in Cm. injection Cm as <-. cbn [noise_std mechanism_std]. rewrite !Q2R_mult, !Q2R_inject.
    rewrite sqrt_mult by nra. rewrite sqrt_square by lra. ring.
Qed.
Print Assumptions C58_noise_of_the_engine.

(** A dataset on which all hypotheses hold: 3 people, 2 partitions; one person has 3 rows
    in one partition.  Bounds (1, 2): the first person loses one of 2 partitions, the pair
    with 3 rows loses one of 6 rows. *)
Example C58_case :
  let rows := [((1, 1), 0%Q); ((1, 1), 0%Q); ((1, 1), 0%Q); ((1, 2), 0%Q); ((2, 1), 0%Q); ((3, 2), 0%Q)]%Z in
  exists e, create_count_estimator (fun _ _ => 1) (compute_dataset_histograms number_of_buckets rows) 1 None COUNT LaplaceNoise = Ok e /\
    partitions_per_id (map fst rows) = [2; 1; 1]%Z /\ rows_per_pair (map fst rows) = [3; 1; 1; 1]%Z /\
    rows_per_partition (map fst rows) = [4; 2]%Z /\ ids_per_partition (map fst rows) = [2; 2]%Z /\
    (ratio_lost 1 (partitions_per_id (map fst rows)) == 1 # 4)%Q /\
    (ratio_lost 2 (rows_per_pair (map fst rows)) == 1 # 6)%Q.
Proof.
  intros rows.
  destruct (proj2 (proj1 (C58_creation Z Z _ _ number_of_buckets rows (fun _ _ => 1) 1 None COUNT LaplaceNoise))) as [e E].
  { split; [left; reflexivity|]. split; [reflexivity | discriminate]. }
  exists e. split; [exact E|]. repeat split; vm_compute; reflexivity.
Qed.

(** ** SUM *)

Lemma create_sum_linf sigma d eps n l0 r0 hl hp rs : h_l0 d = Ok l0 -> compute_ratio_dropped l0 = Ok r0 ->
  h_linf_sum d = Ok (Some hl) -> h_sum_per_partition d = Ok (Some hp) -> compute_ratio_droppedQ hl = Ok rs ->
  valid_budget eps None n ->
  exists e, create_sum_estimator sigma d eps None n = Ok e /\ e_linf e = rs.
Proof.
  intros A B C D E V. unfold create_sum_estimator. rewrite A. cbn [rbind]. rewrite B. cbn [rbind].
  rewrite C. cbn [rbind]. rewrite D. cbn [rbind]. rewrite E. cbn [rbind]. unfold make_estimator, base_std. destruct n; [|destruct (V eq_refl)].
  destruct V as [_ V]. destruct (Qeq_bool eps 0) eqn:Z0; [apply Qeq_bool_iff in Z0; contradiction|]. eexists. split; reflexivity.
Qed.

(** With negative values the "ratio" of lost data is no ratio: sums of -5 and 10 and the
    bound 1 give 1.8..., and the thresholds (0, -5, ...) are not sorted, which the search
    with bisect needs. *)
Theorem C58_sum_ratio_refuted : exists (rows : list ((Z * Z) * Q)) sigma eps e q,
  create_sum_estimator sigma (compute_dataset_histograms number_of_buckets rows) eps None LaplaceNoise = Ok e /\
  get_ratio_dropped (e_linf e) 1 = Ok q /\ (1 < q)%Q /\
  ~ StronglySorted (fun a b => (fst a < fst b)%Q) (e_linf e).
Proof.
  pose (rows := [((1, 1), (-5)%Q); ((2, 1), 10%Q)]%Z).
  exists rows, (fun _ _ => 1), 1%Q.
  pose (D := compute_dataset_histograms number_of_buckets rows).
  destruct (h_l0 D) as [l0|] eqn:E0; [|vm_compute in E0; discriminate].
  destruct (compute_ratio_dropped l0) as [r0|] eqn:R0.
  2:{ vm_compute in E0. injection E0 as <-. vm_compute in R0. discriminate. }
  destruct (h_linf_sum D) as [[hl|]|] eqn:Ei; [|vm_compute in Ei; discriminate ..].
  destruct (h_sum_per_partition D) as [[hp|]|] eqn:Ep; [|vm_compute in Ep; discriminate ..].
  destruct (compute_ratio_droppedQ hl) as [rs|] eqn:Rs.
  2:{ vm_compute in Ei. injection Ei as <-. vm_compute in Rs. discriminate. }
  destruct (create_sum_linf (fun _ _ => 1) D 1 LaplaceNoise l0 r0 hl hp rs E0 R0 Ei Ep Rs) as (e & E & L).
  { split; [reflexivity | discriminate]. }
  exists e. destruct (get_ratio_dropped rs 1) as [q|] eqn:G.
  2:{ vm_compute in Ei. injection Ei as <-. vm_compute in Rs. injection Rs as <-. vm_compute in G. discriminate. }
  exists q. split; [exact E|]. rewrite L. split; [exact G|].
  vm_compute in Ei. injection Ei as <-. vm_compute in Rs. injection Rs as <-. split.
  - vm_compute in G. injection G as <-. reflexivity.
  - intro S0. inversion S0 as [|? ? _ F]; subst. inversion F as [|? ? C _]; subst. cbn [fst] in C. discriminate C.
Qed.
Print Assumptions C58_sum_ratio_refuted.

(** Sums that add up to 0 make the creation fail with a division by zero. *)
Theorem C58_sum_of_zero_refuted : exists rows : list ((Z * Z) * Q), rows <> [] /\ forall sigma eps delta n,
  create_sum_estimator sigma (compute_dataset_histograms number_of_buckets rows) eps delta n = Err ZeroDivisionError.
Proof.
  pose (rows := [((1, 1), (-5)%Q); ((2, 1), 5%Q)]%Z). exists rows. split; [discriminate|]. intros sigma eps delta n.
  pose (D := compute_dataset_histograms number_of_buckets rows). fold D. unfold create_sum_estimator.
  destruct (h_l0 D) as [l0|] eqn:E0; [|vm_compute in E0; discriminate]. cbn [rbind].
  destruct (compute_ratio_dropped l0) as [r0|] eqn:R0.
  2:{ vm_compute in E0. injection E0 as <-. vm_compute in R0. discriminate. }
  cbn [rbind].
  destruct (h_linf_sum D) as [[hl|]|] eqn:Ei; [|vm_compute in Ei; discriminate ..]. cbn [rbind].
  destruct (h_sum_per_partition D) as [[hp|]|] eqn:Ep; [|vm_compute in Ep; discriminate ..]. cbn [rbind].
  vm_compute in Ei. injection Ei as <-. reflexivity.
Qed.
Print Assumptions C58_sum_of_zero_refuted.
