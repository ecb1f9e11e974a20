(** C56: the utility report of a configuration averages the errors of all partitions.

    The partitions are the leaves of a merge tree: any number of partitions, any order
    of merging.  [k] is the number of metrics analysed per partition, [n] the number of
    DP metrics requested, [w] the weight function, [root] the square root. *)
From Coq Require Import List ZArith QArith Qabs Bool Lia Lqa Permutation Setoid.
From Verif Require Import Base BaseLemmas ListLemmas ParamsModel BackendModel CrossModel CrossSpec CrossProofs.
Import ListNotations.
Local Open Scope Q_scope.

(** Every analysed metric appears in the report, and each of its errors, absolute and
    relative, is the weighted average over the partitions of that partition's error. *)
Theorem C56_errors_averaged :
  forall root n k public w t,
  (1 <= n <= k)%nat -> (forall p, In p (leaves t) -> length (pm_errors p) = k) ->
  exists r us,
    cross_report root n public (fun p => Ok (w p)) t = Ok r /\ r_errors r = Some us /\ length us = k /\
    forall j u, nth_error us j = Some u -> forall f,
      get f (mu_absolute u) == average w (fun p => error root (keep_of public p) (metric_of j p) f) (leaves t) /\
      get f (mu_relative u) == average w (fun p => relative_error root (keep_of public p) (metric_of j p) f) (leaves t).
Proof.
  intros root n k public w t Hn Hl.
  destruct (tree_inv root n k public w t Hl ltac:(lia)) as [[[sums r] tw] [E (I1 & I2 & I3 & I4 & I5 & I6)]].
  destruct n as [|n]; [lia|]. destruct I6 as (us & U1 & U2 & U3).
  unfold cross_report. rewrite E. cbn [rmap cross_compute]. rewrite U1.
  do 2 eexists. split; [reflexivity|]. cbn [r_errors]. split; [reflexivity|].
  split; [rewrite length_average; exact U2|]. intros j u Hu f.
  apply nth_error_average in Hu; [|congruence]. destruct Hu as (u0 & H0 & ->).
  destruct (U3 _ _ H0) as (V1 & V2 & _). unfold average_utility. cbn [mu_absolute mu_relative].
  rewrite !get_mul, V1, V2. unfold average.
  destruct (Qeq_bool (sumQ (map w (leaves t))) 0) eqn:Ew.
  - assert (X : Qeq_bool tw 0 = true) by (apply Qeq_bool_iff; rewrite I3; apply Qeq_bool_iff; exact Ew).
    rewrite X. split; ring.
  - assert (X : Qeq_bool tw 0 = false).
    { destruct (Qeq_bool tw 0) eqn:Y; [|reflexivity]. apply Qeq_bool_iff in Y. rewrite I3 in Y. apply Qeq_bool_iff in Y. congruence. }
    rewrite X, I3.
    assert (N : ~ sumQ (map w (leaves t)) == 0) by (intro Z; apply Qeq_bool_iff in Z; congruence).
    split; field; exact N.
Qed.

(** Per metric: the ratios of data dropped by the two contribution bounding stages and
    by partition selection are totals over all partitions (never weighted), relative to
    the total raw value. *)
Theorem C56_dropped_ratios :
  forall root n k public w t r us,
  (1 <= n <= k)%nat -> (forall p, In p (leaves t) -> length (pm_errors p) = k) ->
  cross_report root n public (fun p => Ok (w p)) t = Ok r -> r_errors r = Some us ->
  forall j u, nth_error us j = Some u ->
  let total := sumQ (map (fun p => sm_sum (metric_of j p)) (leaves t)) in
  di_l0 (mu_dropped u) == ratio (sumQ (map (fun p => - sm_l0_error (metric_of j p)) (leaves t))) total /\
  di_linf (mu_dropped u) ==
    ratio (sumQ (map (fun p => sm_min_error (metric_of j p) - sm_max_error (metric_of j p)) (leaves t))) total /\
  ((forall p, In p (leaves t) -> sm_min_error (metric_of j p) == 0) ->
   di_selection (mu_dropped u) ==
     ratio (sumQ (map (fun p => (1 - keep_of public p) * expected_after_bounding (metric_of j p)) (leaves t))) total).
Proof.
  intros root n k public w t r us Hn Hl Er Hr j u Hu total.
  destruct (tree_inv root n k public w t Hl ltac:(lia)) as [[[sums r0] tw] [E (I1 & I2 & I3 & I4 & I5 & I6)]].
  destruct n as [|n]; [lia|]. destruct I6 as (us0 & U1 & U2 & U3).
  unfold cross_report in Er. rewrite E in Er. cbn [rmap cross_compute] in Er. rewrite U1 in Er.
  inversion Er; subst r. cbn [r_errors] in Hr. inversion Hr; subst us. clear Er Hr.
  assert (Lj : (j < k)%nat). { rewrite <- U2, <- (length_average tw sums us0). apply nth_error_Some. congruence. }
  apply nth_error_average in Hu; [|congruence]. destruct Hu as (u0 & H0 & ->).
  destruct (U3 _ _ H0) as (_ & _ & V3 & V4 & V5 & _).
  assert (D : forall x y, x == y -> x * (if Qeq_bool (nth j sums 0) 0 then 1 else 1 / nth j sums 0) == ratio y total).
  { intros x y Exy. unfold ratio. assert (T : nth j sums 0 == total) by (apply I2; exact Lj).
    destruct (Qeq_bool (nth j sums 0) 0) eqn:E1, (Qeq_bool total 0) eqn:E2.
    - rewrite Exy. ring.
    - apply Qeq_bool_iff in E1. rewrite T in E1. apply Qeq_bool_iff in E1. congruence.
    - apply Qeq_bool_iff in E2. rewrite <- T in E2. apply Qeq_bool_iff in E2. congruence.
    - assert (N : ~ total == 0) by (intro Z; apply Qeq_bool_iff in Z; congruence).
      rewrite Exy, T. field. exact N. }
  unfold average_utility. cbn [mu_dropped drop_mul di_l0 di_linf di_selection].
  split; [apply D; exact V3|]. split; [apply D; exact V4|].
  intro H. apply D. rewrite V5. apply sumQ_ext. intros p Hp. unfold data_dropped, expected_after_bounding, bias. cbn.
  rewrite (H p Hp). ring.
Qed.

(** Metric, noise kind and noise standard deviation are reported as they are when the
    partitions agree on them (which is so within a configuration). *)
Theorem C56_labels :
  forall root n k public w t r us,
  (1 <= n <= k)%nat -> (forall p, In p (leaves t) -> length (pm_errors p) = k) ->
  cross_report root n public (fun p => Ok (w p)) t = Ok r -> r_errors r = Some us ->
  r_index r = (-1)%Z /\
  forall j u, nth_error us j = Some u ->
  forall m sd nk,
  (forall p, In p (leaves t) ->
     sm_aggregation (metric_of j p) = m /\ sm_noise_std (metric_of j p) = sd /\ sm_noise_kind (metric_of j p) = nk) ->
  mu_metric u = m /\ mu_noise_std u = sd /\ mu_noise_kind u = nk.
Proof.
  intros root n k public w t r us Hn Hl Er Hr.
  destruct (tree_inv root n k public w t Hl ltac:(lia)) as [[[sums r0] tw] [E (I1 & I2 & I3 & I4 & I5 & I6)]].
  destruct n as [|n]; [lia|]. destruct I6 as (us0 & U1 & U2 & U3).
  unfold cross_report in Er. rewrite E in Er. cbn [rmap cross_compute] in Er. rewrite U1 in Er.
  inversion Er; subst r. cbn [r_errors] in Hr. inversion Hr; subst us. clear Er Hr. split; [exact I4|].
  intros j u Hu m sd nk H. apply nth_error_average in Hu; [|congruence]. destruct Hu as (u0 & H0 & ->).
  destruct (U3 _ _ H0) as (_ & _ & _ & _ & _ & p & P1 & P2 & P3 & P4).
  assert (Hp : In p (leaves t)) by (destruct (leaves t) as [|q l]; [discriminate|]; inversion P1; left; reflexivity).
  destruct (H p Hp) as (A & B & C). cbn [mu_metric mu_noise_std mu_noise_kind average_utility].
  rewrite P2, P3, P4. auto.
Qed.

(** Private partition selection: the number of partitions of the dataset is reported,
    and the number of kept partitions has the mean and variance of a sum of independent
    coin flips. *)
Theorem C56_private_partitions :
  forall root n k w t,
  (n <= k)%nat -> (forall p, In p (leaves t) -> length (pm_errors p) = k) ->
  exists r mv,
    cross_report root n false (fun p => Ok (w p)) t = Ok r /\
    pi_public (r_partitions r) = false /\ pi_dataset (r_partitions r) = Z.of_nat (length (leaves t)) /\
    pi_empty (r_partitions r) = None /\ pi_non_public (r_partitions r) = None /\
    pi_kept (r_partitions r) = Some mv /\ mv_mean mv == sumQ (map pm_keep (leaves t)) /\
    mv_var mv == sumQ (map (fun p => pm_keep p * (1 - pm_keep p)) (leaves t)) /\
    (n = O -> r_errors r = None).
Proof.
  intros root n k w t Hn Hl.
  destruct (tree_inv root n k false w t Hl Hn) as [[[sums r] tw] [E (I1 & I2 & I3 & I4 & (J1 & J2 & J3 & J4 & J5 & mv & J6 & J7 & J8) & I6)]].
  unfold cross_report. rewrite E. cbn [rmap cross_compute].
  destruct n as [|n].
  - rewrite I6. exists r, mv. repeat split; auto.
  - destruct I6 as (us & U1 & U2 & U3). rewrite U1. do 2 eexists. split; [reflexivity|]. cbn [r_partitions r_errors].
    repeat split; eauto. discriminate.
Qed.

(** Public partitions: non-empty and empty partitions are counted separately.  The
    number of partitions dropped for not being public is always reported as 0, whatever
    the data (the analysis sees only the public partitions). *)
Theorem C56_public_partitions :
  forall root n k w t,
  (n <= k)%nat -> (forall p, In p (leaves t) -> length (pm_errors p) = k) ->
  exists r,
    cross_report root n true (fun p => Ok (w p)) t = Ok r /\
    pi_public (r_partitions r) = true /\ pi_kept (r_partitions r) = None /\
    pi_dataset (r_partitions r) = Z.of_nat (length (filter (fun p => negb (Z.eqb (pm_count p) 0)) (leaves t))) /\
    pi_empty (r_partitions r) = Some (Z.of_nat (length (filter (fun p => Z.eqb (pm_count p) 0) (leaves t)))) /\
    pi_non_public (r_partitions r) = Some 0%Z /\
    (n = O -> r_errors r = None).
Proof.
  intros root n k w t Hn Hl.
  destruct (tree_inv root n k true w t Hl Hn) as [[[sums r] tw] [E (I1 & I2 & I3 & I4 & (J1 & J2 & J3 & J4 & J5 & J6) & I6)]].
  unfold cross_report. rewrite E. cbn [rmap cross_compute].
  destruct n as [|n].
  - rewrite I6. exists r. repeat split; auto.
  - destruct I6 as (us & U1 & U2 & U3). rewrite U1. eexists. split; [reflexivity|]. cbn [r_partitions r_errors].
    repeat split; eauto. discriminate.
Qed.

(** The order in which a runner merges the partitions does not matter. *)
Theorem C56_merge_order_irrelevant :
  forall root n k public w t t' label sd nk,
  (n <= k)%nat -> (forall p, In p (leaves t) -> length (pm_errors p) = k) ->
  (forall p j, In p (leaves t) -> (j < k)%nat ->
     sm_aggregation (metric_of j p) = label j /\ sm_noise_std (metric_of j p) = sd j /\ sm_noise_kind (metric_of j p) = nk j) ->
  Permutation (leaves t) (leaves t') ->
  exists r r',
    cross_report root n public (fun p => Ok (w p)) t = Ok r /\
    cross_report root n public (fun p => Ok (w p)) t' = Ok r' /\ report_eq r r'.
Proof.
  intros root n k public w t t' label sd nk Hn Hl Hlab P.
  assert (Hl' : forall p, In p (leaves t') -> length (pm_errors p) = k).
  { intros p Hp. apply Hl. apply (Permutation_in _ (Permutation_sym P)). exact Hp. }
  destruct (tree_inv root n k public w t Hl Hn) as [[[sums r] tw] [E (I1 & I2 & I3 & I4 & I5 & I6)]].
  destruct (tree_inv root n k public w t' Hl' Hn) as [[[sums' r'] tw'] [E' (I1' & I2' & I3' & I4' & I5' & I6')]].
  unfold cross_report. rewrite E, E'. cbn [rmap]. do 2 eexists. split; [reflexivity|]. split; [reflexivity|].
  assert (PF : forall q : partition_metrics -> bool, length (filter q (leaves t)) = length (filter q (leaves t'))).
  { intro q. clear -P. induction P; cbn; auto.
    - destruct (q x); cbn; congruence.
    - destruct (q x), (q y); reflexivity.
    - congruence. }
  assert (PI : info_eq (r_partitions r) (r_partitions r')).
  { destruct I5 as (A1 & A2 & A3), I5' as (B1 & B2 & B3). unfold info_eq. rewrite A1, A2, B1, B2. destruct public.
    - destruct A3 as (A3 & A4 & A5 & A6), B3 as (B3 & B4 & B5 & B6). rewrite A3, A4, A5, A6, B3, B4, B5, B6.
      rewrite !PF. repeat split.
    - destruct A3 as (A3 & A4 & A5 & ma & A6 & A7 & A8), B3 as (B3 & B4 & B5 & mb & B6 & B7 & B8).
      rewrite A3, A4, A5, A6, B3, B4, B5, B6. rewrite (Permutation_length P). repeat split; cbn.
      + rewrite A7, B7. apply sumQ_Permutation, Permutation_map, P.
      + rewrite A8, B8. apply (sumQ_Permutation _ _ (Permutation_map (fun p => pm_keep p * (1 - pm_keep p)) P)). }
  assert (PW : tw == tw') by (rewrite I3, I3'; apply sumQ_Permutation, Permutation_map, P).
  destruct n as [|n].
  - cbn [cross_compute]. rewrite I6, I6'. repeat split; try apply PI. 1: congruence. rewrite I6, I6'. exact I.
  - destruct I6 as (us & U1 & U2 & U3), I6' as (us' & U1' & U2' & U3'). cbn [cross_compute]. rewrite U1, U1'.
    split; [cbn; congruence|]. split; [exact PI|]. cbn [r_errors option_rel].
    assert (K : forall a b : list metric_utility, length a = length b ->
              (forall j x y, nth_error a j = Some x -> nth_error b j = Some y -> utility_eq x y) -> Forall2 utility_eq a b).
    { induction a as [|x a IH]; intros [|y b] Lab Hab; try discriminate; constructor.
      - apply (Hab O); reflexivity.
      - apply IH; [cbn in Lab; congruence|]. intros j u v Hu Hv. apply (Hab (S j)); assumption. }
    apply K; [rewrite !length_average; congruence|].
    intros j x y Hx Hy.
    assert (Lj : (j < k)%nat). { rewrite <- U2, <- (length_average tw sums us). apply nth_error_Some. congruence. }
    apply nth_error_average in Hx; [|congruence]. apply nth_error_average in Hy; [|congruence].
    destruct Hx as (x0 & Hx & ->), Hy as (y0 & Hy & ->).
    destruct (U3 _ _ Hx) as (A1 & A2 & A3 & A4 & A5 & p & A6 & A7 & A8 & A9).
    destruct (U3' _ _ Hy) as (B1 & B2 & B3 & B4 & B5 & q & B6 & B7 & B8 & B9).
    assert (Hp : In p (leaves t)) by (destruct (leaves t) as [|z l]; [discriminate|]; inversion A6; left; reflexivity).
    assert (Hq : In q (leaves t)).
    { apply (Permutation_in _ (Permutation_sym P)). destruct (leaves t') as [|z l]; [discriminate|]; inversion B6; left; reflexivity. }
    destruct (Hlab p j Hp Lj) as (C1 & C2 & C3), (Hlab q j Hq Lj) as (D1 & D2 & D3).
    assert (PS : nth j sums 0 == nth j sums' 0).
    { rewrite I2, I2' by exact Lj. apply (sumQ_Permutation _ _ (Permutation_map (fun p => sm_sum (metric_of j p)) P)). }
    assert (SC : forall c c', c == c' -> (if Qeq_bool c 0 then 0 else 1 / c) == (if Qeq_bool c' 0 then 0 else 1 / c')).
    { intros c c' Hc. destruct (Qeq_bool c 0) eqn:Z1, (Qeq_bool c' 0) eqn:Z2; try reflexivity.
      - apply Qeq_bool_iff in Z1. rewrite Hc in Z1. apply Qeq_bool_iff in Z1. congruence.
      - apply Qeq_bool_iff in Z2. rewrite <- Hc in Z2. apply Qeq_bool_iff in Z2. congruence.
      - rewrite Hc. reflexivity. }
    assert (SD : forall c c', c == c' -> (if Qeq_bool c 0 then 1 else 1 / c) == (if Qeq_bool c' 0 then 1 else 1 / c')).
    { intros c c' Hc. destruct (Qeq_bool c 0) eqn:Z1, (Qeq_bool c' 0) eqn:Z2; try reflexivity.
      - apply Qeq_bool_iff in Z1. rewrite Hc in Z1. apply Qeq_bool_iff in Z1. congruence.
      - apply Qeq_bool_iff in Z2. rewrite <- Hc in Z2. apply Qeq_bool_iff in Z2. congruence.
      - rewrite Hc. reflexivity. }
    assert (SM : forall g : partition_metrics -> Q, sumQ (map g (leaves t)) == sumQ (map g (leaves t'))).
    { intro g. apply sumQ_Permutation, Permutation_map, P. }
    unfold utility_eq, drop_eq, errors_eq, average_utility.
    cbn [mu_metric mu_noise_std mu_noise_kind mu_dropped mu_absolute mu_relative drop_mul di_l0 di_linf di_selection].
    rewrite A7, A8, A9, B7, B8, B9, C1, C2, C3, D1, D2, D3.
    split; [reflexivity|]. split; [reflexivity|]. split; [reflexivity|].
    split; [|split; intro f; rewrite !get_mul].
    + rewrite A3, A4, A5, B3, B4, B5, (SD _ _ PS), !SM. repeat split; reflexivity.
    + rewrite A1, B1, (SC _ _ PW), SM. reflexivity.
    + rewrite A2, B2, (SC _ _ PW), SM. reflexivity.
Qed.

(** What is not dropped survives: when no value is clipped up to the minimum (COUNT and
    PRIVACY_ID_COUNT), the ratios account for exactly the part of the raw data that does
    not reach the output in expectation. *)
Theorem C56_dropped_data_accounted :
  forall root n k public w t r us,
  (1 <= n <= k)%nat -> (forall p, In p (leaves t) -> length (pm_errors p) = k) ->
  cross_report root n public (fun p => Ok (w p)) t = Ok r -> r_errors r = Some us ->
  forall j u, nth_error us j = Some u ->
  let total := sumQ (map (fun p => sm_sum (metric_of j p)) (leaves t)) in
  ~ total == 0 ->
  (forall p, In p (leaves t) -> sm_min_error (metric_of j p) == 0) ->
  total * (1 - di_l0 (mu_dropped u) - di_linf (mu_dropped u) - di_selection (mu_dropped u)) ==
  sumQ (map (fun p => keep_of public p * expected_after_bounding (metric_of j p)) (leaves t)).
Proof.
  intros root n k public w t r us Hn Hl Er Hr j u Hu total N H.
  destruct (C56_dropped_ratios root n k public w t r us Hn Hl Er Hr j u Hu) as (A & B & C). fold total in A, B, C.
  rewrite A, B, (C H). unfold ratio. destruct (Qeq_bool total 0) eqn:E; [apply Qeq_bool_iff in E; contradiction|].
  set (a := sumQ (map (fun p => - sm_l0_error (metric_of j p)) (leaves t))).
  set (b := sumQ (map (fun p => sm_min_error (metric_of j p) - sm_max_error (metric_of j p)) (leaves t))).
  set (c := sumQ (map (fun p => (1 - keep_of public p) * expected_after_bounding (metric_of j p)) (leaves t))).
  assert (X : total * (1 - a / total - b / total - c / total) == total - a - b - c) by (field; exact N).
  rewrite X. clear X A B C E N Hu. unfold total, a, b, c. clear total a b c.
  revert H. clear. induction (leaves t) as [|p l IH]; intro H; cbn [map]; unfold sumQ in *; cbn [fold_right].
  - ring.
  - assert (IH' := IH (fun q Hq => H q (or_intror Hq))). cbn beta in *. rewrite <- IH'.
    unfold expected_after_bounding, bias. rewrite (H p (or_introl eq_refl)). ring.
Qed.

(** With values clipped up to a positive minimum (SUM) the accounting is wrong: one
    partition kept for sure, raw sum 10, raised by 4 to 14; the report says 40% of the
    data is dropped by contribution bounding. *)
Theorem C56_dropped_data_accounted_refuted :
  exists p r u,
    pm_keep p = 1 /\
    cross_report (fun x => x) 1 false equal_weight (Leaf p) = Ok r /\ r_errors r = Some [u] /\
    expected_after_bounding (metric_of 0 p) == 14 /\
    sm_sum (metric_of 0 p) * (1 - di_l0 (mu_dropped u) - di_linf (mu_dropped u) - di_selection (mu_dropped u)) == 6.
Proof.
  exists (PartitionMetrics 1 3 3 [SumMetrics SUM 10 4 0 0 0 1 LaplaceNoise]).
  do 2 eexists. split; [reflexivity|]. split; [vm_compute; reflexivity|]. split; [reflexivity|]. split; vm_compute; reflexivity.
Qed.

(** For a negative raw value the relative root mean squared error comes out negative. *)
Theorem C56_relative_rmse_nonnegative_refuted :
  exists p r u,
    cross_report (fun x => x) 1 false equal_weight (Leaf p) = Ok r /\ r_errors r = Some [u] /\
    0 < ve_rmse (mu_absolute u) /\ ve_rmse (mu_relative u) < 0.
Proof.
  exists (PartitionMetrics 1 3 3 [SumMetrics SUM (-10) 0 0 0 0 1 LaplaceNoise]).
  do 2 eexists. split; [vm_compute; reflexivity|]. split; [reflexivity|]. split; vm_compute; reflexivity.
Qed.

(** Too few analysed metrics are noticed; extra ones are kept. *)
Theorem C56_missing_metrics_rejected :
  forall root n public w p,
  (length (pm_errors p) < n)%nat -> cross_report root n public (fun p => Ok (w p)) (Leaf p) = Err AssertionError.
Proof.
  intros root n public w p H. unfold cross_report. cbn [cross_tree]. unfold cross_create. cbn [rbind]. unfold to_report.
  destruct n as [|n]; [lia|]. destruct (Nat.ltb_spec (length (pm_errors p)) (S n)); [reflexivity|lia].
Qed.

(** With weights that are not all zero and not negative an average lies between the
    extremes: reported errors never leave the range of the partitions' errors. *)
Theorem C56_average_between :
  forall root n k public w t r us lo hi,
  (1 <= n <= k)%nat -> (forall p, In p (leaves t) -> length (pm_errors p) = k) ->
  cross_report root n public (fun p => Ok (w p)) t = Ok r -> r_errors r = Some us ->
  (forall p, In p (leaves t) -> 0 <= w p) -> 0 < sumQ (map w (leaves t)) ->
  forall j u f, nth_error us j = Some u ->
  (forall p, In p (leaves t) -> lo <= error root (keep_of public p) (metric_of j p) f <= hi) ->
  lo <= get f (mu_absolute u) <= hi.
Proof.
  intros root n k public w t r us lo hi Hn Hl Er Hr Hw Hpos j u f Hu H.
  destruct (C56_errors_averaged root n k public w t Hn Hl) as (r' & us' & E1 & E2 & E3 & E4).
  rewrite Er in E1. inversion E1; subst r'. rewrite Hr in E2. inversion E2; subst us'.
  destruct (E4 j u Hu f) as [A _]. rewrite A. unfold average.
  destruct (Qeq_bool (sumQ (map w (leaves t))) 0) eqn:E; [apply Qeq_bool_iff in E; rewrite E in Hpos; exfalso; revert Hpos; apply Qlt_irrefl|].
  assert (B : lo * sumQ (map w (leaves t)) <= sumQ (map (fun p => w p * error root (keep_of public p) (metric_of j p) f) (leaves t))
              /\ sumQ (map (fun p => w p * error root (keep_of public p) (metric_of j p) f) (leaves t)) <= hi * sumQ (map w (leaves t))).
  { clear -Hw H. induction (leaves t) as [|p l IH]; unfold sumQ in *; cbn [map fold_right].
    - split; lra.
    - destruct IH as [I1 I2]; [intros q Hq; apply Hw; right; exact Hq|intros q Hq; apply H; right; exact Hq|].
      assert (Wp := Hw p (or_introl eq_refl)). destruct (H p (or_introl eq_refl)) as [L U].
      assert (M1 : lo * w p <= w p * error root (keep_of public p) (metric_of j p) f).
      { rewrite (Qmult_comm (w p)). apply Qmult_le_compat_r; assumption. }
      assert (M2 : w p * error root (keep_of public p) (metric_of j p) f <= hi * w p).
      { rewrite (Qmult_comm (w p)). apply Qmult_le_compat_r; assumption. }
      split; lra. }
  destruct B as [B1 B2]. split.
  - apply Qle_shift_div_l; assumption.
  - apply Qle_shift_div_r; assumption.
Qed.

(** ** Concrete cases *)

Definition ex_small : partition_metrics :=
  PartitionMetrics (1#2) 10 12
    [SumMetrics COUNT 12 0 (-2) (-1) 0 3 LaplaceNoise; SumMetrics PRIVACY_ID_COUNT 10 0 0 (-1) 1 2 LaplaceNoise].
Definition ex_big : partition_metrics :=
  PartitionMetrics 1 100 150
    [SumMetrics COUNT 150 0 (-30) (-20) 0 3 LaplaceNoise; SumMetrics PRIVACY_ID_COUNT 100 0 0 (-15) 1 2 LaplaceNoise].
(** Two partitions, two metrics, weight = probability to keep: hypotheses of all the
    theorems above hold, and the bias of COUNT is (1/2 * -3 + 1 * -50) / (3/2). *)
Example C56_ex_report :
  match cross_report (fun x => x) 2 false equal_weight (Node (Leaf ex_small) (Leaf ex_big)) with
  | Ok r =>
    match r_errors r with
    | Some [u1; u2] =>
        Qred (get Bias (mu_absolute u1)) = (-103#3) /\ mu_metric u2 = PRIVACY_ID_COUNT /\
        Qred (di_l0 (mu_dropped u1)) = (7#54) /\ Qred (di_selection (mu_dropped u1)) = (1#36) /\
        pi_dataset (r_partitions r) = 2%Z
    | _ => False
    end
  | Err _ => False
  end.
Proof. vm_compute. repeat split. Qed.
Example C56_ex_hypotheses :
  (1 <= 2 <= 2)%nat /\ (forall p, In p (leaves (Node (Leaf ex_small) (Leaf ex_big))) -> length (pm_errors p) = 2%nat) /\
  (forall p, In p [ex_small; ex_big] -> sm_min_error (metric_of 0 p) == 0).
Proof. split; [lia|]. split; intros p [<-|[<-|[]]]; vm_compute; reflexivity. Qed.
(** Public partitions, one empty: its weight is 1 and its noise counts. *)
Definition ex_empty : partition_metrics :=
  PartitionMetrics 1 0 0 [SumMetrics COUNT 0 0 0 0 0 3 LaplaceNoise; SumMetrics PRIVACY_ID_COUNT 0 0 0 0 0 2 LaplaceNoise].
Example C56_ex_public :
  match cross_report (fun x => x) 2 true equal_weight (Node (Leaf ex_empty) (Leaf ex_big)) with
  | Ok r => pi_dataset (r_partitions r) = 1%Z /\ pi_empty (r_partitions r) = Some 1%Z /\
            match r_errors r with Some (u :: _) => Qred (get Variance (mu_absolute u)) = 9 | _ => False end
  | Err _ => False
  end.
Proof. vm_compute. repeat split. Qed.

Print Assumptions C56_errors_averaged.
Print Assumptions C56_dropped_ratios.
Print Assumptions C56_merge_order_irrelevant.
Print Assumptions C56_dropped_data_accounted.
Print Assumptions C56_average_between.
