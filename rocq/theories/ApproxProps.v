(** C79: the approximated probability to keep a partition is as good as the approximated
    distribution function. Model: ApproxModel.v, AnalysisModel.v ([probabilities_to_moments]);
    vocabulary: ApproxSpec.v. *)
From Coq Require Import List ZArith QArith Qreals Reals Lqa Lra Lia Bool.
From Verif Require Import Base VectorModel AnalysisModel AnalysisSpec ApproxModel ApproxSpec ApproxProofs.
Import ListNotations.
Local Open Scope R_scope.

Definition variance (ps : list Q) : R := Q2R (sumQ (map (fun p => p * (1 - p)) ps)%Q).

(** Whatever [cdf] and [pdf] SciPy has: with a normal approximation that is at most [e] off, the
    probability is at most [2 e] off, and 1/64 for the numbers of survivors left out. *)
Theorem C79_error : forall cdf pdf ps keep e,
  probabilities ps -> reasonable keep -> variance ps <> 0 ->
  (forall k, (-1 <= k <= Z.of_nat (length ps))%Z -> Rabs (normal_at_most cdf pdf ps k - chance_at_most ps k) <= e) ->
  Rabs (approximate_keep cdf pdf keep (probabilities_to_moments ps) - true_keep ps keep) <= 2 * e + 1 / 64.
Proof. intros cdf pdf ps keep e P Rk V He. exact (approximation_error cdf pdf ps P keep e V Rk He). Qed.

(** Contributions that survive for sure or never: no error. *)
Lemma certain_mean ps : Forall (fun p => p == 0 \/ p == 1)%Q ps ->
  exists m : nat, sumQ ps == inject_Z (Z.of_nat m) /\ (sumQ (map (fun p => p * (1 - p)) ps) == 0)%Q /\ forall h, mean_of ps h = h m.
Proof.
  induction 1 as [|p l Hp _ (m & E & V & M)]; [exists 0%nat; repeat split; reflexivity|].
  change (sumQ (p :: l)) with (p + sumQ l)%Q. cbn [map].
  change (sumQ (p * (1 - p) :: map (fun p => p * (1 - p)) l)%Q) with (p * (1 - p) + sumQ (map (fun p => p * (1 - p)) l))%Q.
  destruct Hp as [Hp|Hp].
  - exists m. split; [rewrite Hp, E; ring|]. split; [rewrite Hp, V; ring|]. intro h. cbn [mean_of]. rewrite !M, (Qeq_eqR _ _ Hp), RMicromega.Q2R_0. ring.
  - exists (S m). split; [rewrite Hp, E, Nat2Z.inj_succ, <- Z.add_1_r, inject_Z_plus; ring|]. split; [rewrite Hp, V; ring|].
    intro h. cbn [mean_of]. rewrite !M, (Qeq_eqR _ _ Hp), RMicromega.Q2R_1. ring.
Qed.
Theorem C79_certain : forall cdf pdf ps keep, Forall (fun p => p == 0 \/ p == 1)%Q ps ->
  approximate_keep cdf pdf keep (probabilities_to_moments ps) = true_keep ps keep.
Proof.
  intros cdf pdf ps keep H. destruct (certain_mean ps H) as (m & E & V & M). rewrite true_keep_mean, M.
  unfold approximate_keep, moments_pmf, probabilities_to_moments. cbn [m_var m_exp m_third m_count].
  rewrite (Qeq_eqR _ _ V), RMicromega.Q2R_0, sqrt_0. destruct (Req_EM_T 0 0) as [_|N]; [|lra]. unfold compute_pmf_approximation.
  destruct (Req_EM_T 0 0) as [_|N]; [|lra]. rewrite (Qeq_eqR _ _ E). unfold inject_Z, Q2R. cbn [Qnum Qden]. rewrite RMicromega.Rinv_1, round_integer.
  rewrite keep_sum_cons. unfold keep_sum. cbn. ring.
Qed.

(** At most the probability for all contributions together, and at least 0 with a normal
    approximation that does not decrease. *)
Lemma steps_nonneg c h l : (forall k, c (k - 1)%Z <= c k) -> (forall a, 0 <= h a) -> forall s, 0 <= steps c h s l.
Proof.
  intros Hc Hh. induction l as [|l IH]; intro s; cbn [steps]; [lra|]. specialize (IH (s + 1)%Z). specialize (Hc s). specialize (Hh s).
  assert (0 <= (c s - c (s - 1)%Z) * h s) by (apply Rmult_le_pos; lra). lra.
Qed.
Lemma clip01_le x y : x <= y -> clip01 x <= clip01 y.
Proof. unfold clip01. intro. apply Rle_min_compat_r. apply Rle_max_compat_r. assumption. Qed.
Theorem C79_bounds : forall cdf pdf ps keep, probabilities ps -> reasonable keep -> variance ps <> 0 ->
  approximate_keep cdf pdf keep (probabilities_to_moments ps) <= keep (Z.of_nat (length ps)) /\
  ((forall k, normal_at_most cdf pdf ps (k - 1) <= normal_at_most cdf pdf ps k) -> 0 <= approximate_keep cdf pdf keep (probabilities_to_moments ps)).
Proof.
  intros cdf pdf ps keep P Rk V. split.
  - destruct (approximation_between cdf pdf ps P keep V Rk) as [_ B]. eapply Rle_trans; [exact B|]. destruct (numbers_range ps P) as [_ L].
    destruct Rk as [Rk Mk]. specialize (Mk _ _ L). assert (X := clip01_range (normal_at_most cdf pdf ps (last_number ps))). fold (shown cdf pdf ps (last_number ps)) in X.
    specialize (Rk (last_number ps)). nra.
  - intro Mo. rewrite (approximate_keep_is cdf pdf ps P keep V). apply steps_nonneg; [|apply (proj1 Rk)]. intro k. apply clip01_le. apply Mo.
Qed.

(** The probabilities of the approximation do not sum to 1: the normal distribution also has
    mass for more survivors than there are contributions, and that mass is dropped. A partition of
    a strategy that keeps every partition is reported as kept less often: with 100
    contributions that survive for sure and one that survives with probability 1/2, only with the
    probability [cdf 2], for SciPy's about 0.977. *)
Theorem C79_kept_for_sure_refuted : exists ps, probabilities ps /\ variance ps <> 0 /\
  forall cdf pdf, 0 <= cdf 2 < 1 -> approximate_keep cdf pdf (fun _ => 1) (probabilities_to_moments ps) <= cdf 2 /\ true_keep ps (fun _ => 1) = 1.
Proof.
  exists ((1 # 2)%Q :: repeat 1%Q 100).
  assert (P : probabilities ((1 # 2)%Q :: repeat 1%Q 100)).
  { constructor; [split; unfold Qle; cbn; lia|]. apply Forall_forall. intros x Hx. apply repeat_spec in Hx. subst. split; unfold Qle; cbn; lia. }
  assert (Em : Q2R (sumQ ((1 # 2)%Q :: repeat 1%Q 100)) = 201 / 2).
  { rewrite (Qeq_eqR _ (201 # 2)) by (vm_compute; reflexivity). unfold Q2R. cbn. lra. }
  assert (Ev : variance ((1 # 2)%Q :: repeat 1%Q 100) = 1 / 4).
  { unfold variance. rewrite (Qeq_eqR _ (1 # 4)) by (vm_compute; reflexivity). unfold Q2R. cbn. lra. }
  assert (E3 : Q2R (sumQ (map (fun p => p * (1 - p) * (1 - 2 * p))%Q ((1 # 2)%Q :: repeat 1%Q 100))) = 0).
  { rewrite (Qeq_eqR _ 0) by (vm_compute; reflexivity). apply RMicromega.Q2R_0. }
  assert (Es : sqrt (variance ((1 # 2)%Q :: repeat 1%Q 100)) = 1 / 2).
  { rewrite Ev. replace (1 / 4) with (1 / 2 * (1 / 2)) by lra. apply sqrt_square. lra. }
  assert (El : length ((1 # 2)%Q :: repeat 1%Q 100) = 101%nat) by reflexivity.
  remember ((1 # 2)%Q :: repeat 1%Q 100) as ps eqn:Eps. clear Eps.
  assert (Nv : variance ps <> 0) by lra. split; [exact P|]. split; [exact Nv|]. intros cdf pdf Hc. split.
  - assert (Rs : reasonable (fun _ => 1)) by (split; intros; lra).
    destruct (approximation_between cdf pdf ps P (fun _ => 1) Nv Rs) as [_ B]. eapply Rle_trans; [exact B|]. rewrite Rmult_1_r.
    assert (Ln : last_number ps = 101%Z).
    { unfold last_number. change (sqrt (Q2R (sumQ (map (fun p => p * (1 - p)) ps)%Q))) with (sqrt (variance ps)). rewrite Em, Es, El.
      assert (I := round_floor (201 / 2 + 8 * (1 / 2))). rewrite (Int_part_is _ 104) in I by lra. lia. }
    rewrite Ln. unfold shown, normal_at_most. cbv zeta. change (sqrt (Q2R (sumQ (map (fun p => p * (1 - p)) ps)%Q))) with (sqrt (variance ps)). rewrite Em, Es, E3.
    replace ((101 + 1 / 2 - 201 / 2) / (1 / 2)) with 2 by lra. unfold clip01.
    replace (cdf 2 + 0 / (1 / 2) ^ 3 * (1 - 2 ^ 2) * pdf 2 / 6) with (cdf 2) by lra. rewrite Rmax_left by lra. rewrite Rmin_left by lra. lra.
  - rewrite true_keep_mean. apply mean_of_const.
Qed.

(** Two contributions that survive with probability 1/2, and a distribution function that happens
    to be exact for them. *)
Example C79_hypotheses_met :
  let ps := [(1 # 2)%Q; (1 # 2)%Q] in let cdf := fun x => clip01 (1 / 2 + x * sqrt (1 / 2) / 2) in
  let keep := fun n : Z => if (2 <=? n)%Z then 1 else 0 in
  probabilities ps /\ reasonable keep /\ variance ps <> 0 /\
  (forall k, (-1 <= k <= Z.of_nat (length ps))%Z -> Rabs (normal_at_most cdf (fun _ => 0) ps k - chance_at_most ps k) <= 0) /\
  true_keep ps keep = 1 / 4.
Proof.
  cbv zeta. assert (Em : Q2R (sumQ [(1 # 2)%Q; (1 # 2)%Q]) = 1) by (rewrite (Qeq_eqR _ 1) by (vm_compute; reflexivity); apply RMicromega.Q2R_1).
  assert (Ev : variance [(1 # 2)%Q; (1 # 2)%Q] = 1 / 2).
  { unfold variance. rewrite (Qeq_eqR _ (1 # 2)) by (vm_compute; reflexivity). unfold Q2R. cbn. lra. }
  assert (Cs : forall k, chance_of [(1 # 2)%Q; (1 # 2)%Q] k = match k with 0%nat | 2%nat => 1 / 4 | 1%nat => 1 / 2 | _ => 0 end).
  { intros [|[|[|k]]]; unfold chance_of; [rewrite (Qeq_eqR _ (1 # 4)) by (vm_compute; reflexivity) | rewrite (Qeq_eqR _ (1 # 2)) by (vm_compute; reflexivity) | rewrite (Qeq_eqR _ (1 # 4)) by (vm_compute; reflexivity) | rewrite (Qeq_eqR _ 0) by reflexivity];
    unfold Q2R; cbn; lra. }
  assert (P2 : 0 < sqrt (1 / 2)) by (apply sqrt_lt_R0; lra).
  split; [repeat constructor; unfold Qle; cbn; lia|]. split.
  { split; [intro n; destruct (2 <=? n)%Z; lra|]. intros a b L. destruct (Z.leb_spec 2 a), (Z.leb_spec 2 b); lra || lia. }
  split; [lra|]. split.
  - intros k Lk. cbn [length] in Lk. unfold normal_at_most. cbv zeta.
    change (sqrt (Q2R (sumQ (map (fun p => p * (1 - p)) [(1 # 2)%Q; (1 # 2)%Q])%Q))) with (sqrt (variance [(1 # 2)%Q; (1 # 2)%Q])). rewrite Em, Ev.
    replace (1 / 2 + (IZR k + 1 / 2 - 1) / sqrt (1 / 2) * sqrt (1 / 2) / 2) with (1 / 2 + (IZR k + 1 / 2 - 1) / 2) by (field; lra).
    rewrite !Rmult_0_r. unfold chance_at_most. rewrite (map_ext _ _ Cs).
    assert (Ks : k = (-1)%Z \/ k = 0%Z \/ k = 1%Z \/ k = 2%Z) by lia.
    destruct Ks as [-> | [-> | [-> | ->]]];
      [change (Z.to_nat (-1 + 1)) with 0%nat | change (Z.to_nat (0 + 1)) with 1%nat | change (Z.to_nat (1 + 1)) with 2%nat | change (Z.to_nat (2 + 1)) with 3%nat];
      cbn [seq map]; unfold sumR; cbn [fold_right];
      unfold clip01, Rmin, Rmax; repeat destruct (Rle_dec _ _); apply Rabs_le; lra.
  - unfold true_keep. cbn [length seq map]. rewrite !Cs. unfold sumR. cbn. lra.
Qed.

Print Assumptions C79_error.
Print Assumptions C79_certain.
Print Assumptions C79_bounds.
Print Assumptions C79_kept_for_sure_refuted.
