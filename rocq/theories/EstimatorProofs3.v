(** Proofs about the error estimator: the average error. *)
From Coq Require Import List ZArith QArith Qreals Reals Bool Sorted Permutation Lia Lra.
From Verif Require Import Base BaseLemmas ListLemmas HistModel HistSpec HistProofs HistProofs2 HistProofs3
  VectorModel EstimatorModel EstimatorSpec EstimatorProofs EstimatorProofs2.
Import ListNotations.

(** ** The data, bin by bin *)
Lemma bins_cover h : forall xs, StronglySorted (fun a b => (b_upper a <= b_lower b)%Z) h ->
  Forall (fun b : bin Z => (b_lower b < b_upper b)%Z) h ->
  (forall x, In x xs -> exists b, In b h /\ (b_lower b <= x < b_upper b)%Z) ->
  Permutation xs (flat_map (fun b => within (b_lower b) (b_upper b) xs) h).
Proof.
  induction h as [|b h IH]; intros xs Ss W C.
  - destruct xs as [|x xs]; [constructor|]. destruct (C x (or_introl eq_refl)) as (? & [] & _).
  - cbn [flat_map]. inversion Ss as [|? ? Ss' Fb]; subst. inversion W as [|? ? Wb W']; subst.
    set (inb := fun x => ((b_lower b <=? x) && (x <? b_upper b))%Z).
    assert (Sp : Permutation xs (filter inb xs ++ filter (fun x => negb (inb x)) xs)).
    { clear. induction xs as [|x xs IH]; [constructor|]. cbn [filter]. destruct (inb x); cbn [negb].
      - cbn [app]. apply perm_skip. exact IH.
      - rewrite IH at 1. apply Permutation_middle. }
    rewrite Sp at 1. apply Permutation_app_head.
    rewrite (IH (filter (fun x => negb (inb x)) xs) Ss' W').
    + apply Permutation_refl'. apply flat_map_ext_In. intros b' I'. unfold within. rewrite filter_filter.
      apply filter_ext_In. intros x _. rewrite Forall_forall in Fb, W'. specialize (Fb b' I'). specialize (W' b' I').
      cbn in Fb, W'. unfold inb.
      destruct (Z.leb_spec (b_lower b') x), (Z.ltb_spec x (b_upper b')), (Z.leb_spec (b_lower b) x), (Z.ltb_spec x (b_upper b));
        cbn; try reflexivity; lia.
    + intros x I. apply filter_In in I. destruct I as [I N]. destruct (C x I) as (b' & [<-|I'] & R).
      * exfalso. unfold inb in N. destruct (Z.leb_spec (b_lower b) x), (Z.ltb_spec x (b_upper b)); cbn in N; try discriminate; lia.
      * exists b'. auto.
Qed.

Local Open Scope R_scope.

Lemma sumR_app a b : sumR (a ++ b) = sumR a + sumR b.
Proof. unfold sumR. induction a as [|x a IH]; cbn; [lra|]. rewrite IH. lra. Qed.

Lemma sumR_Permutation a b : Permutation a b -> sumR a = sumR b.
Proof. unfold sumR. induction 1; cbn in *; lra. Qed.

(** ** The error as a function of the size *)
Lemma rmse_nonneg r s n : 0 <= rmse r s n.
Proof. apply sqrt_pos. Qed.

Lemma rmse_sq r s n : rmse r s n * rmse r s n = (r * n) ^ 2 + s ^ 2.
Proof. unfold rmse. apply sqrt_sqrt. nra. Qed.

Lemma rmse_tangent r s x m : r * r * x * m + s * s <= rmse r s x * rmse r s m.
Proof.
  destruct (Rle_lt_dec (r * r * x * m + s * s) 0) as [L|L].
  { pose proof (rmse_nonneg r s x). pose proof (rmse_nonneg r s m). nra. }
  unfold rmse. rewrite <- sqrt_mult by nra.
  rewrite <- (sqrt_square (r * r * x * m + s * s)) by lra. apply sqrt_le_1_alt.
  assert (0 <= (r * s) * (r * s) * ((x - m) * (x - m))).
  { apply Rmult_le_pos; [apply Rle_0_sqr | apply Rle_0_sqr]. }
  replace (((r * x) ^ 2 + s ^ 2) * ((r * m) ^ 2 + s ^ 2))
    with ((r * r * x * m + s * s) * (r * r * x * m + s * s) + (r * s) * (r * s) * ((x - m) * (x - m))) by ring.
  lra.
Qed.

Lemma sumZ_R xs : IZR (sumZ xs) = sumR (map IZR xs).
Proof.
  induction xs as [|x xs IH]; [reflexivity|]. rewrite sumZ_cons, plus_IZR, IH. reflexivity.
Qed.

(** Jensen's inequality for the average size. *)
Lemma rmse_jensen r s xs m : INR (length xs) * m = sumR (map IZR xs) ->
  INR (length xs) * rmse r s m <= sumR (map (fun x => rmse r s (IZR x)) xs).
Proof.
  intros E. pose proof (rmse_nonneg r s m) as N.
  assert (P : 0 <= sumR (map (fun x => rmse r s (IZR x)) xs)).
  { clear. unfold sumR. induction xs as [|x xs IH]; cbn [map fold_right]; [lra|]. pose proof (rmse_nonneg r s (IZR x)). lra. }
  destruct (Req_dec (rmse r s m) 0) as [Z0|Z0]; [rewrite Z0, Rmult_0_r; exact P|].
  apply Rmult_le_reg_r with (rmse r s m); [lra|].
  rewrite Rmult_assoc, rmse_sq.
  assert (L : r * r * m * sumR (map IZR xs) + INR (length xs) * (s * s)
              <= sumR (map (fun x => rmse r s (IZR x)) xs) * rmse r s m).
  { clear E P. unfold sumR. induction xs as [|x xs IH]; [cbn; lra|].
    cbn [map fold_right]. cbn [length]. rewrite S_INR. pose proof (rmse_tangent r s (IZR x) m). nra. }
  rewrite <- E in L.
  replace (INR (length xs) * ((r * m) ^ 2 + s ^ 2))
    with (r * r * m * (INR (length xs) * m) + INR (length xs) * (s * s)) by ring. exact L.
Qed.

Lemma rmse_scale r s n c : 1 <= c -> rmse r s (c * n) <= c * rmse r s n.
Proof.
  intros C. unfold rmse. rewrite <- (sqrt_square c) at 2 by lra. rewrite <- sqrt_mult by nra.
  apply sqrt_le_1_alt.
  replace (c * c * ((r * n) ^ 2 + s ^ 2)) with ((r * (c * n)) ^ 2 + c * c * s ^ 2) by ring.
  assert (0 <= s ^ 2) by nra. assert (0 <= (c * c - 1) * s ^ 2) by (apply Rmult_le_pos; nra). lra.
Qed.

Lemma rmse_mono_size r s x y : 0 <= x <= y -> rmse r s x <= rmse r s y.
Proof.
  intros B. unfold rmse. apply sqrt_le_1_alt. assert (0 <= r * r) by nra.
  replace ((r * x) ^ 2) with (r * r * (x * x)) by ring. replace ((r * y) ^ 2) with (r * r * (y * y)) by ring.
  assert (x * x <= y * y) by nra. nra.
Qed.

Lemma rmse_mono_ratio r q s n : 0 <= r <= q -> 0 <= n -> rmse r s n <= rmse q s n.
Proof.
  intros B N. unfold rmse. apply sqrt_le_1_alt. assert (0 <= n * n) by nra.
  replace ((r * n) ^ 2) with (r * r * (n * n)) by ring. replace ((q * n) ^ 2) with (q * q * (n * n)) by ring.
  assert (r * r <= q * q) by nra. nra.
Qed.

Lemma rmse_lipschitz r d s n : 0 <= r -> 0 <= d -> 0 <= n -> rmse (r + d) s n <= rmse r s n + d * n.
Proof.
  intros R D N. pose proof (rmse_nonneg r s n) as P. pose proof (rmse_sq r s n) as E.
  assert (0 <= d * n) by nra. assert (0 <= r * n) by nra.
  assert (L : r * n <= rmse r s n).
  { unfold rmse. rewrite <- (sqrt_square (r * n)) at 1 by assumption. apply sqrt_le_1_alt. nra. }
  unfold rmse at 1. rewrite <- (sqrt_square (rmse r s n + d * n)) by lra. apply sqrt_le_1_alt.
  replace (((r + d) * n) ^ 2) with ((r * n) ^ 2 + 2 * (d * n) * (r * n) + (d * n) * (d * n)) by ring. nra.
Qed.

(** ** Sums over bins *)
Lemma Q2R_inject z : Q2R (inject_Z z) = IZR z.
Proof. unfold Q2R, inject_Z. cbn. lra. Qed.

Lemma bin_error r s b xs : describes xs b -> Forall (fun x => (1 <= x)%Z) xs ->
  let here := within (b_lower b) (b_upper b) xs in
  let e := IZR (b_count b) * rmse r s (IZR (b_sum b) / IZR (b_count b)) in
  (0 < b_count b)%Z /\
  e <= sumR (map (fun x => rmse r s (IZR x)) here) <= 101 / 100 * e /\
  (Forall (fun x => (x < 1000)%Z) xs -> e = sumR (map (fun x => rmse r s (IZR x)) here)).
Proof.
  intros (L & Ec & Es & [Mx _] & _) F here e. fold here in Ec, Es, Mx.
  assert (Pn : (0 < length here)%nat) by (destruct here; [destruct Mx | cbn; lia]).
  assert (Pc : (0 < b_count b)%Z) by lia.
  assert (Pr : 0 < IZR (b_count b)) by (apply IZR_lt; exact Pc).
  assert (Cn : IZR (b_count b) = INR (length here)) by (rewrite Ec, <- INR_IZR_INZ; reflexivity).
  set (m := IZR (b_sum b) / IZR (b_count b)) in *.
  assert (Em : INR (length here) * m = sumR (map IZR here)).
  { rewrite <- Cn, <- sumZ_R, <- Es. unfold m. field. lra. }
  assert (R : forall x, In x here -> (b_lower b <= x < b_upper b)%Z).
  { intros x I. apply within_In in I. tauto. }
  pose proof (leading_bin_pos _ _ L) as Pl.
  assert (Lm : IZR (b_lower b) <= m).
  { apply Rmult_le_reg_l with (INR (length here)); [lra|]. rewrite Em. clear - R. unfold sumR.
    induction here as [|x l IH]; [cbn; lra|]. cbn [length map fold_right]. rewrite S_INR.
    assert (IZR (b_lower b) <= IZR x) by (apply IZR_le, R; left; reflexivity).
    specialize (IH ltac:(intros y I; apply R; right; exact I)). lra. }
  split; [exact Pc|]. unfold e. rewrite Cn. split; [split|].
  - apply rmse_jensen. exact Em.
  - assert (Each : forall x, In x here -> rmse r s (IZR x) <= 101 / 100 * rmse r s m).
    { intros x I. pose proof (R x I) as Rx.
      assert (0 < IZR (b_lower b)) by (apply IZR_lt; lia).
      apply Rle_trans with (rmse r s (101 / 100 * m)); [|apply rmse_scale; lra].
      apply rmse_mono_size. split; [apply IZR_le; lia|].
      apply Rle_trans with (101 / 100 * IZR (b_lower b)); [|lra].
      assert (100 * x <= 101 * b_lower b)%Z as H1 by (destruct (leading_bin_width _ _ L); lia).
      apply IZR_le in H1. rewrite !mult_IZR in H1. lra. }
    clear - Each. unfold sumR. induction here as [|x l IH]; [cbn; lra|]. cbn [length map fold_right]. rewrite S_INR.
    pose proof (Each x (or_introl eq_refl)). specialize (IH ltac:(intros y I; apply Each; right; exact I)). lra.
  - intros Sm. assert (All : forall x, In x here -> x = b_lower b).
    { intros x I. apply (leading_bin_small _ _ x L (R x I)). rewrite Forall_forall in Sm. apply Sm.
      apply within_In in I. tauto. }
    assert (m = IZR (b_lower b)).
    { apply Rmult_eq_reg_l with (INR (length here)); [|lra]. rewrite Em. clear - All. unfold sumR.
      induction here as [|x l IH]; [cbn; lra|]. cbn [length map fold_right]. rewrite S_INR.
      rewrite (All x (or_introl eq_refl)), IH by (intros y I; apply All; right; exact I). lra. }
    clear - All H. rewrite H. unfold sumR. clear H. induction here as [|x l IH]; [cbn; lra|].
    cbn [length map fold_right]. rewrite S_INR, (All x (or_introl eq_refl)).
    rewrite <- IH by (intros y I; apply All; right; exact I). lra.
Qed.

Lemma sum_rmse_bins r s xs h : Forall (fun x => (1 <= x)%Z) xs -> Forall (describes xs) h ->
  exists t, sum_rmse r s (partition_bins h) = Ok t /\
    let all := flat_map (fun b => within (b_lower b) (b_upper b) xs) h in
    t <= sumR (map (fun x => rmse r s (IZR x)) all) <= 101 / 100 * t /\
    (Forall (fun x => (x < 1000)%Z) xs -> t = sumR (map (fun x => rmse r s (IZR x)) all)).
Proof.
  intros F. induction 1 as [|b h D Fd (t & E & B & X)].
  - exists 0. cbn. split; [reflexivity|]. split; [lra | reflexivity].
  - destruct (bin_error r s b xs D F) as (Pc & Bb & Xb).
    exists (IZR (b_count b) * rmse r s (IZR (b_sum b) / IZR (b_count b)) + t).
    cbn [partition_bins map sum_rmse]. rewrite (proj2 (Z.eqb_neq _ _)) by lia. fold (partition_bins h).
    rewrite E. cbn [rmap]. rewrite Q2R_inject. split; [reflexivity|].
    cbn [flat_map]. rewrite map_app, sumR_app. cbn zeta in *. split; [lra|].
    intros Sm. rewrite <- (X Sm), <- (Xb Sm). reflexivity.
Qed.

Lemma estimate_impl r s xs h : Forall (fun x => (1 <= x)%Z) xs -> xs <> [] -> histogram_of xs h ->
  exists t, estimate_rmse_impl r s (partition_bins h) = Ok t /\
    t <= average_rmse r s xs <= 101 / 100 * t /\
    (Forall (fun x => (x < 1000)%Z) xs -> t = average_rmse r s xs).
Proof.
  intros F N H. assert (H' := H). destruct H' as (Ss & Fd & C).
  destruct (sum_rmse_bins r s xs h F Fd) as (t & E & B & X).
  assert (Pm : Permutation xs (flat_map (fun b => within (b_lower b) (b_upper b) xs) h)).
  { apply bins_cover; auto. eapply Forall_impl; [|exact Fd]. intros b (L & _). pose proof (leading_bin_pos _ _ L). lia. }
  assert (Es : sumR (map (fun x => rmse r s (IZR x)) (flat_map (fun b => within (b_lower b) (b_upper b) xs) h))
               = sumR (map (fun x => rmse r s (IZR x)) xs)).
  { apply sumR_Permutation, Permutation_map, Permutation_sym. exact Pm. }
  cbn zeta in B, X. rewrite Es in B, X.
  assert (Ct : sumZ (map snd (partition_bins h)) = Z.of_nat (length xs)).
  { rewrite <- (histogram_total_count xs h H). unfold partition_bins, total_count. rewrite map_map. reflexivity. }
  assert (Pn : (0 < length xs)%nat) by (destruct xs; [contradiction | cbn; lia]).
  assert (Pr : 0 < INR (length xs)) by (apply lt_0_INR; exact Pn).
  exists (t / INR (length xs)). unfold estimate_rmse_impl. rewrite E. cbn [rbind]. rewrite Ct.
  rewrite (proj2 (Z.eqb_neq _ _)) by lia. rewrite <- INR_IZR_INZ. split; [reflexivity|].
  unfold average_rmse. split; [|intros Sm; rewrite <- (X Sm); reflexivity].
  split; [|replace (101 / 100 * (t / INR (length xs))) with (101 / 100 * t / INR (length xs)) by (field; lra)];
    unfold Rdiv; (apply Rmult_le_compat_r; [apply Rlt_le, Rinv_0_lt_compat; exact Pr|]); tauto || lra.
Qed.
