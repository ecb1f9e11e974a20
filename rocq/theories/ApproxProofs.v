(** Lemmas for C79. *)
From Coq Require Import List ZArith QArith Qreals Reals Bool Lia Lqa Lra.
From Verif Require Import Base BaseLemmas ListLemmas VectorModel ExpMechProofs AnalysisModel AnalysisSpec AnalysisProofs ApproxModel ApproxSpec.
Import ListNotations.
Local Open Scope R_scope.

(** ** Expectations of functions of the number of survivors *)
Fixpoint mean_of (ps : list Q) (h : nat -> R) : R :=
  match ps with
  | [] => h O
  | p :: ps' => (1 - Q2R p) * mean_of ps' h + Q2R p * mean_of ps' (fun k => h (S k))
  end.

Lemma mean_of_ext ps : forall h h', (forall k, (k <= length ps)%nat -> h k = h' k) -> mean_of ps h = mean_of ps h'.
Proof.
  induction ps as [|p ps IH]; intros h h' E; cbn [mean_of length] in *; [apply E; lia|].
  rewrite (IH h h'), (IH (fun k => h (S k)) (fun k => h' (S k))); [reflexivity | | ]; intros k L; apply E; lia.
Qed.
Lemma mean_of_plus ps : forall f g, mean_of ps (fun k => f k + g k) = mean_of ps f + mean_of ps g.
Proof.
  induction ps as [|p ps IH]; intros f g; cbn [mean_of]; [reflexivity|]. rewrite (IH f g), (IH (fun k => f (S k)) (fun k => g (S k))). ring.
Qed.
Lemma mean_of_scale ps : forall c f, mean_of ps (fun k => c * f k) = c * mean_of ps f.
Proof. induction ps as [|p ps IH]; intros c f; cbn [mean_of]; [reflexivity|]. rewrite (IH c f), (IH c (fun k => f (S k))). ring. Qed.
Lemma mean_of_const ps : forall c, mean_of ps (fun _ => c) = c.
Proof. induction ps as [|p ps IH]; intro c; cbn [mean_of]; [reflexivity|]. rewrite IH. ring. Qed.
Lemma prob_range p : (0 <= p <= 1)%Q -> 0 <= Q2R p <= 1.
Proof. intros [A B]. apply Qle_Rle in A, B. rewrite RMicromega.Q2R_0 in A. rewrite RMicromega.Q2R_1 in B. lra. Qed.
Lemma mean_of_le ps : probabilities ps -> forall f g, (forall k, (k <= length ps)%nat -> f k <= g k) -> mean_of ps f <= mean_of ps g.
Proof.
  unfold probabilities. induction 1 as [|p ps Hp _ IH]; intros f g L; cbn [mean_of length] in *; [apply L; lia|]. apply prob_range in Hp.
  assert (A : mean_of ps f <= mean_of ps g) by (apply IH; intros; apply L; lia).
  assert (B : mean_of ps (fun k => f (S k)) <= mean_of ps (fun k => g (S k))) by (apply IH; intros; apply L; lia).
  apply Rplus_le_compat; apply Rmult_le_compat_l; lra.
Qed.

Definition at_ (k i : nat) : R := if Nat.eqb i k then 1 else 0.
Lemma survival_cons p ps k : (survival_prob (p :: ps) k == (1 - p) * survival_prob ps k + p * match k with O => 0 | S k' => survival_prob ps k' end)%Q.
Proof.
  rewrite <- survival_expectation, expectation_cons, survival_expectation. destruct k as [|k].
  - assert (Z0 : (survivors_expectation ps (fun i => if Nat.eqb (S i) 0 then 1 else 0) == 0)%Q).
    { unfold survivors_expectation. generalize (outcomes (length ps)) as l. induction l as [|b l IH]; [reflexivity|].
      unfold sumQ in *. cbn [map fold_right]. rewrite IH. cbn. ring. }
    rewrite Z0. reflexivity.
  - rewrite <- (survival_expectation ps k). reflexivity.
Qed.
Lemma chance_mean ps : forall k, chance_of ps k = mean_of ps (at_ k).
Proof.
  unfold chance_of. induction ps as [|p ps IH]; intro k; cbn [mean_of].
  - unfold at_. destruct k; cbn; unfold Q2R; cbn; lra.
  - rewrite (Qeq_eqR _ _ (survival_cons p ps k)). rewrite Q2R_plus, !Q2R_mult, Q2R_minus, RMicromega.Q2R_1, IH. f_equal. f_equal. destruct k as [|k].
    + rewrite RMicromega.Q2R_0. symmetry. rewrite <- (mean_of_const ps 0). apply mean_of_ext. intros i _. reflexivity.
    + rewrite IH. apply mean_of_ext. intros i _. reflexivity.
Qed.
Lemma mean_of_sum {A} ps (f : A -> nat -> R) l : mean_of ps (fun k => sumR (map (fun a => f a k) l)) = sumR (map (fun a => mean_of ps (f a)) l).
Proof. induction l as [|a l IH]; cbn; [apply mean_of_const|]. change (fold_right Rplus 0) with sumR. rewrite mean_of_plus, IH. reflexivity. Qed.
Lemma sumR_app a b : sumR (a ++ b) = sumR a + sumR b.
Proof. induction a as [|x a IH]; [unfold sumR; cbn; lra|]. rewrite <- app_comm_cons, !sumR_cons, IH. lra. Qed.
Lemma sum_at h n i : sumR (map (fun k => h k * at_ k i) (seq 0 n)) = if (i <? n)%nat then h i else 0.
Proof.
  induction n as [|n IH]; [reflexivity|]. rewrite seq_S, map_app. 
  rewrite sumR_app, IH. cbn [map Nat.add sumR fold_right]. unfold at_.
  destruct (Nat.ltb_spec i n), (Nat.ltb_spec i (S n)), (Nat.eqb_spec i n); subst; try lia; lra.
Qed.
Lemma true_keep_mean ps keep : true_keep ps keep = mean_of ps (fun k => keep (Z.of_nat k)).
Proof.
  unfold true_keep. transitivity (sumR (map (fun k => mean_of ps (fun i => keep (Z.of_nat k) * at_ k i)) (seq 0 (S (length ps))))).
  - f_equal. apply map_ext. intro k. rewrite chance_mean, mean_of_scale. ring.
  - rewrite <- mean_of_sum. apply mean_of_ext. intros i L. rewrite (sum_at (fun k => keep (Z.of_nat k))). destruct (Nat.ltb_spec i (S (length ps))); [reflexivity | lia].
Qed.
Definition upto (k : Z) (i : nat) : R := if (Z.of_nat i <=? k)%Z then 1 else 0.
Lemma at_most_mean ps k : chance_at_most ps k = mean_of ps (upto k).
Proof.
  unfold chance_at_most. transitivity (sumR (map (fun j => mean_of ps (fun i => 1 * at_ j i)) (seq 0 (Z.to_nat (k + 1))))).
  - f_equal. apply map_ext. intro j. rewrite chance_mean. apply mean_of_ext. intros. ring.
  - rewrite <- mean_of_sum. apply mean_of_ext. intros i _. rewrite (sum_at (fun _ => 1)). unfold upto.
    destruct (Nat.ltb_spec i (Z.to_nat (k + 1))), (Z.leb_spec (Z.of_nat i) k); try reflexivity; lia.
Qed.

(** The mean and the variance. *)
Lemma variance_of ps : forall a, mean_of ps (fun k => (INR k - a) ^ 2) =
  (Q2R (sumQ ps) - a) ^ 2 + Q2R (sumQ (map (fun p => p * (1 - p)) ps)%Q).
Proof.
  induction ps as [|p ps IH]; intro a.
  - cbn. unfold Q2R. cbn. lra.
  - cbn [mean_of]. rewrite IH. rewrite (mean_of_ext ps (fun k => (INR (S k) - a) ^ 2) (fun k => (INR k - (a - 1)) ^ 2)) by (intros k _; rewrite S_INR; f_equal; lra).
    rewrite IH. change (sumQ (p :: ps)) with (p + sumQ ps)%Q. cbn [map]. change (sumQ (p * (1 - p) :: map (fun p => p * (1 - p)) ps)%Q) with (p * (1 - p) + sumQ (map (fun p => p * (1 - p)) ps))%Q.
    rewrite !Q2R_plus, Q2R_mult, Q2R_minus, RMicromega.Q2R_1. ring.
Qed.

(** ** Summation by parts *)
Fixpoint steps (c : Z -> R) (h : Z -> R) (s : Z) (l : nat) : R :=
  match l with
  | O => 0
  | S l' => (c s - c (s - 1)%Z) * h s + steps c h (s + 1) l'
  end.
Lemma steps_snoc c h l : forall s, steps c h s (S l) = steps c h s l + (c (s + Z.of_nat l)%Z - c (s + Z.of_nat l - 1)%Z) * h (s + Z.of_nat l)%Z.
Proof.
  induction l as [|l IH]; intro s; [cbn; rewrite Z.add_0_r; lra|]. change (steps c h s (S (S l))) with ((c s - c (s - 1)%Z) * h s + steps c h (s + 1) (S l)).
  rewrite IH. cbn [steps]. replace (s + 1 + Z.of_nat l)%Z with (s + Z.of_nat (S l))%Z by lia. lra.
Qed.
Lemma steps_minus c d h l : forall s, steps (fun k => c k - d k) h s l = steps c h s l - steps d h s l.
Proof. induction l as [|l IH]; intro s; cbn [steps]; [lra|]. rewrite IH. lra. Qed.
Lemma steps_error d h e s l : (forall k, (s - 1 <= k <= s + Z.of_nat l)%Z -> Rabs (d k) <= e) -> (forall a, 0 <= h a) -> (forall a b, (a <= b)%Z -> h a <= h b) ->
  Rabs (steps d h s (S l) - d (s + Z.of_nat l)%Z * h (s + Z.of_nat l)%Z) <= e * h (s + Z.of_nat l)%Z.
Proof.
  intros Hd Ph Mh. induction l as [|l IH].
  - cbn [steps]. rewrite Z.add_0_r. replace ((d s - d (s - 1)%Z) * h s + 0 - d s * h s) with (- (d (s - 1)%Z * h s)) by ring.
    rewrite Rabs_Ropp, Rabs_mult, (Rabs_right (h s)) by (apply Rle_ge, Ph). apply Rmult_le_compat_r; [apply Ph | apply Hd; lia].
  - rewrite steps_snoc. assert (IH' := IH ltac:(intros; apply Hd; lia)). clear IH.
    replace (s + Z.of_nat (S l) - 1)%Z with (s + Z.of_nat l)%Z by lia. set (z := (s + Z.of_nat (S l))%Z). set (y := (s + Z.of_nat l)%Z) in *.
    assert (L : h y <= h z) by (apply Mh; unfold y, z; lia).
    replace (steps d h s (S l) + (d z - d y) * h z - d z * h z) with ((steps d h s (S l) - d y * h y) + - (d y * (h z - h y))) by ring.
    eapply Rle_trans; [apply Rabs_triang|].
    assert (X : Rabs (- (d y * (h z - h y))) <= e * (h z - h y)).
    { rewrite Rabs_Ropp, Rabs_mult, (Rabs_right (h z - h y)) by lra. apply Rmult_le_compat_r; [lra | apply Hd; unfold y; lia]. }
    lra.
Qed.
Lemma steps_between c h s l : (forall k, 0 <= c k <= 1) -> (forall a, 0 <= h a) -> (forall a b, (a <= b)%Z -> h a <= h b) ->
  0 <= c (s + Z.of_nat l)%Z * h (s + Z.of_nat l)%Z - steps c h s (S l) <= h (s + Z.of_nat l)%Z.
Proof.
  intros Hc Ph Mh. induction l as [|l IH].
  - cbn [steps]. rewrite Z.add_0_r. replace (c s * h s - ((c s - c (s - 1)%Z) * h s + 0)) with (c (s - 1)%Z * h s) by ring.
    assert (X := Hc (s - 1)%Z). assert (Y := Ph s). split; [apply Rmult_le_pos; lra|]. rewrite <- (Rmult_1_l (h s)) at 2. apply Rmult_le_compat_r; lra.
  - rewrite steps_snoc. replace (s + Z.of_nat (S l) - 1)%Z with (s + Z.of_nat l)%Z by lia. set (z := (s + Z.of_nat (S l))%Z). set (y := (s + Z.of_nat l)%Z) in *.
    assert (L : h y <= h z) by (apply Mh; unfold y, z; lia). assert (X := Hc y).
    replace (c z * h z - (steps c h s (S l) + (c z - c y) * h z)) with ((c y * h y - steps c h s (S l)) + c y * (h z - h y)) by ring.
    assert (0 <= c y * (h z - h y)) by (apply Rmult_le_pos; lra).
    assert (c y * (h z - h y) <= 1 * (h z - h y)) by (apply Rmult_le_compat_r; lra). lra.
Qed.

(** ** The loop of the code *)
Lemma keep_sum_fold keep : forall pmf s acc,
  fold_left (fun acc ip => acc + snd ip * keep (fst ip)) (combine (map (fun i => (s + Z.of_nat i)%Z) (seq 0 (length pmf))) pmf) acc =
  acc + keep_sum keep (s, pmf).
Proof.
  assert (G : forall (l : list (Z * R)) acc, fold_left (fun acc ip => acc + snd ip * keep (fst ip)) l acc = acc + fold_left (fun acc ip => acc + snd ip * keep (fst ip)) l 0).
  { induction l as [|x l IH]; intro acc; cbn [fold_left]; [lra|]. rewrite IH, (IH (0 + _)). lra. }
  intros pmf s acc. apply G.
Qed.
Lemma keep_sum_cons keep s x pmf : keep_sum keep (s, x :: pmf) = x * keep s + keep_sum keep ((s + 1)%Z, pmf).
Proof.
  unfold keep_sum at 1. cbn [fst snd length seq map combine fold_left]. rewrite <- seq_shift, map_map.
  rewrite (map_ext (fun i => (s + Z.of_nat (S i))%Z) (fun i => (s + 1 + Z.of_nat i)%Z)) by (intro; lia). rewrite keep_sum_fold.
  replace (s + Z.of_nat 0)%Z with s by lia. lra.
Qed.
Lemma keep_sum_steps keep c l : forall s, keep_sum keep (s, diff (map c (map (fun i => (s - 1 + Z.of_nat i)%Z) (seq 0 (S l))))) = steps c keep s l.
Proof.
  induction l as [|l IH]; intro s; [reflexivity|].
  assert (E : map (fun i => (s - 1 + Z.of_nat i)%Z) (seq 0 (S (S l))) = (s - 1)%Z :: map (fun i => (s + 1 - 1 + Z.of_nat i)%Z) (seq 0 (S l))).
  { cbn [seq map]. f_equal; [lia|]. rewrite <- !seq_shift, !map_map. f_equal; [lia|]. apply map_ext. intro. lia. }
  rewrite E. specialize (IH (s + 1)%Z). cbn [map seq] in IH |- *. cbn [diff].
  change (match map c (map (fun i => (s + 1 - 1 + Z.of_nat i)%Z) (seq 1 l)) with [] => [] | y :: _ => (y - c (s + 1 - 1 + Z.of_nat 0)%Z) :: diff (map c (map (fun i => (s + 1 - 1 + Z.of_nat i)%Z) (seq 1 l))) end)
    with (diff (c (s + 1 - 1 + Z.of_nat 0)%Z :: map c (map (fun i => (s + 1 - 1 + Z.of_nat i)%Z) (seq 1 l)))).
  rewrite keep_sum_cons, IH. cbn [steps]. replace (s + 1 - 1 + Z.of_nat 0)%Z with s by lia. reflexivity.
Qed.
Lemma arange_steps keep c s e : (s <= e + 1)%Z -> keep_sum keep (s, diff (map c (arange (s - 1) (e + 1)))) = steps c keep s (Z.to_nat (e + 1 - s)).
Proof.
  intro L. unfold arange. replace (Z.to_nat (e + 1 - (s - 1))) with (S (Z.to_nat (e + 1 - s))) by lia. apply keep_sum_steps.
Qed.

Lemma clip01_range x : 0 <= clip01 x <= 1.
Proof. unfold clip01, Rmin, Rmax. destruct (Rle_dec x 0); destruct (Rle_dec _ 1); lra. Qed.
Lemma clip01_near x y e : 0 <= y <= 1 -> Rabs (x - y) <= e -> Rabs (clip01 x - y) <= e.
Proof.
  intros Hy He. unfold clip01, Rmin, Rmax.
  assert (B : - e <= x - y <= e) by (unfold Rabs in He; destruct (Rcase_abs (x - y)); lra).
  apply Rabs_le. destruct (Rle_dec x 0); destruct (Rle_dec _ 1); lra.
Qed.

(** ** Rounding *)
Lemma Int_part_bounds x : IZR (Int_part x) <= x < IZR (Int_part x) + 1.
Proof. destruct (base_Int_part x) as [A B]. lra. Qed.
Lemma Int_part_is x z : IZR z <= x < IZR z + 1 -> Int_part x = z.
Proof.
  intros [A B]. destruct (Int_part_bounds x) as [C D].
  assert (IZR z < IZR (Int_part x + 1)) by (rewrite plus_IZR; lra). assert (IZR (Int_part x) < IZR (z + 1)) by (rewrite plus_IZR; lra).
  apply lt_IZR in H, H0. lia.
Qed.
Lemma round_bounds x : x - 1 / 2 <= IZR (round_half_even x) <= x + 1 / 2.
Proof.
  unfold round_half_even. assert (B := Int_part_bounds x). destruct (Rlt_dec _ _); [lra|]. destruct (Rlt_dec _ _); [rewrite plus_IZR; lra|].
  destruct (Z.even _); [lra | rewrite plus_IZR; lra].
Qed.
Lemma round_floor x : (Int_part x <= round_half_even x)%Z.
Proof. unfold round_half_even. destruct (Rlt_dec _ _); [lia|]. destruct (Rlt_dec _ _); [lia|]. destruct (Z.even _); lia. Qed.
Lemma round_integer z : round_half_even (IZR z) = z.
Proof.
  unfold round_half_even. rewrite (Int_part_is (IZR z) z) by lra. destruct (Rlt_dec _ _) as [_|N]; [reflexivity|]. exfalso. apply N. lra.
Qed.

(** ** The approximation *)
Lemma steps_upto keep i l : forall s, steps (fun k => upto k i) keep s l = if ((s <=? Z.of_nat i) && (Z.of_nat i <? s + Z.of_nat l))%Z then keep (Z.of_nat i) else 0.
Proof.
  induction l as [|l IH]; intro s; cbn [steps].
  - destruct (Z.leb_spec s (Z.of_nat i)); cbn [andb]; [|reflexivity]. destruct (Z.ltb_spec (Z.of_nat i) (s + Z.of_nat 0)); [lia | reflexivity].
  - rewrite IH. unfold upto.
    destruct (Z.leb_spec (Z.of_nat i) s), (Z.leb_spec (Z.of_nat i) (s - 1)), (Z.leb_spec (s + 1) (Z.of_nat i)), (Z.ltb_spec (Z.of_nat i) (s + 1 + Z.of_nat l)),
      (Z.leb_spec s (Z.of_nat i)), (Z.ltb_spec (Z.of_nat i) (s + Z.of_nat (S l))); try lia; cbn [andb]; try lra.
    assert (s = Z.of_nat i) by lia. subst s. lra.
Qed.
Lemma mean_of_steps ps keep l : forall s, mean_of ps (fun i => steps (fun k => upto k i) keep s l) = steps (chance_at_most ps) keep s l.
Proof.
  induction l as [|l IH]; intro s; cbn [steps]; [apply mean_of_const|]. rewrite mean_of_plus, IH. f_equal. rewrite !at_most_mean.
  rewrite (mean_of_ext ps _ (fun i => keep s * upto s i + - keep s * upto (s - 1) i)) by (intros; ring).
  rewrite mean_of_plus, !mean_of_scale. ring.
Qed.

Section Approximation.
Variables cdf pdf : R -> R.
Variable ps : list Q.
Hypothesis Hps : probabilities ps.
Let mu : R := Q2R (sumQ ps).
Let var : R := Q2R (sumQ (map (fun p => p * (1 - p)) ps)%Q).
Let sigma : R := sqrt var.
Let n : Z := Z.of_nat (length ps).

Lemma mu_range : 0 <= mu <= IZR n.
Proof.
  unfold mu, n. clear mu var sigma n. induction Hps as [|p l Hp _ IH]; [cbn; unfold Q2R; cbn; lra|]. change (sumQ (p :: l)) with (p + sumQ l)%Q.
  rewrite Q2R_plus. cbn [length]. rewrite Nat2Z.inj_succ, succ_IZR. apply prob_range in Hp. specialize (IH (Forall_inv_tail Hps)). lra.
Qed.
Lemma var_range : 0 <= var.
Proof.
  unfold var. clear mu var sigma n. induction Hps as [|p l Hp _ IH]; [cbn; unfold Q2R; cbn; lra|]. cbn [map].
  change (sumQ (p * (1 - p) :: map (fun p => p * (1 - p)) l)%Q) with (p * (1 - p) + sumQ (map (fun p => p * (1 - p)) l))%Q.
  rewrite Q2R_plus, Q2R_mult, Q2R_minus, RMicromega.Q2R_1. apply prob_range in Hp. specialize (IH (Forall_inv_tail Hps)). assert (0 <= Q2R p * (1 - Q2R p)) by (apply Rmult_le_pos; lra). lra.
Qed.

(** The first and the last number of survivors with a probability. *)
Definition first_number : Z := Z.max 0 (Int_part (mu - 8 * sigma)).
Definition last_number : Z := Z.min n (round_half_even (mu + 8 * sigma)).
Lemma numbers_range : (0 <= first_number <= last_number)%Z /\ (last_number <= n)%Z.
Proof.
  assert (M := mu_range). assert (Sg : 0 <= sigma) by apply sqrt_pos. unfold first_number, last_number. split; [|lia]. split; [lia|].
  assert (A : (Int_part (mu - 8 * sigma) <= n)%Z).
  { destruct (Int_part_bounds (mu - 8 * sigma)) as [X _]. apply le_IZR. lra. }
  assert (B : (Int_part (mu - 8 * sigma) <= Int_part (mu + 8 * sigma))%Z).
  { destruct (Int_part_bounds (mu - 8 * sigma)) as [X _]. destruct (Int_part_bounds (mu + 8 * sigma)) as [_ Y].
    apply Zlt_succ_le. apply lt_IZR. rewrite succ_IZR. lra. }
  assert (C : (0 <= Int_part (mu + 8 * sigma))%Z).
  { destruct (Int_part_bounds (mu + 8 * sigma)) as [_ Y]. apply Zlt_succ_le. apply lt_IZR. rewrite succ_IZR. lra. }
  assert (D := round_floor (mu + 8 * sigma)). unfold n in *. lia.
Qed.

Definition shown (k : Z) : R := clip01 (normal_at_most cdf pdf ps k).
Lemma moments_pmf_is : var <> 0 ->
  moments_pmf cdf pdf (probabilities_to_moments ps) = (first_number, diff (map shown (arange (first_number - 1) (last_number + 1)))).
Proof.
  intro Nv. unfold moments_pmf, probabilities_to_moments. cbn [m_var m_exp m_third m_count]. fold mu. fold n.
  change (sqrt (Q2R (sumQ (map (fun p : Q => (p * (1 - p))%Q) ps)))) with sigma.
  assert (Ns : sigma <> 0).
  { intro E. apply Nv. unfold sigma in E. apply sqrt_eq_0 in E; [exact E | apply var_range]. }
  destruct (Req_EM_T sigma 0) as [E|_]; [contradiction|]. unfold compute_pmf_approximation. destruct (Req_EM_T sigma 0) as [E|_]; [contradiction|].
  cbv zeta. fold first_number. fold last_number. f_equal. f_equal. apply map_ext. intro x. unfold shown. f_equal. unfold refined, normal_at_most.
  change (sqrt (Q2R (sumQ (map (fun p : Q => (p * (1 - p))%Q) ps)))) with sigma. fold mu. cbn [pow]. rewrite !Rmult_1_r. rewrite (Rmult_assoc sigma sigma sigma). reflexivity.
Qed.
Lemma approximate_keep_is keep : var <> 0 ->
  approximate_keep cdf pdf keep (probabilities_to_moments ps) = steps shown keep first_number (S (Z.to_nat (last_number - first_number))).
Proof.
  intro Nv. unfold approximate_keep. rewrite (moments_pmf_is Nv). destruct numbers_range as [[A B] C]. rewrite arange_steps by lia. f_equal. lia.
Qed.

(** Chebyshev: few survivors are outside. *)
Lemma outside_mean : var <> 0 -> mean_of ps (fun i => if ((first_number <=? Z.of_nat i) && (Z.of_nat i <=? last_number))%Z then 0 else 1) <= 1 / 64.
Proof.
  intro Nv. assert (Pv : 0 < var) by (destruct var_range as [X|X]; [exact X | congruence]). assert (Ps : 0 < sigma) by (apply sqrt_lt_R0; exact Pv).
  assert (Sq : sigma * sigma = var) by (apply sqrt_sqrt; apply var_range).
  apply Rle_trans with (mean_of ps (fun i => / (64 * var) * (INR i - mu) ^ 2)).
  - apply mean_of_le; [exact Hps|]. intros i Li.
    assert (P : 0 <= / (64 * var) * (INR i - mu) ^ 2).
    { apply Rmult_le_pos; [left; apply Rinv_0_lt_compat; lra | apply pow2_ge_0]. }
    destruct (Z.leb_spec first_number (Z.of_nat i)); cbn [andb].
    + destruct (Z.leb_spec (Z.of_nat i) last_number); [exact P|].
      assert (G : INR i - mu >= 8 * sigma).
      { unfold last_number in *. assert (Lr : (round_half_even (mu + 8 * sigma) < Z.of_nat i)%Z) by (unfold n in *; lia).
        assert (Lr' : (round_half_even (mu + 8 * sigma) + 1 <= Z.of_nat i)%Z) by lia. apply IZR_le in Lr'. rewrite plus_IZR, <- INR_IZR_INZ in Lr'.
        destruct (round_bounds (mu + 8 * sigma)) as [X _]. lra. }
      apply (Rmult_le_reg_l (64 * var)); [lra|]. rewrite <- Rmult_assoc, Rinv_r, Rmult_1_r, Rmult_1_l by lra. rewrite <- Sq. cbn [pow]. nra.
    + assert (G : mu - INR i >= 8 * sigma).
      { unfold first_number in *. assert (Lr : (Z.of_nat i + 1 <= Int_part (mu - 8 * sigma))%Z) by lia. apply IZR_le in Lr. rewrite plus_IZR, <- INR_IZR_INZ in Lr.
        destruct (Int_part_bounds (mu - 8 * sigma)) as [X _]. lra. }
      apply (Rmult_le_reg_l (64 * var)); [lra|]. rewrite <- Rmult_assoc, Rinv_r, Rmult_1_r, Rmult_1_l by lra. rewrite <- Sq. cbn [pow]. nra.
  - rewrite mean_of_scale, variance_of. fold mu. fold var. apply Req_le. cbn [pow]. field. lra.
Qed.

Lemma cdf_range k : 0 <= chance_at_most ps k <= 1.
Proof.
  rewrite at_most_mean. split.
  - rewrite <- (mean_of_const ps 0). apply mean_of_le; [exact Hps|]. intros i _. unfold upto. destruct (_ <=? _)%Z; lra.
  - rewrite <- (mean_of_const ps 1). apply mean_of_le; [exact Hps|]. intros i _. unfold upto. destruct (_ <=? _)%Z; lra.
Qed.

Lemma approximation_error keep e : var <> 0 -> reasonable keep ->
  (forall k, (-1 <= k <= n)%Z -> Rabs (normal_at_most cdf pdf ps k - chance_at_most ps k) <= e) ->
  Rabs (approximate_keep cdf pdf keep (probabilities_to_moments ps) - true_keep ps keep) <= 2 * e + 1 / 64.
Proof.
  intros Nv [Rk Mk] He. rewrite (approximate_keep_is keep Nv), true_keep_mean. destruct numbers_range as [[A B] C].
  set (l := Z.to_nat (last_number - first_number)). assert (El : (first_number + Z.of_nat l)%Z = last_number) by (unfold l; lia).
  assert (In_ : mean_of ps (fun i => if ((first_number <=? Z.of_nat i) && (Z.of_nat i <=? last_number))%Z then keep (Z.of_nat i) else 0) = steps (chance_at_most ps) keep first_number (S l)).
  { rewrite <- mean_of_steps. apply mean_of_ext. intros i _. rewrite steps_upto. replace (first_number + Z.of_nat (S l))%Z with (last_number + 1)%Z by lia.
    destruct (Z.leb_spec first_number (Z.of_nat i)), (Z.leb_spec (Z.of_nat i) last_number), (Z.ltb_spec (Z.of_nat i) (last_number + 1)); try lia; reflexivity. }
  assert (Sp : mean_of ps (fun i => keep (Z.of_nat i)) = steps (chance_at_most ps) keep first_number (S l)
     + mean_of ps (fun i => if ((first_number <=? Z.of_nat i) && (Z.of_nat i <=? last_number))%Z then 0 else keep (Z.of_nat i))).
  { rewrite <- In_, <- mean_of_plus. apply mean_of_ext. intros i _. destruct (_ && _)%bool; lra. }
  assert (Out : 0 <= mean_of ps (fun i => if ((first_number <=? Z.of_nat i) && (Z.of_nat i <=? last_number))%Z then 0 else keep (Z.of_nat i)) <= 1 / 64).
  { split.
    - rewrite <- (mean_of_const ps 0) at 1. apply mean_of_le; [exact Hps|]. intros i _. destruct (_ && _)%bool; [lra | apply Rk].
    - eapply Rle_trans; [|exact (outside_mean Nv)]. apply mean_of_le; [exact Hps|]. intros i _. destruct (_ && _)%bool; [lra | apply Rk]. }
  rewrite Sp. assert (Er := steps_error (fun k => shown k - chance_at_most ps k) keep e first_number l).
  rewrite steps_minus, El in Er.
  assert (D : forall k, (first_number - 1 <= k <= last_number)%Z -> Rabs (shown k - chance_at_most ps k) <= e).
  { intros k Lk. unfold shown. apply clip01_near; [apply cdf_range | apply He; lia]. }
  specialize (Er D (fun a => proj1 (Rk a)) Mk).
  assert (De := D last_number ltac:(lia)). assert (Re := Rk last_number).
  assert (Pe : 0 <= e) by (eapply Rle_trans; [apply Rabs_pos | exact De]).
  assert (X : Rabs (steps shown keep first_number (S l) - steps (chance_at_most ps) keep first_number (S l)) <= 2 * e).
  { replace (steps shown keep first_number (S l) - steps (chance_at_most ps) keep first_number (S l)) with
      ((steps shown keep first_number (S l) - steps (chance_at_most ps) keep first_number (S l) - (shown last_number - chance_at_most ps last_number) * keep last_number)
       + (shown last_number - chance_at_most ps last_number) * keep last_number) by ring.
    eapply Rle_trans; [apply Rabs_triang|].
    assert (Y : Rabs ((shown last_number - chance_at_most ps last_number) * keep last_number) <= e * keep last_number).
    { rewrite Rabs_mult, (Rabs_right (keep last_number)) by lra. apply Rmult_le_compat_r; [lra | exact De]. }
    assert (e * keep last_number <= e * 1) by (apply Rmult_le_compat_l; lra). lra. }
  apply Rabs_le. assert (X' : - (2 * e) <= steps shown keep first_number (S l) - steps (chance_at_most ps) keep first_number (S l) <= 2 * e)
    by (unfold Rabs in X; destruct (Rcase_abs _); lra). lra.
Qed.

Lemma approximation_between keep : var <> 0 -> reasonable keep ->
  - (1 - shown last_number) <= approximate_keep cdf pdf keep (probabilities_to_moments ps) <= shown last_number * keep last_number.
Proof.
  intros Nv [Rk Mk]. rewrite (approximate_keep_is keep Nv). destruct numbers_range as [[A B] C].
  set (l := Z.to_nat (last_number - first_number)). assert (El : (first_number + Z.of_nat l)%Z = last_number) by (unfold l; lia).
  assert (X := steps_between shown keep first_number l (fun k => clip01_range _) (fun a => proj1 (Rk a)) Mk). rewrite El in X.
  assert (Y := Rk last_number). assert (Z1 := clip01_range (normal_at_most cdf pdf ps last_number)). fold (shown last_number) in Z1.
  split; [|lra]. assert (shown last_number * keep last_number - keep last_number >= - (1 - shown last_number)); [|lra]. nra.
Qed.
End Approximation.
