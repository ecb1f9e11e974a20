(** Properties C06 and C07: the PLD accountant. *)
From Coq Require Import List ZArith Reals Lia Lra.
From Verif Require Import Base PldModel PldSpec PldProofs.
Import ListNotations.
Local Open Scope R_scope.

(** C06: the noise level found respects the budget and is minimal up to 1e-4,
    whatever the privacy-loss library computes. *)
Theorem C06_search_result fuel lib te td ms h :
  find_minimum_noise_std fuel (pld_epsilon lib te td ms) te = Some (Ok h) ->
  minimal_noise (pld_epsilon lib te td ms) te h.
Proof. apply find_sound. Qed.
Print Assumptions C06_search_result.

(** The result does not depend on the number of rounds we allow the loops, so
    there is one result if the loops end. *)
Theorem C06_search_result_unique lib te td ms f g r r' :
  find_minimum_noise_std f (pld_epsilon lib te td ms) te = Some r ->
  find_minimum_noise_std g (pld_epsilon lib te td ms) te = Some r' -> r = r'.
Proof.
  intros E E'. destruct (Nat.le_ge_cases f g) as [L|L].
  - rewrite (find_more _ _ _ f g L E) in E'. congruence.
  - rewrite (find_more _ _ _ g f L E') in E. congruence.
Qed.
Print Assumptions C06_search_result_unique.

(** The search ends if the library reports at most total_epsilon for some noise
    level 2, 4, 8, ... *)
Theorem C06_search_terminates lib te td ms k :
  0 < te -> ms <> [] -> Forall (fun m => p_weight m <> 0 /\ p_type m <> PThresholding) ms ->
  (exists e, pld_epsilon lib te td ms (2 ^ S k) = Ok e /\ e <= te) ->
  exists h, find_minimum_noise_std (k + 15) (pld_epsilon lib te td ms) te = Some (Ok h).
Proof.
  intros Te Ne F B. replace (k + 15)%nat with (S k + 14)%nat by lia. apply find_terminates; [|exact B].
  intros x Px. unfold pld_epsilon, compose_distributions.
  destruct (compose_defined te td x ms) with (c := @None (list pld)) (l := @None pld) as [r [-> Nr]]; [lra | lra | exact F |].
  cbn [rbind]. destruct r; [eauto|]. exfalso. apply Nr; auto.
Qed.
Print Assumptions C06_search_terminates.

(** The mechanisms that the granted noise levels allow compose to at most
    total_epsilon.  Thresholding mechanisms and generic mechanisms whose weight
    differs from their sensitivity are excluded, see the refutations. *)
Theorem C06_granted_mechanisms_within_budget fuel lib te td ms ms' :
  0 < te -> td <> 0 -> ms <> [] ->
  Forall (fun m => p_type m <> PThresholding /\ (p_type m = PGeneric -> p_sens m = p_weight m)) ms ->
  pld_compute_budgets fuel lib te td ms = Some (Ok ms') ->
  exists gs, map granted ms' = map Some gs /\ lib gs td <= te.
Proof.
  intros Te Td Ne F E. unfold pld_compute_budgets in E. destruct ms as [|m0 ms0]; [congruence|].
  set (ms := m0 :: ms0) in *. destruct (Req_EM_T td 0) as [X|_]; [contradiction|].
  destruct (find_minimum_noise_std fuel (pld_epsilon lib te td ms) te) as [[h|]|] eqn:Ef; try discriminate.
  inversion E as [Es]. destruct (find_sound _ _ _ _ Ef) as [Ph [[e [Ee Le]] _]]. unfold pld_epsilon, compose_distributions in Ee.
  destruct (compose_loop te td h ms None None) as [r|] eqn:Ec; cbn [rbind] in Ee; [|discriminate].
  destruct (compose_granted te td h ms Te Ph F ms' None None Es r Ec) as [gs [Eg ->]].
  exists gs. split; [exact Eg|]. destruct gs; [discriminate|]. inversion Ee. lra.
Qed.
Print Assumptions C06_granted_mechanisms_within_budget.

(** Every mechanism gets the same noise level times sensitivity / weight. *)
Theorem C06_noise_follows_weights fuel lib te td ms ms' :
  td <> 0 -> ms <> [] -> pld_compute_budgets fuel lib te td ms = Some (Ok ms') ->
  exists h, minimal_noise (pld_epsilon lib te td ms) te h /\
    Forall2 (fun m m' => p_type m' = p_type m /\ p_std m' = Some (p_sens m * h / p_weight m)) ms ms'.
Proof.
  intros Td Ne E. unfold pld_compute_budgets in E. destruct ms as [|m0 ms0]; [congruence|].
  set (ms := m0 :: ms0) in *. destruct (Req_EM_T td 0) as [X|_]; [contradiction|].
  destruct (find_minimum_noise_std fuel (pld_epsilon lib te td ms) te) as [[h|]|] eqn:Ef; try discriminate.
  exists h. split; [exact (find_sound _ _ _ _ Ef)|]. apply (noises_set te td). injection E as E. exact E.
Qed.
Print Assumptions C06_noise_follows_weights.

(** A generic mechanism is composed without its weight but is granted a budget
    with it.  One generic mechanism of weight 2 or more is granted more than the
    total epsilon and delta (for any library that reports, for one
    (eps, eps/te*td)-mechanism, an epsilon within te exactly if eps is). *)
Theorem C06_generic_weight_refuted lib te td w :
  0 < te <= 1000 -> 0 < td -> 2 <= w ->
  (forall e, 0 < e -> (lib [FromPrivacyParameters e (e / te * td)] td <= te <-> e <= te)) ->
  exists fuel m e d,
    pld_compute_budgets fuel lib te td [PMech PGeneric 1 w None None] = Some (Ok [m]) /\
    p_budget m = Some (e, d) /\ te < e /\ td < d.
Proof.
  intros Te Td W Hlib. assert (S2 := sqrt2_pos).
  assert (S1 : 1 < sqrt 2). { rewrite <- sqrt_1. apply sqrt_lt_1_alt. lra. }
  set (ms := [PMech PGeneric 1 w None None]).
  assert (Hat : forall x, 0 < x -> pld_epsilon lib te td ms x = Ok (lib [FromPrivacyParameters (sqrt 2 / x) (sqrt 2 / x / te * td)] td)).
  { intros x Px. unfold pld_epsilon, compose_distributions, ms. cbn [compose_loop pld_of p_type]. rewrite rdiv_some by lra. cbn [rbind].
    rewrite rdiv_some by lra. reflexivity. }
  assert (Ex : exists k, sqrt 2 / te <= 2 ^ S k).
  { destruct (Pow_x_infinity 2 ltac:(rewrite Rabs_pos_eq; lra) (sqrt 2 / te)) as [N HN]. exists N.
    specialize (HN (S N) ltac:(lia)). rewrite Rabs_pos_eq in HN; [lra|]. apply pow_le. lra. }
  destruct Ex as [k Hk].
  assert (P2 : 0 < 2 ^ S k) by (apply pow_lt; lra).
  destruct (C06_search_terminates lib te td ms k) as [h Eh]; [lra | discriminate | |  |].
  { constructor; [|constructor]. cbn. split; [lra | discriminate]. }
  { rewrite (Hat _ P2). eexists. split; [reflexivity|]. apply Hlib.
    - apply Rmult_lt_0_compat; [exact S2 | apply Rinv_0_lt_compat; exact P2].
    - apply Rmult_le_reg_r with (2 ^ S k); [exact P2|]. unfold Rdiv. rewrite Rmult_assoc, Rinv_l by lra.
      assert (X := Rmult_le_compat_l te _ _ ltac:(lra) Hk). replace (te * (sqrt 2 / te)) with (sqrt 2) in X by (field; lra). lra. }
  destruct (find_sound _ _ _ _ Eh) as [Ph [_ [low [Bl [Dl Hl]]]]].
  assert (Hh : h * te < w * sqrt 2).
  { assert (L : low * te <= sqrt 2).
    { destruct Hl as [-> | [e [Ee Le]]]; [lra|]. destruct (Req_dec low 0) as [-> |N]; [lra|].
      assert (Pl : 0 < low) by lra. rewrite (Hat _ Pl) in Ee. inversion Ee as [E1].
      destruct (Rle_dec (sqrt 2 / low) te) as [C|C].
      - apply Hlib in C; [lra|]. apply Rmult_lt_0_compat; [exact S2 | apply Rinv_0_lt_compat; exact Pl].
      - apply Rnot_le_lt in C. apply (Rmult_lt_compat_l low) in C; [|exact Pl].
        replace (low * (sqrt 2 / low)) with (sqrt 2) in C by (field; lra). lra. }
    assert (A : (h - low) * te <= / 10000 * 1000) by (apply Rmult_le_compat; lra).
    assert (B : 2 * sqrt 2 <= w * sqrt 2) by (apply Rmult_le_compat_r; lra). lra. }
  set (std := 1 * h / w). assert (Pstd : 0 < std) by (apply Rmult_lt_0_compat; [lra | apply Rinv_0_lt_compat; lra]).
  exists (k + 15)%nat, (PMech PGeneric 1 w (Some std) (Some (sqrt 2 / std, sqrt 2 / std / te * td))), (sqrt 2 / std), (sqrt 2 / std / te * td).
  assert (Big : te < sqrt 2 / std).
  { unfold std. replace (sqrt 2 / (1 * h / w)) with (w * sqrt 2 / h) by (field; lra).
    apply Rmult_lt_reg_r with h; [exact Ph|]. unfold Rdiv. rewrite Rmult_assoc, Rinv_l by lra. lra. }
  split.
  { unfold pld_compute_budgets. fold ms. unfold ms at 1. destruct (Req_EM_T td 0); [lra|]. rewrite Eh. unfold ms.
    cbn [set_noises set_noise p_sens p_weight p_type rbind]. unfold set_noise. cbn [p_sens p_weight p_type]. rewrite rdiv_some by lra. cbn [rbind].
    fold std. rewrite rdiv_some by lra. cbn [rbind]. rewrite rdiv_some by lra. reflexivity. }
  split; [reflexivity|]. split; [exact Big|].
  rewrite <- (Rmult_1_l td) at 1. apply Rmult_lt_compat_r; [exact Td|].
  apply Rmult_lt_reg_r with te; [lra|]. unfold Rdiv at 1. rewrite Rmult_assoc, Rinv_l by lra. lra.
Qed.
Print Assumptions C06_generic_weight_refuted.

(** A thresholding mechanism is never composed: alone it makes compute_budgets
    raise, after another mechanism that one is counted twice instead. *)
Theorem C06_thresholding_alone_refuted fuel lib te td sens weight :
  td <> 0 -> pld_compute_budgets (S fuel) lib te td [PMech PThresholding sens weight None None] = Some (Err AttributeError).
Proof. intro Td. unfold pld_compute_budgets. destruct (Req_EM_T td 0); [contradiction|]. reflexivity. Qed.
Print Assumptions C06_thresholding_alone_refuted.

Theorem C06_thresholding_composed_refuted te td m sens weight std :
  p_type m <> PThresholding ->
  compose_distributions te td [m; PMech PThresholding sens weight None None] std =
  compose_distributions te td [m; m] std.
Proof.
  intro T. unfold compose_distributions. cbn [compose_loop]. unfold pld_of. destruct (p_type m); [| |congruence|]; cbn [p_type].
  - destruct (rdiv (p_sens m * std / sqrt 2) (p_weight m)); reflexivity.
  - destruct (rdiv (p_sens m * std) (p_weight m)); reflexivity.
  - destruct (rdiv (sqrt 2) std) as [e|]; [|reflexivity]. cbn [rbind]. destruct (rdiv e te); reflexivity.
Qed.
Print Assumptions C06_thresholding_composed_refuted.

(** C07 *)
Theorem C07_epsilon_spent_exactly fuel lib te ms ms' :
  0 < te -> ms <> [] ->
  Forall (fun m => 0 < p_weight m /\ (p_type m = PLaplace /\ 0 < p_sens m \/ p_type m = PGeneric /\ p_sens m = 1)) ms ->
  pld_compute_budgets fuel lib te 0 ms = Some (Ok ms') ->
  fold_right Rplus 0 (map spent ms') = te /\
  Forall (fun m => forall e d, p_budget m = Some (e, d) -> p_type m = PGeneric -> d = 0) ms'.
Proof.
  intros Te Ne F E. unfold pld_compute_budgets in E. destruct ms as [|m0 ms0]; [congruence|].
  destruct (Req_EM_T 0 0) as [_|X]; [|contradiction]. rewrite fold_weights, rdiv_some in E by lra. cbn [rmap] in E.
  assert (S2 := sqrt2_pos).
  assert (W : 0 < sum_weights (m0 :: ms0)).
  { unfold sum_weights. inversion F as [|? ? [W0 _] F']; subst. cbn. assert (0 <= fold_right Rplus 0 (map p_weight ms0)); [|lra].
    clear -F'. induction F' as [|m ms [W _] F IH]; cbn; lra. }
  inversion E as [Es]. clear E. set (mn := (0 + sum_weights (m0 :: ms0)) / te * sqrt 2) in *.
  assert (Mn : 0 < mn).
  { unfold mn. apply Rmult_lt_0_compat; [|exact S2]. apply Rmult_lt_0_compat; [lra | apply Rinv_0_lt_compat; exact Te]. }
  destruct (spent_sum te (m0 :: ms0) mn ms' Te Mn F Es) as [S D]. split; [|exact D]. rewrite S. unfold mn. field. lra.
Qed.
Print Assumptions C07_epsilon_spent_exactly.

Theorem C07_budgets_computed fuel lib te ms :
  0 < te -> Forall (fun m => 0 < p_weight m /\ 0 < p_sens m /\ p_type m <> PGaussian) ms ->
  exists ms', pld_compute_budgets fuel lib te 0 ms = Some (Ok ms') /\ length ms' = length ms.
Proof.
  intros Te F. unfold pld_compute_budgets. destruct ms as [|m0 ms0]; [exists []; auto|].
  destruct (Req_EM_T 0 0) as [_|X]; [|contradiction]. rewrite fold_weights, rdiv_some by lra. cbn [rmap].
  assert (S2 := sqrt2_pos).
  assert (W : 0 < sum_weights (m0 :: ms0)).
  { unfold sum_weights. inversion F as [|? ? [W0 _] F']; subst. cbn. assert (0 <= fold_right Rplus 0 (map p_weight ms0)); [|lra].
    clear -F'. induction F' as [|m ms [W _] F IH]; cbn; lra. }
  set (mn := (0 + sum_weights (m0 :: ms0)) / te * sqrt 2).
  assert (Mn : 0 < mn).
  { unfold mn. apply Rmult_lt_0_compat; [|exact S2]. apply Rmult_lt_0_compat; [lra | apply Rinv_0_lt_compat; exact Te]. }
  clearbody mn. clear W. set (ms := m0 :: ms0) in *. clearbody ms. clear m0 ms0.
  assert (G : exists ms', set_noises te 0 mn ms = Ok ms' /\ length ms' = length ms).
  { induction F as [|m ms [Wm [Sm _]] F IH]; [exists []; auto|]. destruct IH as [ms2 [E2 L2]]. cbn [set_noises].
    unfold set_noise. rewrite rdiv_some by lra. cbn [rbind].
    assert (Q : 0 < p_sens m * mn / p_weight m).
    { apply Rmult_lt_0_compat; [apply Rmult_lt_0_compat; assumption | apply Rinv_0_lt_compat; exact Wm]. }
    rewrite (rdiv_some (sqrt 2)) by lra. cbn [rbind]. rewrite rdiv_some by lra. cbn [rmap]. rewrite E2.
    destruct (p_type m); cbn [rbind rmap]; eexists; (split; [reflexivity | cbn; congruence]). }
  destruct G as [ms' [-> L]]. exists ms'. auto.
Qed.
Print Assumptions C07_budgets_computed.

(** The granted standard deviation is what create_from_std_deviation turns into
    the epsilon of the Laplace mechanism (requests of sensitivity 1, as the
    engine makes them). *)
Theorem C07_matches_laplace_mechanism m std :
  p_type m = PLaplace -> p_sens m = 1 -> p_std m = Some std -> spent m = laplace_epsilon std.
Proof. intros T S D. unfold spent, laplace_epsilon. rewrite T, S, D. reflexivity. Qed.
Print Assumptions C07_matches_laplace_mechanism.

(** Requests: what is accepted. *)
Theorem C07_no_gaussian_without_delta finalized ms sens weight count noise ms' :
  pld_request finalized 0 ms PGaussian sens weight count noise <> Ok ms'.
Proof.
  unfold pld_request. destruct finalized; [discriminate|]. destruct (negb (count =? 1)%Z); [discriminate|].
  destruct noise; [discriminate|]. destruct (Req_EM_T 0 0); [discriminate | contradiction].
Qed.
Print Assumptions C07_no_gaussian_without_delta.

Example C06_C07_hypotheses_met :
  let ms := [PMech PLaplace 1 2 None None; PMech PGeneric 1 1 None None] in
  (exists e, pld_epsilon (fun l _ => match l with FromLaplace b :: _ => 1 / b | _ => 0 end) 4 (/ 1000) ms 2 = Ok e /\ e <= 4) /\
  Forall (fun m => 0 < p_weight m /\ (p_type m = PLaplace /\ 0 < p_sens m \/ p_type m = PGeneric /\ p_sens m = 1)) ms.
Proof.
  assert (S2 := sqrt2_pos).
  assert (S3 : sqrt 2 < 2). { rewrite <- (sqrt_square 2) at 2 by lra. apply sqrt_lt_1_alt. lra. }
  cbn zeta. split.
  - unfold pld_epsilon, compose_distributions. cbn [compose_loop pld_of p_type p_sens p_weight].
    rewrite !rdiv_some by lra. cbn [rmap rbind]. rewrite !rdiv_some by lra. cbn [rmap rbind app].
    eexists. split; [reflexivity|]. replace (1 / (1 * 2 / sqrt 2 / 2)) with (sqrt 2) by (field; lra). lra.
  - repeat constructor; cbn; lra || (left; split; [reflexivity | lra]) || (right; split; reflexivity).
Qed.
Example C06_generic_library_exists :
  forall te td, 0 < te -> let lib := fun (l : list pld) (_ : R) => match l with [FromPrivacyParameters e _] => e | _ => 0 end in
  forall e, 0 < e -> (lib [FromPrivacyParameters e (e / te * td)] td <= te <-> e <= te).
Proof. intros. cbn. tauto. Qed.
