(** C83: Laplace noise that is rounded to floating point numbers, and Laplace thresholding
    with it, keep the promises that the privacy theorems (C59, C61 and those built on
    them) assume of PyDP. *)
From Coq Require Import String List ZArith QArith Qreals Qabs Reals Sorted Bool Lia Lqa Lra.
From Verif Require Import Base BaseLemmas ParamsModel CombinerModel SensModel EngineModel EngineSpec VectorModel VectorSpec ExpMechProofs LaplaceModel LaplaceSpec LaplaceProofs SelectModel SelectSpec
  SelectProofs SelectProps DistSpec DistProofs DpModel DpSpec DpProps RoundModel RoundSpec RoundProofs RoundProofs2 RoundProofs3.
Import ListNotations.
Local Open Scope R_scope.
Local Close Scope Q_scope.

(** [laplace_below] is the distribution function of the Laplace density of C40: its
    derivative is the density everywhere, and it goes from 0 to 1. *)
Theorem C83_distribution_function r x : 0 < r ->
  (forall c, derivable_pt_lim (laplace_below r x) c (laplace_density (/ r) x c)) /\
  (forall e, 0 < e -> exists a b, laplace_below r x a < e /\ 1 - e < laplace_below r x b) /\
  (forall a b, a <= b -> 0 <= laplace_below r x a <= laplace_below r x b /\ laplace_below r x b <= 1).
Proof.
  intro Hr. split; [intro c; apply density_derivative; exact Hr|]. split; [intros e He; apply below_limits; assumption|].
  intros a b L. pose proof (laplace_below_range r x a Hr). pose proof (laplace_below_range r x b Hr). pose proof (laplace_below_mono r x a b Hr L). lra.
Qed.
Print Assumptions C83_distribution_function.

(** The rounded noise is a distribution, and an event that holds exactly for the results of
    rounding reals below a border [c] of the grid has the probability of these reals. *)
Theorem C83_rounded_noise g r x : 0 < r -> sorted_grid g ->
  is_dist (rounded_laplace g r x) /\
  forall c E, In c (map fst (g_cells g)) ->
    (forall y, E (rounded (g_cells g) (g_top g) y) = true <-> y < c) ->
    prob (rounded_laplace g r x) E = laplace_below r x c.
Proof.
  intros Hr So. split; [apply rounded_dist; assumption|]. intros c E Ic Ev. apply rounded_mass_below; try assumption.
  intro y. specialize (Ev y). destruct (Rlt_dec y c) as [L|L]; [apply Ev; exact L|].
  destruct (E _) eqn:Et; [|reflexivity]. exfalso. apply L, Ev. reflexivity.
Qed.
Print Assumptions C83_rounded_noise.

(** Epsilon-differential privacy: values that together change by at most [l1], each with
    Laplace noise of scale [l1] / [eps], rounded in any way. *)
Theorem C83_laplace_noise_is_private g eps l1 (xs xs' : list R) E :
  sorted_grid g -> 0 < eps -> 0 < l1 -> length xs = length xs' ->
  sumR (map (fun p => Rabs (fst p - snd p)) (combine xs xs')) <= l1 ->
  indistinguishable eps 0 (prob (independent (rounded_laplace g (eps / l1)) xs) E)
                          (prob (independent (rounded_laplace g (eps / l1)) xs') E).
Proof. intros. apply (laplace_pair g (fun x => x)); assumption. Qed.
Print Assumptions C83_laplace_noise_is_private.

(** Scale l1 / eps is needed: whatever is smaller is not private, for a grid with a
    border at 0. *)
Theorem C83_smaller_scale_is_not_private eps l1 r : 0 < eps -> 0 < l1 -> eps / l1 < r ->
  exists g x x' E, sorted_grid g /\ Rabs (x - x') <= l1 /\
    ~ indistinguishable eps 0 (prob (rounded_laplace g r x) E) (prob (rounded_laplace g r x') E).
Proof.
  intros He Hl Hr. assert (Pr : 0 < eps / l1) by (apply Rdiv_lt_0_compat; assumption).
  exists (Grid [(0, 0%Q)] 1%Q), 0, l1, (fun v => Qeq_bool v 0). split; [unfold sorted_grid; cbn; repeat constructor|].
  split; [rewrite Rminus_0_l, Rabs_Ropp, Rabs_pos_eq; lra|].
  intros [A _]. assert (P : forall x, 0 <= x -> prob (rounded_laplace (Grid [(0, 0%Q)] 1%Q) r x) (fun v => Qeq_bool v 0) = exp (- (r * x)) / 2).
  { intros x Hx. unfold prob, rounded_laplace. cbn [g_cells g_top cell_probabilities]. rewrite !mixture_cons, mixture_nil.
    change (Qeq_bool 0 0) with true. change (Qeq_bool 1 0) with false. unfold indicator, laplace_below, laplace_tail.
    rewrite !Rminus_0_r. destruct (Rle_dec 0 x); [lra | contradiction]. }
  rewrite !P in A by lra. replace (- (r * 0)) with 0 in A by ring. rewrite exp_0 in A.
  assert (L : exp (eps + - (r * l1)) < exp 0).
  { apply exp_increasing. apply (Rmult_lt_compat_r l1) in Hr; [|exact Hl]. replace (eps / l1 * l1) with eps in Hr by (field; lra). lra. }
  rewrite exp_plus, exp_0 in L. lra.
Qed.
Print Assumptions C83_smaller_scale_is_not_private.

(** Accuracy: if rounding moves the reals around the value by at most [w], the noise
    moves the value by more than [t] + [w] with probability at most exp (- t r). *)
Theorem C83_accuracy g r x t w E : 0 < r -> 0 <= t -> sorted_grid g -> rounds_within w (x - t) (x + t) g ->
  (forall v, E v = true -> t + w < Rabs (Q2R v - x)) ->
  prob (rounded_laplace g r x) E <= exp (- (r * t)).
Proof.
  intros Hr Ht So Rw Ev. apply rounded_mass_outside; try assumption. intros y Et. specialize (Ev _ Et).
  destruct (Rlt_le_dec y (x - t)); [left; assumption|]. destruct (Rlt_le_dec (x + t) y); [right; assumption|]. exfalso.
  specialize (Rw y ltac:(lra)). set (v := Q2R _) in *.
  assert (Rabs (y - x) <= t) by (apply Rabs_le; lra).
  pose proof (Rabs_triang (v - y) (y - x)) as Tr. replace (v - y + (y - x)) with (v - x) in Tr by ring. lra.
Qed.
Print Assumptions C83_accuracy.

(** Laplace thresholding with release of the noised counts: (eps, delta)-differential
    privacy for a privacy id in at most [l0] partitions; nothing is released for empty
    partitions; a partition with one privacy id is released with probability exactly
    1 - (1 - delta)^(1 / l0). *)
Theorem C83_thresholding_is_private g (l0 : Z) eps delta pre :
  sorted_grid g -> (0 < l0)%Z -> 0 < eps -> 0 < delta < 1 -> (forall t, pre = Some t -> (0 < t)%Z) ->
  let r := eps / IZR l0 in
  let d := partition_delta l0 delta in
  let noised n := released g r (laplace_threshold r d) (reduced pre n) in
  private_thresholding noised l0 eps delta /\
  prob (released g r (laplace_threshold r d) 1) (fun o => match o with Some _ => true | None => false end) = d.
Proof.
  intros So Hl He Hd Ht r d noised. assert (Pl : 0 < IZR l0) by (apply IZR_lt; exact Hl).
  assert (Hr : 0 < r) by (apply Rdiv_lt_0_compat; assumption).
  assert (Pr := partition_delta_range l0 delta Hl ltac:(lra)). assert (PP := partition_delta_power l0 delta Hl ltac:(lra)). fold d in Pr, PP.
  assert (D1 : 0 < d < 1).
  { split.
    - destruct (Rle_lt_or_eq_dec 0 d ltac:(lra)) as [X|X]; [exact X|]. rewrite <- X, Rminus_0_r, pow1 in PP. lra.
    - destruct (Rle_lt_or_eq_dec d 1 ltac:(lra)) as [X|X]; [exact X|]. rewrite X in PP. replace (1 - 1) with 0 in PP by ring. rewrite pow_i in PP by lia. lra. }
  split.
  - split.
    + intros n w o Ln I. unfold noised in I. rewrite (reduced_empty _ _ Ht Ln) in I. destruct I as [I|[]]. injection I as _ <-. right. reflexivity.
    + apply (thresholding_private noised l0 eps delta d); [exact Hl | lra | lra | lra | intro n; apply released_dist; assumption|].
      intros n Ln. unfold noised. destruct (reduced_step pre n Ln) as [-> | ->]; [|apply released_step; assumption].
      assert (Dd := fun k => released_dist g r d Hr So k). fold r.
      split; [eapply up_weaken; [apply Dd | apply Dd | | | | | apply up_same]; lra | eapply dn_weaken; [apply Dd | apply Dd | | | apply dn_same]; lra].
  - unfold prob. rewrite <- (laplace_threshold_ok r d Hr D1) at 2.
    assert (So2 := sorted_filter_map g r d So). set (T := laplace_threshold r d) in *.
    cbn [map fst] in So2. apply StronglySorted_inv in So2. destruct So2 as [So2 Fo].
    unfold released. cbn [cell_probabilities]. rewrite mixture_cons. cbn [indicator]. rewrite Rmult_0_r, Rplus_0_l.
    set (cs := map _ (filter _ _)) in *.
    assert (Sm : forall o, In o (map snd (cell_probabilities (laplace_below r (INR 1)) (laplace_below r (INR 1) T) cs (Some (g_top g)))) -> o <> None).
    { clear. intros o. subst cs. generalize (laplace_below r (INR 1) T). induction (filter _ (g_cells g)) as [|[c v] l IH]; intro low; cbn [map cell_probabilities fst snd].
      - intros [<-|[]]. discriminate.
      - intros [<-|I]; [discriminate | eapply IH; exact I]. }
    destruct (cells_is_dist (laplace_below r (INR 1)) cs (Some (g_top g))) with (low := laplace_below r (INR 1) T) as [P Su]; try assumption.
    + intro c. apply laplace_below_range. exact Hr.
    + intros. apply laplace_below_mono; assumption.
    + apply laplace_below_range. exact Hr.
    + intros c v I. apply laplace_below_mono; [exact Hr|]. rewrite Forall_forall in Fo. apply Fo. apply (in_map fst) in I. exact I.
    + transitivity (1 - laplace_below r (INR 1) T).
      * rewrite <- Su. clear -Sm. induction (cell_probabilities _ _ cs _) as [|[w o] l IH]; [reflexivity|].
        rewrite mixture_cons. cbn [map fst]. rewrite sumR_cons, IH by (intros o' I; apply Sm; right; exact I).
        destruct o; [cbn; ring | exfalso; exact (Sm None (or_introl eq_refl) eq_refl)].
      * unfold laplace_below. rewrite laplace_tail_compl. f_equal. change (INR 1) with 1. ring.
Qed.
Print Assumptions C83_thresholding_is_private.

(** So the promises that are assumed of PyDP hold with these algorithms: in every theorem
    about a PyDP that keeps its promises, Laplace noise for numbers and vectors and Laplace
    thresholding can be taken to be rounded Laplace noise, for every choice of the grids, and
    only the promises about everything else stay assumptions. *)
Theorem C83_promises_hold gn gv gs py :
  (forall m, sorted_grid (gn m)) -> (forall m, sorted_grid (gv m)) -> (forall s, sorted_grid (gs s)) ->
  pydp_keeps_promises py -> pydp_keeps_promises (with_laplace gn gv gs py).
Proof.
  intros Sn Sv Ss [N [K [Th [Qu V]]]]. split; [apply laplace_noise_contract; assumption|]. split; [exact K|].
  split; [apply laplace_released_contract; assumption|]. split; [exact Qu | apply laplace_vector_contract; assumption].
Qed.
Print Assumptions C83_promises_hold.
Theorem C83_what_is_drawn gn gv gs py e l1 : (0 < e)%Q -> (0 < l1)%Q ->
  (forall x, py_noise (with_laplace gn gv gs py) (Laplace e l1) x = rounded_laplace (gn (Laplace e l1)) (Q2R e / Q2R l1) (Q2R x)) /\
  (forall x, py_vector (with_laplace gn gv gs py) (Laplace e l1) x = rounded_laplace (gv (Laplace e l1)) (Q2R e / Q2R l1) x) /\
  forall l0 delta pre n, (0 < l0)%Z -> (0 < delta < 1)%Q ->
    let sel := Selector "laplace" e delta (Some l0) pre in
    let r := Q2R e / IZR l0 in
    py_noised (with_laplace gn gv gs py) sel n = released (gs sel) r (laplace_threshold r (partition_delta l0 (Q2R delta))) (reduced pre n).
Proof.
  intros He Hl.
  assert (He' : 0 < Q2R e) by (rewrite <- RMicromega.Q2R_0; apply Qlt_Rlt; assumption).
  assert (Hl' : 0 < Q2R l1) by (rewrite <- RMicromega.Q2R_0; apply Qlt_Rlt; assumption).
  assert (P := Rdiv_lt_0_compat _ _ He' Hl').
  split; [|split].
  - intro x. cbn [with_laplace py_noise laplace_noise]. destruct (Rlt_dec 0 _); [reflexivity | contradiction].
  - intro x. cbn [with_laplace py_vector laplace_noise]. destruct (Rlt_dec 0 _); [reflexivity | contradiction].
  - intros l0 delta pre n L0 [D0 D1] sel r. apply Qlt_Rlt in D0, D1. rewrite RMicromega.Q2R_0 in D0. rewrite RMicromega.Q2R_1 in D1.
    cbn [with_laplace py_noised]. unfold laplace_released. cbn [sel sel_l0 sel_name sel_eps sel_delta sel_pre].
    change (String.eqb "laplace" "laplace") with true. cbv iota zeta. fold r.
    assert (Pl : 0 < IZR l0) by (apply IZR_lt; exact L0). assert (Pr : 0 < r) by (apply Rdiv_lt_0_compat; assumption).
    assert (Pd := partition_delta_range l0 _ L0 (conj (Rlt_le _ _ D0) D1)). assert (PP := partition_delta_power l0 _ L0 (conj (Rlt_le _ _ D0) D1)).
    set (d := partition_delta l0 (Q2R delta)) in *.
    destruct (Rlt_dec 0 r); [|contradiction]. destruct (Rlt_dec 0 d) as [X|X].
    + destruct (Rlt_dec d 1) as [Y|Y]; [reflexivity|]. exfalso. replace d with 1 in PP by lra. replace (1 - 1) with 0 in PP by ring. rewrite pow_i in PP by lia. lra.
    + exfalso. replace d with 0 in PP by lra. rewrite Rminus_0_r, pow1 in PP. lra.
Qed.
Print Assumptions C83_what_is_drawn.

(** ** The hypotheses are met *)
Definition small_grid : grid := Grid [(- / 2, (-1)%Q); (/ 2, 0%Q); (3 / 2, 1%Q)] 2%Q.
Example small_grid_sorted : sorted_grid small_grid.
Proof. unfold sorted_grid, small_grid. cbn [g_cells map fst]. repeat constructor; lra. Qed.
(** It rounds to the nearest whole number. *)
Example small_grid_rounds : rounds_within (/ 2) (-1) 2 small_grid.
Proof.
  intros y L. unfold small_grid. cbn [g_cells g_top rounded].
  assert (Q2R (-1) = -1) by (unfold Q2R; cbn; lra). assert (Q2R 0 = 0) by (unfold Q2R; cbn; lra).
  assert (Q2R 1 = 1) by (unfold Q2R; cbn; lra). assert (Q2R 2 = 2) by (unfold Q2R; cbn; lra).
  destruct (Rlt_dec y (- / 2)); [|destruct (Rlt_dec y (/ 2)); [|destruct (Rlt_dec y (3 / 2))]]; apply Rabs_le; lra.
Qed.
Example small_grid_border : exists E, forall y, E (rounded (g_cells small_grid) (g_top small_grid) y) = true <-> y < / 2.
Proof.
  exists (fun v => Qle_bool v 0). intro y. unfold small_grid. cbn [g_cells g_top rounded].
  destruct (Rlt_dec y (- / 2)); [|destruct (Rlt_dec y (/ 2)); [|destruct (Rlt_dec y (3 / 2))]]; cbn; (split; [intro; try discriminate; lra | intro; try reflexivity; lra]).
Qed.
(** A PyDP with rounded Laplace noise. *)
Example some_promises_hold : pydp_keeps_promises (with_laplace (fun _ => small_grid) (fun _ => small_grid) (fun _ => small_grid) toy_pydp).
Proof. apply C83_promises_hold; try (intro; apply small_grid_sorted). exact toy_pydp_keeps_promises. Qed.
Example counts_of_two_partitions : sumR (map (fun p => Rabs (fst p - snd p)) (combine [5; 3; 8] [4; 3; 7])) <= 2.
Proof. cbn. replace (5 - 4) with 1 by lra. replace (3 - 3) with 0 by lra. replace (8 - 7) with 1 by lra. rewrite Rabs_R0, Rabs_R1. lra. Qed.
