(** C40: aggregations over public partitions with Laplace noise are differentially
    private with the epsilon of the accountant. *)
From Coq Require Import List ZArith QArith Qreals Reals Lia Lqa Lra.
From Verif Require Import Base BaseLemmas BackendModel ListLemmas ParamsModel SensModel CombinerModel EngineModel EngineSpec
  EngineProps EngineProofs4 BudgetModel BudgetSpec BudgetProofs VectorModel ExpMechProofs LaplaceModel LaplaceSpec LaplaceProofs.
Import ListNotations.
Local Open Scope R_scope.

(** Any number of aggregations of COUNT, SUM, MEAN and PRIVACY_ID_COUNT over public
    partitions, all with budgets from one accountant of total epsilon [e]: for every
    outcome [y], the density of [y] changes by at most a factor exp(e) when all the
    rows of a privacy id [u] are removed, in both directions.  The densities are
    positive, so every mechanism was indeed created.  [ops] is any history of the
    accountant in which the requests granted are those of the aggregations. *)
Theorem C40_total_epsilon_differential_privacy {U P} `{EqDec U} `{EqDec P}
    (e d : Q) num ws s0 ops s2 es (qs : list (query U P)) (u : U) (y : nat -> nat -> quantity -> P -> R) :
  new_accountant e d num ws = Ok s0 ->
  Forall op_pos ops ->
  granted ops (outs s0 ops) = flat_map budget_requests qs ->
  granted ops (outs s0 ops) <> [] ->
  step (run s0 ops) Compute = (s2, Ok OutUnit) ->
  read_eps s2 es ->
  Forall laplace_query qs ->
  0 < release_density qs es y /\
  close (Q2R e) (release_density qs es y) (release_density (map (remove_id u) qs) es y).
Proof.
  intros Hnew Hpos Hg Hne Hc Hes Hq.
  destruct (c01_lemma e d num ws s0 ops s2 Hnew Hpos Hc Hne) as [es' [Hes' [L [W F]]]].
  rewrite (read_eps_fun _ _ _ Hes Hes') in *. clear es Hes.
  rewrite Hg in L, W.
  assert (Ls : length es' = length (all_quantities qs)) by (rewrite all_quantities_length by exact Hq; exact L).
  rewrite weighted_sum_ones in W.
  - destruct (release_close qs u es' y Hq Ls) as [A [_ C]].
    { eapply Forall_impl; [|exact F]. intros a [Pa _]. exact Pa. }
    apply Qeq_eqR in W. rewrite W in C. auto.
  - apply Forall_map. apply requests_counts.
  - rewrite map_length. exact L.
Qed.

(** The same with any epsilons [es], one per mechanism: they add up. *)
Theorem C40_sequential_composition {U P} `{EqDec U} `{EqDec P}
    (qs : list (query U P)) (u : U) (es : list Q) (y : nat -> nat -> quantity -> P -> R) :
  Forall laplace_query qs ->
  length es = length (flat_map budget_requests qs) ->
  Forall (fun x => (0 < x)%Q) es ->
  0 < release_density qs es y /\
  close (Q2R (sumQ es)) (release_density qs es y) (release_density (map (remove_id u) qs) es y).
Proof.
  intros Hq L F. rewrite <- all_quantities_length in L by exact Hq.
  destruct (release_close qs u es y Hq L F) as [A [_ C]]. auto.
Qed.

(** One COUNT: the density of the vector [y] of noisy counts is the product over the
    public partitions of Laplace densities around the exact counts, of scale
    L1 sensitivity / eps, and is within exp(eps) of the one without [u]. *)
Theorem C40_count {U P} `{EqDec U} `{EqDec P} (q : query U P) (u : U) (eps : Q) (y : P -> R) :
  laplace_query q -> q_combiners q = [CCount] -> (0 < eps)%Q ->
  exists l1,
    (match max_contributions (q_params q), max_partitions_contributed (q_params q),
           max_contributions_per_partition (q_params q) with
     | Some m, _, _ => l1 = inject_Z m
     | None, Some l0, Some linf => l1 = inject_Z l0 * inject_Z linf
     | _, _, _ => False
     end)%Q /\
    let density := fun q => prodR (map (fun k => laplace_density (Q2R l1 / Q2R eps) (exact q 0 QCount k) (y k)) (q_keys q)) in
    close (Q2R eps) (density q) (density (remove_id u q)).
Proof.
  intros Hq Ec He.
  assert (Hq' := Hq). destruct Hq' as [Hn [_ [_ [col Rn]]]].
  assert (Hi : nth_error (q_combiners q) 0 = Some CCount) by (rewrite Ec; reflexivity).
  destruct Rn as [Ha [Hcs _]]. assert (Hk := EngineProofs3.nth_constructed _ _ _ _ Hcs Hi).
  assert (Hf := EngineProofs3.accepted_facts _ Ha). cbn [EngineProofs3.constructed] in Hk.
  unfold new_count in Hk. destruct (sens_count (q_params q)) as [s|] eqn:Es; [|discriminate]. clear Hk.
  destruct (entry_close q u 0 QCount (Ok s) eps y Hq) as [A [_ C]].
  { rewrite Ec. cbn. left. rewrite Es. reflexivity. } { exact He. }
  assert (L : exists l1, s_l1 s = Some l1 /\
    (match max_contributions (q_params q), max_partitions_contributed (q_params q),
           max_contributions_per_partition (q_params q) with
     | Some m, _, _ => l1 = inject_Z m
     | None, Some l0, Some linf => l1 = inject_Z l0 * inject_Z linf
     | _, _, _ => False
     end)%Q).
  { unfold sens_count in Es. destruct (max_contributions (q_params q)) as [m|].
    - unfold mk_sens, raise_if in Es. cbn [nonpos] in Es.
      destruct (Qle_bool (inject_Z m) 0); [discriminate|]. destruct (Qle_bool (inject_Z m * inject_Z m) 0); [discriminate|].
      inversion Es. exists (inject_Z m). split; reflexivity.
    - destruct Hf as [_ [_ [_ [l0 [linf [E0 [Ei _]]]]]]]. rewrite E0, Ei in *. cbn [injZ option_map] in Es.
      destruct (EngineProofs2.mk_sens_l0linf _ _ _ Es (or_introl eq_refl)) as [z [v [Ez [Ev [_ [_ ->]]]]]].
      inversion Ez; inversion Ev; subst. exists (inject_Z z * inject_Z linf)%Q. split; reflexivity. }
  destruct L as [l1 [El Hl]]. exists l1. split; [exact Hl|]. cbv zeta.
  unfold quantity_density, granted_spec, create_additive_mechanism in C. cbn [rbind ms_kind ms_std ms_eps] in C.
  rewrite Hn, El in C. unfold noise_density in C. cbn [pydp_laplace] in C. exact C.
Qed.

(** Contribution bounding chooses at random: [dist] is any finite distribution of the
    random choices of all the calls.  The density of the outcome, averaged over the
    choices, changes by at most the same factor. *)
Lemma resample_remove {U P} `{EqDec U} (u : U) (qs : list (query U P)) sms :
  resample (map (remove_id u) qs) sms = map (remove_id u) (resample qs sms).
Proof.
  unfold resample. revert sms. induction qs as [|q qs IH]; intros [|sm sms]; try reflexivity. cbn. f_equal. apply IH.
Qed.
Lemma resample_requests {U P} (qs : list (query U P)) sms : length sms = length qs ->
  flat_map budget_requests (resample qs sms) = flat_map budget_requests qs.
Proof.
  unfold resample. revert sms. induction qs as [|q qs IH]; intros [|sm sms] L; try discriminate; [reflexivity|].
  cbn [combine map flat_map]. rewrite IH by (cbn in L; lia). reflexivity.
Qed.
Theorem C40_random_contribution_bounding {U P} `{EqDec U} `{EqDec P}
    (qs : list (query U P)) (u : U) (dist : list (R * list (sampling U P))) (es : list Q)
    (y : nat -> nat -> quantity -> P -> R) :
  Forall (fun wa => 0 <= fst wa /\ length (snd wa) = length qs /\ Forall laplace_query (resample qs (snd wa))) dist ->
  length es = length (flat_map budget_requests qs) ->
  Forall (fun x => (0 < x)%Q) es ->
  close (Q2R (sumQ es))
    (mixture dist (fun sms => release_density (resample qs sms) es y))
    (mixture dist (fun sms => release_density (resample (map (remove_id u) qs) sms) es y)).
Proof.
  intros F L Pe.
  assert (C : forall wa, In wa dist -> close (Q2R (sumQ es))
            (fst wa * release_density (resample qs (snd wa)) es y)
            (fst wa * release_density (resample (map (remove_id u) qs) (snd wa)) es y)).
  { intros wa I. rewrite Forall_forall in F. destruct (F wa I) as [W [Lw Hq]].
    destruct (C40_sequential_composition (resample qs (snd wa)) u es y Hq) as [_ [C1 C2]].
    { rewrite resample_requests; assumption. } { exact Pe. }
    rewrite <- resample_remove in C1, C2. split.
    - rewrite <- Rmult_assoc, (Rmult_comm (exp _)), Rmult_assoc. apply Rmult_le_compat_l; assumption.
    - rewrite <- Rmult_assoc, (Rmult_comm (exp _)), Rmult_assoc. apply Rmult_le_compat_l; assumption. }
  unfold close, mixture. split; rewrite <- sumR_scale; apply sumR_le; intros wa I; apply (C wa I).
Qed.

(** The noise made from a standard deviation (budgets of the PLD accountant) has that
    standard deviation: Laplace(b) has standard deviation b sqrt 2. *)
Theorem C40_laplace_of_std (sd l1 : Q) : (0 < sd)%Q -> (0 < l1)%Q ->
  exists eps s, pydp_laplace (LaplaceStd sd l1) = Some (eps, s) /\ 0 < eps /\ (s / eps) * sqrt 2 = Q2R l1 * Q2R sd.
Proof.
  intros A B. apply Q2R_pos in A. apply Q2R_pos in B. assert (S : 0 < sqrt 2) by (apply sqrt_lt_R0; lra).
  eexists; eexists. split; [reflexivity|]. split.
  - apply Rdiv_lt_0_compat; [lra|]. apply Rdiv_lt_0_compat; lra.
  - field. lra.
Qed.

(** Two aggregations with five mechanisms on one accountant. *)
Definition demo_query (ms : list metric) (cs : list combiner) (mc : option Z) : query Z Z :=
  Query (demo_params ms mc) cs (first_sampling 2 2) [10; 20; 30; 40]%Z demo_rows.
Definition demo_queries : list (query Z Z) :=
  [demo_query [COUNT; SUM; PRIVACY_ID_COUNT] [CCount; CSum false (-3) 5; CPidCount] None;
   demo_query [MEAN] [CMean (-3) 5 [NMean]] (Some 2%Z)].
Definition demo_ops : list op :=
  flat_map (fun q => agg_ops (1%Q, map (fun r => IMech (req_type r) (req_weight r)) (budget_requests q))) demo_queries.

Lemma demo_laplace ms cs mc col :
  Forall simple_metric ms ->
  post_init (raw_of (demo_params ms mc)) = Ok (demo_params ms mc) ->
  create_compound_combiner (demo_params ms mc) = Ok cs ->
  match mc with Some m => m = 2%Z | None => True end ->
  raw_accumulators (demo_params ms mc) cs (first_sampling 2 2) (Some [10; 20; 30; 40]%Z) demo_rows = Ok col ->
  laplace_query (demo_query ms cs mc).
Proof.
  intros S A B M E. split; [reflexivity|]. split; [exact S|]. split; [reflexivity|].
  exists col. apply (demo_run ms mc cs col); assumption.
Qed.

Example C40_hypotheses_met :
  exists s0 s2 es,
    new_accountant 1 0 None None = Ok s0 /\ Forall op_pos demo_ops /\
    granted demo_ops (outs s0 demo_ops) = flat_map budget_requests demo_queries /\
    granted demo_ops (outs s0 demo_ops) <> [] /\
    step (run s0 demo_ops) Compute = (s2, Ok OutUnit) /\
    read_eps s2 es /\ Forall laplace_query demo_queries /\
    length es = 5%nat.
Proof.
  pose (s0 := Acct 1 0 None None [] [] [] false).
  exists s0, (fst (step (run s0 demo_ops) Compute)).
  exists (map (fun m => match get_eps m with Ok x => x | Err _ => 0%Q end) (mechs (fst (step (run s0 demo_ops) Compute)))).
  split; [reflexivity|]. split; [repeat constructor; vm_compute; reflexivity|].
  split; [vm_compute; reflexivity|]. split; [vm_compute; discriminate|]. split; [vm_compute; reflexivity|].
  split; [vm_compute; repeat constructor|]. split; [|vm_compute; reflexivity].
  repeat constructor; eapply demo_laplace; try (vm_compute; reflexivity); try reflexivity; repeat constructor.
Qed.
Example C40_count_hypotheses_met : exists q : query Z Z, laplace_query q /\ q_combiners q = [CCount].
Proof.
  exists (demo_query [COUNT] [CCount] None). split; [|reflexivity].
  eapply demo_laplace; try (vm_compute; reflexivity); repeat constructor.
Qed.
(** Removing privacy id 1 does change the exact counts, so the bound is not trivial. *)
Example C40_neighbours_differ :
  exists q : query Z Z, laplace_query q /\ exact q 0 QCount 10%Z = 2 /\ exact (remove_id 1%Z q) 0 QCount 10%Z = 0.
Proof.
  exists (demo_query [COUNT] [CCount] None). split.
  { eapply demo_laplace; try (vm_compute; reflexivity); repeat constructor. }
  split; unfold exact.
  - replace (raw_accumulators _ _ _ _ _) with (Ok [(10, (2, [AInt 2])); (20, (3, [AInt 2])); (30, (2, [AInt 2])); (40, (1, [AInt 0]))]%Z : result (list (Z * cacc)))
      by (vm_compute; reflexivity).
    replace (raw_value _ _ _ _) with (2 # 1)%Q by (vm_compute; reflexivity). unfold Q2R; cbn; lra.
  - replace (raw_accumulators _ _ _ _ _) with (Ok [(20, (2, [AInt 1])); (30, (2, [AInt 2])); (10, (1, [AInt 0])); (40, (1, [AInt 0]))]%Z : result (list (Z * cacc)))
      by (vm_compute; reflexivity).
    replace (raw_value _ _ _ _) with (0 # 1)%Q by (vm_compute; reflexivity). unfold Q2R; cbn; lra.
Qed.

Print Assumptions C40_total_epsilon_differential_privacy.
Print Assumptions C40_sequential_composition.
Print Assumptions C40_count.
Print Assumptions C40_random_contribution_bounding.
Print Assumptions C40_laplace_of_std.
