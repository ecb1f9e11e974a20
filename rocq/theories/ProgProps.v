(** C63: programs that call the methods of DPEngine are differentially private with the
    budget of the accountant and the epsilons of the private contribution bounds. *)
From Coq Require Import String List ZArith QArith Qreals Qabs Reals Bool Permutation Lia Lqa Lra.
From Verif Require Import Base BaseLemmas BackendModel BackendSpec ListLemmas ParamsModel SensModel CombinerModel EngineModel EngineSpec EngineProps
  BudgetModel BudgetSpec BudgetProofs HistModel VectorModel ExpMechModel ExpMechProofs ExpMechProps LaplaceModel LaplaceSpec LaplaceProofs
  SelectModel SelectSpec SelectProps WrapperModel DistSpec DistProofs DpModel DpSpec
  DpProofs DpProofs2 DpProofs3 DpProofs4 DpProofs5 DpProps ProgSpec ProgProofs ProgProofs2.
Import ListNotations.
Local Open Scope R_scope.
Local Close Scope Q_scope.

(** A program makes any number of calls of aggregate, select_partitions, add_dp_noise and
    calculate_private_contribution_bounds on one accountant of total ([e], [d]).  Each
    call may use what earlier calls released, for example as its partitions or its
    bounds; only the requests have to be the same in all cases, since they are made
    before compute_budgets.  Any event has (e + x, d)-indistinguishable probabilities
    with and without the rows of privacy id [u], where [x] bounds the sum of
    calculation_eps. *)
Theorem C63_total_budget_of_programs {U P} `{EqDec U} `{EqDec P}
    (e d : Q) num ws s0 ops s2 es ds (g : program U P) rs x (u : U) (py : pydp) :
  new_accountant e d num ws = Ok s0 ->
  Forall op_pos ops ->
  granted ops (outs s0 ops) = rs -> rs <> [] ->
  step (run s0 ops) Compute = (s2, Ok OutUnit) ->
  read_eps s2 es -> read_delta s2 ds ->
  well_formed u g rs x ->
  pydp_keeps_promises py ->
  forall E, indistinguishable (Q2R e + Q2R x) (Q2R d)
    (prob (run_program py g (combine es ds)) E)
    (prob (run_program py (forget_program u g) (combine es ds)) E).
Proof.
  intros Hnew Hpos Hg Hne Hc Hes Hds W Hpy E.
  assert (One : Forall (fun r => req_count r = 1%Z) rs).
  { clear -W. induction W as [|o next rs x x' Vo Wn IH Lx]; [constructor|].
    apply Forall_app. split.
    - destruct o as [c N X T|s|a|b]; cbn [op_requests]; try (repeat constructor; fail).
      unfold call_requests. apply Forall_app. split.
      + apply Forall_flat_map. apply Forall_forall. intros cb _. apply Forall_forall. intros y Iy. apply repeat_spec in Iy. subst. reflexivity.
      + destruct (selects_privately _ _); repeat constructor.
    - assert (Ex : exists a, possible o a).
      { destruct o as [c N X T|s|a|b].
        - exists (Aggregated (Ok (repeat None (length (c_keys c)), []))). cbn. apply repeat_length.
        - exists (Selected (repeat true (length (s_keys s))) []). cbn. apply repeat_length.
        - exists (Noised (Ok (repeat (Some 0%Q) (length (a_keys a)), []))). cbn. split; [apply repeat_length|].
          apply Forall_forall. intros y Iy. apply repeat_spec in Iy. subst. discriminate.
        - exists (Bounded (Ok 1%Z)). cbn. destruct Vo as [Vo _]. apply ParamsProps.C38_private_bounds_check in Vo.
          destruct Vo as (_ & _ & _ & (z & Ez & Pz) & _). injection Ez as <-. lia. }
      destruct Ex as [a Pa]. apply (IH a Pa). }
  rewrite <- Hg in One, Hne.
  destruct (accountant_grants e d num ws s0 ops s2 es ds Hnew Hpos Hne One Hc Hes Hds) as [G [Te Td]]. rewrite Hg in G.
  destruct (program_both py u g rs x W Hpy (combine es ds) G) as [_ [_ B]]. rewrite Te in B.
  apply (both_weaken _ _ _ _ _ Td) in B. destruct B as [B1 B2]. split; apply below_prob; assumption.
Qed.
Print Assumptions C63_total_budget_of_programs.

(** The same with any usable budgets. *)
Theorem C63_composition_of_programs {U P} `{EqDec U} `{EqDec P} (g : program U P) rs x bs (u : U) (py : pydp) :
  well_formed u g rs x ->
  Forall2 granted_ok rs bs ->
  pydp_keeps_promises py ->
  forall E, indistinguishable (Q2R (sumQ (map fst bs)) + Q2R x) (Q2R (sumQ (map snd bs)))
    (prob (run_program py g bs) E) (prob (run_program py (forget_program u g) bs) E).
Proof.
  intros W G Hpy E. destruct (program_both py u g rs x W Hpy bs G) as [_ [_ [B1 B2]]]. split; apply below_prob; assumption.
Qed.
Print Assumptions C63_composition_of_programs.

(** What a program releases: with probability one, an answer of the right kind for every
    call that it makes. *)
Theorem C63_every_call_answers {U P} `{EqDec U} `{EqDec P} (g : program U P) rs x bs (u : U) (py : pydp) :
  well_formed u g rs x -> Forall2 granted_ok rs bs -> pydp_keeps_promises py ->
  is_dist (run_program py g bs) /\ forall w answers, In (w, answers) (run_program py g bs) -> follows g answers.
Proof.
  intros W G Hpy. split; [apply (program_both py u g rs x W Hpy bs G)|].
  revert bs G. induction W as [x Px|o next rs x x' Vo Wn IH Lx]; intros bs G w answers I.
  - destruct I as [I|[]]. injection I as _ <-. constructor.
  - destruct (forall2_firstn_skipn _ _ _ _ G) as [G1 G2]. cbn [run_program] in I. cbv zeta in I.
    apply in_flat_map in I. destruct I as [[w1 a] [I1 I]]. apply in_map_iff in I. destruct I as [[w2 l2] [E2 I]]. injection E2 as _ <-. cbn [snd] in *.
    apply in_flat_map in I. destruct I as [[w3 rest] [I3 I]]. apply in_map_iff in I. destruct I as [[w4 l4] [E4 I]]. injection E4 as _ <-. cbn [snd] in *.
    destruct I as [I|[]]. injection I as _ <-.
    assert (Pa : possible o a) by (apply (proj1 (proj2 (proj2 (op_both py u o _ Hpy Vo G1))) w1); exact I1).
    constructor; [exact Pa|]. apply (IH a Pa _ G2 w3). exact I3.
Qed.
Print Assumptions C63_every_call_answers.

(** calculate_private_contribution_bounds spends its epsilon besides the accountant: the
    total budget of the accountant does not bound the privacy loss of such programs. *)
Definition outside_params : bounds_params := mkBoundsParams LaplaceNoise 40 0 40 2.
Definition outside_rows : list (Z * Z * Q) := [((1, 10), 0%Q); ((1, 20), 0%Q); ((2, 10), 0%Q)]%Z.
Definition outside_program : program Z Z :=
  Then (ContributionBounds (Bounding outside_params (fun _ _ _ => 0) [10; 20]%Z false outside_rows)) (fun _ => Done).

Lemma outside_law (rows : list (Z * Z * Q)) h s0 : h_l0 (compute_dataset_histograms number_of_buckets (drop_partitions [10; 20]%Z rows)) = Ok h ->
  l0_impact_dropped outside_params 2 h 1 = s0 -> l0_impact_dropped outside_params 2 h 2 = 0%Z ->
  prob (run_program toy_pydp (Then (ContributionBounds (Bounding outside_params (fun _ _ _ => 0) [10; 20]%Z false rows)) (fun _ => Done)) [])
    (fun l => match l with [Bounded (Ok 1%Z)] => true | _ => false end) =
  / (1 + exp (10 * IZR s0 - sqrt 2 / 2)).
Proof.
  intros Eh E1 E2. cbn [run_program op_requests length firstn skipn run_op]. unfold run_bounding. cbn [p_sigma p_params p_partitions p_filtered p_rows].
  unfold calculate_private_contribution_bounds. cbn [negb]. rewrite Eh. cbn [rbind].
  change (rev (size_col (distinct [10%Z; 20%Z]))) with [2%Z]. cbn beta iota. unfold calculate_l0.
  change (possible_bounds (best_upper_bound outside_params 2)) with [1; 2]%Z.
  unfold exponential_mechanism. destruct (Req_EM_T _ 0) as [X|X]; [exfalso; cbn in X; unfold best_upper_bound in X; cbn in X; lra|]. clear X.
  unfold calculate_probabilities. cbn [map l0_scoring score global_sensitivity is_monotonic negb].
  unfold l0_impact_noise, count_noise_std. cbn [aggregation_noise_kind outside_params]. rewrite E1, E2.
  change (best_upper_bound outside_params 2) with 2%Z.
  cbn [aggregation_eps calculation_eps outside_params]. 
  replace (Q2R 40) with 40 by (unfold Q2R; cbn; lra).
  set (w1 := exp _). set (w2 := exp (- (1 / 2 * (2 * (IZR (2 * 1) / 40 * sqrt 2)) + _) * 40 / 2)).
  unfold prob. rewrite mixture_bind. cbn [combine map fst snd]. rewrite !mixture_cons, mixture_nil, !mixture_bind, !mixture_ret. cbn [indicator].
  assert (P1 : 0 < w1) by apply exp_pos. assert (P2 : 0 < w2) by apply exp_pos.
  assert (R : w2 = w1 * exp (10 * IZR s0 - sqrt 2 / 2)).
  { unfold w1, w2. rewrite <- exp_plus. f_equal. change (IZR (1 * 1)) with 1. change (IZR (2 * 1)) with 2. field. }
  rewrite !sumR_cons. change (sumR []) with 0. rewrite R. pose proof (exp_pos (10 * IZR s0 - sqrt 2 / 2)). field. split; [lra|].
  assert (0 < w1 * exp (10 * IZR s0 - sqrt 2 / 2)) by (apply Rmult_lt_0_compat; lra). lra.
Qed.

Theorem C63_contribution_bounds_outside_of_the_budget_refuted :
  exists (e d : Q) s0 s2 (g : program Z Z) (u : Z) (py : pydp) (E : list (answer Z) -> bool),
    new_accountant e d None None = Ok s0 /\ well_formed u g [] 40 /\ pydp_keeps_promises py /\
    step s0 Compute = (s2, Ok OutUnit) /\
    ~ indistinguishable (Q2R e) (Q2R d) (prob (run_program py g []) E) (prob (run_program py (forget_program u g) []) E).
Proof.
  exists 1%Q, (1 # 100)%Q. eexists. eexists. exists outside_program, 1%Z, toy_pydp, (fun l => match l with [Bounded (Ok 1%Z)] => true | _ => false end).
  split; [reflexivity|]. split.
  { apply (well_formed_then 1%Z (ContributionBounds _) _ [] 0 40%Q).
    - split; [vm_compute; reflexivity | discriminate].
    - intros a _. constructor. apply Qle_refl.
    - cbn. unfold Qle; cbn; lia. }
  split; [exact toy_pydp_keeps_promises|]. split; [vm_compute; reflexivity|].
  assert (A : exists h, h_l0 (compute_dataset_histograms number_of_buckets (drop_partitions [10; 20]%Z outside_rows)) = Ok h /\
     l0_impact_dropped outside_params 2 h 1 = 1%Z /\ l0_impact_dropped outside_params 2 h 2 = 0%Z).
  { eexists. split; [vm_compute; reflexivity|]. split; vm_compute; reflexivity. }
  assert (B : exists h, h_l0 (compute_dataset_histograms number_of_buckets (drop_partitions [10; 20]%Z (without 1%Z outside_rows))) = Ok h /\
     l0_impact_dropped outside_params 2 h 1 = 0%Z /\ l0_impact_dropped outside_params 2 h 2 = 0%Z).
  { eexists. split; [vm_compute; reflexivity|]. split; vm_compute; reflexivity. }
  destruct A as [h [A1 [A2 A3]]]. destruct B as [h' [B1 [B2 B3]]].
  unfold outside_program. cbn [forget_program forget_op p_params p_sigma p_partitions p_filtered p_rows].
  rewrite (outside_law outside_rows h 1 A1 A2 A3), (outside_law (without 1%Z outside_rows) h' 0 B1 B2 B3).
  rewrite Rmult_0_r, Rmult_1_r. intros [_ I]. 
  assert (S2 : 0 <= sqrt 2) by apply sqrt_pos.
  assert (S3 : sqrt 2 <= 2).
  { apply Rsqr_incr_0; try lra. rewrite Rsqr_sqrt by lra. unfold Rsqr. lra. }
  assert (L1 : / 2 <= / (1 + exp (0 - sqrt 2 / 2))).
  { apply Rinv_le_contravar; [pose proof (exp_pos (0 - sqrt 2 / 2)); lra|].
    assert (exp (0 - sqrt 2 / 2) <= exp 0) by (apply exp_le; lra). rewrite exp_0 in *. lra. }
  assert (L2 : / (1 + exp (10 - sqrt 2 / 2)) <= / 10).
  { apply Rinv_le_contravar; [lra|]. assert (1 + (10 - sqrt 2 / 2) <= exp (10 - sqrt 2 / 2)) by (apply exp_ineq1_le). lra. }
  assert (L3 : exp (Q2R 1) <= 3).
  { replace (Q2R 1) with 1 by (unfold Q2R; cbn; lra). apply exp_le_3. }
  replace (Q2R (1 # 100)) with (/ 100) in I by (unfold Q2R; cbn; lra).
  assert (P2 : 0 <= / (1 + exp (10 - sqrt 2 / 2))) by (left; apply Rinv_0_lt_compat; pose proof (exp_pos (10 - sqrt 2 / 2)); lra).
  assert (exp (Q2R 1) * / (1 + exp (10 - sqrt 2 / 2)) <= 3 * / 10).
  { apply Rmult_le_compat; try assumption. left. apply exp_pos. }
  lra.
Qed.
Print Assumptions C63_contribution_bounds_outside_of_the_budget_refuted.

(** ** The hypotheses are met *)

(** Partitions are selected, a bound is computed on them, the partitions and the bound
    are used in an aggregation with quantiles, and noise is added to numbers of rows. *)
Definition demo_chosen (a : answer Z) : list Z :=
  match a with
  | Selected bs [] => 10%Z :: map fst (filter (fun kb => snd kb) (combine [10; 20; 30]%Z bs))
  | _ => [10%Z]
  end.
Definition demo_bound (a : answer Z) : Z := match a with Bounded (Ok z) => z | _ => 1%Z end.
Definition adaptive_params (l0 : Z) : params :=
  Params [COUNT; PERCENTILE 50] GaussianNoise (Some l0) (Some 2%Z) None 1 (Some (-3)%Q) (Some 5%Q) None None false None None None
         false false TruncatedGeometric None false true.
Definition adaptive_call (ks : list Z) (l0 : Z) : call Z Z :=
  Call (adaptive_params l0) [CCount; CQuantile [50%Q]] (first_sampling (Z.to_nat l0) 2) (Some ks) (distinct ks) demo_rows.
Definition demo_selection : selection Z Z :=
  Selection 2 LaplaceThresholding (Some 2%Z) (fun _ m => seq 0 2) [10; 20; 30]%Z (map fst demo_rows).
Definition demo_bounding (ks : list Z) : bounding Z Z :=
  Bounding (mkBoundsParams GaussianNoise 1 (1 # 1000) (1 # 2) 2) (fun _ _ _ => 1) ks false (map (fun r => (fst r, 0%Q)) demo_rows).
Definition demo_addition (ks : list Z) : addition Z Z :=
  Addition LaplaceNoise 3 3 1 (distinct ks)
    (fun rows => map (fun k => (k, inject_Z (Z.of_nat (length (filter (fun r => eqb (snd (fst r)) k) rows))))) (distinct ks)) demo_rows.
Definition demo_program (N : nat) (X : list Q) (T : list (list Q * list Q)) : program Z Z :=
  Then (SelectPartitions demo_selection) (fun a =>
  Then (ContributionBounds (demo_bounding (demo_chosen a))) (fun b =>
  Then (Aggregate (adaptive_call (demo_chosen a) (demo_bound b)) N X T) (fun _ =>
  Then (AddNoise (demo_addition (demo_chosen a))) (fun _ => Done)))).

Lemma demo_chosen_cases a : possible (SelectPartitions demo_selection) a ->
  In (demo_chosen a) [[10]; [10; 10]; [10; 20]; [10; 30]; [10; 10; 20]; [10; 10; 30]; [10; 20; 30]; [10; 10; 20; 30]]%Z.
Proof.
  destruct a as [o|bs [|k ks]|o|o]; cbn [possible]; try tauto. cbn [demo_selection s_keys length]. intro L.
  destruct bs as [|b1 [|b2 [|b3 [|]]]]; try discriminate. destruct b1, b2, b3; cbn; tauto.
Qed.

Lemma adaptive_valid ks l0 col : post_init (raw_of (adaptive_params l0)) = Ok (adaptive_params l0) ->
  create_compound_combiner (adaptive_params l0) = Ok [CCount; CQuantile [50%Q]] ->
  raw_accumulators (adaptive_params l0) [CCount; CQuantile [50%Q]] (first_sampling (Z.to_nat l0) 2) (Some ks) demo_rows = Ok col ->
  valid_call (adaptive_call ks l0).
Proof.
  intros A B E. unfold valid_call. cbv zeta. cbn [c_params adaptive_call c_public c_combiners c_sampling c_rows c_keys].
  split.
  { split; [reflexivity|]. split; [cbn; intuition discriminate|]. split; [reflexivity|]. split; [|split; [|reflexivity]].
    - intros X. cbn in X. intuition discriminate.
    - intros x _. exists (-3)%Q, 5%Q. repeat split. }
  split.
  - split; [intro k; apply in_distinct | discriminate].
  - split; [cbn; intuition discriminate|].
    exists col. left. split; [exists (raw_of (adaptive_params l0)); exact A|]. split; [exact B|]. split; [reflexivity|].
    split. { unfold valid_sampling. cbn -[Z.to_nat]. split; intros x Ex; inversion Ex; subst; apply first_n_valid. }
    split; [discriminate|]. split; [|exact E]. apply NoDup_distinct.
Qed.

Definition demo_program_requests : list (mech_type * Q * Z) :=
  [(GENERIC, 1%Q, 1%Z); (GAUSSIAN, 1%Q, 1%Z); (GAUSSIAN, 1%Q, 1%Z); (LAPLACE, 1%Q, 1%Z)].
Definition demo_program_ops : list op := map (fun r => Request (req_type r) (req_weight r) (req_count r) None) demo_program_requests.

Example C63_hypotheses_met :
  exists s0 s2 es ds N X T,
    new_accountant 1 (1 # 10) None None = Ok s0 /\ Forall op_pos demo_program_ops /\
    granted demo_program_ops (outs s0 demo_program_ops) = demo_program_requests /\
    step (run s0 demo_program_ops) Compute = (s2, Ok OutUnit) /\
    read_eps s2 es /\ read_delta s2 ds /\ well_formed 1%Z (demo_program N X T) demo_program_requests (1 # 2) /\
    pydp_keeps_promises toy_pydp /\ Forall2 granted_ok demo_program_requests (repeat (1, 1 # 100)%Q 4).
Proof.
  pose (s0 := Acct 1 (1 # 10) None None [] [] [] false).
  pose (s2 := fst (step (run s0 demo_program_ops) Compute)).
  pose (es := map (fun m => match get_eps m with Ok x => x | Err _ => 0%Q end) (mechs s2)).
  pose (ds := map (fun m => match get_delta m with Ok x => x | Err _ => 0%Q end) (mechs s2)).
  pose (sets := [[10]; [10; 10]; [10; 20]; [10; 30]; [10; 10; 20]; [10; 10; 30]; [10; 20; 30]; [10; 10; 20; 30]]%Z).
  destruct (C61_large_enough_exists (flat_map (fun ks => [adaptive_call ks 1; adaptive_call ks 2]) sets) 1%Z) as [N [X [T L]]].
  exists s0, s2, es, ds, N, X, T.
  split; [reflexivity|]. split; [repeat constructor; vm_compute; reflexivity|].
  split; [vm_compute; reflexivity|]. split; [vm_compute; reflexivity|].
  split; [vm_compute; repeat constructor|]. split; [vm_compute; repeat constructor|].
  split; [|split; [exact toy_pydp_keeps_promises|]].
  2: { assert (G : forall l, Forall2 granted_ok l (repeat (1, 1 # 100)%Q (length l))).
       { induction l as [|r l IH]; [constructor|]. cbn [length repeat]. constructor; [|exact IH].
         split; [reflexivity|]. split; [split; [discriminate | reflexivity] | intros _; reflexivity]. }
       apply (G demo_program_requests). }
  unfold demo_program. change demo_program_requests with
    ([(GENERIC, 1%Q, 1%Z)] ++ [] ++ [(GAUSSIAN, 1%Q, 1%Z); (GAUSSIAN, 1%Q, 1%Z)] ++ [(LAPLACE, 1%Q, 1%Z)] ++ [])%list.
  apply (well_formed_then 1%Z (SelectPartitions demo_selection) _ _ (1 # 2)); [| |cbn; unfold Qle; cbn; lia].
  { split; [vm_compute; reflexivity|]. split; [apply first_n_valid|]. split; [repeat constructor; cbn; intuition discriminate|].
    intros k I. cbn in I |- *. tauto. }
  intros a Pa. apply demo_chosen_cases in Pa. fold sets in Pa. set (ks := demo_chosen a) in *. clearbody ks.
  apply (well_formed_then 1%Z (ContributionBounds (demo_bounding ks)) _ _ 0); [| |cbn; unfold Qle; cbn; lia].
  { split; [vm_compute; reflexivity|]. cbn in Pa |- *. intro E0. rewrite E0 in Pa. cbn in Pa. intuition discriminate. }
  intros b Pb.
  assert (Lb : demo_bound b = 1%Z \/ demo_bound b = 2%Z).
  { destruct b as [o|? ?|o|[z|ex]]; cbn in Pb; try contradiction. cbn [demo_bound]. lia. }
  assert (Ic : In (adaptive_call ks (demo_bound b)) (flat_map (fun ks => [adaptive_call ks 1; adaptive_call ks 2]) sets)).
  { apply in_flat_map. exists ks. split; [exact Pa|]. destruct Lb as [-> | ->]; cbn [In]; auto. }
  apply (well_formed_then 1%Z (Aggregate (adaptive_call ks (demo_bound b)) N X T) _ _ 0); [| |cbn; unfold Qle; cbn; lia].
  { split; [|rewrite Forall_forall in L; apply L; exact Ic]. clear -Pa Lb.
    assert (V : Forall valid_call (flat_map (fun ks => [adaptive_call ks 1; adaptive_call ks 2]) sets)).
    { cbn [flat_map app sets]. repeat (apply Forall_cons; [eapply adaptive_valid; vm_compute; reflexivity|]). apply Forall_nil. }
    rewrite Forall_forall in V. apply V. apply in_flat_map. exists ks. split; [exact Pa|]. destruct Lb as [-> | ->]; cbn [In]; auto. }
  intros c _.
  apply (well_formed_then 1%Z (AddNoise (demo_addition ks)) _ _ 0); [| |cbn; unfold Qle; cbn; lia].
  { clear -Pa. cbn [valid_op].
    assert (K : forall ks', In ks' sets -> valid_addition 1%Z (demo_addition ks')).
    { intros ks' I. unfold valid_addition. cbv zeta. cbn [a_l0 a_linf a_weight a_keys a_values a_rows demo_addition].
      split; [vm_compute; reflexivity|]. split; [apply NoDup_distinct|]. rewrite !map_map. cbn [fst]. rewrite !map_id.
      split; [apply Permutation_refl|]. split; [apply Permutation_refl|].
      cbn [sets In] in I. split.
      - intros k Ik. repeat destruct I as [I|I]; try contradiction; subst ks'; cbn in Ik;
          repeat destruct Ik as [Ik|Ik]; try contradiction; subst k; vm_compute; discriminate.
      - repeat destruct I as [I|I]; try contradiction; subst ks'; vm_compute; discriminate. }
    apply K. exact Pa. }
  intros y _. constructor. apply Qle_refl.
Qed.
