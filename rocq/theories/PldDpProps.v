(** Property C71: aggregations with a PLDBudgetAccountant are differentially private with
    the total budget. *)
From Coq Require Import String List ZArith QArith Qabs Qreals Reals Lqa Lra Bool Lia.
From Verif Require Import Base BaseLemmas BackendModel ListLemmas BackendSpec BackendProofs ParamsModel SensModel CombinerModel CombinerProofs3 EngineModel EngineSpec
  EngineProofs EngineProofs2 EngineProofs3 EngineProofs4 EngineProofs5 EngineProps EngineProps2 BudgetModel VectorModel ExpMechProofs BudgetSpec BudgetProofs LaplaceModel LaplaceSpec LaplaceProofs
  SelectModel SelectSpec SelectProofs SelectProofs2 SelectProofs3 SelectProps WrapperModel EnforcedSpec EnforcedProofs EnforcedProofs2 EnforcedProps QuantileModel QuantileProps DistSpec DistProofs DpModel DpSpec DpProofs DpProofs2 DpProofs3 DpProofs4 DpProofs5 DpProps
  PldModel PldProofs PldProps PldDpModel PldDpSpec PldDpProofs PldDpProofs2 PldDpProofs3 PldDpProofs4.
Import ListNotations.
Local Open Scope R_scope.
Local Close Scope Q_scope.

(** [ops] is any use of the accountant whose granted requests are those of [calls], in
    order; the calls are accepted by DPEngine with this accountant and do not use
    thresholding.  [run_pld_calls] is the distribution of everything released with the
    noise levels that compute_budgets finds.  Any event has (e, d)-indistinguishable
    probabilities with and without the rows of privacy id [u]. *)
Theorem C71_total_budget_differential_privacy {U P} `{EqDec U} `{EqDec P}
    (e d : Q) num ws s0 ops fuel infinity lib (calls : list (call U P)) ms (u : U) (rp : real_pydp) N X :
  new_accountant e d num ws = Ok s0 ->
  Forall op_pos ops ->
  BudgetSpec.granted ops (outs s0 ops) = flat_map call_requests calls ->
  pld_compute fuel lib (run s0 ops) = Some (Ok ms) ->
  Forall (fun c => valid_call c /\ engine_accepts c /\ post_aggregation_thresholding (c_params c) = false) calls ->
  keeps_promises infinity lib rp -> Q2R e < infinity ->
  Forall (fun c => large_enough N X [] c /\ large_enough N X [] (forget u c)) calls ->
  forall E, indistinguishable (Q2R e) (Q2R d)
    (prob (run_pld_calls rp N X (combine calls (divide_specs calls ms))) E)
    (prob (run_pld_calls rp N X (combine (map (forget u) calls) (divide_specs (map (forget u) calls) ms))) E).
Proof.
  intros Hn Hp Hg Hc V K Fin Le.
  assert (V' : Forall valid_pld_call calls).
  { eapply Forall_impl; [|exact V]. intros c [A [B C]]. apply accepted_valid; assumption. }
  apply (run_budget rp infinity fuel lib e d num ws s0 ops u N X calls ms K Fin Hn Hp Hg); try assumption.
  right. apply (accepted_weights calls); [exact V' | |].
  - eapply Forall_impl; [|exact V]. intros c [_ [B _]]. exact B.
  - destruct (granted_counts _ _ _ _ _ ops Hn) as [_ Ty]. rewrite Hg in Ty. exact Ty.
Qed.
Print Assumptions C71_total_budget_differential_privacy.

(** The bounds [N] and [X] of the possible values do not matter, and there are some. *)
Theorem C71_large_enough_exists {U P} `{EqDec U} `{EqDec P} (calls : list (call U P)) (u : U) :
  Forall (fun c => valid_call c /\ engine_accepts c /\ post_aggregation_thresholding (c_params c) = false) calls ->
  exists N X, Forall (fun c => large_enough N X [] c /\ large_enough N X [] (forget u c)) calls.
Proof.
  intro V. destruct (C61_large_enough_exists calls u) as [N [X [T L]]]. exists N, X.
  apply Forall_forall. intros c I. rewrite Forall_forall in V, L. destruct (V c I) as [A [B C]]. destruct (L c I) as [L1 L2].
  assert (Vp := accepted_valid c A B C). split; apply (no_trees_needed N X T); try assumption; [apply valid_four | apply (valid_four c)]; assumption.
Qed.
Print Assumptions C71_large_enough_exists.

Theorem C71_bounds_do_not_matter {U P} `{EqDec U} `{EqDec P}
    (e d : Q) num ws s0 ops fuel lib (calls : list (call U P)) ms (rp : real_pydp) N X N' X' :
  new_accountant e d num ws = Ok s0 ->
  Forall op_pos ops ->
  BudgetSpec.granted ops (outs s0 ops) = flat_map call_requests calls ->
  pld_compute fuel lib (run s0 ops) = Some (Ok ms) ->
  Forall (fun c => valid_call c /\ engine_accepts c /\ post_aggregation_thresholding (c_params c) = false) calls ->
  distributions rp -> keep_private rp ->
  Forall (fun c => large_enough N X [] c /\ large_enough N' X' [] c) calls ->
  forall E, prob (run_pld_calls rp N X (combine calls (divide_specs calls ms))) E =
            prob (run_pld_calls rp N' X' (combine calls (divide_specs calls ms))) E.
Proof.
  intros Hn Hp Hg Hc V D Hk Le E. apply (bounds_free rp fuel lib e d num ws s0 ops calls ms N X N' X' D Hk Hn Hp Hg); try assumption.
  eapply Forall_impl; [|exact V]. intros c [A [B C]]. apply accepted_valid; assumption.
Qed.
Print Assumptions C71_bounds_do_not_matter.

(** DPEngine refuses private partition selection with this accountant.  With it the
    accountant would still be right, if the total delta is 0 or no request for partition
    selection has a weight above 1 (see C06_generic_weight_refuted for larger weights). *)
Theorem C71_private_selection {U P} `{EqDec U} `{EqDec P}
    (e d : Q) num ws s0 ops fuel infinity lib (calls : list (call U P)) ms (u : U) (rp : real_pydp) N X :
  new_accountant e d num ws = Ok s0 ->
  Forall op_pos ops ->
  BudgetSpec.granted ops (outs s0 ops) = flat_map call_requests calls ->
  ((d == 0)%Q \/ selection_weights (mechs (run s0 ops))) ->
  pld_compute fuel lib (run s0 ops) = Some (Ok ms) ->
  Forall valid_pld_call calls ->
  keeps_promises infinity lib rp -> Q2R e < infinity ->
  Forall (fun c => large_enough N X [] c /\ large_enough N X [] (forget u c)) calls ->
  forall E, indistinguishable (Q2R e) (Q2R d)
    (prob (run_pld_calls rp N X (combine calls (divide_specs calls ms))) E)
    (prob (run_pld_calls rp N X (combine (map (forget u) calls) (divide_specs (map (forget u) calls) ms))) E).
Proof. intros Hn Hp Hg Hw Hc V K Fin Le. apply (run_budget rp infinity fuel lib e d num ws s0 ops u N X calls ms K Fin Hn Hp Hg Hw Hc V Le). Qed.
Print Assumptions C71_private_selection.

(** No noise is missing: after compute_budgets every quantity that the combiners add
    noise to has its mechanism, with numbers that PyDP accepts. *)
Theorem C71_mechanisms_created {U P} `{EqDec U} `{EqDec P}
    (e d : Q) num ws s0 ops fuel lib (calls : list (call U P)) ms (u : U) :
  new_accountant e d num ws = Ok s0 ->
  Forall op_pos ops ->
  BudgetSpec.granted ops (outs s0 ops) = flat_map call_requests calls ->
  pld_compute fuel lib (run s0 ops) = Some (Ok ms) ->
  Forall (fun c => valid_call c /\ engine_accepts c /\ post_aggregation_thresholding (c_params c) = false) calls ->
  Forall2 (fun c l => forall i qt s, In (i, qt, s) (noised_quantities (c_params c) (c_combiners c)) ->
     exists sm, mechanism_of c l i qt = Some sm /\ sensible sm) calls (divide_specs calls ms).
Proof.
  intros Hn Hp Hg Hc V. apply (created fuel lib u e d num ws s0 ops calls ms Hn Hp Hg); [|exact Hc].
  eapply Forall_impl; [|exact V]. intros c [A [B C]]. apply accepted_valid; assumption.
Qed.
Print Assumptions C71_mechanisms_created.

(** Thresholding with public partitions: all checks accept these parameters, but the
    spec of the thresholding mechanism never gets the budget that is read later. *)
Definition threshold_params : params :=
  Params [COUNT; PRIVACY_ID_COUNT] LaplaceNoise (Some 2%Z) (Some 2%Z) None 1 None None None None false None None None
         false false TruncatedGeometric None true true.
Theorem C71_thresholding_refuted :
  exists p, EngineSpec.accepted p /\ check_aggregate_params true true p = Ok tt /\ check_accountant false true (metrics p) false = Ok tt /\
    create_compound_combiner p = Ok [CCount; CThresh] /\ request_type p CThresh = LAPLACE_THRESHOLDING /\
    forall fuel lib s ms i m, pld_compute fuel lib s = Some (Ok ms) -> nth_error (mechs s) i = Some m ->
      m_type m = request_type p CThresh ->
      exists m', nth_error ms i = Some m' /\ combiner_params_budget m' = Err AssertionError.
Proof.
  exists threshold_params. split; [exists (raw_of threshold_params); vm_compute; reflexivity|].
  split; [vm_compute; reflexivity|]. split; [vm_compute; reflexivity|]. split; [vm_compute; reflexivity|]. split; [reflexivity|].
  intros fuel lib s ms i m Hc Em T. apply (thresholding_unset fuel lib s ms i m Hc Em). left. exact T.
Qed.
Print Assumptions C71_thresholding_refuted.

(** ** The hypotheses are met *)

(** A PyDP and a library that keep their promises: randomized response for Laplace
    noise, no information at all for Gaussian noise, and basic composition. *)
Definition toy_real : real_pydp :=
  RealPydp (fun eps l1 x => answers 1%Q 0%Q (eps / Q2R l1 * Q2R x))
           (fun std x => dret 0%Q)
           (fun name eps delta l0 pre =>
              match l0 with
              | Some l => if Rlt_dec delta 1 then pre_thresholded pre (geometric_keep (eps / IZR l) (partition_delta l delta)) else fun _ => 0
              | None => fun _ => 0
              end).
Definition loss (l : pld) : R := match l with FromLaplace s => 1 / s | FromGaussian _ => 0 | FromPrivacyParameters e _ => e end.
Definition risk (l : pld) : R := match l with FromPrivacyParameters _ d => d | _ => 0 end.
Definition toy_lib (ls : list pld) (delta : R) : R :=
  if Rle_dec (sumR (map risk ls)) delta then sumR (map loss ls) else 1000.

Lemma toy_l1_below eps l1 xs xs' : 0 < eps -> (0 < l1)%Q -> l1_within l1 xs xs' ->
  below eps 0 (independent (rp_laplace toy_real eps l1) xs) (independent (rp_laplace toy_real eps l1) xs').
Proof.
  intros He Hl [Ly Cy]. assert (Hl' : 0 < Q2R l1) by (apply Q2R_pos; exact Hl).
  pose (f := fun x => eps / Q2R l1 * Q2R x). change (rp_laplace toy_real eps l1) with (fun x => answers 1%Q 0%Q (f x)).
  apply many_answers_within; [exact Ly|].
  apply Qle_Rle in Cy. unfold l1_norm in Cy. rewrite Q2R_sumQ, map_map in Cy.
  replace (sumR (map (fun e0 => Rabs (f (fst e0) - f (snd e0))) (combine xs xs')))
    with (eps / Q2R l1 * sumR (map (fun e0 => Q2R (Qabs (fst e0 - snd e0))) (combine xs xs'))).
  - apply Rle_trans with (eps / Q2R l1 * Q2R l1).
    + apply Rmult_le_compat_l; [|exact Cy]. apply Rlt_le. apply Rdiv_lt_0_compat; assumption.
    + right. field. lra.
  - assert (Pc : 0 < eps / Q2R l1) by (apply Rdiv_lt_0_compat; assumption). clear -Pc.
    induction (combine xs xs') as [|p l IH]; [cbn; ring|]. cbn [map]. rewrite !sumR_cons, <- IH, Rmult_plus_distr_l. f_equal.
    unfold f. rewrite <- Rmult_minus_distr_l, Rabs_mult, (Rabs_pos_eq (eps / Q2R l1)) by lra. f_equal.
    rewrite <- Q2R_minus. apply Q2R_abs.
Qed.
Lemma l1_within_sym l1 xs xs' : l1_within l1 xs xs' -> l1_within l1 xs' xs.
Proof.
  intros [L C]. split; [congruence|]. eapply Qle_trans; [|exact C]. apply Qle_lteq. right. unfold l1_norm.
  clear. revert xs'. induction xs as [|x xs IH]; intros [|x' xs']; try reflexivity. cbn [combine map].
  change (sumQ (?a :: ?l)) with (a + sumQ l)%Q. cbn [fst snd].
  change (Qabs (x' - x) + sumQ (map (fun k => Qabs (fst k - snd k)) (combine xs' xs)) ==
          Qabs (x - x') + sumQ (map (fun k => Qabs (fst k - snd k)) (combine xs xs')))%Q.
  rewrite IH. apply Qplus_comp; [|reflexivity]. rewrite Qabs_Qminus. reflexivity.
Qed.
Lemma toy_l1_both eps l1 xs xs' : 0 < eps -> (0 < l1)%Q -> l1_within l1 xs xs' ->
  both eps 0 (independent (rp_laplace toy_real eps l1) xs) (independent (rp_laplace toy_real eps l1) xs').
Proof. intros He Hl W. split; apply toy_l1_below; try assumption. apply l1_within_sym. exact W. Qed.

Lemma toy_stands l a b : stands_for toy_real l a b -> is_dist a /\ is_dist b /\ 0 <= risk l /\ both (loss l) (risk l) a b.
Proof.
  assert (D1 : forall eps l1 xs, is_dist (independent (rp_laplace toy_real eps l1) xs)) by (intros; apply is_dist_independent; intros; apply answers_dist).
  assert (D2 : forall std xs, is_dist (independent (rp_gaussian toy_real std) xs)) by (intros; apply is_dist_independent; intros; apply is_dist_ret).
  destruct l as [s|s|e d]; cbn [stands_for loss risk].
  - intros [eps [l1 [xs [xs' [He [Hl [-> [W [-> ->]]]]]]]]]. split; [apply D1|]. split; [apply D1|]. split; [lra|].
    replace (1 / (1 / eps)) with eps by (field; lra). apply toy_l1_both; assumption.
  - intros [std [l2 [xs [xs' [Hs [Hl [-> [[L _] [-> ->]]]]]]]]]. split; [apply D2|]. split; [apply D2|]. split; [lra|].
    replace (independent (rp_gaussian toy_real std) xs') with (independent (rp_gaussian toy_real std) xs); [apply both_same|].
    revert xs' L. induction xs as [|x xs IH]; intros [|x' xs'] L; try discriminate; [reflexivity|]. cbn [independent].
    rewrite (IH xs') by (cbn in L; lia). reflexivity.
  - intros [Da [Db I]]. split; [exact Da|]. split; [exact Db|]. split.
    + destruct (I (fun _ => false)) as [A _]. unfold prob in A.
      assert (Z0 : forall x : dist (list Q), mixture x (fun _ => indicator false) = 0).
      { intro x. induction x as [|[w y] x IHx]; [rewrite mixture_nil; reflexivity|]. rewrite mixture_cons, IHx. unfold indicator. lra. }
      rewrite !Z0 in A. lra.
    + apply both_events. exact I.
Qed.

Lemma toy_composition (ms : list (pld * (dist (list Q) * dist (list Q)))) :
  Forall (fun m => stands_for toy_real (fst m) (fst (snd m)) (snd (snd m))) ms ->
  is_dist (independent (fun m => fst (snd m)) ms) /\ is_dist (independent (fun m => snd (snd m)) ms) /\ 0 <= sumR (map risk (map fst ms)) /\
  both (sumR (map loss (map fst ms))) (sumR (map risk (map fst ms))) (independent (fun m => fst (snd m)) ms) (independent (fun m => snd (snd m)) ms).
Proof.
  induction 1 as [|[l [a b]] ms S1 S [DA [DB [Pr B]]]].
  - split; [apply is_dist_ret|]. split; [apply is_dist_ret|]. cbn [map]. change (sumR []) with 0. split; [lra | apply both_same].
  - cbn [fst snd] in S1. destruct (toy_stands l a b S1) as [Da [Db [Pl B1]]]. cbn [independent map fst snd]. rewrite !sumR_cons.
    assert (KA : forall y : list Q, is_dist (dbind (independent (fun m : pld * (dist (list Q) * dist (list Q)) => fst (snd m)) ms) (fun ys => dret (y :: ys))))
      by (intro; apply is_dist_bind; [exact DA | intro; apply is_dist_ret]).
    assert (KB : forall y : list Q, is_dist (dbind (independent (fun m : pld * (dist (list Q) * dist (list Q)) => snd (snd m)) ms) (fun ys => dret (y :: ys))))
      by (intro; apply is_dist_bind; [exact DB | intro; apply is_dist_ret]).
    split; [apply is_dist_bind; assumption|]. split; [apply is_dist_bind; assumption|]. split; [lra|].
    apply both_bind; try assumption. intro y. apply both_post. exact B.
Qed.

Lemma toy_keep : keep_private toy_real.
Proof.
  intros name eps delta l0 pre He Hd Hl _ Ht. cbn [rp_keep toy_real]. destruct (Rlt_dec delta 1) as [L|L].
  - apply C59_truncated_geometric; [exact Hl | lra | lra | exact Ht].
  - split; [intro; lra|]. split; [reflexivity|]. intros ns ns' E _.
    assert (K : forall l, 0 <= SelectSpec.kept (fun _ => 0) l E <= 1).
    { intro l. rewrite <- kept_prob. apply prob_range. apply is_dist_independent. intros n _.
      split; [apply Forall_cons; [cbn; lra|]; apply Forall_cons; [cbn; lra | apply Forall_nil]|]. cbn [map fst]. rewrite !sumR_cons. change (sumR []) with 0. lra. }
    assert (K1 := K ns). assert (K2 := K ns'). assert (Pe := exp_pos eps). split; nra.
Qed.

Example toy_real_keeps_promises : keeps_promises 1000 toy_lib toy_real.
Proof.
  split; [split; intros; [apply answers_dist | apply is_dist_ret]|]. split; [|split; [exact toy_keep|]].
  - intros eps l1 xs xs' E He Hl W. apply both_indistinguishable. apply toy_l1_both; assumption.
  - intros ms eps delta S Pd L Fin E. destruct (toy_composition ms S) as [Da [Db [_ B]]]. unfold toy_lib in L.
    destruct (Rle_dec (sumR (map risk (map fst ms))) delta) as [Ld|]; [|lra].
    apply both_indistinguishable. apply (both_weaken _ _ _ _ _ Ld) in B. exact (both_eps _ _ _ _ _ L Da Db B).
Qed.

(** Two aggregations with public partitions, Gaussian noise and Laplace noise. *)
Definition pld_calls : list (call Z Z) :=
  [demo_call [COUNT; SUM] [CCount; CSum false (-1) 5] GaussianNoise false (Some [10; 20; 30; 40]%Z);
   demo_call [MEAN; PRIVACY_ID_COUNT] [CMean (-1) 5 [NMean]; CPidCount] LaplaceNoise false (Some [10; 20; 30; 40]%Z)].
Definition pld_ops : list op :=
  flat_map (fun c => agg_ops (1%Q, map (fun r => IMech (req_type r) (req_weight r)) (call_requests c))) pld_calls.
Lemma pld_calls_valid : Forall (fun c => valid_call c /\ engine_accepts c /\ post_aggregation_thresholding (c_params c) = false) pld_calls.
Proof.
  repeat (apply Forall_cons; [split; [eapply (demo_valid _ _ _ _ _ (first_sampling 2 2));
    [cbn; intuition discriminate | reflexivity | tauto | split; apply first_n_valid | vm_compute; reflexivity ..] | split; reflexivity]|]).
  apply Forall_nil.
Qed.

Lemma pld_ops_computed : exists fuel ms, pld_compute fuel toy_lib (run (Acct 1 (1 # 10) None None [] [] [] false) pld_ops) = Some (Ok ms).
Proof.
  set (s := run (Acct 1 (1 # 10) None None [] [] [] false) pld_ops).
  assert (Em : map (fun m => (m_type m, m_weight m)) (mechs s) = [(GAUSSIAN, 1 # 2); (GAUSSIAN, 1 # 2); (LAPLACE, 1 # 3); (LAPLACE, 1 # 3); (LAPLACE, 1 # 3)]%Q)
    by (vm_compute; reflexivity).
  assert (Us : Forall usable (mechs s)).
  { apply Forall_forall. intros m I. apply (in_map (fun m => (m_type m, m_weight m))) in I. rewrite Em in I. unfold usable, weight.
    cbn [In] in I. decompose [or] I; try contradiction;
      match goal with H : _ = (m_type m, m_weight m) |- _ => injection H as <- <- end; (split; [apply Q2R_pos; reflexivity | cbn; tauto]). }
  assert (Te : Q2R (total_eps s) = 1) by (replace (total_eps s) with 1%Q by (vm_compute; reflexivity); apply RMicromega.Q2R_1).
  assert (Td : Q2R (total_delta s) = / 10) by (replace (total_delta s) with (1 # 10)%Q by (vm_compute; reflexivity); unfold Q2R; cbn; lra).
  assert (Ne : mechs s <> []) by (intro X; rewrite X in Em; discriminate).
  assert (S2 := sqrt2_pos). assert (S3 : sqrt 2 < 2) by (apply Rsqr_incrst_0; [unfold Rsqr; rewrite sqrt_sqrt; lra | lra | lra]).
  destruct (C06_search_terminates toy_lib 1 (/ 10) (map registered (mechs s)) 2) as [h Eh].
  - lra.
  - intro X. apply map_eq_nil in X. contradiction.
  - apply Forall_map. eapply Forall_impl; [|exact Us]. intros m [W T]. unfold registered. cbn [p_weight p_type]. fold (weight m).
    split; [lra|]. cbn [In] in T. decompose [or] T; try contradiction; match goal with H : _ = m_type m |- _ => rewrite <- H end; discriminate.
  - exists (sumR (map loss (map (composed_pld 1 (/ 10) (2 ^ 3)) (mechs s)))).
    unfold pld_epsilon, compose_distributions. rewrite compose_final by (try assumption; lra).
    destruct (mechs s) as [|m0 l0] eqn:El; [congruence|]. rewrite <- El in *. cbn [rbind].
    assert (G : forall l, map (fun m => (m_type m, m_weight m)) l = [(GAUSSIAN, 1 # 2); (GAUSSIAN, 1 # 2); (LAPLACE, 1 # 3); (LAPLACE, 1 # 3); (LAPLACE, 1 # 3)]%Q ->
      sumR (map risk (map (composed_pld 1 (/ 10) (2 ^ 3)) l)) = 0 /\ sumR (map loss (map (composed_pld 1 (/ 10) (2 ^ 3)) l)) = sqrt 2 / 8).
    { intros l E. destruct l as [|[t1 w1 c1 b1 k1] [|[t2 w2 c2 b2 k2] [|[t3 w3 c3 b3 k3] [|[t4 w4 c4 b4 k4] [|[t5 w5 c5 b5 k5] [|? ?]]]]]]; try discriminate.
      cbn [map m_type m_weight] in E. inversion E; subst. cbn [map composed_pld m_type risk loss]. unfold weight. cbn [m_weight].
      rewrite !sumR_cons. change (sumR []) with 0. split; [lra|]. unfold Q2R. cbn. field. lra. }
    destruct (G _ Em) as [Gr Gl]. unfold toy_lib. rewrite Gr, Gl. destruct (Rle_dec 0 (/ 10)) as [_|X]; [|lra]. split; [reflexivity | lra].
  - exists (2 + 15)%nat, (map (final 1 (/ 10) h) (mechs s)). unfold pld_compute.
    replace (check_restrictions s) with (@Ok unit tt) by (vm_compute; reflexivity). replace (finalized s) with false by (vm_compute; reflexivity).
    destruct (mechs s) as [|m0 l0] eqn:El; [congruence|]. rewrite <- El in *. replace (scopes s) with (@nil (Q * list nat)) by (vm_compute; reflexivity).
    rewrite Te, Td. unfold pld_compute_budgets. destruct (map registered (mechs s)) as [|r0 rl] eqn:Er; [rewrite El in Er; discriminate|]. rewrite <- Er in *.
    destruct (Req_EM_T (/ 10) 0) as [X|_]; [lra|]. rewrite Eh. f_equal. apply set_noises_final; [lra | | exact Us].
    apply C06_search_result in Eh. apply Eh.
Qed.

Example C71_hypotheses_met :
  exists s0 fuel ms N X,
    new_accountant 1 (1 # 10) None None = Ok s0 /\ Forall op_pos pld_ops /\
    BudgetSpec.granted pld_ops (outs s0 pld_ops) = flat_map call_requests pld_calls /\
    pld_compute fuel toy_lib (run s0 pld_ops) = Some (Ok ms) /\
    Forall (fun c => valid_call c /\ engine_accepts c /\ post_aggregation_thresholding (c_params c) = false) pld_calls /\
    keeps_promises 1000 toy_lib toy_real /\ Q2R 1 < 1000 /\
    Forall (fun c => large_enough N X [] c /\ large_enough N X [] (forget 1%Z c)) pld_calls /\
    selection_weights (mechs (run s0 pld_ops)) /\
    map req_type (flat_map call_requests pld_calls) = [GAUSSIAN; GAUSSIAN; LAPLACE; LAPLACE; LAPLACE].
Proof.
  destruct pld_ops_computed as [fuel [ms Ec]]. destruct (C71_large_enough_exists pld_calls 1%Z pld_calls_valid) as [N [X L]].
  exists (Acct 1 (1 # 10) None None [] [] [] false), fuel, ms, N, X.
  split; [reflexivity|]. split; [repeat constructor; vm_compute; reflexivity|]. split; [vm_compute; reflexivity|].
  split; [exact Ec|]. split; [exact pld_calls_valid|]. split; [exact toy_real_keeps_promises|]. split; [rewrite RMicromega.Q2R_1; lra|].
  split; [exact L|]. split; [|vm_compute; reflexivity].
  vm_compute. repeat (apply Forall_cons; [discriminate|]). apply Forall_nil.
Qed.
