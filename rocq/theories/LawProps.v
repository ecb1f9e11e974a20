(** C73: the exact distribution of the released metrics; without bias for COUNT,
    PRIVACY_ID_COUNT and SUM when the data are within the bounds. *)
From Coq Require Import String List ZArith QArith Qreals Qabs Qminmax Reals Bool Permutation Lia Lqa Lra.
From Verif Require Import Base BaseLemmas BackendModel BackendSpec ListLemmas ParamsModel SensModel CombinerModel EngineModel EngineSpec
  EngineProps EnforcedSpec EnforcedProps BounderSpec EngineProps2 QuantileModel QuantileProps BudgetModel BudgetSpec BudgetProofs VectorModel ExpMechProofs LaplaceModel LaplaceSpec LaplaceProofs
  SelectModel SelectSpec SelectProps WrapperModel DistSpec DistProofs DpModel DpSpec
  DpProofs DpProofs2 DpProofs3 DpProofs4 DpProofs5 DpProps LawSpec LawProofs LawProofs2 LawProofs3.
Import ListNotations.
Local Open Scope R_scope.
Local Close Scope Q_scope.

(** ** Exact values *)

(** The exact values, before the noise, are those of the data within the bounds: nothing
    is lost by contribution bounding, for any random choices.  With bounds on the sum per
    partition, 0 has to be within them, and the library has to see the privacy ids. *)
Theorem C73_exact_within_bounds {U P} `{EqDec U} `{EqDec P} p cs (sm : sampling U P) public rows keys col i cb qt k :
  standard_run p cs sm public rows keys col \/ trusted_run p cs sm public rows keys col ->
  within_bounds p rows -> nth_error cs i = Some cb ->
  match public with Some pub => public_partitions_already_filtered p = false -> In k pub | None => True end ->
  (forall lo hi, cb = CSum true lo hi -> contribution_bounds_already_enforced p = false /\ (lo <= 0 <= hi)%Q) ->
  (raw_value (quantity_of qt) i k col == truth cb qt k rows)%Q.
Proof.
  intros R W Ei Hk Hs.
  assert (Row : (forall lo hi, cb <> CSum true lo hi) -> cb <> CPidCount -> cb <> CThresh ->
    (raw_value (quantity_of qt) i k col == sumQ (map (fun r => quantity_of qt (create cb [snd r])) (rows_in k rows)))%Q)
    by (intros; eapply row_wise_exact; eassumption).
  assert (Zr : forall f : U * P * value -> Q, (forall r, f r == 0)%Q -> (sumQ (map f (rows_in k rows)) == 0)%Q)
    by (intros f Ef; apply EngineProofs.sumQ_zero; intros; apply Ef).
  assert (Ids : cb = CPidCount \/ cb = CThresh -> (raw_value (quantity_of qt) i k col == truth cb qt k rows)%Q).
  { intro Hc. destruct R as [R|R].
    - assert (Z0 : (quantity_of qt (create cb []) == 0)%Q) by (destruct Hc as [-> | ->]; destruct qt; reflexivity).
      rewrite (id_wise_exact p cs sm public rows keys col i cb qt k R W Ei Z0 Hk).
      assert (Nz : forall u, In u (ids_of k rows) -> values_of (u, k) rows <> []).
      { intros u Iu E. unfold ids_of in Iu. apply (proj1 (in_distinct _ _)) in Iu. apply in_map_iff in Iu. destruct Iu as [[[u' k'] v] [E1 I1]].
        apply filter_In in I1. destruct I1 as [I1 B1]. cbn in E1, B1. apply eqb_eq in B1. subst u' k'.
        assert (I2 : In v (values_of (u, k) rows)); [|rewrite E in I2; destruct I2].
        unfold values_of. apply in_map_iff. exists (u, k, v). split; [reflexivity|]. apply filter_In. split; [exact I1|]. apply ListLemmas.eqb_refl. }
      destruct qt.
      + transitivity (sumQ (map (fun _ : U => 1%Q) (ids_of k rows))).
        * apply sumQ_ext. intros u Iu. assert (N := Nz u Iu). destruct (values_of (u, k) rows); [congruence|]. destruct Hc as [-> | ->]; reflexivity.
        * rewrite <- EnforcedProofs.sumQ_ones. destruct Hc as [-> | ->]; reflexivity.
      + rewrite EngineProofs.sumQ_zero; [destruct Hc as [-> | ->]; reflexivity|]. intros u _. destruct Hc as [-> | ->]; reflexivity.
      + rewrite EngineProofs.sumQ_zero; [destruct Hc as [-> | ->]; reflexivity|]. intros u _. destruct Hc as [-> | ->]; reflexivity.
    - exfalso. destruct R as [Ha [Hcs [Hb _]]]. destruct (no_id_counts p cs cb Ha Hb Hcs (nth_error_In _ _ Ei)). destruct Hc; congruence. }
  destruct cb as [| | |[|] lo hi|lo hi names|lo hi names|ps|size].
  - rewrite Row by (intros; discriminate). destruct qt; cbn [truth]; [|rewrite Zr; reflexivity..].
    rewrite EnforcedProofs.sumQ_ones. reflexivity.
  - apply Ids. left. reflexivity.
  - apply Ids. right. reflexivity.
  - destruct (Hs lo hi eq_refl) as [Hb [L0 L1]]. destruct R as [R|R]; [|exfalso; destruct R as [_ [_ [X _]]]; congruence].
    assert (Cz : (clip lo hi 0 == 0)%Q) by (unfold clip; rewrite Q.max_l, Q.min_l by (rewrite ?Q.max_l by exact L0; assumption); reflexivity).
    assert (Z0 : (quantity_of qt (create (CSum true lo hi) []) == 0)%Q) by (destruct qt; [reflexivity | exact Cz | reflexivity]).
    rewrite (id_wise_exact p cs sm public rows keys col i _ qt k R W Ei Z0 Hk).
    destruct qt; [rewrite EngineProofs.sumQ_zero by (intros; reflexivity); reflexivity | reflexivity
      | rewrite EngineProofs.sumQ_zero by (intros; reflexivity); reflexivity].
  - rewrite Row by (intros; discriminate). destruct qt; cbn [truth]; [rewrite Zr; reflexivity | | rewrite Zr; reflexivity].
    apply sumQ_ext. intros r _. cbn [create quantity_of sum_of map]. apply EnforcedProofs.sumQ_single.
  - rewrite Row by (intros; discriminate). destruct qt; cbn [truth].
    + rewrite EnforcedProofs.sumQ_ones. reflexivity.
    + apply sumQ_ext. intros r _. cbn [create quantity_of sum_of map]. apply EnforcedProofs.sumQ_single.
    + rewrite Zr; reflexivity.
  - rewrite Row by (intros; discriminate). destruct qt; cbn [truth].
    + rewrite EnforcedProofs.sumQ_ones. reflexivity.
    + apply sumQ_ext. intros r _. cbn [create quantity_of sum_of map]. apply EnforcedProofs.sumQ_single.
    + apply sumQ_ext. intros r _. cbn [create quantity_of squares_of map]. apply EnforcedProofs.sumQ_single.
  - rewrite Row by (intros; discriminate). rewrite Zr; [destruct qt; reflexivity|]. intro r. destruct qt; reflexivity.
  - rewrite Row by (intros; discriminate). rewrite Zr; [destruct qt; reflexivity|]. intro r. rewrite EnforcedProofs.vector_zero. reflexivity.
Qed.
Print Assumptions C73_exact_within_bounds.

(** ** The distribution of a metric *)

(** [noised py c b i k col F]: [F] of the noised count, sum and sum of squares of combiner
    [i] in partition [k], on average; the three are independent. *)
Definition noised_values {U P} `{EqDec U} `{EqDec P} (py : pydp) (c : call U P) (b : budgets) (i : nat) (k : P) (col : list (P * cacc))
    (F : Q -> Q -> Q -> R) : R :=
  mixture (add_noise py c b i QCount (raw_value count_of i k col)) (fun x =>
  mixture (add_noise py c b i QSum (raw_value sum_of i k col)) (fun y =>
  mixture (add_noise py c b i QSquares (raw_value squares_of i k col)) (fun z => F x y z))).

Lemma call_setup {U P} `{EqDec U} `{EqDec P} (c : call U P) b bs (py : pydp) col i cb :
  valid_call c -> Forall2 granted_ok (call_requests c) bs -> divide [c] bs = [b] -> pydp_keeps_promises py ->
  raw_accumulators (c_params c) (c_combiners c) (c_sampling c) (c_public c) (c_rows c) = Ok col ->
  nth_error (c_combiners c) i = Some cb -> (forall ps, cb <> CQuantile ps) -> (forall m, cb <> CVector m) ->
  call_facts c col /\ good_budget c b /\ fair py c b /\ countable cb.
Proof.
  intros Hv G Hb Hpy Er Ei Nq Nv. destruct (valid_call_facts c Hv) as [col' Fc].
  assert (E' := f_raw _ _ Fc). rewrite Er in E'. inversion E'; subst col'. clear E'.
  assert (G' : Forall2 granted_ok (flat_map call_requests [c]) bs) by (cbn [flat_map]; rewrite app_nil_r; exact G).
  destruct (divide_good [c] bs (Forall_cons _ Hv (Forall_nil _)) G') as [_ [F _]]. rewrite Hb in F.
  inversion F as [|? ? [_ Gb] _]; subst. cbn [fst snd] in Gb.
  split; [exact Fc|]. split; [exact Gb|]. split; [exact (all_fair py c b col Hpy Fc Gb)|].
  destruct cb; cbn [countable]; try exact Logic.I; [exact (Nq _ eq_refl) | exact (Nv _ eq_refl)].
Qed.

(** Public partitions: every metric is released. *)
Theorem C73_public_law {U P} `{EqDec U} `{EqDec P} (c : call U P) b bs (py : pydp) N X T col k i cb n (F : option Q -> R) :
  valid_call c -> Forall2 granted_ok (call_requests c) bs -> divide [c] bs = [b] -> pydp_keeps_promises py -> large_enough N X T c ->
  raw_accumulators (c_params c) (c_combiners c) (c_sampling c) (c_public c) (c_rows c) = Ok col ->
  selects_privately (c_params c) (c_public c) = false -> post_aggregation_thresholding (c_params c) = false ->
  In k (c_keys c) -> nth_error (c_combiners c) i = Some cb -> (forall ps, cb <> CQuantile ps) -> (forall m, cb <> CVector m) -> In n (names_of cb) ->
  mixture (run_call py N X T c b) (fun o => F (metric (c_keys c) k n o)) =
  noised_values py c b i k col (fun x y z => F (of_noised cb n 0 x y z)).
Proof.
  intros Hv G Hb Hpy L Er Sp Tp Ik Ei Nq Nv In_n. destruct (call_setup c b bs py col i cb) as [Fc [_ [Fb Cc]]]; try assumption.
  rewrite (metric_law py c b col N X T k i cb n F) by assumption. unfold presence. rewrite Sp, Tp, mixture_ret. reflexivity.
Qed.
Print Assumptions C73_public_law.

(** Private partitions: the partition is kept with the probability of the strategy for the
    estimated number of its privacy ids; then all its metrics are released. *)
Theorem C73_private_law {U P} `{EqDec U} `{EqDec P} (c : call U P) b bs (py : pydp) N X T col k i cb n (F : option Q -> R) :
  valid_call c -> Forall2 granted_ok (call_requests c) bs -> divide [c] bs = [b] -> pydp_keeps_promises py -> large_enough N X T c ->
  raw_accumulators (c_params c) (c_combiners c) (c_sampling c) (c_public c) (c_rows c) = Ok col ->
  selects_privately (c_params c) (c_public c) = true ->
  In k (c_keys c) -> nth_error (c_combiners c) i = Some cb -> (forall ps, cb <> CQuantile ps) -> (forall m, cb <> CVector m) -> In n (names_of cb) ->
  let kept := py_keep py (aggregate_selector (c_params c) (fst (b_selection b)) (snd (b_selection b))) (estimate (c_params c) k col) in
  mixture (run_call py N X T c b) (fun o => F (metric (c_keys c) k n o)) =
  kept * noised_values py c b i k col (fun x y z => F (of_noised cb n 0 x y z)) + (1 - kept) * F None.
Proof.
  intros Hv G Hb Hpy L Er Sp Ik Ei Nq Nv In_n kept. destruct (call_setup c b bs py col i cb) as [Fc [_ [Fb Cc]]]; try assumption.
  rewrite (metric_law py c b col N X T k i cb n F) by assumption. unfold presence. rewrite Sp, mixture_bind. unfold should_keep. fold kept.
  rewrite !mixture_cons, mixture_nil, !mixture_ret. cbn [as_option]. unfold noised_values. ring.
Qed.
Print Assumptions C73_private_law.

(** Post-aggregation thresholding: the partition is kept if the thresholding mechanism
    answers for the number of its privacy ids, and the answer is the metric
    PRIVACY_ID_COUNT. *)
Theorem C73_thresholded_law {U P} `{EqDec U} `{EqDec P} (c : call U P) b bs (py : pydp) N X T col k i j cb n (F : option Q -> R) :
  valid_call c -> Forall2 granted_ok (call_requests c) bs -> divide [c] bs = [b] -> pydp_keeps_promises py -> large_enough N X T c ->
  raw_accumulators (c_params c) (c_combiners c) (c_sampling c) (c_public c) (c_rows c) = Ok col ->
  post_aggregation_thresholding (c_params c) = true -> nth_error (c_combiners c) j = Some CThresh ->
  In k (c_keys c) -> nth_error (c_combiners c) i = Some cb -> (forall ps, cb <> CQuantile ps) -> (forall m, cb <> CVector m) -> In n (names_of cb) ->
  exists ids : Z, (raw_value count_of j k col == inject_Z ids)%Q /\
  mixture (run_call py N X T c b) (fun o => F (metric (c_keys c) k n o)) =
  mixture (threshold py c b j ids) (fun answer =>
    match answer with
    | Some above => noised_values py c b i k col (fun x y z => F (of_noised cb n above x y z))
    | None => F None
    end).
Proof.
  intros Hv G Hb Hpy L Er Tp Ej Ik Ei Nq Nv In_n. destruct (call_setup c b bs py col i cb) as [Fc [_ [Fb Cc]]]; try assumption.
  destruct (f_thresh _ _ Fc Tp) as [j' [Ej' Un]]. assert (j = j') by (apply Un; exact Ej). subst j'.
  destruct (thresh_raw _ _ _ _ _ _ j k Er Ej) as [z [A1 [A3 A4]]]. exists z. split; [rewrite A3; reflexivity|].
  rewrite (metric_law py c b col N X T k i cb n F) by assumption. unfold presence.
  assert (Sp : selects_privately (c_params c) (c_public c) = false).
  { destruct (selects_privately (c_params c) (c_public c)) eqn:Sp; [|reflexivity]. destruct (f_private _ _ Fc Sp) as [_ [X0 _]]. congruence. }
  rewrite Sp, Tp. assert (Ji := thresh_index_spec _ j Ej Un). unfold thresh_count. rewrite Ji, A3. reflexivity.
Qed.
Print Assumptions C73_thresholded_law.

(** ** No bias *)

Lemma noise_mechanism {U P} `{EqDec U} `{EqDec P} (c : call U P) b (py : pydp) col (u : U) i cb qt s :
  call_facts c col -> good_budget c b -> nth_error (c_combiners c) i = Some cb -> cb <> CThresh -> In (qt, s) (noise_plan (c_params c) cb) ->
  exists m e d, promises m e d /\ kind_of m = noise_kind (c_params c) /\ forall x, add_noise py c b i qt x = py_noise py m x.
Proof.
  intros Fc Gb Ei Nt Ip. destruct (budget_of_some c b i cb qt s (gb_length _ _ Gb) Ei Ip) as [[e d] Bo].
  destruct (sens_known c col u i cb qt s Fc Ei Ip) as [s' [-> Cal]].
  destruct Cal as [col'' [_ [_ [_ Cov]]]]. destruct (Cov (MSpec (noise_kind (c_params c)) None e d)) as [m [Em _]].
  assert (Il : In (i, qt, Ok s', (e, d)) (ledger c b)).
  { unfold ledger. apply in_flat_map. exists (i, qt, Ok s'). split; [|cbn [fst snd]; rewrite Bo; left; reflexivity].
    unfold noised_quantities. apply in_flat_map. exists (i, cb). split; [apply in_indexed; exact Ei | apply in_map_iff; exists (qt, Ok s'); auto]. }
  destruct (ledger_good _ _ _ _ _ _ _ Gb Il) as [Pe [Pd Ga]].
  assert (Hv : forall lo hi n, cb = CVariance lo hi n -> max_contributions (c_params c) = None)
    by (intros lo hi n ->; apply (f_variance _ _ Fc _ _ _ _ Ei)).
  destruct (plan_positive _ _ _ _ (f_accepted _ _ Fc) Hv Ip Nt) as [L1 L2].
  exists m, e.
  assert (An : forall x, add_noise py c b i qt x = py_noise py m x).
  { intro x. unfold add_noise. rewrite Bo. cbn [rbind]. rewrite Em. reflexivity. }
  unfold create_additive_mechanism in Em. cbn [ms_kind ms_std ms_eps ms_delta] in Em. destruct (noise_kind (c_params c)).
  - destruct (s_l1 s') as [l1|] eqn:El; [|discriminate]. inversion Em; subst m. exists 0%Q.
    specialize (L1 _ eq_refl). split; [|split; [reflexivity | exact An]]. split; [exact Pe|]. split; [exact L1|]. split; reflexivity.
  - destruct (s_l2sq s') as [l2|] eqn:El; [|discriminate]. inversion Em; subst m. exists d.
    specialize (L2 _ eq_refl). specialize (Ga eq_refl ltac:(congruence)). split; [|split; [reflexivity | exact An]].
    cbn. repeat split; try apply Pd; assumption.
Qed.

Lemma noised_mean {U P} `{EqDec U} `{EqDec P} (c : call U P) b (py : pydp) N X T col (u : U) k i cb n qt :
  call_facts c col -> good_budget c b -> fair py c b -> large_enough N X T c -> In k (c_keys c) ->
  nth_error (c_combiners c) i = Some cb -> stands_for cb n = Some qt -> unbiased py (noise_kind (c_params c)) X ->
  noised_values py c b i k col (fun x y z => match of_noised cb n 0 x y z with Some q => Q2R q | None => 0 end) =
  Q2R (raw_value (quantity_of qt) i k col).
Proof.
  intros Fc Gb Fb Le Ik Ei Sf Ub.
  assert (Dn : forall qt' x, is_dist (add_noise py c b i qt' x)) by (intros qt' x; exact (noise_law_dist py c b (i, qt', k, x) Fb)).
  assert (Nt : cb <> CThresh) by (intros ->; discriminate).
  assert (Pl : exists s, In (qt, s) (noise_plan (c_params c) cb)).
  { assert (Iu : In qt (uses cb)) by (destruct cb, n; cbn [stands_for] in Sf; try discriminate; inversion Sf; subst; left; reflexivity).
    assert (Im := uses_planned c col i cb qt Fc Ei Iu). apply in_map_iff in Im. destruct Im as [[qt' s] [Eq Im]]. cbn in Eq. subst qt'. eauto. }
  destruct Pl as [s Pl]. destruct (noise_mechanism c b py col u i cb qt s Fc Gb Ei Nt Pl) as [m [e [d [Pm [Km An]]]]].
  assert (Mn : mixture (add_noise py c b i qt (raw_value (quantity_of qt) i k col)) Q2R = Q2R (raw_value (quantity_of qt) i k col)).
  { rewrite An. apply (Ub m e d); [exact Pm | exact Km|]. destruct (Le col (f_raw _ _ Fc) k Ik) as [_ B]. apply (proj1 (proj2 (B i)) qt). }
  unfold noised_values.
  assert (Cases : (qt = QCount /\ forall x y z, of_noised cb n 0 x y z = Some x) \/ (qt = QSum /\ forall x y z, of_noised cb n 0 x y z = Some y)).
  { destruct cb, n; cbn [stands_for] in Sf; try discriminate; inversion Sf; subst; cbn [of_noised]; [left | left | right | left | left]; (split; [reflexivity | intros; reflexivity]). }
  destruct Cases as [[-> E]|[-> E]].
  - cbn [quantity_of] in Mn |- *. rewrite <- Mn. apply mixture_ext. intro x.
    rewrite <- (mixture_const (add_noise py c b i QSum (raw_value sum_of i k col)) (Q2R x) (Dn _ _)). apply mixture_ext. intro y.
    rewrite <- (mixture_const (add_noise py c b i QSquares (raw_value squares_of i k col)) (Q2R x) (Dn _ _)). apply mixture_ext. intro z. rewrite E. reflexivity.
  - cbn [quantity_of] in Mn |- *. rewrite <- Mn.
    rewrite <- (mixture_const (add_noise py c b i QCount (raw_value count_of i k col)) (mixture (add_noise py c b i QSum (raw_value sum_of i k col)) Q2R) (Dn _ _)).
    apply mixture_ext. intro x. apply mixture_ext. intro y.
    rewrite <- (mixture_const (add_noise py c b i QSquares (raw_value squares_of i k col)) (Q2R y) (Dn _ _)). apply mixture_ext. intro z. rewrite E. reflexivity.
Qed.

(** If the noise has mean zero, COUNT, PRIVACY_ID_COUNT and SUM have the exact values as
    their mean; [u]: there are privacy ids. *)
Theorem C73_unbiased {U P} `{EqDec U} `{EqDec P} (u : U) (c : call U P) b bs (py : pydp) N X T col k i cb n qt :
  valid_call c -> Forall2 granted_ok (call_requests c) bs -> divide [c] bs = [b] -> pydp_keeps_promises py -> large_enough N X T c ->
  raw_accumulators (c_params c) (c_combiners c) (c_sampling c) (c_public c) (c_rows c) = Ok col ->
  selects_privately (c_params c) (c_public c) = false -> post_aggregation_thresholding (c_params c) = false ->
  In k (c_keys c) -> nth_error (c_combiners c) i = Some cb -> In n (names_of cb) -> stands_for cb n = Some qt ->
  unbiased py (noise_kind (c_params c)) X ->
  expected (c_keys c) k n (run_call py N X T c b) = Q2R (raw_value (quantity_of qt) i k col).
Proof.
  intros Hv G Hb Hpy L Er Sp Tp Ik Ei In_n Sf Ub.
  assert (Nq : forall ps, cb <> CQuantile ps) by (intros ps ->; destruct n; discriminate).
  assert (Nv : forall m, cb <> CVector m) by (intros m ->; destruct n; discriminate).
  destruct (call_setup c b bs py col i cb) as [Fc [Gb [Fb Cc]]]; try assumption. unfold expected.
  rewrite (C73_public_law c b bs py N X T col k i cb n (fun o => match o with Some q => Q2R q | None => 0 end)) by assumption.
  apply (noised_mean c b py N X T col u k i cb n qt); assumption.
Qed.
Print Assumptions C73_unbiased.

(** With data within the bounds and public partitions, the mean is the true value. *)
Theorem C73_unbiased_within_bounds {U P} `{EqDec U} `{EqDec P} (u : U) (c : call U P) b bs (py : pydp) N X T pub k i cb n qt :
  valid_call c -> Forall2 granted_ok (call_requests c) bs -> divide [c] bs = [b] -> pydp_keeps_promises py -> large_enough N X T c ->
  within_bounds (c_params c) (c_rows c) ->
  c_public c = Some pub -> post_aggregation_thresholding (c_params c) = false ->
  In k pub -> nth_error (c_combiners c) i = Some cb -> In n (names_of cb) -> stands_for cb n = Some qt ->
  (forall lo hi, cb = CSum true lo hi -> (lo <= 0 <= hi)%Q) ->
  unbiased py (noise_kind (c_params c)) X ->
  expected (c_keys c) k n (run_call py N X T c b) = Q2R (truth cb qt k (c_rows c)).
Proof.
  intros Hv G Hb Hpy L W Pb Tp Ik Ei In_n Sf Hs Ub. destruct (valid_call_facts c Hv) as [col Fc].
  assert (Sp : selects_privately (c_params c) (c_public c) = false) by (rewrite Pb; reflexivity).
  assert (Ik' : In k (c_keys c)).
  { destruct Hv as [_ [Hk _]]. rewrite Pb in Hk. apply Hk. exact Ik. }
  rewrite (C73_unbiased u c b bs py N X T col k i cb n qt) by (try assumption; exact (f_raw _ _ Fc)).
  apply Qeq_eqR. apply (C73_exact_within_bounds (c_params c) (c_combiners c) (c_sampling c) (c_public c) (c_rows c) (c_keys c) col);
    [exact (f_run _ _ Fc) | exact W | exact Ei | rewrite Pb; intros _; exact Ik|].
  intros lo hi E. split; [|exact (Hs lo hi E)].
  destruct (contribution_bounds_already_enforced (c_params c)) eqn:Eb; [|reflexivity]. exfalso. subst cb. exact (f_sum _ _ Fc Eb i lo hi Ei).
Qed.
Print Assumptions C73_unbiased_within_bounds.

(** Private partitions: a partition that is not kept counts as 0, otherwise there is no
    bias; the choice of the partitions does not look at the noise. *)
Theorem C73_unbiased_when_kept {U P} `{EqDec U} `{EqDec P} (u : U) (c : call U P) b bs (py : pydp) N X T col k i cb n qt :
  valid_call c -> Forall2 granted_ok (call_requests c) bs -> divide [c] bs = [b] -> pydp_keeps_promises py -> large_enough N X T c ->
  raw_accumulators (c_params c) (c_combiners c) (c_sampling c) (c_public c) (c_rows c) = Ok col ->
  selects_privately (c_params c) (c_public c) = true ->
  In k (c_keys c) -> nth_error (c_combiners c) i = Some cb -> In n (names_of cb) -> stands_for cb n = Some qt ->
  unbiased py (noise_kind (c_params c)) X ->
  expected (c_keys c) k n (run_call py N X T c b) =
  prob (run_call py N X T c b) (fun o => match metric (c_keys c) k n o with Some _ => true | None => false end) *
  Q2R (raw_value (quantity_of qt) i k col).
Proof.
  intros Hv G Hb Hpy L Er Sp Ik Ei In_n Sf Ub.
  assert (Nq : forall ps, cb <> CQuantile ps) by (intros ps ->; destruct n; discriminate).
  assert (Nv : forall m, cb <> CVector m) by (intros m ->; destruct n; discriminate).
  destruct (call_setup c b bs py col i cb) as [Fc [Gb [Fb Cc]]]; try assumption. unfold expected, prob.
  rewrite (C73_private_law c b bs py N X T col k i cb n (fun o => match o with Some q => Q2R q | None => 0 end)) by assumption.
  rewrite (C73_private_law c b bs py N X T col k i cb n (fun m => indicator (match m with Some _ => true | None => false end))) by assumption.
  rewrite (noised_mean c b py N X T col u k i cb n qt) by assumption.
  assert (One : noised_values py c b i k col (fun x y z => indicator (match of_noised cb n 0 x y z with Some _ => true | None => false end)) = 1).
  { assert (Dn : forall qt' x, is_dist (add_noise py c b i qt' x)) by (intros qt' x; exact (noise_law_dist py c b (i, qt', k, x) Fb)).
    assert (Yes : forall x y z, indicator (match of_noised cb n 0 x y z with Some _ => true | None => false end) = 1)
      by (intros; destruct cb, n; cbn [stands_for] in Sf; try discriminate; reflexivity).
    unfold noised_values.
    rewrite <- (mixture_const (add_noise py c b i QCount (raw_value count_of i k col)) 1 (Dn _ _)). apply mixture_ext. intro x.
    rewrite <- (mixture_const (add_noise py c b i QSum (raw_value sum_of i k col)) 1 (Dn _ _)). apply mixture_ext. intro y.
    rewrite <- (mixture_const (add_noise py c b i QSquares (raw_value squares_of i k col)) 1 (Dn _ _)). apply mixture_ext. intro z. apply Yes. }
  rewrite One. cbn [indicator]. ring.
Qed.
Print Assumptions C73_unbiased_when_kept.

(** ** Per-partition sum bounds *)

(** SUM with bounds [1, 5] on the sum per partition and public partitions: every public
    partition starts with the accumulator of no values, whose sum is clipped to 1.  So
    the sum of a partition with the one value 3 is 4, and that of an empty one is 1. *)
Definition public_sum_params : params :=
  Params [SUM] LaplaceNoise (Some 1%Z) (Some 1%Z) None 1 None None (Some 1%Q) (Some 5%Q) false None None None
         false false TruncatedGeometric None false true.
Definition public_sum_rows : list (Z * Z * value) := [(1, 10, Num 3)]%Z.
Theorem C73_partition_sum_refuted :
  exists p cs (sm : sampling Z Z) rows col,
    check_aggregate_params true true p = Ok tt /\
    standard_run p cs sm (Some [10; 20]%Z) rows [10; 20]%Z col /\ within_bounds p rows /\ cs = [CSum true 1 5] /\
    raw_value sum_of 0 10%Z col = 4%Q /\ truth (CSum true 1 5) QSum 10%Z rows = 3%Q /\
    raw_value sum_of 0 20%Z col = 1%Q /\ truth (CSum true 1 5) QSum 20%Z rows = 0%Q.
Proof.
  exists public_sum_params, [CSum true 1 5], (first_sampling 1 1), public_sum_rows. eexists.
  split; [reflexivity|]. split.
  { split; [exists (raw_of public_sum_params); reflexivity|]. split; [reflexivity|]. split; [reflexivity|].
    split; [|split; [discriminate|]]; [|split; [repeat constructor; cbn; intuition discriminate|vm_compute; reflexivity]].
    split; intros x X; inversion X; subst; [|apply first_n_valid]. apply first_n_valid. }
  split.
  { split; [discriminate|]. split.
    - intros l0 E u. inversion E; subst. unfold partitions_of, public_sum_rows. cbn.
      repeat match goal with |- context [eqb ?x ?y] => destruct (eqb x y) eqn:? end; cbn; lia.
    - intros l E u k. inversion E; subst. unfold values_of, public_sum_rows. cbn.
      repeat match goal with |- context [eqb ?x ?y] => destruct (eqb x y) eqn:? end; cbn; lia. }
  split; [reflexivity|]. split; [vm_compute; reflexivity|]. split; [vm_compute; reflexivity|]. split; vm_compute; reflexivity.
Qed.
Print Assumptions C73_partition_sum_refuted.

(** ** The hypotheses are met *)

(** A PyDP that keeps its promises and has no bias for values in [-B, B]: Laplace noise
    gives C or -C, where C is B + l1/eps. *)
Definition clamp (B x : R) : R := Rmax (- B) (Rmin B x).
Definition centre (B e l1 : Q) : Q := (Qabs B + Qabs (l1 / e) + (if Qeq_bool (l1 / e) 0 then 1 else 0))%Q.
Definition upper (C B x : R) : R := (C + clamp B x) / (2 * C).
Definition centred_pydp (B : Q) : pydp :=
  Pydp (fun m x => match m with
                   | Laplace e l1 => let C := centre B e l1 in let a := upper (Q2R C) (Q2R (Qabs B)) (Q2R x) in [(a, C); (1 - a, (- C)%Q)]
                   | _ => dret 0%Q
                   end)
       (py_keep toy_pydp) (py_noised toy_pydp) (py_quantiles toy_pydp) (py_vector toy_pydp).

Lemma clamp_range B x : 0 <= B -> - B <= clamp B x <= B.
Proof. intro P. unfold clamp, Rmax, Rmin. repeat destruct (Rle_dec _ _); lra. Qed.
Lemma clamp_near B x y : 0 <= B -> Rabs (clamp B x - clamp B y) <= Rabs (x - y).
Proof. intro P. unfold clamp, Rmax, Rmin, Rabs. repeat (destruct (Rle_dec _ _) || destruct (Rcase_abs _)); lra. Qed.
Lemma upper_range C B x : 0 <= B < C -> 0 <= upper C B x <= 1.
Proof.
  intros [P L]. destruct (clamp_range B x P). unfold upper. split.
  - apply Rmult_le_pos; [lra|]. left. apply Rinv_0_lt_compat. lra.
  - apply Rmult_le_reg_r with (2 * C); [lra|]. unfold Rdiv. rewrite Rmult_assoc, Rinv_l by lra. lra.
Qed.
Lemma exp_above t : 1 + t <= exp t.
Proof.
  destruct (Req_dec t 0) as [->|N]; [rewrite exp_0; lra|]. left. apply exp_ineq1. exact N.
Qed.
Lemma ratio_below a a' B C t : 0 < C - B -> C - B <= a -> C - B <= a' -> Rabs (a - a') <= t -> 0 <= t -> a <= exp (t / (C - B)) * a'.
Proof.
  intros P La La' D T. apply Rle_trans with ((1 + t / (C - B)) * a'); [|apply Rmult_le_compat_r; [lra | apply exp_above]].
  assert (a - a' <= t) by (eapply Rle_trans; [apply Rle_abs | exact D]).
  assert (t <= t / (C - B) * a').
  { apply Rmult_le_reg_r with (C - B); [exact P|].
    replace (t / (C - B) * a' * (C - B)) with (t * a') by (field; lra). apply Rmult_le_compat_l; lra. }
  lra.
Qed.
Lemma upper_below C B x y : 0 <= B < C ->
  upper C B x <= exp (Rabs (x - y) / (C - B)) * upper C B y /\ 1 - upper C B x <= exp (Rabs (x - y) / (C - B)) * (1 - upper C B y).
Proof.
  intros [P L]. assert (X := clamp_range B x P). assert (Y := clamp_range B y P). assert (D := clamp_near B x y P). unfold upper.
  assert (Pi : 0 < / (2 * C)) by (apply Rinv_0_lt_compat; lra). split.
  - unfold Rdiv at 1 3. rewrite <- Rmult_assoc. apply Rmult_le_compat_r; [lra|].
    apply (ratio_below _ _ B C); try lra; [|apply Rabs_pos]. replace (C + clamp B x - (C + clamp B y)) with (clamp B x - clamp B y) by ring. exact D.
  - replace (1 - (C + clamp B x) / (2 * C)) with ((C - clamp B x) / (2 * C)) by (field; lra).
    replace (1 - (C + clamp B y) / (2 * C)) with ((C - clamp B y) / (2 * C)) by (field; lra).
    unfold Rdiv at 1 3. rewrite <- Rmult_assoc. apply Rmult_le_compat_r; [lra|].
    apply (ratio_below _ _ B C); try lra; [|apply Rabs_pos]. replace (C - clamp B x - (C - clamp B y)) with (- (clamp B x - clamp B y)) by ring.
    rewrite Rabs_Ropp. exact D.
Qed.
Lemma independent_below {A B} (f : A -> dist B) (g : A -> A -> R) : (forall x, is_dist (f x)) -> (forall x y, below (g x y) 0 (f x) (f y)) ->
  forall xs ys, length xs = length ys ->
  below (sumR (map (fun e => g (fst e) (snd e)) (combine xs ys))) 0 (independent f xs) (independent f ys).
Proof.
  intros D Bf. induction xs as [|x xs IH]; intros [|y ys] L; try discriminate; [apply below_same|].
  cbn [independent combine map fst snd]. rewrite sumR_cons. rewrite <- (Rplus_0_l 0) at 1.
  assert (Di : forall l, is_dist (independent f l)) by (intro l; apply is_dist_independent; intros; apply D).
  apply below_bind; [lra | apply D | apply D | | | apply Bf |];
    try (intro a; apply is_dist_bind; [apply Di | intro; apply is_dist_ret]).
  intro a. cbn in L. assert (B0 := IH ys ltac:(lia)).
  intros F HF. rewrite !mixture_bind.
  rewrite (mixture_ext _ _ (fun b => F (a :: b))), (mixture_ext (independent _ ys) _ (fun b => F (a :: b))) by (intro; apply mixture_ret).
  apply (B0 (fun b => F (a :: b))). intro b. apply HF.
Qed.
Lemma centre_above B e l1 : (Qabs B < centre B e l1)%Q.
Proof.
  unfold centre. assert (P := Qabs_nonneg (l1 / e)). destruct (Qeq_bool (l1 / e) 0) eqn:Z0; [Lqa.lra|].
  assert (0 < Qabs (l1 / e))%Q; [|Lqa.lra]. apply Qnot_le_lt. intro X. apply Qeq_bool_neq in Z0. apply Z0.
  assert (X' : (l1 / e <= 0)%Q) by (eapply Qle_trans; [apply Qle_Qabs | exact X]).
  assert (X2 : (- (l1 / e) <= 0)%Q) by (eapply Qle_trans; [apply Qle_Qabs | rewrite Qabs_opp; exact X]). Lqa.lra.
Qed.
Lemma centre_real B e l1 : 0 <= Q2R (Qabs B) < Q2R (centre B e l1).
Proof.
  split; [rewrite <- RMicromega.Q2R_0; apply Qle_Rle; apply Qabs_nonneg | apply Qlt_Rlt; apply centre_above].
Qed.
Lemma centred_dist B m x : is_dist (py_noise (centred_pydp B) m x).
Proof.
  destruct m as [e l1| | |]; try apply is_dist_ret. cbn [py_noise centred_pydp]. cbv zeta.
  destruct (upper_range _ _ (Q2R x) (centre_real B e l1)).
  split; [apply Forall_cons; [cbn [fst]; lra | apply Forall_cons; [cbn [fst]; lra | apply Forall_nil]]|]. cbn [map fst]. rewrite !sumR_cons. cbn. lra.
Qed.
Lemma centred_noise B : noise_contract (py_noise (centred_pydp B)).
Proof.
  split; [apply centred_dist|]. intros m eps delta Hp.
  destruct m as [e l1| |e d l2|]; [| destruct Hp | | destruct Hp].
  2: { exact (proj2 toy_noise (Gaussian e d l2) eps delta Hp). }
  destruct Hp as [He [Hl [-> ->]]]. intros xs xs' E L C. cbn [covers] in C. rewrite RMicromega.Q2R_0.
  assert (Pe : 0 < Q2R e) by (rewrite <- RMicromega.Q2R_0; apply Qlt_Rlt; assumption).
  assert (Pl : 0 < Q2R l1) by (rewrite <- RMicromega.Q2R_0; apply Qlt_Rlt; assumption).
  assert (Cn : Q2R (centre B e l1) - Q2R (Qabs B) = Q2R l1 / Q2R e).
  { unfold centre. assert (Pq : (0 < l1 / e)%Q) by (apply Qlt_shift_div_l; Lqa.lra).
    destruct (Qeq_bool (l1 / e) 0) eqn:Z0; [apply Qeq_bool_eq in Z0; exfalso; Lqa.lra|].
    rewrite !Q2R_plus, RMicromega.Q2R_0.
    rewrite (Qeq_eqR (Qabs (l1 / e)) (l1 / e)) by (apply Qabs_pos; Lqa.lra). rewrite Q2R_div by Lqa.lra. ring. }
  assert (One : forall x y, below (Q2R e / Q2R l1 * Rabs (Q2R x - Q2R y)) 0 (py_noise (centred_pydp B) (Laplace e l1) x) (py_noise (centred_pydp B) (Laplace e l1) y)).
  { intros x y F HF. cbn [py_noise centred_pydp]. cbv zeta. rewrite !mixture_cons, !mixture_nil.
    destruct (upper_below _ _ (Q2R x) (Q2R y) (centre_real B e l1)) as [U1 U2]. rewrite Cn in U1, U2.
    replace (Rabs (Q2R x - Q2R y) / (Q2R l1 / Q2R e)) with (Q2R e / Q2R l1 * Rabs (Q2R x - Q2R y)) in U1, U2 by (field; lra).
    destruct (HF (centre B e l1)), (HF (- centre B e l1)%Q).
    apply (Rmult_le_compat_r (F (centre B e l1))) in U1; [|assumption]. apply (Rmult_le_compat_r (F (- centre B e l1)%Q)) in U2; [|assumption]. lra. }
  assert (G : forall ys ys', length ys = length ys' -> (l1_norm (combine ys ys') (fun e0 => fst e0 - snd e0) <= l1)%Q ->
    below (Q2R e) 0 (independent (py_noise (centred_pydp B) (Laplace e l1)) ys) (independent (py_noise (centred_pydp B) (Laplace e l1)) ys')).
  { intros ys ys' Ly Cy F HF. assert (B0 := independent_below _ _ (centred_dist B (Laplace e l1)) One ys ys' Ly F HF).
    apply Qle_Rle in Cy. unfold l1_norm in Cy. rewrite Q2R_sumQ, map_map in Cy.
    assert (S1 : sumR (map (fun e0 => Q2R e / Q2R l1 * Rabs (Q2R (fst e0) - Q2R (snd e0))) (combine ys ys')) <= Q2R e).
    { replace (sumR (map (fun e0 => Q2R e / Q2R l1 * Rabs (Q2R (fst e0) - Q2R (snd e0))) (combine ys ys')))
        with (Q2R e / Q2R l1 * sumR (map (fun e0 => Q2R (Qabs (fst e0 - snd e0))) (combine ys ys'))).
      - apply Rle_trans with (Q2R e / Q2R l1 * Q2R l1).
        + apply Rmult_le_compat_l; [|exact Cy]. apply Rlt_le. apply Rdiv_lt_0_compat; assumption.
        + right. field. lra.
      - clear. induction (combine ys ys') as [|p l IH]; [cbn; ring|]. cbn [map]. rewrite !sumR_cons, <- IH, Rmult_plus_distr_l. f_equal.
        f_equal. rewrite <- Q2R_minus. apply Q2R_abs. }
    assert (M : exp (sumR (map (fun e0 => Q2R e / Q2R l1 * Rabs (Q2R (fst e0) - Q2R (snd e0))) (combine ys ys'))) <= exp (Q2R e)).
    { destruct S1 as [S1|S1]; [left; apply exp_increasing; exact S1 | rewrite S1; lra]. }
    assert (Pm : 0 <= mixture (independent (py_noise (centred_pydp B) (Laplace e l1)) ys') F).
    { apply mixture_range; [apply is_dist_independent; intros; apply centred_dist | exact HF]. }
    apply (Rmult_le_compat_r _ _ _ Pm) in M. lra. }
  split; apply below_prob; apply G; auto.
  eapply Qle_trans; [|exact C]. apply Qle_lteq. right. unfold l1_norm.
  clear. revert xs'. induction xs as [|x xs IH]; intros [|x' xs']; try reflexivity. cbn [combine map].
  change (sumQ (?a :: ?l)) with (a + sumQ l)%Q. cbn [fst snd].
  change (Qabs (x' - x) + sumQ (map (fun k => Qabs (fst k - snd k)) (combine xs' xs)) ==
          Qabs (x - x') + sumQ (map (fun k => Qabs (fst k - snd k)) (combine xs xs')))%Q.
  rewrite IH. apply Qplus_comp; [|reflexivity]. rewrite Qabs_Qminus. reflexivity.
Qed.
Example centred_pydp_keeps_promises B : pydp_keeps_promises (centred_pydp B).
Proof. split; [exact (centred_noise B)|]. split; [exact demo_pydp_contract|]. split; [exact toy_thresholding|]. split; [exact toy_quantiles | exact toy_vector]. Qed.
Lemma clamp_same B x : - B <= x <= B -> clamp B x = x.
Proof. intros [A C]. unfold clamp. rewrite Rmin_right by lra. apply Rmax_right. lra. Qed.
Example centred_pydp_unbiased X : unbiased (centred_pydp (sumQ (map Qabs X))) LaplaceNoise X.
Proof.
  intros m eps delta x Hp Km Ix. destruct m as [e l1| | |]; try discriminate Km; [|destruct Hp].
  cbn [py_noise centred_pydp]. cbv zeta. set (B := sumQ (map Qabs X)).
  destruct (centre_real B e l1) as [P0 P1]. set (C := centre B e l1) in *.
  assert (Bx : (Qabs x <= Qabs B)%Q).
  { eapply Qle_trans; [|apply Qle_Qabs]. unfold B. clear -Ix. induction X as [|y X IH]; [destruct Ix|]. cbn [map].
    change (sumQ (Qabs y :: map Qabs X)) with (Qabs y + sumQ (map Qabs X))%Q.
    assert (N : (0 <= sumQ (map Qabs X))%Q).
    { clear. induction X as [|z X IH]; [apply Qle_refl|]. cbn [map]. change (sumQ (Qabs z :: map Qabs X)) with (Qabs z + sumQ (map Qabs X))%Q.
      assert (Z0 := Qabs_nonneg z). Lqa.lra. }
    destruct Ix as [->|Ix]; [Lqa.lra|]. specialize (IH Ix). assert (Z0 := Qabs_nonneg y). Lqa.lra. }
  apply Qle_Rle in Bx. rewrite Q2R_abs in Bx.
  assert (Rx : - Q2R (Qabs B) <= Q2R x <= Q2R (Qabs B)).
  { split; [|eapply Rle_trans; [apply Rle_abs | exact Bx]]. assert (Y := Rle_abs (- Q2R x)). rewrite Rabs_Ropp in Y. lra. }
  rewrite !mixture_cons, mixture_nil, Q2R_opp. unfold upper. rewrite (clamp_same _ _ Rx). field. lra.
Qed.

(** COUNT and SUM with public partitions, data within the bounds, and the PyDP above: the
    mean of COUNT of partition 20 is 3 and that of SUM is 7. *)
Definition law_call : call Z Z :=
  Call (demo_call_params [COUNT; SUM] LaplaceNoise false false) [CCount; CSum false (-1) 5] (first_sampling 2 2) (Some [20; 10]%Z) [20; 10]%Z enforced_rows.
Definition law_budgets : list (Q * Q) := [(1, 0); (1, 0)]%Q.
Definition law_budget : budgets := Budgets law_budgets (0, 0)%Q.
Lemma law_call_valid : valid_call law_call.
Proof.
  split; [apply demo_params_valid; [cbn; intuition discriminate | reflexivity]|].
  split; [split; [tauto | discriminate]|]. split; [cbn; intuition discriminate|]. eexists. left.
  split; [exists (raw_of (c_params law_call)); vm_compute; reflexivity|]. split; [vm_compute; reflexivity|]. split; [reflexivity|].
  split. { unfold valid_sampling. cbn -[Z.to_nat]. split; intros x Ex; inversion Ex; subst; apply first_n_valid. }
  split; [discriminate|]. split; [repeat constructor; cbn; intuition discriminate | vm_compute; reflexivity].
Qed.
Lemma law_budgets_ok : Forall2 granted_ok (call_requests law_call) law_budgets.
Proof. repeat constructor; cbn; try discriminate; reflexivity. Qed.
Example C73_hypotheses_met : exists N X T,
  large_enough N X T law_call /\ unbiased (centred_pydp (sumQ (map Qabs X))) LaplaceNoise X /\
  within_bounds (c_params law_call) (c_rows law_call) /\
  expected (c_keys law_call) 20%Z NCount (run_call (centred_pydp (sumQ (map Qabs X))) N X T law_call law_budget) = 3 /\
  expected (c_keys law_call) 20%Z NSum (run_call (centred_pydp (sumQ (map Qabs X))) N X T law_call law_budget) = 7.
Proof.
  destruct (C61_large_enough_exists [law_call] 1%Z) as [N [X [T L]]]. inversion L as [|? ? [L1 _] _]; subst.
  assert (W : within_bounds (c_params law_call) (c_rows law_call)) by exact enforced_rows_within.
  exists N, X, T. split; [exact L1|]. split; [apply centred_pydp_unbiased|]. split; [exact W|]. split.
  - rewrite (C73_unbiased_within_bounds 1%Z law_call law_budget law_budgets (centred_pydp (sumQ (map Qabs X))) N X T [20; 10]%Z 20%Z 0 CCount NCount QCount).
    + vm_compute. lra.
    + exact law_call_valid.
    + exact law_budgets_ok.
    + reflexivity.
    + apply centred_pydp_keeps_promises.
    + exact L1.
    + exact W.
    + reflexivity.
    + reflexivity.
    + left; reflexivity.
    + reflexivity.
    + left; reflexivity.
    + reflexivity.
    + discriminate.
    + apply centred_pydp_unbiased.
  - rewrite (C73_unbiased_within_bounds 1%Z law_call law_budget law_budgets (centred_pydp (sumQ (map Qabs X))) N X T [20; 10]%Z 20%Z 1 (CSum false (-1) 5) NSum QSum).
    + vm_compute. lra.
    + exact law_call_valid.
    + exact law_budgets_ok.
    + reflexivity.
    + apply centred_pydp_keeps_promises.
    + exact L1.
    + exact W.
    + reflexivity.
    + reflexivity.
    + left; reflexivity.
    + reflexivity.
    + left; reflexivity.
    + reflexivity.
    + discriminate.
    + apply centred_pydp_unbiased.
Qed.

(** The laws hold for the nine calls of C61: public partitions, private partitions and
    thresholding. *)
Example C73_laws_met : pydp_keeps_promises toy_pydp /\ exists N X T,
  Forall (fun c => valid_call c /\ (exists bs b, Forall2 granted_ok (call_requests c) bs /\ divide [c] bs = [b]) /\ large_enough N X T c) demo_calls /\
  map (fun c => (selects_privately (c_params c) (c_public c), post_aggregation_thresholding (c_params c))) demo_calls =
    [(false, false); (true, false); (false, true); (false, true); (false, false); (true, false); (true, false); (true, false); (true, false)].
Proof.
  split; [exact toy_pydp_keeps_promises|]. destruct (C61_large_enough_exists demo_calls 1%Z) as [N [X [T L]]]. exists N, X, T.
  split; [|reflexivity]. assert (V := demo_calls_valid). assert (B := proj2 C61_budgets_exist).
  rewrite Forall_forall in *. intros c I. split; [exact (V c I)|]. split; [exact (B c I) | apply L; exact I].
Qed.
