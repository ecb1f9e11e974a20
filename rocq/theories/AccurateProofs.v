(** Proofs for C85. *)
From Coq Require Import String List ZArith QArith Qreals Qabs Qminmax Reals Bool Permutation Lia Lqa Lra.
From Verif Require Import Base BaseLemmas BackendModel BackendSpec ListLemmas ParamsModel SensModel CombinerModel EngineModel EngineSpec
  EngineProofs3 EngineProps EnforcedSpec EnforcedProps BounderSpec EngineProps2 QuantileModel QuantileProps BudgetModel BudgetSpec BudgetProofs VectorModel ExpMechProofs LaplaceModel LaplaceSpec LaplaceProofs
  SelectModel SelectSpec SelectProps WrapperModel DistSpec DistProofs DpModel DpSpec
  DpProofs DpProofs2 DpProofs3 DpProofs4 DpProofs5 DpProps LawSpec LawProofs LawProofs2 LawProofs3 LawProps RoundModel RoundSpec RoundProofs RoundProps QTreeModel QTreeProps AccurateSpec.
Import ListNotations.
Local Open Scope R_scope.
Local Close Scope Q_scope.

(** ** Sensitivities *)

Lemma sens_l0_linf l0 linf s : mk_sens l0 linf None None = Ok s -> forall z q, l0 = Some z -> linf = Some q -> s_l1 s = Some (inject_Z z * q)%Q.
Proof.
  intros E z q -> ->. unfold mk_sens, raise_if in E. cbn [nonpos] in E. destruct (z <=? 0)%Z; [discriminate|]. destruct (Qle_bool q 0); [discriminate|].
  inversion E. reflexivity.
Qed.
Lemma sens_direct x y s : mk_sens None None (Some x) (Some y) = Ok s -> s_l1 s = Some x.
Proof.
  intros E. unfold mk_sens, raise_if in E. cbn [nonpos] in E. destruct (Qle_bool x 0); [discriminate|]. destruct (Qle_bool y 0); [discriminate|].
  inversion E. reflexivity.
Qed.

Lemma plan_l1 p cb qt s l : accepted p -> constructed p cb -> In (qt, Ok s) (noise_plan p cb) -> influence p cb qt = Some l ->
  exists x, s_l1 s = Some x /\ (x == l)%Q.
Proof.
  intros Ha Hk Ip Hl. destruct (accepted_facts p Ha) as [O1 [O2 [Ex Hm]]].
  assert (C : sens_count p = Ok s -> exists x, s_l1 s = Some x /\ (x == rows_allowed p)%Q).
  { unfold sens_count, rows_allowed. destruct (max_contributions p) as [m|].
    - intro E. apply sens_direct in E. eexists. split; [exact E | reflexivity].
    - destruct Hm as [l0 [linf [E0 [Ei _]]]]. rewrite E0, Ei. intro E. eexists. split; [exact (sens_l0_linf _ _ _ E _ _ eq_refl eq_refl)|].
      rewrite inject_Z_mult. reflexivity. }
  destruct cb as [| | |b lo hi|lo hi names|lo hi names|ps|size]; cbn [influence noise_plan constructed] in *.
  - destruct qt; try discriminate. injection Hl as <-. destruct Ip as [Ip|[]]. apply C. congruence.
  - destruct qt; try discriminate. injection Hl as <-. destruct Ip as [Ip|[]]. assert (E : sens_privacy_id_count p = Ok s) by congruence. clear Ip.
    unfold sens_privacy_id_count in E. unfold partitions_allowed. destruct (max_contributions p) as [m|].
    + apply sens_direct in E. eexists. split; [exact E | reflexivity].
    + destruct Hm as [l0 [linf [E0 [Ei _]]]]. rewrite E0 in E |- *. eexists. split; [exact (sens_l0_linf _ _ _ E _ _ eq_refl eq_refl)|]. ring.
  - destruct qt; discriminate.
  - destruct Ip as [Ip|[]]. injection Ip as <- Es. unfold new_sum in Hk. rewrite Es in Hk. cbn [rbind] in Hk.
    unfold sens_sum in Es. unfold bounds_per_partition_are_set in Hk. unfold rows_allowed, partitions_allowed in Hl.
    destruct (min_value p) as [a|] eqn:Ea, (max_value p) as [c|] eqn:Ec; cbn [ordered] in O1; try contradiction.
    + destruct (min_sum_per_partition p) as [a'|]; [discriminate|]. cbn [is_some andb] in Hk. injection Hk as <- <- <-.
      injection Hl as <-. destruct (max_contributions p) as [m|].
      * destruct (m =? 0)%Z; [discriminate|]. apply sens_direct in Es. eexists. split; [exact Es|]. unfold max_abs. ring.
      * destruct Hm as [l0 [linf [E0 [Ei _]]]]. rewrite E0, Ei in *. eexists. split; [exact (sens_l0_linf _ _ _ Es _ _ eq_refl eq_refl)|].
        rewrite inject_Z_mult. unfold max_abs. ring.
    + destruct (min_sum_per_partition p) as [a'|], (max_sum_per_partition p) as [c'|]; cbn [is_some andb] in Hk; try discriminate.
      injection Hk as <- <- <-. injection Hl as <-. destruct (max_contributions p) as [m|].
      * destruct Hm as [_ [E0 _]]. rewrite E0 in Es. exfalso. unfold mk_sens, raise_if in Es. destruct (nonpos _); discriminate.
      * destruct Hm as [l0 [linf [E0 _]]]. rewrite E0 in *. eexists. split; [exact (sens_l0_linf _ _ _ Es _ _ eq_refl eq_refl)|]. reflexivity.
  - destruct Ip as [Ip|[Ip|[]]].
    + injection Ip as <- Es. injection Hl as <-. apply C. exact Es.
    + injection Ip as <- Es. unfold new_mean in Hk. unfold sens_normalized_sum in Es. unfold rows_allowed in Hl.
      destruct (min_value p) as [a|] eqn:Ea, (max_value p) as [c|] eqn:Ec; try discriminate.
      destruct (sens_count p) as [s1|]; cbn [rbind] in Hk; [|discriminate]. destruct (sens_normalized_sum p); cbn [rmap] in Hk; [|discriminate].
      injection Hk as -> ->. injection Hl as <-. cbv zeta in Es. destruct (max_contributions p) as [m|].
      * destruct (m =? 0)%Z; [discriminate|]. apply sens_direct in Es. eexists. split; [exact Es|]. ring.
      * destruct Hm as [l0 [linf [E0 [Ei _]]]]. rewrite E0, Ei in *. eexists. split; [exact (sens_l0_linf _ _ _ Es _ _ eq_refl eq_refl)|].
        rewrite inject_Z_mult. ring.
  - destruct qt; try discriminate. injection Hl as <-. unfold rows_allowed. destruct (max_contributions p) as [m|].
    + destruct Hm as [_ [_ Ei]]. rewrite Ei in Ip. destruct Ip as [Ip|[]]. discriminate.
    + destruct Hm as [l0 [linf [E0 [Ei _]]]]. rewrite Ei in Ip. rewrite E0, Ei. unfold var_sens in Ip. rewrite E0 in Ip.
      apply in_app_iff in Ip. destruct Ip as [[Ip|[]]|Ip].
      * injection Ip as <-. cbn [s_l1]. eexists. split; [reflexivity|]. unfold l1_sensitivity, var_linf_count. rewrite inject_Z_mult. reflexivity.
      * exfalso. apply in_app_iff in Ip. destruct Ip as [Ip|Ip]; [destruct (Qeq_bool lo hi) | destruct (Qeq_bool _ _)]; try (destruct Ip); try discriminate; try contradiction.
  - destruct qt; discriminate.
  - destruct qt; discriminate.
Qed.

(** ** The mechanism of a quantity *)

Lemma laplace_mechanism {U P} `{EqDec U} `{EqDec P} (c : call U P) b (py : pydp) col i cb qt e l :
  call_facts c col -> good_budget c b -> nth_error (c_combiners c) i = Some cb -> noise_kind (c_params c) = LaplaceNoise ->
  epsilon_for cb qt (own c b i) = Some e -> influence (c_params c) cb qt = Some l ->
  exists e' l', (e' == e)%Q /\ (l' == l)%Q /\ (0 < e')%Q /\ (0 < l')%Q /\ forall x, add_noise py c b i qt x = py_noise py (Laplace e' l') x.
Proof.
  intros Fc Gb Ei Nk He Hl.
  assert (Nt : cb <> CThresh) by (intros ->; destruct qt; discriminate).
  assert (Iu : In qt (uses cb)).
  { destruct cb as [| | |[|] lo hi|lo hi names|lo hi names|ps|size], qt; cbn [influence] in Hl; try discriminate; cbn; auto. }
  assert (Im := uses_planned c col i cb qt Fc Ei Iu). apply in_map_iff in Im. destruct Im as [[qt' rs] [Eq Im]]. cbn in Eq. subst qt'.
  assert (Hk := nth_constructed _ _ _ _ (f_combiners _ _ Fc) Ei).
  destruct (budget_of_some c b i cb qt rs (gb_length _ _ Gb) Ei Im) as [[e' d'] Bo].
  assert (Il : In (i, qt, rs, (e', d')) (ledger c b)).
  { unfold ledger. apply in_flat_map. exists (i, qt, rs). split; [|cbn [fst snd]; rewrite Bo; left; reflexivity].
    unfold noised_quantities. apply in_flat_map. exists (i, cb). split; [apply in_indexed; exact Ei | apply in_map_iff; exists (qt, rs); auto]. }
  destruct (ledger_good _ _ _ _ _ _ _ Gb Il) as [Pe _].
  assert (Es : exists s, rs = Ok s).
  { clear - Hk Im Fc Ei Hl Iu. assert (Ha := f_accepted _ _ Fc). destruct (accepted_facts _ Ha) as [O1 [O2 [Ex Hm]]].
    destruct cb as [| | |bb lo hi|lo hi names|lo hi names|ps|size]; cbn [influence noise_plan constructed] in *; try (destruct qt; discriminate).
    - destruct Im as [Im|[]]. injection Im as _ <-. destruct (rmap_const_inv _ _ _ Hk) as [X _]. exact X.
    - destruct Im as [Im|[]]. injection Im as _ <-. destruct (rmap_const_inv _ _ _ Hk) as [X _]. exact X.
    - destruct Im as [Im|[]]. injection Im as _ <-. unfold new_sum in Hk. destruct (sens_sum _); cbn [rbind] in Hk; [eauto | discriminate].
    - unfold new_mean in Hk. destruct (min_value _); [|discriminate]. destruct (max_value _); [|discriminate].
      destruct (sens_count _) as [s1|] eqn:E1; cbn [rbind] in Hk; [|discriminate]. destruct (sens_normalized_sum _) as [s2|] eqn:E2; cbn [rmap] in Hk; [|discriminate].
      destruct Im as [Im|[Im|[]]]; injection Im as _ <-; eauto.
    - destruct (f_variance _ _ Fc _ _ _ _ Ei) as [X _]. rewrite X in Hm. destruct Hm as [l0 [linf [E0 [El _]]]]. rewrite El in Im. unfold var_sens in Im. rewrite E0 in Im.
      destruct qt; try discriminate. apply in_app_iff in Im. destruct Im as [[Im|[]]|Im]; [injection Im as <-; eauto|].
      exfalso. apply in_app_iff in Im. destruct Im as [Im|Im]; [destruct (Qeq_bool lo hi) | destruct (Qeq_bool _ _)]; destruct Im; try discriminate; contradiction. }
  destruct Es as [s ->]. destruct (plan_l1 _ _ _ _ _ (f_accepted _ _ Fc) Hk Im Hl) as [l' [El Eq]].
  assert (Hv : forall lo hi n, cb = CVariance lo hi n -> max_contributions (c_params c) = None)
    by (intros lo hi n ->; apply (f_variance _ _ Fc _ _ _ _ Ei)).
  destruct (plan_positive _ _ _ _ (f_accepted _ _ Fc) Hv Im Nt) as [L1 _].
  exists e', l'. split; [|split; [exact Eq|split; [exact Pe|split; [exact (L1 _ El)|]]]].
  - clear - He Bo Ei. unfold budget_of in Bo. rewrite Ei in Bo. destruct (find _ (noise_plan _ _)) as [[q0 s0]|]; [|discriminate].
    destruct (find _ (shares cb (own c b i))) as [[q1 b1]|] eqn:F; [|discriminate]. injection Bo as _ ->. clear s0 q0.
    destruct cb, qt; cbn [epsilon_for] in He; try discriminate; destruct (own c b i) as [|[e1 d1] [|[e2 d2] [|]]]; try discriminate;
      injection He as <-; cbn in F; injection F; intros; subst; try reflexivity; unfold Qdiv; cbn; field.
  - intro x. unfold add_noise. rewrite Bo. cbn [rbind]. unfold create_additive_mechanism. cbn [ms_kind ms_std ms_eps ms_delta]. rewrite Nk, El. reflexivity.
Qed.
