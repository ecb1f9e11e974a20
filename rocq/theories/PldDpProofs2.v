(** Lemmas for C71: what the PLD accountant grants and what is released with it. *)
From Coq Require Import String List ZArith QArith Qreals Qabs Reals Bool Permutation Lia Lqa Lra.
From Verif Require Import Base BaseLemmas BackendModel ListLemmas BackendSpec BackendProofs ParamsModel SensModel CombinerModel CombinerProofs3 EngineModel EngineSpec
  EngineProofs EngineProofs2 EngineProofs3 EngineProofs4 EngineProofs5 EngineProps EngineProps2 BudgetModel VectorModel ExpMechProofs BudgetSpec LaplaceModel LaplaceSpec LaplaceProofs
  SelectModel SelectSpec SelectProofs SelectProofs2 SelectProofs3 SelectProps WrapperModel EnforcedSpec EnforcedProofs EnforcedProofs2 EnforcedProps QuantileModel QuantileProps DistSpec DistProofs DpModel DpSpec DpProofs DpProofs2 DpProofs3 DpProofs4 DpProofs5
  PldModel PldProofs PldDpModel PldDpSpec PldDpProofs.
Import ListNotations.
Local Open Scope R_scope.
Local Close Scope Q_scope.

(** ** The result of compute_budgets *)
Definition weight (m : mech) : R := Q2R (m_weight m).
Definition strength (h : R) (m : mech) : R := sqrt 2 / (1 * h / weight m).
Definition final (te td h : R) (m : mech) : pmech :=
  PMech (pld_type_of (m_type m)) 1 (weight m) (Some (1 * h / weight m))
    (match m_type m with GENERIC => Some (strength h m, strength h m / te * td) | _ => None end).
Definition composed_pld (te td h : R) (m : mech) : pld :=
  match m_type m with
  | GAUSSIAN => FromGaussian (1 * h / weight m)
  | GENERIC => FromPrivacyParameters (sqrt 2 / h) (sqrt 2 / h / te * td)
  | _ => FromLaplace (1 * h / sqrt 2 / weight m)
  end.
Definition usable (m : mech) : Prop := 0 < weight m /\ In (m_type m) [LAPLACE; GAUSSIAN; GENERIC].

Lemma strength_eq h m : 0 < h -> 0 < weight m -> strength h m = weight m * (sqrt 2 / h).
Proof. intros Ph Pw. unfold strength. field. lra. Qed.
Lemma strength_pos h m : 0 < h -> 0 < weight m -> 0 < strength h m.
Proof.
  intros Ph Pw. rewrite strength_eq by assumption. assert (S2 := sqrt2_pos). apply Rmult_lt_0_compat; [exact Pw|].
  apply Rdiv_lt_0_compat; assumption.
Qed.

Lemma set_noises_final te td h (l : list mech) : 0 < te -> 0 < h -> Forall usable l ->
  set_noises te td h (map registered l) = Ok (map (final te td h) l).
Proof.
  intros Pt Ph F. assert (S2 := sqrt2_pos). induction F as [|m l [W T] F IH]; [reflexivity|]. cbn [map set_noises].
  assert (E : set_noise te td h (registered m) = Ok (final te td h m)).
  { unfold set_noise, registered. cbn [p_sens p_weight p_type p_budget]. fold (weight m). rewrite rdiv_some by lra. cbn [rbind].
    unfold final. destruct T as [T|[T|[T|[]]]]; rewrite <- T; cbn [pld_type_of].
    - reflexivity.
    - reflexivity.
    - assert (Q : 0 < 1 * h / weight m) by (apply Rdiv_lt_0_compat; lra).
      rewrite rdiv_some by lra. cbn [rbind]. rewrite rdiv_some by lra. reflexivity. }
  rewrite E. cbn [rbind]. rewrite IH. reflexivity.
Qed.

Lemma compose_final te td h (l : list mech) : 0 < te -> 0 < h -> Forall usable l -> forall c x,
  compose_loop te td h (map registered l) c x =
  Ok (match c, l with None, [] => None | None, _ => Some (map (composed_pld te td h) l) | Some y, _ => Some (y ++ map (composed_pld te td h) l)%list end).
Proof.
  intros Pt Ph F. assert (S2 := sqrt2_pos). induction F as [|m l [W T] F IH]; intros c x.
  - cbn. destruct c; [rewrite app_nil_r|]; reflexivity.
  - cbn [map compose_loop].
    assert (E : pld_of te td h (registered m) x = Ok (Some (composed_pld te td h m))).
    { unfold pld_of, registered, composed_pld. cbn [p_sens p_weight p_type]. fold (weight m).
      destruct T as [T|[T|[T|[]]]]; rewrite <- T; cbn [pld_type_of].
      - rewrite rdiv_some by lra. reflexivity.
      - rewrite rdiv_some by lra. reflexivity.
      - rewrite rdiv_some by lra. cbn [rbind]. rewrite rdiv_some by lra. reflexivity. }
    rewrite E. cbn [rbind]. rewrite IH. destruct c as [y|]; [rewrite <- app_assoc|]; reflexivity.
Qed.

Lemma sum_weights_registered l : sum_weights (map registered l) = sumR (map weight l).
Proof. unfold sum_weights. rewrite map_map. cbn. induction l as [|m l IH]; [reflexivity|]. cbn [map fold_right]. rewrite sumR_cons, IH. reflexivity. Qed.

Lemma sum_weights_pos l : Forall usable l -> l <> [] -> 0 < sumR (map weight l).
Proof.
  intros F Ne. assert (G : forall l, Forall usable l -> 0 <= sumR (map weight l)).
  { induction 1 as [|m k [W _] _ IH]; [cbn; change (sumR []) with 0; lra|]. cbn [map]. rewrite sumR_cons. lra. }
  destruct F as [|m k [W _] F]; [congruence|]. cbn [map]. rewrite sumR_cons. specialize (G k F). lra.
Qed.

Lemma strength_sum h l : 0 < h -> Forall usable l -> sumR (map (strength h) l) = sumR (map weight l) * (sqrt 2 / h).
Proof.
  intros Ph F. induction F as [|m k [W _] _ IH]; [cbn; change (sumR []) with 0; ring|]. cbn [map]. rewrite !sumR_cons, IH, strength_eq by assumption. ring.
Qed.

(** All standard deviations and budgets, from the noise [h] that was found. *)
Lemma computed fuel lib s ms' : 0 < Q2R (total_eps s) -> 0 <= Q2R (total_delta s) -> Forall usable (mechs s) ->
  pld_compute fuel lib s = Some (Ok ms') ->
  exists h, 0 < h /\ ms' = map (final (Q2R (total_eps s)) (Q2R (total_delta s)) h) (mechs s) /\
    (mechs s <> [] -> 0 < Q2R (total_delta s) ->
       lib (map (composed_pld (Q2R (total_eps s)) (Q2R (total_delta s)) h) (mechs s)) (Q2R (total_delta s)) <= Q2R (total_eps s)) /\
    (mechs s <> [] -> Q2R (total_delta s) = 0 -> sumR (map (strength h) (mechs s)) = Q2R (total_eps s)).
Proof.
  intros Pt Pd F E. assert (S2 := sqrt2_pos). unfold pld_compute in E. destruct (check_restrictions s); [|discriminate].
  destruct (finalized s); [discriminate|]. destruct (mechs s) as [|m0 l0] eqn:Em.
  { inversion E; subst. exists 1. split; [lra|]. split; [reflexivity|]. split; intro X; congruence. }
  destruct (scopes s); [|discriminate]. set (l := m0 :: l0) in *. set (te := Q2R (total_eps s)) in *. set (td := Q2R (total_delta s)) in *.
  assert (Ne : l <> []) by (unfold l; discriminate).
  unfold pld_compute_budgets in E. change (map registered l) with (registered m0 :: map registered l0) in E. cbn [map] in E.
  change (registered m0 :: map registered l0) with (map registered l) in E.
  destruct (Req_EM_T td 0) as [Z0|Nz].
  - rewrite fold_weights, Rplus_0_l, sum_weights_registered in E. assert (Ws := sum_weights_pos l F Ne).
    rewrite rdiv_some in E by lra. cbn [rmap] in E. set (h := sumR (map weight l) / te * sqrt 2) in E.
    assert (Ph : 0 < h). { unfold h. apply Rmult_lt_0_compat; [|exact S2]. apply Rdiv_lt_0_compat; assumption. }
    rewrite (set_noises_final te td h l Pt Ph F) in E. inversion E; subst ms'. exists h. split; [exact Ph|]. split; [reflexivity|]. split; [intros; lra|].
    intros _ _. transitivity (sumR (map weight l) * (sqrt 2 / h)).
    + apply strength_sum; assumption.
    + unfold h. field. lra.
  - destruct (find_minimum_noise_std fuel (pld_epsilon lib te td (map registered l)) te) as [[h|]|] eqn:Ef; try discriminate.
    destruct (find_sound _ _ _ _ Ef) as [Ph [[e [Ee Le]] _]]. rewrite (set_noises_final te td h l Pt Ph F) in E. inversion E; subst ms'.
    exists h. split; [exact Ph|]. split; [reflexivity|]. split; [|intros; lra]. intros _ _.
    unfold pld_epsilon, compose_distributions in Ee. rewrite (compose_final te td h l Pt Ph F None None) in Ee. unfold l at 1 in Ee. cbn [rbind] in Ee.
    inversion Ee; subst e. exact Le.
Qed.

(** ** What is released with a granted request *)
Definition served (rp : real_pydp) (te td h : R) (m : mech) (a b : dist (list Q)) : Prop :=
  match m_type m with
  | LAPLACE => exists l1 xs xs', (0 < l1)%Q /\ l1_within l1 xs xs' /\
      a = independent (rp_laplace rp (strength h m) l1) xs /\ b = independent (rp_laplace rp (strength h m) l1) xs'
  | GAUSSIAN => exists l2sq xs xs', (0 < l2sq)%Q /\ l2_within l2sq xs xs' /\
      a = independent (rp_gaussian rp (1 * h / weight m * sqrt (Q2R l2sq))) xs /\
      b = independent (rp_gaussian rp (1 * h / weight m * sqrt (Q2R l2sq))) xs'
  | GENERIC => is_dist a /\ is_dist b /\
      forall E, indistinguishable (strength h m) (strength h m / te * td) (prob a E) (prob b E)
  | _ => False
  end.

Lemma Q2R_pos q : (0 < q)%Q -> 0 < Q2R q.
Proof. intro L. apply Qlt_Rlt in L. rewrite RMicromega.Q2R_0 in L. exact L. Qed.

Lemma indistinguishable_weaken e d e' d' x y : e <= e' -> d <= d' -> 0 <= x -> 0 <= y -> indistinguishable e d x y -> indistinguishable e' d' x y.
Proof.
  intros Le Ld Px Py [A B].
  assert (X : exp e <= exp e') by (destruct Le as [Le| ->]; [left; apply exp_increasing; exact Le | right; reflexivity]).
  split; nra.
Qed.

Lemma prob_range {A} (d : dist A) E : is_dist d -> 0 <= prob d E <= 1.
Proof. intro D. apply mixture_range; [exact D|]. intro a. unfold indicator. destruct (E a); lra. Qed.

Lemma served_stands rp te td h m a b : 0 < te -> 0 < td -> 0 < h -> 0 < weight m -> (m_type m = GENERIC -> weight m <= 1) ->
  served rp te td h m a b -> stands_for rp (composed_pld te td h m) a b.
Proof.
  intros Pt Pd Ph Pw W1 S. assert (S2 := sqrt2_pos). unfold served in S. unfold composed_pld. destruct (m_type m); try (exfalso; exact S).
  - destruct S as [l1 [xs [xs' [L1 [Wi [Ea Eb]]]]]]. exists (strength h m), l1, xs, xs'.
    split; [apply strength_pos; assumption|]. split; [exact L1|]. split; [unfold strength; field; lra|]. auto.
  - destruct S as [l2 [xs [xs' [L2 [Wi [Ea Eb]]]]]]. assert (Q2 : 0 < sqrt (Q2R l2)) by (apply sqrt_lt_R0; apply Q2R_pos; exact L2).
    exists (1 * h / weight m * sqrt (Q2R l2)), l2, xs, xs'.
    split; [apply Rmult_lt_0_compat; [apply Rdiv_lt_0_compat; lra | exact Q2]|]. split; [exact L2|]. split; [field; lra|]. auto.
  - destruct S as [Da [Db I]]. split; [exact Da|]. split; [exact Db|]. intro E. specialize (W1 eq_refl).
    assert (Le : strength h m <= sqrt 2 / h).
    { rewrite strength_eq by assumption. assert (0 < sqrt 2 / h) by (apply Rdiv_lt_0_compat; assumption). nra. }
    apply (indistinguishable_weaken (strength h m) (strength h m / te * td)); [exact Le | | apply prob_range; exact Da | apply prob_range; exact Db | apply I].
    apply Rmult_le_compat_r; [lra|]. apply Rmult_le_compat_r; [|exact Le]. left. apply Rinv_0_lt_compat. exact Pt.
Qed.

#[local] Instance EqDec_Q : EqDec Q.
Proof. intros [a b] [c d]. destruct (Z.eq_dec a c) as [->|], (Pos.eq_dec b d) as [->|]; [left; reflexivity | right; congruence..]. Defined.

Lemma served_both rp te h m a b : distributions rp -> laplace_private rp -> 0 < te -> 0 < h -> 0 < weight m -> m_type m <> GAUSSIAN ->
  served rp te 0 h m a b -> both (strength h m) 0 a b /\ is_dist a /\ is_dist b.
Proof.
  intros [D _] L Pt Ph Pw Ng S. unfold served in S. destruct (m_type m); try (exfalso; exact S).
  - destruct S as [l1 [xs [xs' [L1 [Wi [-> ->]]]]]]. split; [|split; apply is_dist_independent; intros; apply D].
    apply both_events. intro E. apply L; [apply strength_pos; assumption | exact L1 | exact Wi].
  - congruence.
  - destruct S as [Da [Db I]]. split; [|split; assumption]. apply both_events. intro E. specialize (I E). rewrite Rmult_0_r in I. exact I.
Qed.

Section Calls.
Context {U P : Type} `{EqDec U} `{EqDec P} (rp : real_pydp).

Lemma within_l1 (l1 : Q) (keys : list P) f g : (l1_norm keys (fun k => f k - g k) <= l1)%Q -> l1_within l1 (map f keys) (map g keys).
Proof.
  intro L. split; [rewrite !map_length; reflexivity|]. exact (covers_pairs (Laplace 1 l1) keys f g L).
Qed.
Lemma within_l2 (l2 : Q) (keys : list P) f g : (l2sq_norm keys (fun k => f k - g k) <= l2)%Q -> l2_within l2 (map f keys) (map g keys).
Proof.
  intro L. split; [rewrite !map_length; reflexivity|]. exact (covers_pairs (Gaussian 1 1 l2) keys f g L).
Qed.

(** The types of the requests of the combiners. *)
Lemma request_types (c : call U P) : Forall four (c_combiners c) ->
  map req_type (call_requests c) =
  (repeat (mech_of (noise_kind (c_params c))) (list_sum (map requests (c_combiners c))) ++
   if selects_privately (c_params c) (c_public c) then [GENERIC] else [])%list.
Proof.
  intro F. unfold call_requests. rewrite map_app. f_equal; [|destruct (selects_privately _ _); reflexivity].
  induction F as [|cb cs Fo _ IH]; [reflexivity|]. cbn [flat_map]. rewrite map_app, IH.
  change (list_sum (map requests (cb :: cs))) with (requests cb + list_sum (map requests cs))%nat. rewrite repeat_app. f_equal.
  unfold request_type. generalize (requests cb) as n. induction n as [|n IHn]; [reflexivity|]. cbn [repeat map]. rewrite IHn. f_equal.
  destruct cb; try reflexivity. destruct Fo.
Qed.

Lemma noise_served (c : call U P) u col col' te td h ms m i qt s : keep_private rp -> 0 < te -> 0 <= td -> 0 < h -> usable m ->
  call_facts c col -> call_facts (forget u c) col' -> Forall four (c_combiners c) ->
  In (i, qt, s) (noised_quantities (c_params c) (c_combiners c)) ->
  nth_error ms (position (c_combiners c) i qt) = Some (final te td h m) -> m_type m = mech_of (noise_kind (c_params c)) ->
  served rp te td h m (noise_part rp c ms col (i, qt)) (noise_part rp (forget u c) ms col' (i, qt)).
Proof.
  intros Hk Pt Pd Ph [Pw _] Fc Fc' Fo I Em Tm. assert (S2 := sqrt2_pos). assert (E' := raw_forget c u col' Fc').
  apply noised_in in I. destruct I as [cb [Ei Ip]].
  assert (Hf : four cb) by (rewrite Forall_forall in Fo; apply Fo; apply nth_error_In in Ei; exact Ei).
  destruct (sens_known c col u i cb qt s Fc Ei Ip) as [s' [-> Cal]].
  destruct Cal as [col'' [E'' [_ [_ Cov]]]]. rewrite E' in E''. inversion E''; subst col''. clear E''.
  assert (Hv : forall lo hi n, cb = CVariance lo hi n -> max_contributions (c_params c) = None) by (intros lo hi n ->; destruct Hf).
  destruct (plan_positive _ _ _ _ (f_accepted _ _ Fc) Hv Ip) as [L1 L2]; [intros ->; destruct Hf|].
  destruct (Cov (MSpec (noise_kind (c_params c)) None 1 1)) as [mm [Emm Cm]].
  pose (f := fun k => raw_value (quantity_of qt) i k col). pose (f' := fun k => raw_value (quantity_of qt) i k col').
  assert (Mo : mechanism_of c ms i qt =
     match create_from_std (noise_kind (c_params c)) (1 * h / weight m) s' with Ok sm => Some sm | Err _ => None end).
  { unfold mechanism_of. rewrite Ei, Em, (found_once _ _ _ (plan_quantities _ _) Ip). reflexivity. }
  assert (Parts : forall law, (forall x, add_std_noise rp c ms i qt x = law x) ->
     noise_part rp c ms col (i, qt) = independent law (map f (c_keys c)) /\
     noise_part rp (forget u c) ms col' (i, qt) = independent law (map f' (c_keys c))).
  { intros law E. split; unfold noise_part; apply independent_same; intros k _; apply E. }
  unfold served. rewrite Tm. unfold create_additive_mechanism in Emm. cbn [ms_kind ms_std ms_eps ms_delta] in Emm.
  destruct (noise_kind (c_params c)) eqn:Nk; cbn [mech_of]; unfold create_from_std in Mo.
  - destruct (s_l1 s') as [l1|] eqn:El; [|discriminate]. inversion Emm; subst mm.
    exists l1, (map f (c_keys c)), (map f' (c_keys c)). split; [apply L1; reflexivity|].
    split; [apply within_l1; exact Cm|]. apply Parts. intro x. unfold add_std_noise. rewrite Mo. cbn [ask].
    replace (laplace_epsilon (1 * h / weight m)) with (strength h m); [reflexivity|].
    unfold laplace_epsilon, strength. field. lra.
  - destruct (s_l2sq s') as [l2|] eqn:El; [|discriminate]. inversion Emm; subst mm.
    exists l2, (map f (c_keys c)), (map f' (c_keys c)). split; [apply L2; reflexivity|].
    split; [apply within_l2; exact Cm|]. apply Parts. intro x. unfold add_std_noise. rewrite Mo. reflexivity.
Qed.

Lemma keep_strategy (c : call U P) col te td h ms m : keep_private rp -> 0 < te -> 0 <= td -> 0 < h -> usable m -> m_type m = GENERIC ->
  call_facts c col -> selects_privately (c_params c) (c_public c) = true ->
  nth_error ms (list_sum (map requests (c_combiners c))) = Some (final te td h m) ->
  exists l0, max_partitions_contributed (c_params c) = Some l0 /\ max_contributions (c_params c) = None /\
    private_strategy (keep_probability rp c ms) l0 (strength h m) (strength h m / te * td).
Proof.
  intros Hk Pt Pd Ph [Pw _] Tm Fc Sp Em. assert (Ha := f_accepted _ _ Fc). destruct (f_private _ _ Fc Sp) as [Pn _].
  assert (Hm := f_contrib _ _ Fc (or_introl Pn)).
  destruct (accepted_facts _ Ha) as [_ [_ [_ Hl]]]. rewrite Hm in Hl. destruct Hl as [l0 [linf [E0 [E1 [P0 P1]]]]].
  exists l0. split; [exact E0|]. split; [exact Hm|]. assert (Ps := strength_pos h m Ph Pw).
  assert (Pdl : 0 <= strength h m / te * td).
  { apply Rmult_le_pos; [|exact Pd]. left. apply Rdiv_lt_0_compat; assumption. }
  assert (K := Hk (strategy_name (partition_selection_strategy (c_params c))) _ _ l0 (pre_threshold (c_params c)) Ps Pdl P0 (known_strategy _)
              (fun t Et => accepted_pre_threshold _ t Ha Et)).
  assert (Ex : forall n, keep_probability rp c ms n = rp_keep rp (strategy_name (partition_selection_strategy (c_params c)))
     (strength h m) (strength h m / te * td) (Some l0) (pre_threshold (c_params c)) n).
  { intro n. unfold keep_probability. rewrite Em. unfold read_budget, final. cbn [p_budget]. rewrite Tm, E0. reflexivity. }
  destruct K as [K1 [K2 K3]]. split; [intro n; rewrite Ex; apply K1|]. split; [intros n Hn; rewrite Ex; apply K2; exact Hn|].
  intros ns ns' E Hn. specialize (K3 ns ns' E Hn). unfold kept in *.
  assert (Em2 : forall l, map (keep_probability rp c ms) l = map (rp_keep rp (strategy_name (partition_selection_strategy (c_params c)))
     (strength h m) (strength h m / te * td) (Some l0) (pre_threshold (c_params c))) l) by (intro l; apply map_ext; exact Ex).
  rewrite !Em2. exact K3.
Qed.
End Calls.
