(** Proofs for C71: the hypotheses of [total_budget] for the runs of an accountant. *)
From Coq Require Import String List ZArith QArith Qreals Reals Lqa Lra Bool Lia.
From Verif Require Import Base BaseLemmas BackendModel ListLemmas BackendSpec BackendProofs ParamsModel SensModel CombinerModel CombinerProofs3 EngineModel EngineSpec
  EngineProofs EngineProofs2 EngineProofs3 EngineProofs4 EngineProofs5 EngineProps EngineProps2 BudgetModel VectorModel ExpMechProofs BudgetSpec BudgetProofs LaplaceModel LaplaceSpec LaplaceProofs
  SelectModel SelectSpec SelectProofs SelectProofs2 SelectProofs3 SelectProps WrapperModel EnforcedSpec EnforcedProofs EnforcedProofs2 EnforcedProps QuantileModel QuantileProps DistSpec DistProofs DpModel DpSpec DpProofs DpProofs2 DpProofs3 DpProofs4 DpProofs5
  PldModel PldProofs PldDpModel PldDpSpec PldDpProofs PldDpProofs2 PldDpProofs3.
Import ListNotations.
Local Open Scope R_scope.

Section Runs.
Context {U P : Type} `{EqDec U} `{EqDec P}.

Lemma valid_four (c : call U P) : valid_pld_call c -> Forall four (c_combiners c).
Proof. intro V. destruct (valid_call_facts c (proj1 V)) as [col F]. exact (four_combiners c col V F). Qed.

Lemma pld_types (calls : list (call U P)) : Forall valid_pld_call calls ->
  Forall (fun t => In t [LAPLACE; GAUSSIAN; GENERIC]) (map req_type (flat_map call_requests calls)).
Proof.
  intro F. induction F as [|c cs V _ IH]; [constructor|]. cbn [flat_map]. rewrite map_app. apply Forall_app. split; [|exact IH].
  rewrite (request_types c (valid_four c V)). apply Forall_app. split.
  - apply Forall_forall. intros t I. apply repeat_spec in I. subst t. destruct (noise_kind (c_params c)); cbn; tauto.
  - destruct (selects_privately _ _); repeat constructor; cbn; tauto.
Qed.

Lemma run_budget (rp : real_pydp) inf fuel lib (e d : Q) num ws s0 ops u N X (calls : list (call U P)) ms' :
  keeps_promises inf lib rp -> Q2R e < inf ->
  new_accountant e d num ws = Ok s0 -> Forall op_pos ops ->
  granted ops (outs s0 ops) = flat_map call_requests calls ->
  ((d == 0)%Q \/ selection_weights (mechs (run s0 ops))) ->
  pld_compute fuel lib (run s0 ops) = Some (Ok ms') ->
  Forall valid_pld_call calls -> Forall (fun c => large_enough N X [] c /\ large_enough N X [] (forget u c)) calls ->
  forall E, indistinguishable (Q2R e) (Q2R d)
    (prob (run_pld_calls rp N X (combine calls (divide_specs calls ms'))) E)
    (prob (run_pld_calls rp N X (combine (map (forget u) calls) (divide_specs (map (forget u) calls) ms'))) E).
Proof.
  intros K Fin Hn Hp Hg Hw Hc V Le E.
  destruct (granted_counts _ _ _ _ _ ops Hn) as [_ Ty]. rewrite Hg in Ty.
  assert (Wp := new_run_pos _ _ _ _ _ _ Hn Hp).
  destruct (run_totals ops s0) as [Te [Td _]].
  destruct (new_accountant_inv _ _ _ _ _ Hn) as [E0 [Pe [Pd _]]].
  assert (Te0 : total_eps (run s0 ops) = e) by (rewrite Te, E0; reflexivity).
  assert (Td0 : total_delta (run s0 ops) = d) by (rewrite Td, E0; reflexivity).
  assert (Td1 : total_delta s0 = d) by (rewrite E0; reflexivity).
  assert (T3 := pld_types calls V). rewrite <- Ty in T3.
  rewrite <- Te0, <- Td0.
  apply (total_budget rp inf fuel lib u N X (run s0 ops) calls ms' K); try assumption.
  - rewrite Te0. exact Fin.
  - rewrite Te0. apply Q2R_pos. exact Pe.
  - rewrite Td0. apply Qle_Rle in Pd. rewrite RMicromega.Q2R_0 in Pd. exact Pd.
  - rewrite Forall_map in T3. apply Forall_forall. intros m I. rewrite Forall_forall in Wp, T3. split; [|exact (T3 m I)].
    unfold weight. apply Q2R_pos. exact (proj1 (Wp m I)).
  - rewrite Td0. intro Z0. apply Forall_forall. intros m I G.
    apply (gaussian_needs_delta ops s0).
    + rewrite Hg, <- Ty, <- G. apply in_map. exact I.
    + rewrite Td1. apply eqR_Qeq. rewrite Z0, RMicromega.Q2R_0. reflexivity.
  - rewrite Td0. intro Q0. destruct Hw as [Z0|Hw]; [|exact Hw].
    exfalso. apply Qeq_eqR in Z0. rewrite RMicromega.Q2R_0 in Z0. lra.
Qed.

(** The requests of accepted calls contain none for partition selection. *)
Lemma accepted_public (c : call U P) : engine_accepts c -> is_some (c_public c) = true /\ Forall (fun m => In m [COUNT; PRIVACY_ID_COUNT; SUM; MEAN]) (metrics (c_params c)).
Proof.
  unfold engine_accepts, check_accountant. destruct (is_some (c_public c)); cbn [negb raise_if]; [|discriminate]. intro A. split; [reflexivity|].
  unfold only in A. destruct (forallb _ _) eqn:F; [|discriminate].
  rewrite forallb_forall in F. apply Forall_forall. intros m I. specialize (F m I). destruct m; cbn in F |- *; try discriminate; tauto.
Qed.
Lemma accepted_valid (c : call U P) : valid_call c -> engine_accepts c -> post_aggregation_thresholding (c_params c) = false -> valid_pld_call c.
Proof. intros V A T. destruct (accepted_public c A) as [_ M]. split; [exact V|]. split; assumption. Qed.
Lemma accepted_weights (calls : list (call U P)) ms : Forall valid_pld_call calls -> Forall engine_accepts calls ->
  map m_type ms = map req_type (flat_map call_requests calls) -> selection_weights ms.
Proof.
  intros V A T. assert (No : Forall (fun t => t <> GENERIC) (map req_type (flat_map call_requests calls))).
  { clear T. induction A as [|c cs A _ IH]; [constructor|]. inversion V as [|? ? Vc Vs]; subst. cbn [flat_map]. rewrite map_app.
    apply Forall_app. split; [|exact (IH Vs)]. rewrite (request_types c (valid_four c Vc)).
    destruct (accepted_public c A) as [Pu _]. unfold selects_privately. rewrite Pu. cbn [negb andb]. rewrite app_nil_r.
    apply Forall_forall. intros t I. apply repeat_spec in I. subst t. destruct (noise_kind (c_params c)); discriminate. }
  rewrite <- T in No. rewrite Forall_map in No. apply Forall_forall. intros m I G. rewrite Forall_forall in No. elim (No m I G).
Qed.
(** The specs of every call. *)
Lemma specs_of_calls te td h : forall (calls : list (call U P)) l, Forall usable l ->
  map m_type l = map req_type (flat_map call_requests calls) ->
  Forall2 (fun c ms => exists l', ms = map (final te td h) l' /\ Forall usable l' /\ map m_type l' = map req_type (call_requests c))
    calls (divide_specs calls (map (final te td h) l)).
Proof.
  induction calls as [|c calls IH]; intros l Us T; [constructor|]. cbn [divide_specs flat_map] in *. rewrite map_app in T.
  set (n := length (call_requests c)) in *.
  assert (T1 : map m_type (firstn n l) = map req_type (call_requests c)).
  { rewrite <- firstn_map, T, firstn_app, map_length. fold n. rewrite Nat.sub_diag, firstn_O, app_nil_r. apply firstn_all2. rewrite map_length. reflexivity. }
  assert (T2 : map m_type (skipn n l) = map req_type (flat_map call_requests calls)).
  { rewrite <- skipn_map, T, skipn_app, map_length. fold n. rewrite Nat.sub_diag, skipn_all2 by (rewrite map_length; reflexivity). reflexivity. }
  assert (Us1 : Forall usable (firstn n l)) by (rewrite <- (firstn_skipn n l) in Us; apply Forall_app in Us; apply Us).
  assert (Us2 : Forall usable (skipn n l)) by (rewrite <- (firstn_skipn n l) in Us; apply Forall_app in Us; apply Us).
  rewrite firstn_map, skipn_map. constructor; [|apply IH; assumption].
  exists (firstn n l). split; [reflexivity|]. split; assumption.
Qed.

Lemma mechanism_created (c : call U P) (u : U) te td h l i qt s : 0 < h -> valid_pld_call c ->
  Forall usable l -> map m_type l = map req_type (call_requests c) ->
  In (i, qt, s) (noised_quantities (c_params c) (c_combiners c)) ->
  exists sm, mechanism_of c (map (final te td h) l) i qt = Some sm /\ sensible sm.
Proof.
  intros Ph V Us T I. destruct (valid_call_facts c (proj1 V)) as [col Fc]. assert (Fo := four_combiners c col V Fc).
  assert (S2 := sqrt2_pos).
  assert (Ln := f_equal (@length mech_type) T). rewrite !map_length, (requests_length c Fo) in Ln.
  assert (Lt : (position (c_combiners c) i qt < length l)%nat).
  { assert (Iq : In (position (c_combiners c) i qt) (seq 0 (list_sum (map requests (c_combiners c))))).
    { rewrite <- (quantity_positions c Fo). apply (in_map (fun iq => position (c_combiners c) (fst iq) (snd iq)) _ (i, qt)).
      unfold quantities. apply (in_map fst _ (i, qt, s)). exact I. }
    apply in_seq in Iq. lia. }
  destruct (nth_error l (position (c_combiners c) i qt)) as [m|] eqn:Em; [|apply nth_error_None in Em; lia].
  assert (Pw : 0 < weight m) by (rewrite Forall_forall in Us; apply Us; apply nth_error_In in Em; exact Em).
  assert (Ef := map_nth_error (final te td h) _ _ Em).
  apply noised_in in I. destruct I as [cb [Ei Ip]].
  assert (Hf : four cb) by (rewrite Forall_forall in Fo; apply Fo; apply nth_error_In in Ei; exact Ei).
  destruct (sens_known c col u i cb qt s Fc Ei Ip) as [s' [-> Cal]].
  destruct Cal as [col'' [E'' [_ [_ Cov]]]].
  assert (Hv : forall lo hi n, cb = CVariance lo hi n -> max_contributions (c_params c) = None) by (intros lo hi n ->; destruct Hf).
  destruct (plan_positive _ _ _ _ (f_accepted _ _ Fc) Hv Ip) as [L1 L2]; [intros ->; destruct Hf|].
  destruct (Cov (MSpec (noise_kind (c_params c)) None 1 1)) as [mm [Emm Cm]].
  unfold mechanism_of. rewrite Ei, Ef, (found_once _ _ _ (plan_quantities _ _) Ip). unfold read_std, final. cbn [p_std rbind].
  unfold create_additive_mechanism in Emm. cbn [ms_kind ms_std ms_eps ms_delta] in Emm. unfold create_from_std.
  assert (Pn : 0 < 1 * h / weight m) by (apply Rdiv_lt_0_compat; lra).
  destruct (noise_kind (c_params c)) eqn:Nk.
  - destruct (s_l1 s') as [l1|] eqn:El; [|discriminate]. eexists. split; [reflexivity|]. split; [|apply L1; reflexivity].
    unfold laplace_epsilon. apply Rdiv_lt_0_compat; [lra|]. apply Rdiv_lt_0_compat; assumption.
  - destruct (s_l2sq s') as [l2|] eqn:El; [|discriminate]. eexists. split; [reflexivity|]. cbn [sensible].
    apply Rmult_lt_0_compat; [exact Pn|]. apply sqrt_lt_R0. apply Q2R_pos. apply L2. reflexivity.
Qed.

Lemma run_usable (e d : Q) num ws s0 ops (calls : list (call U P)) :
  new_accountant e d num ws = Ok s0 -> Forall op_pos ops -> granted ops (outs s0 ops) = flat_map call_requests calls ->
  Forall valid_pld_call calls -> Forall usable (mechs (run s0 ops)) /\ map m_type (mechs (run s0 ops)) = map req_type (flat_map call_requests calls) /\
  0 < Q2R (total_eps (run s0 ops)) /\ 0 <= Q2R (total_delta (run s0 ops)).
Proof.
  intros Hn Hp Hg V. destruct (granted_counts _ _ _ _ _ ops Hn) as [_ Ty]. rewrite Hg in Ty.
  assert (Wp := new_run_pos _ _ _ _ _ _ Hn Hp). assert (T3 := pld_types calls V). rewrite <- Ty in T3.
  split; [|split; [exact Ty|]].
  - rewrite Forall_map in T3. apply Forall_forall. intros m I. rewrite Forall_forall in Wp, T3. split; [|exact (T3 m I)].
    unfold weight. apply Q2R_pos. exact (proj1 (Wp m I)).
  - destruct (run_totals ops s0) as [Te [Td _]]. destruct (new_accountant_inv _ _ _ _ _ Hn) as [E0 [Pe [Pd _]]].
    rewrite Te, Td, E0. cbn [total_eps total_delta]. split; [apply Q2R_pos; exact Pe|].
    apply Qle_Rle in Pd. rewrite RMicromega.Q2R_0 in Pd. exact Pd.
Qed.

Lemma created fuel lib (u : U) (e d : Q) num ws s0 ops (calls : list (call U P)) ms' :
  new_accountant e d num ws = Ok s0 -> Forall op_pos ops -> granted ops (outs s0 ops) = flat_map call_requests calls ->
  Forall valid_pld_call calls -> pld_compute fuel lib (run s0 ops) = Some (Ok ms') ->
  Forall2 (fun c ms => forall i qt s, In (i, qt, s) (noised_quantities (c_params c) (c_combiners c)) ->
     exists sm, mechanism_of c ms i qt = Some sm /\ sensible sm) calls (divide_specs calls ms').
Proof.
  intros Hn Hp Hg V Hc. destruct (run_usable e d num ws s0 ops calls Hn Hp Hg V) as [Us [T [Pt Pd]]].
  destruct (computed fuel lib _ ms' Pt Pd Us Hc) as [h [Ph [-> _]]].
  assert (F := specs_of_calls (Q2R (total_eps (run s0 ops))) (Q2R (total_delta (run s0 ops))) h calls _ Us T).
  clear -F V Ph u. induction F as [|c ms calls mss [l' [-> [Us' T']]] F IH]; [constructor|]. inversion V; subst.
  constructor; [|apply IH; assumption]. intros i qt s I. eapply mechanism_created; eassumption.
Qed.
(** The bounds of the values. *)
Lemma no_trees_needed N X T (c : call U P) : Forall four (c_combiners c) -> large_enough N X T c -> large_enough N X [] c.
Proof.
  intros Fo L col E k I. destruct (L col E k I) as [A B]. split; [exact A|]. intro i. destruct (B i) as [B1 [B2 _]].
  split; [exact B1|]. split; [exact B2|]. split; intros ps Ei; apply nth_error_In in Ei; rewrite Forall_forall in Fo; elim (Fo _ Ei).
Qed.

Lemma bounds_free (rp : real_pydp) fuel lib (e d : Q) num ws s0 ops (calls : list (call U P)) ms' N X N' X' :
  distributions rp -> keep_private rp ->
  new_accountant e d num ws = Ok s0 -> Forall op_pos ops -> granted ops (outs s0 ops) = flat_map call_requests calls ->
  Forall valid_pld_call calls -> pld_compute fuel lib (run s0 ops) = Some (Ok ms') ->
  Forall (fun c => large_enough N X [] c /\ large_enough N' X' [] c) calls ->
  forall E, prob (run_pld_calls rp N X (combine calls (divide_specs calls ms'))) E =
            prob (run_pld_calls rp N' X' (combine calls (divide_specs calls ms'))) E.
Proof.
  intros D Hk Hn Hp Hg V Hc Le. destruct (run_usable e d num ws s0 ops calls Hn Hp Hg V) as [Us [T [Pt Pd]]].
  destruct (computed fuel lib _ ms' Pt Pd Us Hc) as [h [Ph [-> _]]].
  set (te := Q2R (total_eps (run s0 ops))) in *. set (td := Q2R (total_delta (run s0 ops))) in *.
  assert (F := specs_of_calls te td h calls _ Us T).
  intro E. unfold prob. match goal with |- mixture _ ?f = _ => generalize f end. clear E Hc Hg T Us.
  induction F as [|c ms calls' mss [l' [-> [Us' T']]] F IH]; intro G; [reflexivity|].
  inversion V as [|? ? V1 V2]; subst. inversion Le as [|? ? [L1 L1'] L2]; subst.
  destruct (valid_call_facts c (proj1 V1)) as [col Fc]. assert (Fo := four_combiners c col V1 Fc).
  assert (Sa := is_sane rp c col te td h l' D Hk Pt Pd Ph Us' Fc Fo T').
  cbn [combine run_pld_calls]. rewrite !mixture_bind.
  rewrite (pld_run_parts rp c _ col N X _ V1 Fc Sa L1), (pld_run_parts rp c _ col N' X' _ V1 Fc Sa L1').
  apply mixture_ext. intro yss. rewrite !mixture_bind.
  transitivity (mixture (run_pld_calls rp N X (combine calls' mss)) (fun os => G (finish c yss :: os))).
  - apply mixture_ext. intro os. apply mixture_ret.
  - rewrite (IH V2 L2). apply mixture_ext. intro os. symmetry. apply mixture_ret.
Qed.
End Runs.

(** Thresholding specs never get a budget. *)
Lemma set_noises_nth te td h ms : forall ms' i m, set_noises te td h ms = Ok ms' -> nth_error ms i = Some m ->
  exists m', nth_error ms' i = Some m' /\ set_noise te td h m = Ok m'.
Proof.
  induction ms as [|x ms IH]; intros ms' i m E N; [destruct i; discriminate|]. cbn [set_noises] in E.
  destruct (set_noise te td h x) as [x'|] eqn:Ex; [|discriminate]. cbn [rbind] in E.
  destruct (set_noises te td h ms) as [l|] eqn:El; [|discriminate]. cbn [rmap] in E. inversion E; subst.
  destruct i as [|i]; cbn [nth_error] in *.
  - inversion N; subst. eauto.
  - eapply IH; eauto.
Qed.
Lemma thresholding_unset fuel lib s ms' i m : pld_compute fuel lib s = Some (Ok ms') ->
  nth_error (mechs s) i = Some m -> m_type m = LAPLACE_THRESHOLDING \/ m_type m = GAUSSIAN_THRESHOLDING ->
  exists m', nth_error ms' i = Some m' /\ read_budget m' = Err AssertionError.
Proof.
  intros E N T. unfold pld_compute in E. destruct (check_restrictions s); [|discriminate]. destruct (finalized s); [discriminate|].
  destruct (mechs s) as [|m0 l] eqn:Em; [destruct i; discriminate|]. destruct (scopes s); [|discriminate]. rewrite <- Em in *.
  assert (Nm := map_nth_error registered i (mechs s) N). unfold pld_compute_budgets in E.
  destruct (map registered (mechs s)) as [|r0 rl] eqn:Er; [rewrite Em in Er; discriminate|]. rewrite <- Er in *. clear Er.
  destruct (if Req_EM_T _ _ then _ else _) as [[h|]|]; try discriminate. inversion E as [Es].
  destruct (set_noises_nth _ _ _ _ _ _ _ Es Nm) as [m' [Nm' E']]. exists m'. split; [exact Nm'|].
  unfold set_noise in E'. destruct (rdiv _ _); [|discriminate]. cbn [rbind] in E'. unfold registered in E'. cbn [p_type p_sens p_weight p_budget] in E'.
  destruct T as [-> | ->] in E'; cbn [pld_type_of] in E'; inversion E'; reflexivity.
Qed.
