(** Further lemmas for C78: which queries run. *)
From Coq Require Import String List ZArith QArith Qabs Qreals Reals Bool Permutation Lia Lqa Lra.
From Verif Require Import Base BaseLemmas ListLemmas BackendModel BackendSpec BounderSpec ParamsModel SensModel CombinerModel CombinerSpec CombinerProofs3 EngineModel EngineSpec
  BudgetModel BudgetSpec WrapperModel DataframeModel DataframeProofs DataframeProps FrameModel FrameSpec FrameProofs.
From Verif Require RecordModel.
Import ListNotations.
Local Open Scope list_scope.

Lemma caps_of specs lo hi : get_value_caps specs = Ok (lo, hi) ->
  (lo = None /\ hi = None /\ forall m, In m (map a_metric specs) -> m = ACount) \/ (exists l h, lo = Some l /\ hi = Some h).
Proof.
  unfold get_value_caps. destruct (forallb _ specs) eqn:E.
  - intro X. injection X as <- <-. left. split; [reflexivity|]. split; [reflexivity|]. intros m I. apply in_map_iff in I. destruct I as [s [<- I]].
    rewrite forallb_forall in E. apply eqb_eq. apply E. exact I.
  - destruct (somes (map a_min specs)) as [|l ls]; [discriminate|]. destruct (somes (map a_max specs)) as [|h hs]; [discriminate|].
    destruct (all_equal (l :: ls) && all_equal (h :: hs)); [|discriminate]. intro X. injection X as <- <-. right. eauto.
Qed.

Lemma query_caps {K} (b : builder K) q : build_query b = Ok q ->
  (q_min q = None /\ q_max q = None /\ forall m, In m (map fst (q_metrics q)) -> m = ACount) \/ (exists l h, q_min q = Some l /\ q_max q = Some h).
Proof.
  unfold build_query. destruct (b_by b) as [by_|]; [|discriminate]. destruct (b_specs b) as [|s0 ss] eqn:Eb; [discriminate|]. rewrite <- Eb.
  destruct (distinctb _); [|discriminate]. destruct (get_input_column _) as [input|]; [|discriminate]. cbn [rbind].
  destruct (get_value_caps (b_specs b)) as [[lo hi]|] eqn:Ec; [|discriminate]. cbn [rbind fst snd]. intro X. injection X as <-.
  cbn [q_min q_max q_metrics]. rewrite map_map. cbn [fst]. apply caps_of. exact Ec.
Qed.

Section Accepted.
Context {K : Type}.
Variable q : query K.
Variable nk : noise.
Variables g n : Z.
Hypothesis Hg : q_max_groups q = Some g.
Hypothesis Hn : q_max_contributions q = Some n.
Hypothesis Pg : (0 < g)%Z.
Hypothesis Pn : (0 < n)%Z.
Hypothesis Nd : NoDup (map fst (q_metrics q)).
Hypothesis Hr : good_range (map fst (q_metrics q)) (q_min q) (q_max q).

Lemma agg_has m : (forall a, agg_metric a <> m) -> has m (map (fun x => agg_metric (fst x)) (q_metrics q)) = false.
Proof.
  intro N. unfold has. destruct (existsb _ _) eqn:E; [|reflexivity]. exfalso. apply existsb_exists in E. destruct E as [x [I E]].
  apply in_map_iff in I. destruct I as [y [<- _]].
  destruct m, (fst y) as [| |] eqn:Ey; try discriminate; apply (N (fst y)); rewrite Ey; reflexivity.
Qed.
Lemma agg_in a : has (agg_metric a) (map (fun x => agg_metric (fst x)) (q_metrics q)) = true -> In a (map fst (q_metrics q)).
Proof.
  intro E. unfold has in E. apply existsb_exists in E. destruct E as [x [I E]].
  apply in_map_iff in I. destruct I as [y [<- I]]. apply in_map_iff. exists y. split; [|exact I]. destruct (fst y), a; cbn in E; congruence.
Qed.
Lemma no_percentiles : percentiles (map (fun x => agg_metric (fst x)) (q_metrics q)) = [].
Proof. unfold percentiles. generalize (q_metrics q) as l. induction l as [|[[| |] o] l IH]; [reflexivity | exact IH | exact IH | exact IH]. Qed.

Lemma query_accepted : exists p, post_init (query_params q nk) = Ok p.
Proof.
  assert (G : (g <=? 0)%Z = false) by (apply Z.leb_gt; exact Pg). assert (N : (n <=? 0)%Z = false) by (apply Z.leb_gt; exact Pn).
  assert (V := agg_has VECTOR_SUM ltac:(intros []; discriminate)).
  assert (O : (forall m, In m (map fst (q_metrics q)) -> m = ACount) -> only [PRIVACY_ID_COUNT; COUNT] (map (fun x => agg_metric (fst x)) (q_metrics q)) = true).
  { intro A. unfold only. apply forallb_forall. intros m I. apply in_map_iff in I. destruct I as [x [<- I]]. rewrite (A (fst x)) by (apply in_map; exact I). reflexivity. }
  unfold post_init, query_params, aggregate_params. set (ms := map (fun m => agg_metric (fst m)) (q_metrics q)) in *. clearbody ms.
  cbn [fold_left set_kw default_params r_metrics r_noise_kind r_max_partitions_contributed r_max_contributions_per_partition r_max_contributions
       r_budget_weight r_min_value r_max_value r_min_sum_per_partition r_max_sum_per_partition r_custom_combiners r_contribution_bounds_already_enforced
       r_pre_threshold is_some]. 
  rewrite Hg, Hn, V. cbn [option_map not_positive_int]. rewrite G, N.
  unfold good_range in Hr. destruct (q_min q) as [lo|], (q_max q) as [hi|]; try contradiction.
  - destruct Hr as [L _]. apply Qle_bool_iff in L. cbn [option_map is_some]. unfold bad_range, improper, out_of_order. rewrite L. destruct ms; eexists; reflexivity.
  - cbn [option_map is_some]. rewrite (O Hr). destruct ms; eexists; reflexivity.
Qed.

Lemma mk_sens_ok z x : (0 < z)%Z -> (0 < x)%Q -> exists s, mk_sens (Some z) (Some x) None None = Ok s.
Proof.
  intros Pz Px. unfold mk_sens. assert (E : (z <=? 0)%Z = false) by (apply Z.leb_gt; exact Pz). rewrite E.
  unfold nonpos. assert (F : Qle_bool x 0 = false) by (destruct (Qle_bool x 0) eqn:Y; [apply Qle_bool_iff in Y; Lqa.lra | reflexivity]).
  rewrite F. eexists; reflexivity.
Qed.

Lemma query_has_combiners p : post_init (query_params q nk) = Ok p -> exists cs, create_compound_combiner p = Ok cs /\ Forall (fun c => c <> CThresh) cs.
Proof.
  intro Hp. destruct (query_params_fields q nk p Hp) as [Em [_ [_ [Mc [Ms [_ [Pt [_ [_ [El [Ec [Emin Emax]]]]]]]]]]]].
  rewrite Hg in El. rewrite Hn in Ec.
  assert (Sc : exists c, new_count p = Ok c).
  { unfold new_count, sens_count. rewrite Mc, El, Ec. cbn [injZ option_map]. destruct (mk_sens_ok g (inject_Z n) Pg) as [s ->]; [|eexists; reflexivity].
    change 0%Q with (inject_Z 0). rewrite <- Zlt_Qlt. exact Pn. }
  assert (Qn : (0 < inject_Z n)%Q) by (change 0%Q with (inject_Z 0); rewrite <- Zlt_Qlt; exact Pn).
  assert (Ss : has SUM (metrics p) = true -> exists l h, new_sum p = Ok (CSum false l h)).
  { rewrite Em. intro Hs. assert (I := agg_in ASum Hs). unfold good_range in Hr. unfold new_sum, sens_sum, bounds_per_partition_are_set. rewrite Emin, Emax, Mc, El, Ec, Ms.
    destruct (q_min q) as [lo|], (q_max q) as [hi|]; try contradiction; [|specialize (Hr _ I); discriminate].
    destruct Hr as [L [Z0 _]]. specialize (Z0 I).
    destruct (mk_sens_ok g (max_abs lo hi * inject_Z n) Pg) as [s ->]; [|eexists; eexists; reflexivity].
    assert (Pm : (0 < max_abs lo hi)%Q).
    { unfold max_abs. destruct (Qlt_le_dec 0 (Qminmax.Qmax (Qabs lo) (Qabs hi))) as [X|X]; [exact X|]. exfalso. apply Z0.
      assert (A := Qminmax.Q.le_max_l (Qabs lo) (Qabs hi)). assert (A' := Qminmax.Q.le_max_r (Qabs lo) (Qabs hi)).
      assert (A0 : (Qabs lo <= 0 /\ Qabs hi <= 0)%Q) by Lqa.lra. clear A A'. rename A0 into A.
      destruct A as [A1 A2]. assert (B1 := Qle_Qabs lo). assert (B2 := Qle_Qabs hi). assert (B3 := Qle_Qabs (- lo)). assert (B4 := Qle_Qabs (- hi)).
      rewrite Qabs_opp in B3, B4. split; apply Qle_antisym; Lqa.lra. }
    apply Qmult_lt_0_compat; assumption. }
  assert (Sm : has MEAN (metrics p) = true -> forall names, exists l h, new_mean p names = Ok (CMean l h names)).
  { rewrite Em. intros Hs names. assert (I := agg_in AMean Hs). unfold good_range in Hr. unfold new_mean. rewrite Emin, Emax.
    destruct (q_min q) as [lo|] eqn:Elo, (q_max q) as [hi|] eqn:Ehi; try contradiction; [|specialize (Hr _ I); discriminate].
    destruct Hr as [_ [_ L]]. specialize (L I). unfold new_count in Sc. destruct (sens_count p) as [s|]; [|destruct Sc; discriminate]. cbn [rbind].
    unfold sens_normalized_sum. rewrite Emin, Emax, Mc, El, Ec.
    destruct (mk_sens_ok g ((hi - lo) / 2 * inject_Z n) Pg) as [s' ->]; [|eexists; eexists; reflexivity].
    apply Qmult_lt_0_compat; [|exact Qn]. apply Qlt_shift_div_l; [reflexivity|]. Lqa.lra. }
  destruct Sc as [c Sc]. assert (c = CCount) by (unfold new_count in Sc; destruct (sens_count p); cbn in Sc; congruence). subst c.
  unfold create_compound_combiner, create_combiners. rewrite Pt, Em in *.
  rewrite (agg_has VECTOR_SUM), (agg_has VARIANCE), (agg_has PRIVACY_ID_COUNT), no_percentiles by (intros []; discriminate).
  destruct (has MEAN _) eqn:H1.
  - destruct (Sm eq_refl ([NMean] ++ when (has COUNT (map (fun x => agg_metric (fst x)) (q_metrics q))) NCount ++ when (has SUM (map (fun x => agg_metric (fst x)) (q_metrics q))) NSum)) as [l [h ->]].
    destruct (has COUNT _), (has SUM _); (eexists; split; [reflexivity|]; repeat constructor; discriminate).
  - rewrite Sc. destruct (has SUM _) eqn:H2; [destruct (Ss eq_refl) as [l [h ->]]|]; destruct (has COUNT _);
    (eexists; split; [reflexivity|]; repeat constructor; discriminate).
Qed.
End Accepted.

(** The accountant grants the budgets. *)
Definition ask_all (ts : list mech_type) : list op := map (fun t => Request t 1 1 None) ts.
Lemma requests_ok ts : forall s, finalized s = false -> (In GAUSSIAN ts -> Qeq_bool (total_delta s) 0 = false) ->
  Forall (fun r => exists o, r = Ok o) (outs s (ask_all ts)) /\
  finalized (run s (ask_all ts)) = false /\ exp_num (run s (ask_all ts)) = exp_num s /\ exp_weights (run s (ask_all ts)) = exp_weights s /\
  mechs (run s (ask_all ts)) = mechs s ++ map (fun t => Mech t 1 1 None None) ts /\
  scopes (run s (ask_all ts)) = map (fun sc => (fst sc, snd sc ++ seq (length (mechs s)) (length ts))) (scopes s).
Proof.
  induction ts as [|t ts IH]; intros s Hf Hd.
  - cbn. split; [constructor|]. repeat (split; [reflexivity || assumption|]). split; [rewrite app_nil_r; reflexivity|].
    rewrite <- (map_id (scopes s)) at 1. apply map_ext. intros [w idx]. cbn. rewrite app_nil_r. reflexivity.
  - assert (E : step s (Request t 1 1 None) = (register s (Mech t 1 1 None None), Ok (OutMech (length (mechs s))))).
    { cbn [step]. unfold request_budget. rewrite Hf. destruct t; try reflexivity. rewrite Hd by (left; reflexivity). reflexivity. }
    unfold ask_all. cbn [map outs run fold_left]. rewrite E. cbn [fst snd]. fold (ask_all ts). fold (run (register s (Mech t 1 1 None None)) (ask_all ts)).
    destruct (IH (register s (Mech t 1 1 None None)) Hf) as [F [Ff [En [Ew [Em Es]]]]]; [intro I; apply Hd; right; exact I|].
    split; [constructor; [eexists; reflexivity | exact F]|]. split; [exact Ff|]. split; [rewrite En; reflexivity|]. split; [rewrite Ew; reflexivity|].
    split; [rewrite Em; cbn; rewrite <- app_assoc; reflexivity|]. rewrite Es. cbn [register set_scopes set_mechs mechs scopes]. rewrite map_map. cbn [fst snd].
    apply map_ext. intros [w idx]. cbn [fst snd length seq]. rewrite <- app_assoc, app_length, Nat.add_1_r. reflexivity.
Qed.

Lemma outs_app a b : forall s, outs s (a ++ b) = outs s a ++ outs (run s a) b.
Proof. induction a as [|o a IH]; intro s; [reflexivity|]. cbn [app outs run fold_left]. rewrite IH. reflexivity. Qed.
Lemma run_app a b s : run s (a ++ b) = run (run s a) b.
Proof. apply fold_left_app. Qed.
Lemma map_result_all {A} (l : list (result A)) : Forall (fun r => exists o, r = Ok o) l -> exists out, map_result (fun r => r) l = Ok out.
Proof. induction 1 as [|r l [o ->] _ [out IH]]; [eexists; reflexivity|]. cbn. rewrite IH. eexists; reflexivity. Qed.

Lemma weights_pos ms : Forall (fun m => m_weight m = 1%Q) ms -> ms <> [] -> Qeq_bool (sumQ (map (weight_at ms) (seq 0 (length ms)))) 0 = false.
Proof.
  intros F N.
  assert (Ge : forall idx, (forall i, In i idx -> (i < length ms)%nat) -> (sumQ (map (weight_at ms) idx) == inject_Z (Z.of_nat (length idx)))%Q).
  { induction idx as [|i idx IH]; intro I; [reflexivity|]. cbn [map length]. change (sumQ (weight_at ms i :: map (weight_at ms) idx)) with (weight_at ms i + sumQ (map (weight_at ms) idx))%Q. rewrite IH by (intros; apply I; right; assumption).
    unfold weight_at. destruct (nth_error ms i) as [m|] eqn:E; [|apply nth_error_None in E; specialize (I i (or_introl eq_refl)); lia].
    rewrite Forall_forall in F. rewrite (F m) by (eapply nth_error_In; exact E). rewrite Nat2Z.inj_succ. unfold Z.succ. rewrite inject_Z_plus. ring. }
  assert (G := Ge (seq 0 (length ms)) ltac:(intros i I; apply in_seq in I; lia)). rewrite seq_length in G.
  destruct (Qeq_bool _ _) eqn:E; [|reflexivity]. apply Qeq_bool_iff in E. rewrite G in E. destruct ms as [|m ms]; [congruence|].
  change 0%Q with (inject_Z 0) in E. rewrite inject_Z_injective in E. cbn [length] in E. lia.
Qed.

Lemma budgets_granted e d ts : new_budget e d = Ok tt -> (In GAUSSIAN ts -> (0 < d)%Q) ->
  exists bs, query_budgets e d ([Enter 1] ++ ask_all ts ++ [StartAgg 1; Exit]) = Ok bs.
Proof.
  intros Hb Hd. unfold new_budget in Hb. unfold query_budgets, new_accountant. rewrite Hb. cbn [rbind].
  pose (s0 := Acct e d None None [] [] [] false). fold s0. pose (s1 := set_scopes s0 [(1%Q, [])]).
  destruct (requests_ok ts s1 eq_refl) as [F [Ff [En [Ew [Em Es]]]]].
  { intro I. specialize (Hd I). cbn. destruct (Qeq_bool d 0) eqn:E; [|reflexivity]. apply Qeq_bool_iff in E. rewrite E in Hd. discriminate. }
  set (s2 := run s1 (ask_all ts)) in *. cbn [mechs s1 set_scopes s0 app scopes map fst snd length] in Em, Es.
  pose (s3 := add_actual s2 1).
  assert (E3 : step s2 (StartAgg 1) = (s3, Ok (OutBudget None))) by (cbn [step]; unfold start_agg; rewrite En, Ew; reflexivity).
  assert (M3 : mechs s3 = mechs s2) by reflexivity. assert (S3 : scopes s3 = scopes s2) by reflexivity.
  assert (X : exists s4, step s3 Exit = (s4, Ok OutUnit) /\ scopes s4 = [] /\ finalized s4 = false /\ exp_num s4 = None /\ exp_weights s4 = None).
  { cbn [step]. unfold exit_scope. rewrite S3, Es. cbn [set_scopes mechs]. rewrite M3, Em. unfold normalise.
    destruct (seq 0 (length ts)) as [|i idx] eqn:Eq.
    - eexists. split; [reflexivity|]. cbn. repeat split; assumption.
    - rewrite <- Eq. replace (length ts) with (length (map (fun t => Mech t 1 1 None None) ts)) by apply map_length.
      rewrite weights_pos; [eexists; split; [reflexivity|]; cbn; repeat split; assumption| |destruct ts; discriminate].
      apply Forall_forall. intros m I. apply in_map_iff in I. destruct I as [t [<- _]]. reflexivity. }
  destruct X as [s4 [E4 [S4 [F4 [N4 W4]]]]].
  assert (Ru : run s0 ([Enter 1] ++ ask_all ts ++ [StartAgg 1; Exit]) = s4).
  { rewrite run_app. change (run s0 [Enter 1]) with s1. rewrite run_app. fold s2. cbn [run fold_left]. rewrite E3. cbn [fst]. rewrite E4. reflexivity. }
  assert (Ou : Forall (fun r => exists o, r = Ok o) (outs s0 ([Enter 1] ++ ask_all ts ++ [StartAgg 1; Exit]))).
  { rewrite outs_app. change (run s0 [Enter 1]) with s1. rewrite outs_app. fold s2. cbn [outs]. rewrite E3. cbn [fst snd]. rewrite E4. cbn [snd].
    apply Forall_app. split; [repeat constructor; eexists; reflexivity|]. apply Forall_app. split; [exact F|]. repeat constructor; eexists; reflexivity. }
  rewrite Ru. destruct (map_result_all _ Ou) as [out ->]. cbn [rbind].
  cbn [step]. unfold compute_budgets, check_restrictions. rewrite N4, W4, F4, S4.
  destruct (mechs s4) as [|m ms] eqn:E; cbn [fst snd rbind].
  - cbn [set_final mechs]. rewrite E. eexists; reflexivity.
  - cbn [set_mechs mechs]. set (f := set_budget _ _ _ _). generalize (m :: ms) as l. induction l as [|x l [bs IH]]; [eexists; reflexivity|].
    cbn [map map_result]. rewrite IH. eexists; reflexivity.
Qed.

Lemma query_granted {P} p (public : option (list P)) cs e d : budget_weight p = 1%Q -> new_budget e d = Ok tt -> (noise_kind p = GaussianNoise -> 0 < d)%Q ->
  Forall (fun c => c <> CThresh) cs -> exists bs, query_budgets e d (aggregate_ops p public cs) = Ok bs.
Proof.
  intros Hw Hb Hd Hs. unfold aggregate_ops, combiner_requests. rewrite Hw.
  pose (ts := flat_map (fun c => repeat (mech_of (noise_kind p)) (requests c)) cs ++ (if selects_privately p public then [GENERIC] else [])).
  assert (E : flat_map (fun c => repeat (Request (request_type p c) 1 1 None) (requests c)) cs ++ (if selects_privately p public then [Request GENERIC 1 1 None] else []) = ask_all ts).
  { unfold ask_all, ts. rewrite map_app. f_equal; [|destruct (selects_privately p public); reflexivity]. clear ts. induction Hs as [|c cs N _ IH]; [reflexivity|].
    cbn [flat_map]. rewrite IH, map_app. f_equal. destruct c; try congruence; reflexivity. }
  replace ([Enter 1] ++ flat_map (fun c => repeat (Request (request_type p c) 1 1 None) (requests c)) cs ++ (if selects_privately p public then [Request GENERIC 1 1 None] else []) ++ [StartAgg 1; Exit])
    with ([Enter 1] ++ ask_all ts ++ [StartAgg 1; Exit]) by (rewrite <- E, <- !app_assoc; reflexivity).
  apply budgets_granted; [exact Hb|]. intro I. apply Hd. unfold ts in I. apply in_app_iff in I. destruct I as [I|I].
  - apply in_flat_map in I. destruct I as [c [_ I]]. apply repeat_spec in I. destruct (noise_kind p); [discriminate | reflexivity].
  - destruct (selects_privately p public); [destruct I as [I|[]]; discriminate | destruct I].
Qed.

(** What the engine returns for a query: a partition per group, with the requested metrics. *)
Section Returned.
Context {C : Type} `{EqDec C}.
Lemma text_agg a : RecordModel.text (name_of (agg_metric a)) = metric_name a.
Proof. destruct a; reflexivity. Qed.
Lemma metric_name_inj a b : metric_name a = metric_name b -> a = b.
Proof. destruct a, b; cbn; congruence. Qed.

Lemma engine_returns number nk (w : world C (pkey C)) q p els :
  post_init (query_params q nk) = Ok p -> (exists cs, create_compound_combiner p = Ok cs) -> valid_sampling p (w_sampling w) ->
  NoDup (map fst (q_metrics q)) ->
  exists res, query_engine number nk w q els = Ok res /\ NoDup (map fst res) /\
    (forall pub, q_public q = Some pub -> forall k, In k (map fst res) <-> In k pub) /\
    Forall (fun pm => (In (fst pm) (map (fun e => snd (fst e)) els) \/ exists keys, q_public q = Some keys /\ In (fst pm) keys) /\
                      Permutation (map fst (snd pm)) (map (fun m => metric_name (fst m)) (q_metrics q))) res.
Proof.
  intros Hp [cs Hc] Hv Nd. unfold query_engine, run_engine. rewrite Hp. cbn [rbind]. rewrite (query_check q nk p Hp). cbn [rbind]. rewrite Hc. cbn [rbind snd].
  destruct (query_result q nk p cs (w_sampling w) (w_keep w (partition_selection_strategy p) (max_partitions_contributed p) (pre_threshold p))
    (w_noise w) (map (element_row number) els) Hp Hc Hv) as [out [Eo [No [Ko [Kp Ks]]]]].
  rewrite Eo. cbn [rmap rbind]. exists (named out).
  assert (Mn : map fst (named out) = map fst out) by (unfold named; rewrite map_map; reflexivity).
  split; [reflexivity|]. split; [rewrite Mn; exact No|]. split; [rewrite Mn; exact Kp|].
  apply Forall_forall. intros [k d'] I. cbn [fst snd]. unfold named in I. apply in_map_iff in I. destruct I as [[k0 d] [E I]]. injection E as <- <-. cbn [fst snd]. split.
  - destruct (Ko k0) as [I'|X]; [apply (in_map fst) in I; exact I| |right; exact X]. left. rewrite map_map in I'. exact I'.
  - destruct (Ks k0 d I) as [Nn Hn]. rewrite map_map. cbn [fst]. rewrite <- (map_map fst RecordModel.text).
    destruct (query_params_fields q nk p Hp) as [Em _]. rewrite Em in Hn.
    transitivity (map RecordModel.text (map (fun a => name_of (agg_metric a)) (map fst (q_metrics q)))).
    + apply Permutation_map. apply NoDup_Permutation; [exact Nn | |intro x; rewrite Hn, !map_map; reflexivity].
      apply (FinFun.Injective_map_NoDup (f := fun a => name_of (agg_metric a))); [|exact Nd]. intros a b. destruct a, b; cbn; congruence.
    + rewrite !map_map. apply Permutation_refl'. apply map_ext. intros [a o]. apply text_agg.
Qed.
End Returned.
