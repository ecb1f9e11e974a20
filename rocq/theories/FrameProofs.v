(** Lemmas for C78. *)
From Coq Require Import String List ZArith QArith Qreals Reals Bool Permutation Lia Lqa Lra.
From Verif Require Import Base BaseLemmas ListLemmas BackendModel BackendSpec BounderSpec ParamsModel SensModel CombinerModel CombinerSpec CombinerProofs3 EngineModel EngineSpec
  EnforcedSpec EngineProofs EngineProofs3 EngineProofs4 EngineProofs5 BudgetModel BudgetSpec BudgetProofs LaplaceSpec LaplaceProofs ExpMechProofs SelectModel SelectSpec WrapperModel WrapperProofs
  DistSpec DistProofs DpModel DpSpec DpProofs DpProofs2 DpProofs3 DpProofs4 DpProofs5 DpProps PipelineSpec PipelineProofs PipelineProofs2 DataframeModel DataframeProofs DataframeProps FrameModel FrameSpec.
From Verif Require RecordModel.
From Verif Require Import VectorModel.
Import ListNotations.
Local Open Scope R_scope.
Local Close Scope Q_scope.
Local Open Scope list_scope.

(** ** Lists of results *)
Lemma mapM_app_ok {A B} (f : A -> result B) l out : mapM f l = Ok out -> Forall2 (fun a b => f a = Ok b) l out.
Proof.
  revert out. induction l as [|a l IH]; intros out E; cbn [mapM] in E; [injection E as <-; constructor|].
  destruct (f a) as [b|] eqn:Ea; cbn [rbind] in E; [|discriminate]. destruct (mapM f l) as [bs|]; cbn [rmap] in E; [|discriminate].
  injection E as <-. constructor; [exact Ea|]. apply IH. reflexivity.
Qed.
Lemma mapM_from {A B} (f : A -> result B) l out : Forall2 (fun a b => f a = Ok b) l out -> mapM f l = Ok out.
Proof. induction 1 as [|a b l out E _ IH]; [reflexivity|]. cbn [mapM]. rewrite E. cbn [rbind]. rewrite IH. reflexivity. Qed.
Lemma mapM_err {A B} (f : A -> result B) l x : mapM f l = Err x -> exists a y, In a l /\ f a = Err y.
Proof.
  induction l as [|a l IH]; cbn [mapM]; [discriminate|]. destruct (f a) as [b|y] eqn:Ea; cbn [rbind].
  - destruct (mapM f l) as [bs|]; cbn [rmap]; [discriminate|]. intro E. destruct IH as [a' [y [I E']]]; [congruence|]. exists a', y. cbn. auto.
  - intros _. exists a, y. cbn. auto.
Qed.

(** Another order of the elements gives another order of the results. *)
Lemma mapM_permutation {A B} (f : A -> result B) l l' : Permutation l l' ->
  match mapM f l, mapM f l' with
  | Ok out, Ok out' => Permutation out out'
  | Err _, Err _ => True
  | _, _ => False
  end.
Proof.
  intro Pe. destruct (mapM f l) as [out|x] eqn:E, (mapM f l') as [out'|x'] eqn:E'.
  - apply mapM_app_ok in E. apply mapM_app_ok in E'. destruct (Permutation_Forall2 Pe E) as [o2 [P2 F2]].
    replace out' with o2; [exact P2|]. clear -E' F2. revert out' E'. induction F2 as [|a b l o Ea _ IH]; intros out' E'; inversion E' as [|? b' ? o' Eb Er]; subst; [reflexivity|].
    f_equal; [congruence | apply IH; exact Er].
  - apply mapM_app_ok in E. apply mapM_err in E'. destruct E' as [a [y [I Ea]]]. apply (Permutation_in _ (Permutation_sym Pe)) in I.
    clear -E I Ea. induction E as [|c b l o Ec _ IH]; [destruct I|]. destruct I as [<-|I]; [congruence | apply IH; exact I].
  - apply mapM_app_ok in E'. apply mapM_err in E. destruct E as [a [y [I Ea]]]. apply (Permutation_in _ Pe) in I.
    clear -E' I Ea. induction E' as [|c b l o Ec _ IH]; [destruct I|]. destruct I as [<-|I]; [congruence | apply IH; exact I].
  - exact I.
Qed.

(** ** What is seen of a result *)
Definition unseen {P M} (keys : list P) (vs : list (option M)) : list (P * M) :=
  flat_map (fun kv => match snd kv with Some m => [(fst kv, m)] | None => [] end) (combine keys vs).
Lemma find_some_in {P M} `{EqDec P} (k : P) (out : list (P * M)) e : find (fun e => eqb (fst e) k) out = Some e -> In e out /\ fst e = k.
Proof. intro E. apply find_some in E. destruct E as [I E]. split; [exact I|]. apply eqb_eq. exact E. Qed.
Lemma seen_permutation {P M} `{EqDec P} (keys : list P) (out : list (P * M)) :
  NoDup keys -> NoDup (map fst out) -> incl (map fst out) keys -> Permutation out (unseen keys (fst (seen keys out))).
Proof.
  intros Nk No Hi. unfold seen, unseen. cbn [fst].
  assert (E : forall ks, flat_map (fun kv => match snd kv with Some m => [(fst kv, m)] | None => [] end)
                  (combine ks (map (fun k => option_map snd (find (fun e => eqb (fst e) k) out)) ks))
              = flat_map (fun k => match find (fun e => eqb (fst e) k) out with Some e => [e] | None => [] end) ks).
  { induction ks as [|k ks IH]; [reflexivity|]. cbn [map combine flat_map fst snd]. rewrite IH. f_equal.
    destruct (find _ out) as [e|] eqn:Ef; [|reflexivity]. cbn. apply find_some_in in Ef. destruct Ef as [_ <-]. destruct e; reflexivity. }
  rewrite E. clear E. apply NoDup_Permutation.
  - clear -No. apply (NoDup_map_inv fst). exact No.
  - clear -Nk. induction keys as [|k ks IH]; cbn [flat_map]; [constructor|]. inversion Nk as [|? ? Ni Nr]; subst.
    destruct (find (fun e => eqb (fst e) k) out) as [e|] eqn:Ef; [|apply IH; exact Nr]. cbn [app]. constructor; [|apply IH; exact Nr].
    intro I. apply in_flat_map in I. destruct I as [k' [Ik I]]. destruct (find (fun e0 => eqb (fst e0) k') out) as [e'|] eqn:Ef'; [|destruct I].
    destruct I as [<-|[]]. apply find_some_in in Ef. apply find_some_in in Ef'. destruct Ef as [_ <-]. destruct Ef' as [_ <-]. contradiction.
  - intro e. rewrite in_flat_map. split.
    + intro I. exists (fst e). split; [apply Hi, in_map, I|]. rewrite (find_row out e No I). left. reflexivity.
    + intros [k [_ I]]. destruct (find (fun e0 => eqb (fst e0) k) out) as [e'|] eqn:Ef; [|destruct I]. destruct I as [<-|[]]. apply (find_some_in _ _ _ Ef).
Qed.

(** ** The parameters of a query *)
Lemma query_params_fields {K} (q : query K) nk p : post_init (query_params q nk) = Ok p ->
  metrics p = map (fun m => agg_metric (fst m)) (q_metrics q) /\ noise_kind p = nk /\ budget_weight p = 1%Q /\
  max_contributions p = None /\ min_sum_per_partition p = None /\
  public_partitions_already_filtered p = false /\ post_aggregation_thresholding p = false /\
  perform_cross_partition_contribution_bounding p = true /\ contribution_bounds_already_enforced p = false /\
  max_partitions_contributed p = q_max_groups q /\ max_contributions_per_partition p = q_max_contributions q /\
  min_value p = q_min q /\ max_value p = q_max q.
Proof.
  unfold post_init. intro E0.
  repeat (apply raise_if_ok in E0; destruct E0 as [_ E0]). injection E0 as <-.
  destruct q as [pr by_ v ms g n lo hi pub]. unfold query_params, aggregate_params.
  cbn [q_metrics q_max_groups q_max_contributions q_min q_max fold_left set_kw default_params].
  destruct g, n, lo, hi; repeat split; reflexivity.
Qed.

Lemma agg_metrics {K} (q : query K) m : In m (map (fun m => agg_metric (fst m)) (q_metrics q)) -> In m [COUNT; SUM; MEAN].
Proof. intro I. apply in_map_iff in I. destruct I as [[[] o] [<- _]]; cbn; auto. Qed.

Lemma query_check {K} (q : query K) nk p : post_init (query_params q nk) = Ok p -> check_aggregate_params true true p = Ok tt.
Proof.
  intro Hp. destruct (query_params_fields q nk p Hp) as [_ [_ [_ [Mc [_ [_ [Pt [_ [Ce _]]]]]]]]].
  unfold check_aggregate_params. rewrite Mc, Pt, Ce. reflexivity.
Qed.

Lemma query_combiners {K} (q : query K) nk p cs : post_init (query_params q nk) = Ok p -> create_compound_combiner p = Ok cs ->
  Forall no_tree cs /\ (q_metrics q <> [] -> cs <> []).
Proof.
  intros Hp Hc. destruct (query_params_fields q nk p Hp) as [Em [_ [_ [_ [_ [_ [Pt _]]]]]]].
  assert (Hc0 := Hc). unfold create_compound_combiner in Hc. destruct (create_combiners p) as [cs'|] eqn:E1; cbn [rbind] in Hc; [|discriminate].
  unfold compound_init in Hc. apply raise_if_ok in Hc. destruct Hc as [_ Hc]. injection Hc as ->.
  destruct (create_combiners_names p cs E1) as [_ Hn]. split.
  - assert (Fo := combiner_origin p cs Hc0). rewrite Forall_forall in Fo. apply Forall_forall. intros cb I.
    assert (Hi : forall n, In n (names_of cb) -> In n [NCount; NSum; NMean]).
    { intros n In1. assert (In2 : In n (map name_of (metrics p))) by (apply Hn, in_flat_map; exists cb; auto).
      rewrite Em, map_map in In2. apply in_map_iff in In2. destruct In2 as [[[] o] [<- _]]; cbn; auto. }
    specialize (Fo cb I). destruct cb; cbn; try exact Logic.I.
    + cbn [origin] in Fo. destruct ps as [|x ps]; [congruence|]. specialize (Hi _ (or_introl eq_refl)). cbn in Hi. intuition discriminate.
    + specialize (Hi _ (or_introl eq_refl)). cbn in Hi. intuition discriminate.
  - intros Hq ->. destruct (q_metrics q) as [|m ms]; [congruence|]. rewrite Em in Hn. destruct (Hn (name_of (agg_metric (fst m)))) as [_ Hn']. apply Hn'. left. reflexivity.
Qed.

(** ** The elements without [u] *)
Lemma cell_first {C} (columns : list string) (row : list C) names out n : cells_at columns row (n :: names) = Ok out ->
  exists u rest, out = u :: rest /\ cell_at columns row n = Some u.
Proof.
  cbn [cells_at]. destruct (cell_at columns row n) as [u|]; [|discriminate]. destruct (cells_at columns row names) as [rest|]; cbn [rmap]; [|discriminate].
  intro E. injection E as <-. exists u, rest. auto.
Qed.
Lemma element_unit {C K} (zero : C) (q : query K) columns row e : row_to_element zero q columns row = Ok e ->
  cell_at columns row (q_privacy q) = Some (fst (fst e)).
Proof.
  unfold row_to_element. destruct (cells_at columns row _) as [out|] eqn:Ec; cbn [rbind]; [|discriminate].
  apply cell_first in Ec. destruct Ec as [u [rest [-> Eu]]]. rewrite Eu. unfold extractor.
  destruct (if Nat.eqb _ 1 then _ else _) as [k|]; cbn [rbind]; [|discriminate].
  destruct (if is_some _ then _ else _) as [v|]; cbn [rbind]; [|discriminate]. intro E. injection E as <-. reflexivity.
Qed.
Definition elements_without {C} `{EqDec C} (u : C) (els : list (C * pkey C * C)) : list (C * pkey C * C) :=
  filter (fun e => negb (eqb (fst (fst e)) u)) els.
Lemma to_collection_without {C} `{EqDec C} (zero : C) (q : query (pkey C)) columns rows u els :
  to_collection zero q columns rows = Ok els ->
  to_collection zero q columns (rows_without columns (q_privacy q) u rows) = Ok (elements_without u els).
Proof.
  intro E. apply mapM_app_ok in E. apply mapM_from. unfold rows_without, elements_without.
  induction E as [|row e rows els Er _ IH]; [constructor|]. cbn [filter]. rewrite (element_unit _ _ _ _ _ Er).
  destruct (negb (eqb (fst (fst e)) u)); [constructor; assumption | exact IH].
Qed.
Lemma rows_of_without {C} `{EqDec C} (number : C -> Q) u els :
  map (element_row number) (elements_without u els) = without u (map (element_row number) els).
Proof.
  unfold elements_without, without. induction els as [|e els IH]; [reflexivity|]. cbn [filter map element_row fst snd].
  destruct (negb (eqb (fst (fst e)) u)); cbn [map]; rewrite IH; reflexivity.
Qed.
Lemma job_call_without {C} `{EqDec C} (number : C -> Q) (j : job C) u els :
  job_call number j (elements_without u els) = rmap (forget u) (job_call number j els).
Proof.
  unfold job_call. destruct (post_init _) as [p|]; cbn [rbind rmap]; [|reflexivity].
  destruct (create_compound_combiner p) as [cs|]; cbn [rmap]; [|reflexivity]. rewrite rows_of_without. reflexivity.
Qed.

(** ** The result *)
Section Result.
Context {C : Type} `{EqDec C}.
Implicit Types (q : query (pkey C)) (sm : sampling C (pkey C)).

Lemma query_result q nk p cs sm keep nz rows :
  post_init (query_params q nk) = Ok p -> create_compound_combiner p = Ok cs -> valid_sampling p sm ->
  exists out, aggregate p sm keep nz (q_public q) rows = Ok out /\ NoDup (map fst out) /\
    (forall k, In k (map fst out) -> In k (map (fun r => snd (fst r)) rows) \/ exists pub, q_public q = Some pub /\ In k pub) /\
    (forall pub, q_public q = Some pub -> forall k, In k (map fst out) <-> In k pub) /\
    forall k d, In (k, d) out -> NoDup (map fst d) /\ (forall n, In n (map fst d) <-> In n (map name_of (metrics p))).
Proof.
  intros Hp Hc Hv. destruct (query_params_fields q nk p Hp) as [Em [_ [_ [_ [_ [Pf [Pt [_ [Ce _]]]]]]]]].
  rewrite (tame_aggregate p cs sm keep nz (q_public q) rows Hc (proj1 (query_combiners q nk p cs Hp Hc))).
  destruct (aggregate_succeeds p cs sm keep (fun k i => tame (nz k i)) (q_public q) rows (ex_intro _ _ Hp) Hc) as [out [Eo F]].
  { destruct (has VECTOR_SUM (metrics p)) eqn:Hh; [|reflexivity]. exfalso.
    assert (I : In VECTOR_SUM (metrics p)).
    { clear -Hh. unfold has in Hh. apply existsb_exists in Hh. destruct Hh as [x [I E]]. destruct x; try discriminate. exact I. }
    rewrite Em in I. apply agg_metrics in I. cbn in I. intuition discriminate. }
  { intros. cbn. apply map_length. }
  exists out. split; [exact Eo|]. apply aggregate_split in Eo. destruct Eo as [cs' [col [out0 [Ec' [Es [Fo Eq]]]]]]. rewrite Pt in Eq. subst out0.
  rewrite Hc in Ec'. injection Ec' as <-. apply forall2_keys in Fo. rewrite Fo.
  unfold selected_accumulators in Es. destruct (raw_accumulators p cs sm (q_public q) rows) as [raw|] eqn:Er; cbn [rbind] in Es; [|discriminate].
  destruct (raw_keys _ _ _ _ _ _ Er) as [Nr [c0 [E0 Fk]]].
  assert (Ck := contributions_keys _ _ _ _ _ _ (fun _ => Hv) E0).
  destruct (q_public q) as [pub|] eqn:Epub.
  - cbn in Es. injection Es as <-. destruct (public_keys p cs sm pub rows raw (fun _ => Hv)) as [Nc Kc]; [rewrite Pf; discriminate | exact Er |].
    split; [exact Nc|]. split; [|split; [|exact F]].
    + intros k I. right. exists pub. split; [reflexivity|]. apply Kc. exact I.
    + intros pub' X. injection X as <-. exact Kc.
  - assert (Sub : exists m, col = select_private_partitions m keep raw).
    { unfold selects_privately in Es. rewrite Pt, Pf in Es. cbn [negb andb is_some orb] in Es. destruct (max_rows_per_privacy_id p) as [m|]; [|discriminate]. injection Es as <-. exists m. reflexivity. }
    destruct Sub as [m ->]. destruct (select_keys m keep raw Nr) as [Nc Kc]. split; [exact Nc|]. split; [|split; [intros pub X; discriminate X | exact F]].
    intros k I. left. apply Kc in I. destruct I as [I _]. apply Fk in I. destruct I as [I|[]]. apply Ck in I. exact I.
Qed.

(** The frame as a function of what is seen. *)
Definition frame_of (chars : C -> result (list C)) q (keys : list (pkey C)) (o : outcome (pkey C)) : result (frame C) :=
  match o with
  | Err x => Err x
  | Ok (vs, _) =>
      let names := dict_of (map (fun m => (agg_name (fst m), output_column m)) (q_metrics q)) in
      let fields := by_columns (q_by q) ++ map snd names in
      if namedtuple_ok fields then rmap (fun out => (fields, out)) (mapM (convert chars q) (named (unseen keys vs))) else Err ValueError
  end.

Lemma named_permutation {P} (l l' : list (P * list (mname * released))) : Permutation l l' -> Permutation (named l) (named l').
Proof. apply Permutation_map. Qed.

Lemma frame_seen zero chars number nk q columns rows els p cs (w : world C (pkey C)) keys :
  to_collection zero q columns rows = Ok els ->
  post_init (query_params q nk) = Ok p -> create_compound_combiner p = Ok cs -> valid_sampling p (w_sampling w) -> NoDup keys ->
  match q_public q with Some pub => forall k, In k keys <-> In k pub | None => incl (map (fun e => snd (fst e)) els) keys end ->
  same_frame (query_frame zero chars number nk q columns rows w)
    (frame_of chars q keys (rmap (seen keys) (aggregate p (w_sampling w) (w_keep w (partition_selection_strategy p) (max_partitions_contributed p) (pre_threshold p))
        (w_noise w) (q_public q) (map (element_row number) els)))).
Proof.
  intros Et Hp Hc Hv Nk Hk. unfold query_frame, run_query. rewrite Et. cbn [rbind]. unfold query_engine, run_engine.
  rewrite Hp. cbn [rbind]. rewrite (query_check q nk p Hp). cbn [rbind]. rewrite Hc. cbn [rbind snd].
  destruct (query_result q nk p cs (w_sampling w) (w_keep w (partition_selection_strategy p) (max_partitions_contributed p) (pre_threshold p))
    (w_noise w) (map (element_row number) els) Hp Hc Hv) as [out [Eo [No [Ko [Kp _]]]]].
  rewrite Eo. cbn [rmap rbind]. unfold frame_of. destruct (seen keys out) as [vs others] eqn:Ev. cbv zeta.
  assert (Pe : Permutation out (unseen keys vs)).
  { replace vs with (fst (seen keys out)) by (rewrite Ev; reflexivity). apply seen_permutation; [exact Nk | exact No|].
    intros k I. destruct (q_public q) as [pub|] eqn:Ep.
    - apply Hk. apply (Kp pub eq_refl). exact I.
    - destruct (Ko k I) as [I'|[pub [X _]]]; [|discriminate]. apply Hk. rewrite map_map in I'. exact I'. }
  destruct (namedtuple_ok _); [|exact Logic.I].
  assert (M := mapM_permutation (convert chars q) _ _ (named_permutation _ _ Pe)).
  destruct (mapM (convert chars q) (named out)), (mapM (convert chars q) (named (unseen keys vs))); cbn [rmap same_frame]; auto.
Qed.
End Result.

(** ** The budgets *)
Lemma map_result_id_ok {A} (l : list (result A)) out : map_result (fun r => r) l = Ok out -> Forall (fun r => exists o, r = Ok o) l.
Proof.
  intro E. apply map_result_forall2 in E. induction E as [|x y l o Ex _ IH]; constructor; [eexists; exact Ex | exact IH].
Qed.
Lemma query_budgets_inv e d ops bs : query_budgets e d ops = Ok bs ->
  exists s0 s2 es ds x, new_accountant e d None None = Ok s0 /\ Forall (fun r => exists o, r = Ok o) (outs s0 ops) /\
    step (run s0 ops) Compute = (s2, Ok x) /\ read_eps s2 es /\ read_delta s2 ds /\ bs = combine es ds.
Proof.
  unfold query_budgets. destruct (new_accountant e d None None) as [s0|]; cbn [rbind]; [|discriminate].
  destruct (map_result _ (outs s0 ops)) as [o|] eqn:Eo; cbn [rbind]; [|discriminate]. apply map_result_id_ok in Eo.
  destruct (step (run s0 ops) Compute) as [s2 [x|]] eqn:Es; cbn [fst snd rbind]; [|discriminate].
  intro E. apply map_result_forall2 in E. exists s0, s2, (map fst bs), (map snd bs), x.
  split; [reflexivity || exact Es|]. split; [exact Eo|]. split; [reflexivity || exact Es|].
  assert (G : read_eps s2 (map fst bs) /\ read_delta s2 (map snd bs) /\ bs = combine (map fst bs) (map snd bs)).
  { unfold read_eps, read_delta. clear -E. induction E as [|m y l o Em _ [IH1 [IH2 IH3]]]; [repeat constructor|]. cbn [map combine fst snd].
    destruct (get_eps m) as [a|] eqn:Ea; cbn [rbind] in Em; [|discriminate]. destruct (get_delta m) as [b|] eqn:Eb; cbn [rmap] in Em; [|discriminate].
    injection Em as <-. cbn [fst snd]. split; [constructor; assumption|]. split; [constructor; assumption|]. f_equal. exact IH3. }
  exact G.
Qed.

Lemma query_ops_pos {P} p (public : option (list P)) cs : budget_weight p = 1%Q -> Forall op_pos (aggregate_ops p public cs).
Proof.
  intro Hw. unfold aggregate_ops, combiner_requests. rewrite Hw. apply Forall_app. split; [repeat constructor|]. apply Forall_app. split.
  - apply Forall_flat_map. apply Forall_forall. intros cb _. apply Forall_forall. intros x Ix. apply repeat_spec in Ix. subst. repeat constructor.
  - apply Forall_app. split; [destruct (selects_privately p public); repeat constructor | repeat constructor].
Qed.

Lemma compute_out s s2 x : step s Compute = (s2, Ok x) -> x = OutUnit.
Proof.
  cbn [step]. unfold compute_budgets. destruct (check_restrictions s); [|intro X; inversion X].
  destruct (finalized s); [intro X; inversion X|]. destruct (mechs s) as [|m ms]; [intro X; inversion X; reflexivity|].
  destruct (scopes s); intro X; inversion X. reflexivity.
Qed.

(** ** One query *)
Section OneJob.
Context {C : Type} `{EqDec C} (py : pydp) (zero : C) (chars : C -> result (list C)) (number : C -> Q).
Variables (columns : list string) (privacy : string) (rows : list (list C)) (u : C).

Lemma built_privacy (q : query (pkey C)) : built columns privacy q -> q_privacy q = privacy /\ q_metrics q <> [].
Proof.
  intros [b0 [calls [b [EN [ER EB]]]]]. unfold new_builder in EN. destruct (mem_string privacy columns); [|discriminate]. injection EN as <-.
  destruct (brun_spec calls _ _ ER) as (_ & _ & RP & _). cbn [b_privacy] in RP.
  unfold build_query in EB. destruct (b_by b); [|discriminate]. destruct (b_specs b) as [|s ss] eqn:Es; [discriminate|]. rewrite <- Es in EB.
  destruct (distinctb _); [|discriminate]. destruct (get_input_column _); cbn [rbind] in EB; [|discriminate].
  destruct (get_value_caps _); cbn [rbind] in EB; [|discriminate]. injection EB as <-. cbn [q_privacy q_metrics]. rewrite Es.
  split; [exact RP | discriminate].
Qed.

Lemma job_sampling j p : fit number zero columns privacy rows u j -> post_init (query_params (j_query j) (j_noise j)) = Ok p ->
  valid_sampling p (t_sampling (j_setting j)).
Proof.
  intros [_ [_ [H1 [H2 _]]]] Hp. destruct (query_params_fields _ _ _ Hp) as [_ [_ [_ [Mc [_ [_ [_ [_ [_ [E1 [E2 _]]]]]]]]]]].
  unfold valid_sampling. rewrite Mc, E1, E2. split; assumption.
Qed.

(** The frame as a function of what the engine call shows. *)
Definition shown_job (rows0 : list (list C)) (j : job C) : dist (result (frame C)) :=
  match rbind (to_collection zero (j_query j) columns rows0) (fun elements =>
        rbind (job_call number j elements) (fun c =>
        rmap (pair c) (query_budgets (j_epsilon j) (j_delta j) (aggregate_ops (c_params c) (c_public c) (c_combiners c))))) with
  | Err x => dret (Err x)
  | Ok (c, bs) =>
      let '(N, X, T) := t_limits (j_setting j) in
      let n := list_sum (map requests (c_combiners c)) in
      dbind (run_call py N X T c (Budgets (firstn n bs) (nth n bs (0, 0)%Q))) (fun o => dret (frame_of chars (j_query j) (t_keys (j_setting j)) o))
  end.
Lemma run_job_is j rows0 els0 (F : result (frame C) -> R) : (forall f f', same_frame f f' -> F f = F f') ->
  to_collection zero (j_query j) columns rows0 = Ok els0 ->
  (forall p, post_init (query_params (j_query j) (j_noise j)) = Ok p -> valid_sampling p (t_sampling (j_setting j))) ->
  NoDup (t_keys (j_setting j)) ->
  match q_public (j_query j) with Some pub => forall k, In k (t_keys (j_setting j)) <-> In k pub | None => incl (map (fun e => snd (fst e)) els0) (t_keys (j_setting j)) end ->
  mixture (run_job py zero chars number columns rows0 j) F = mixture (shown_job rows0 j) F.
Proof.
  intros HE Et Hs Nk Hk. unfold run_job, shown_job. rewrite Et. cbn [rbind]. destruct (job_call number j els0) as [c|] eqn:Ec; cbn [rbind]; [|reflexivity].
  destruct (query_budgets _ _ _) as [bs|] eqn:Eb; cbn [rmap]; [|reflexivity].
  destruct (t_limits (j_setting j)) as [[N X] T]. cbv zeta. unfold job_call in Ec.
  destruct (post_init (query_params (j_query j) (j_noise j))) as [p|] eqn:Hp; cbn [rbind] in Ec; [|discriminate].
  destruct (create_compound_combiner p) as [cs|] eqn:Hc; cbn [rmap] in Ec; [|discriminate]. injection Ec as <-.
  unfold random_world, run_call. cbn [c_combiners c_keys c_params c_public c_sampling c_rows].
  rewrite !mixture_bind. apply mixture_ext. intro keep. rewrite !mixture_bind. apply mixture_ext. intro noise. rewrite !mixture_bind.
  apply mixture_ext. intro noised. rewrite !mixture_bind. apply mixture_ext. intro answers. rewrite !mixture_ret. apply HE.
  match goal with |- same_frame (query_frame _ _ _ _ _ _ _ ?w) _ => exact (frame_seen zero chars number (j_noise j) (j_query j) columns rows0 els0 p cs w (t_keys (j_setting j)) Et Hp Hc (Hs p eq_refl) Nk Hk) end.
Qed.

Lemma job_valid_call j p cs els : fit number zero columns privacy rows u j -> to_collection zero (j_query j) columns rows = Ok els ->
  post_init (query_params (j_query j) (j_noise j)) = Ok p -> create_compound_combiner p = Ok cs ->
  valid_call (Call p cs (t_sampling (j_setting j)) (q_public (j_query j)) (t_keys (j_setting j)) (map (element_row number) els)).
Proof.
  intros Hf Et Hp Hc. assert (Hv := job_sampling j p Hf Hp). destruct Hf as [_ [_ [_ [_ [Nk [els' [Et' [Hk _]]]]]]]].
  rewrite Et in Et'. injection Et' as <-.
  destruct (query_params_fields _ _ _ Hp) as [Em [_ [_ [Mc [Ms [Mf [Mt [Mp [Me _]]]]]]]]].
  assert (Nm : forall m, In m (metrics p) -> In m [COUNT; SUM; MEAN]) by (rewrite Em; intros m; apply agg_metrics).
  unfold valid_call. cbv zeta. cbn [c_params c_combiners c_sampling c_public c_keys c_rows]. split; [|split; [|split]].
  - split; [apply (query_check _ _ _ Hp)|]. split; [intro I; apply Nm in I; cbn in I; intuition discriminate|]. split; [intros _; exact Mc|].
    split; [intro I; apply Nm in I; cbn in I; intuition discriminate|]. split; [intros x I; apply Nm in I; cbn in I; intuition discriminate | intros _; exact Ms].
  - destruct (q_public (j_query j)) as [pub|]; [split; [exact Hk|]; rewrite Mf; discriminate|]. split; [exact Mf|].
    unfold row_keys. rewrite map_map. exact Hk.
  - intro I; apply Nm in I; cbn in I; intuition discriminate.
  - assert (A : accepted p) by (eexists; exact Hp).
    destruct (selected_ok p cs (t_sampling (j_setting j)) (fun _ _ => true) (q_public (j_query j)) (map (element_row number) els) A) as [col' Es].
    unfold selected_accumulators in Es.
    destruct (raw_accumulators p cs (t_sampling (j_setting j)) (q_public (j_query j)) (map (element_row number) els)) as [col|] eqn:Er; [|discriminate].
    exists col. left. split; [exact A|]. split; [exact Hc|]. split; [exact Me|]. split; [exact Hv|]. split; [intro X1; congruence|]. split; [exact Nk | exact Er].
Qed.

Lemma groups_without j els : 
  match q_public (j_query j) with Some pub => forall k, In k (t_keys (j_setting j)) <-> In k pub
  | None => incl (map (fun e : C * pkey C * C => snd (fst e)) els) (t_keys (j_setting j)) end ->
  match q_public (j_query j) with Some pub => forall k, In k (t_keys (j_setting j)) <-> In k pub
  | None => incl (map (fun e => snd (fst e)) (elements_without u els)) (t_keys (j_setting j)) end.
Proof.
  intro Hk. destruct (q_public (j_query j)); [exact Hk|]. intros k I. apply Hk. apply in_map_iff in I. destruct I as [e [<- I]].
  apply filter_In in I. apply (in_map (fun e => snd (fst e))), I.
Qed.

Lemma run_fit_job j : fit number zero columns privacy rows u j -> forall F, (forall f f', same_frame f f' -> F f = F f') ->
  mixture (run_job py zero chars number columns rows j) F = mixture (shown_job rows j) F /\
  mixture (run_job py zero chars number columns (rows_without columns privacy u rows) j) F = mixture (shown_job (rows_without columns privacy u rows) j) F.
Proof.
  intros Hf F HF. assert (Hf0 := Hf). destruct Hf0 as [Hb [_ [_ [_ [Nk [els [Et [Hk _]]]]]]]].
  destruct (built_privacy _ Hb) as [Epr _].
  assert (Et' := to_collection_without zero (j_query j) columns rows u els Et). rewrite Epr in Et'. split.
  - exact (run_job_is j rows els F HF Et (fun p Hp => job_sampling j p Hf Hp) Nk Hk).
  - exact (run_job_is j _ _ F HF Et' (fun p Hp => job_sampling j p Hf Hp) Nk (groups_without j els Hk)).
Qed.

Lemma both_refl {A} e d (x : dist A) : 0 <= e -> 0 <= d -> is_dist x -> both e d x x.
Proof. intros Pe Pd D. apply (both_eps 0 e); [exact Pe | exact D | exact D|]. apply (both_weaken 0 0 d); [exact Pd|]. apply both_same. Qed.

Lemma budget_pos e d : new_budget e d = Ok tt -> 0 <= Q2R e /\ 0 <= Q2R d.
Proof.
  unfold new_budget, validate_epsilon_delta. destruct (Qle_bool e 0) eqn:E1; [discriminate|].
  destruct (negb (Qle_bool 0 d)) eqn:E2; [discriminate|]. intros _. apply negb_false_iff, Qle_bool_iff in E2.
  assert (E3 : (0 <= e)%Q).
  { destruct (Qlt_le_dec 0 e) as [L|L]; [apply Qlt_le_weak; exact L|]. apply Qle_bool_iff in L. congruence. }
  apply Qle_Rle in E2, E3. rewrite RMicromega.Q2R_0 in E2, E3. split; assumption.
Qed.

Lemma job_both j : fit number zero columns privacy rows u j -> pydp_keeps_promises py ->
  is_dist (shown_job rows j) /\ is_dist (shown_job (rows_without columns privacy u rows) j) /\
  both (Q2R (j_epsilon j)) (Q2R (j_delta j)) (shown_job rows j) (shown_job (rows_without columns privacy u rows) j).
Proof.
  intros Hf Hpy. assert (Hf0 := Hf). destruct Hf0 as [Hb [Hbud [_ [_ [_ [els [Et [_ Hl]]]]]]]].
  destruct (built_privacy _ Hb) as [Epr Nm].
  assert (Et' := to_collection_without zero (j_query j) columns rows u els Et). rewrite Epr in Et'.
  destruct (budget_pos _ _ Hbud) as [Pe Pd].
  assert (Sm : forall x : exn, is_dist (dret (@Err (frame C) x)) /\ is_dist (dret (@Err (frame C) x)) /\
     both (Q2R (j_epsilon j)) (Q2R (j_delta j)) (dret (@Err (frame C) x)) (dret (Err x))).
  { intro x. split; [apply is_dist_ret|]. split; [apply is_dist_ret|]. apply both_refl; [exact Pe | exact Pd | apply is_dist_ret]. }
  unfold shown_job. rewrite Et, Et'. cbn [rbind]. rewrite job_call_without.
  destruct (job_call number j els) as [c|x] eqn:Ec; cbn [rbind rmap]; [|apply Sm].
  cbn [forget c_params c_public c_combiners]. fold (forget u c).
  destruct (query_budgets (j_epsilon j) (j_delta j) (aggregate_ops (c_params c) (c_public c) (c_combiners c))) as [bs|x] eqn:Eb; cbn [rmap]; [|apply Sm].
  destruct (t_limits (j_setting j)) as [[N X] T]. cbv zeta. cbn [forget c_combiners]. fold (forget u c).
  assert (V : valid_call c /\ call_requests c = PipelineSpec.requested (aggregate_ops (c_params c) (c_public c) (c_combiners c)) /\ c_combiners c <> [] /\ budget_weight (c_params c) = 1%Q).
  { assert (Ec0 := Ec). unfold job_call in Ec0. destruct (post_init (query_params (j_query j) (j_noise j))) as [p|] eqn:Hp; cbn [rbind] in Ec0; [|discriminate].
    destruct (create_compound_combiner p) as [cs|] eqn:Hc; cbn [rmap] in Ec0; [|discriminate]. injection Ec0 as <-.
    split; [exact (job_valid_call j p cs els Hf Et Hp Hc)|]. cbn [c_params c_public c_combiners]. split; [symmetry; apply requested_metric|].
    split; [apply (query_combiners _ _ _ _ Hp Hc); exact Nm|]. apply (query_params_fields _ _ _ Hp). }
  destruct V as [Vc [Vr [Vn Vw]]].
  destruct (query_budgets_inv _ _ _ _ Eb) as [s0 [s2 [es [ds [x [Hn [Ho [Hs [He [Hd ->]]]]]]]]]].
  rewrite (compute_out _ _ _ Hs) in Hs.
  assert (G : granted (aggregate_ops (c_params c) (c_public c) (c_combiners c)) (outs s0 (aggregate_ops (c_params c) (c_public c) (c_combiners c))) = flat_map call_requests [c]).
  { rewrite granted_all by exact Ho. cbn [flat_map]. rewrite app_nil_r. symmetry. exact Vr. }
  assert (Gn : flat_map call_requests [c] <> []).
  { cbn [flat_map]. rewrite app_nil_r. unfold call_requests. destruct (c_combiners c) as [|cb cs]; [congruence|]. destruct cb; discriminate. }
  assert (One : Forall (fun r => req_count r = 1%Z) (flat_map call_requests [c])).
  { cbn [flat_map]. rewrite app_nil_r. unfold call_requests. apply Forall_app. split.
    - apply Forall_flat_map. apply Forall_forall. intros cb _. apply Forall_forall. intros y Iy. apply repeat_spec in Iy. subst. reflexivity.
    - destruct (selects_privately _ _); repeat constructor. }
  destruct (accountant_grants (j_epsilon j) (j_delta j) None None s0 _ s2 es ds Hn (query_ops_pos _ (c_public c) (c_combiners c) Vw)
     ltac:(rewrite G; exact Gn) ltac:(rewrite G; exact One) Hs He Hd) as [Gr [Te Td]]. rewrite G in Gr.
  destruct (divide_good [c] (combine es ds) (Forall_cons _ Vc (Forall_nil _)) Gr) as [_ [Fd [De Dd]]].
  cbn [divide combine map fst snd] in Fd, De, Dd. inversion Fd as [|? ? [_ Gb] _]; subst. cbn [fst snd] in Gb. rewrite !sumR_cons in De, Dd. cbn [sumR fold_right] in De, Dd.
  destruct (Hl c eq_refl) as [L1 L2].
  destruct (run_both py c _ u N X T Hpy Vc Gb L1 L2) as [R1 [R2 Bo]].
  split; [apply is_dist_bind; [exact R1 | intro; apply is_dist_ret]|]. split; [apply is_dist_bind; [exact R2 | intro; apply is_dist_ret]|].
  apply both_post. rewrite <- Te, <- De, Rplus_0_r. eapply both_weaken; [|exact Bo]. rewrite Rplus_0_r in Dd. rewrite Dd. exact Td.
Qed.

(** ** Sessions *)
Fixpoint shown_session (rows0 : list (list C)) (s : session C) : dist (list (result (frame C))) :=
  match s with
  | Stop => dret []
  | Ask j next => dbind (shown_job rows0 j) (fun f => dbind (shown_session rows0 (next f)) (fun fs => dret (f :: fs)))
  end.
Lemma same_frame_refl (f : result (frame C)) : same_frame f f.
Proof. destruct f as [[fields out]|]; cbn; auto. Qed.

Lemma run_session_is s e d : within number zero columns privacy rows u s e d ->
  forall F, (forall fs fs', Forall2 same_frame fs fs' -> F fs = F fs') ->
  mixture (run_session py zero chars number columns rows s) F = mixture (shown_session rows s) F /\
  mixture (run_session py zero chars number columns (rows_without columns privacy u rows) s) F = mixture (shown_session (rows_without columns privacy u rows) s) F.
Proof.
  induction 1 as [e d _ _|j next e d e' d' Hf Hn Hs IH _ _]; intros F HF; [split; reflexivity|]. cbn [run_session shown_session]. rewrite !mixture_bind.
  assert (Ft : forall f fs fs', Forall2 same_frame fs fs' -> F (f :: fs) = F (f :: fs')).
  { intros f fs fs' S. apply HF. constructor; [apply same_frame_refl | exact S]. }
  assert (Step : forall rows0 f,
     mixture (dbind (run_session py zero chars number columns rows0 (next f)) (fun fs => dret (f :: fs))) F = mixture (run_session py zero chars number columns rows0 (next f)) (fun fs => F (f :: fs)) /\
     mixture (dbind (shown_session rows0 (next f)) (fun fs => dret (f :: fs))) F = mixture (shown_session rows0 (next f)) (fun fs => F (f :: fs))).
  { intros rows0 f. rewrite !mixture_bind. split; apply mixture_ext; intro; apply mixture_ret. }
  assert (Blind : forall rows0 f f', same_frame f f' ->
     mixture (dbind (shown_session rows0 (next f)) (fun fs => dret (f :: fs))) F = mixture (dbind (shown_session rows0 (next f')) (fun fs => dret (f' :: fs))) F).
  { intros rows0 f f' S. destruct (Step rows0 f) as [_ ->]. destruct (Step rows0 f') as [_ ->]. rewrite (Hn f f' S). apply mixture_ext. intro fs.
    apply HF. constructor; [exact S|]. clear. induction fs; constructor; [apply same_frame_refl | assumption]. }
  split.
  - rewrite <- (proj1 (run_fit_job j Hf _ (Blind rows))). apply mixture_ext. intro f.
    destruct (Step rows f) as [-> ->]. apply (IH f (fun fs => F (f :: fs)) (Ft f)).
  - rewrite <- (proj2 (run_fit_job j Hf _ (Blind (rows_without columns privacy u rows)))). apply mixture_ext. intro f.
    destruct (Step (rows_without columns privacy u rows) f) as [-> ->]. apply (IH f (fun fs => F (f :: fs)) (Ft f)).
Qed.

Lemma session_both s e d : within number zero columns privacy rows u s e d -> pydp_keeps_promises py ->
  0 <= Q2R d /\ is_dist (shown_session rows s) /\ is_dist (shown_session (rows_without columns privacy u rows) s) /\
  both (Q2R e) (Q2R d) (shown_session rows s) (shown_session (rows_without columns privacy u rows) s).
Proof.
  intros Hs Hpy. induction Hs as [e d Pe Pd|j next e d e' d' Hf Hn Hs IH Le Ld].
  - apply Qle_Rle in Pe, Pd. rewrite RMicromega.Q2R_0 in Pe, Pd. split; [exact Pd|]. split; [apply is_dist_ret|]. split; [apply is_dist_ret|].
    apply both_refl; [exact Pe | exact Pd | apply is_dist_ret].
  - destruct (job_both j Hf Hpy) as [D1 [D2 B]]. cbn [shown_session]. apply Qle_Rle in Le, Ld. rewrite Q2R_plus in Le, Ld.
    assert (Pj : 0 <= Q2R (j_delta j)) by (destruct Hf as [_ [Hb _]]; apply (budget_pos _ _ Hb)).
    destruct (IH (Err ValueError)) as [Pd _].
    split; [lra|].
    assert (K1 : forall f, is_dist (dbind (shown_session rows (next f)) (fun fs => dret (f :: fs)))).
    { intro f. destruct (IH f) as [_ [X _]]. apply is_dist_bind; [exact X | intro; apply is_dist_ret]. }
    assert (K2 : forall f, is_dist (dbind (shown_session (rows_without columns privacy u rows) (next f)) (fun fs => dret (f :: fs)))).
    { intro f. destruct (IH f) as [_ [_ [X _]]]. apply is_dist_bind; [exact X | intro; apply is_dist_ret]. }
    assert (J1 : is_dist (dbind (shown_job rows j) (fun f => dbind (shown_session rows (next f)) (fun fs => dret (f :: fs))))) by (apply is_dist_bind; assumption).
    assert (J2 : is_dist (dbind (shown_job (rows_without columns privacy u rows) j)
                   (fun f => dbind (shown_session (rows_without columns privacy u rows) (next f)) (fun fs => dret (f :: fs))))) by (apply is_dist_bind; assumption).
    split; [exact J1|]. split; [exact J2|].
    eapply both_eps; [exact Le | exact J1 | exact J2|]. eapply both_weaken; [exact Ld|].
    apply both_bind; try assumption. intro f. destruct (IH f) as [_ [_ [_ X]]]. apply both_post. exact X.
Qed.
End OneJob.
