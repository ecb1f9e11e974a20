(** Lemmas for C74. *)
From Coq Require Import String List ZArith QArith Qreals Reals Bool Lia Lqa Lra.
From Verif Require Import Base BaseLemmas ListLemmas BackendModel BackendSpec ParamsModel SensModel CombinerModel CombinerSpec EngineModel EngineSpec
  EnforcedSpec EngineProofs EngineProofs3 EngineProofs4 EngineProofs5 BudgetModel BudgetSpec LaplaceSpec SelectModel SelectSpec WrapperModel WrapperSpec WrapperProofs
  DistSpec DistProofs DpModel DpSpec DpProofs DpProofs2 DpProofs3 DpProofs4 DpProofs5 ProgSpec ProgProofs ProgProofs2 PipelineSpec.
Import ListNotations.
Local Open Scope R_scope.
Local Close Scope Q_scope.

(** ** Parameters of the wrappers *)
Lemma wrapper_fields {E P} fw (c : request E P) p : post_init (wrapper_params fw c) = Ok p ->
  (exists m, metrics p = [m] /\ name_of m = field c /\ m <> VECTOR_SUM /\ (forall q, m <> PERCENTILE q)) /\
  max_contributions p = None /\ min_sum_per_partition p = None /\
  public_partitions_already_filtered p = false /\ post_aggregation_thresholding p = false /\
  perform_cross_partition_contribution_bounding p = true /\
  contribution_bounds_already_enforced p = r_contribution_bounds_already_enforced (wrapper_params fw c).
Proof.
  unfold post_init. intro E0.
  repeat (apply raise_if_ok in E0; destruct E0 as [_ E0]). injection E0 as <-.
  cbn [metrics max_contributions min_sum_per_partition public_partitions_already_filtered post_aggregation_thresholding
       perform_cross_partition_contribution_bounding contribution_bounds_already_enforced].
  split.
  - destruct fw, c; eexists; (split; [reflexivity|]); (split; [reflexivity|]); split; congruence.
  - destruct fw, c; repeat split; reflexivity.
Qed.

(** The five metrics are computed by combiners without trees. *)
Definition no_tree (cb : combiner) : Prop := match cb with CQuantile _ | CVector _ => False | _ => True end.
Lemma wrapper_combiners {E P} fw (c : request E P) p cs : post_init (wrapper_params fw c) = Ok p ->
  create_compound_combiner p = Ok cs -> Forall no_tree cs /\ cs <> [].
Proof.
  intros Hp Hc. destruct (wrapper_fields fw c p Hp) as [[m [Em [_ [Nv Nq]]]] [_ [_ [_ [Ht _]]]]].
  unfold create_compound_combiner in Hc. destruct (create_combiners p) as [cs'|] eqn:E1; cbn [rbind] in Hc; [|discriminate].
  unfold compound_init in Hc. apply raise_if_ok in Hc. destruct Hc as [_ Hc]. injection Hc as ->.
  unfold create_combiners in E1. rewrite Em, Ht in E1.
  assert (A1 : forall x, append_if true x (Ok []) = Ok cs -> (forall cb, x = Ok cb -> no_tree cb) -> Forall no_tree cs /\ cs <> []).
  { intros x. unfold append_if. destruct x as [cb|]; cbn [rbind rmap]; [|discriminate]. intros X F. injection X as <-.
    split; [constructor; [apply F; reflexivity|constructor] | discriminate]. }
  destruct m; try congruence; cbn [has existsb metric_eqb orb percentiles flat_map app] in E1;
    repeat match type of E1 with context [append_if false ?x ?y] => change (append_if false x y) with y in E1 end.
  - apply (A1 _ E1). unfold new_count. intros cb. destruct (sens_count p); cbn; [|discriminate]. intro X. injection X as <-. exact I.
  - apply (A1 _ E1). unfold new_pid_count. intros cb. destruct (sens_privacy_id_count p); cbn; [|discriminate]. intro X. injection X as <-. exact I.
  - apply (A1 _ E1). unfold new_sum. intros cb. destruct (sens_sum p); cbn; [|discriminate].
    destruct (bounds_per_partition_are_set p).
    + destruct (min_sum_per_partition p), (max_sum_per_partition p); try discriminate. intro X. injection X as <-. exact I.
    + destruct (min_value p), (max_value p); try discriminate. intro X. injection X as <-. exact I.
  - apply (A1 _ E1). unfold new_mean. intros cb. destruct (min_value p), (max_value p); try discriminate.
    destruct (sens_count p); cbn; [|discriminate]. destruct (sens_normalized_sum p); cbn; [|discriminate]. intro X. injection X as <-. exact I.
  - apply (A1 _ E1). unfold new_variance. intros cb. destruct (min_value p), (max_value p); try discriminate. intro X. injection X as <-. exact I.
Qed.

(** Without trees the answers about trees do not matter. *)
Definition tame (nz : noises) : noises :=
  Noises (n_count nz) (n_sum nz) (n_squares nz) (n_thresh nz) (fun _ qs => map (fun _ => 0%Q) qs) (n_vector nz).
Lemma tame_metrics nz cs : Forall no_tree cs -> forall i accs sofar,
  combine_metrics nz i cs accs sofar = combine_metrics (fun i => tame (nz i)) i cs accs sofar.
Proof.
  induction 1 as [|cb cs N _ IH]; intros i accs sofar; [reflexivity|]. destruct accs as [|a accs]; [reflexivity|]. cbn [combine_metrics].
  replace (compute_metrics (tame (nz i)) cb a) with (compute_metrics (nz i) cb a) by (destruct cb; cbn in N; try contradiction; reflexivity).
  destruct (compute_metrics (nz i) cb a); cbn [rbind]; [|reflexivity].
  destruct (existsb _ _); [reflexivity|]. apply IH.
Qed.

Lemma map_result_ext {A B} (f g : A -> result B) l : (forall x, f x = g x) -> map_result f l = map_result g l.
Proof. intro E. induction l as [|x l IH]; [reflexivity|]. cbn [map_result]. rewrite E, IH. reflexivity. Qed.

Lemma tame_aggregate {U P} `{EqDec U} `{EqDec P} p cs (sm : sampling U P) keep nz public rows :
  create_compound_combiner p = Ok cs -> Forall no_tree cs ->
  aggregate p sm keep nz public rows = aggregate p sm keep (fun k i => tame (nz k i)) public rows.
Proof.
  intros Ec N. unfold aggregate. rewrite Ec. cbn [rbind]. destruct (selected_accumulators p cs sm keep public rows); cbn [rbind]; [|reflexivity].
  f_equal. apply map_result_ext. intro row. f_equal. unfold compound_metrics. apply (tame_metrics (nz (fst row)) cs N).
Qed.

(** The result has exactly the field that the wrapper extracts. *)
Lemma wrapper_result {U E P} `{EqDec U} `{EqDec P} fw (c : request E P) p cs (sm : sampling U P) keep nz public rows :
  post_init (wrapper_params fw c) = Ok p -> create_compound_combiner p = Ok cs ->
  exists out, aggregate p sm keep nz public rows = Ok out /\ forall k d, In (k, d) out -> exists v, d = [(field c, v)].
Proof.
  intros Hp Hc. rewrite (tame_aggregate p cs sm keep nz public rows Hc (proj1 (wrapper_combiners fw c p cs Hp Hc))).
  destruct (wrapper_fields fw c p Hp) as [[m [Em [Ef [Nv _]]]] _].
  destruct (aggregate_succeeds p cs sm keep (fun k i => tame (nz k i)) public rows (ex_intro _ _ Hp) Hc) as [out [Eo F]].
  - rewrite Em. destruct m; try reflexivity. congruence.
  - intros. cbn. apply map_length.
  - exists out. split; [exact Eo|]. intros k d I. destruct (F k d I) as [N1 I1]. rewrite Em in I1. cbn [map] in I1. rewrite Ef in I1.
    apply singleton_dict; assumption.
Qed.

(** What is visible after the extraction. *)
Definition pick (n : mname) (m : list (mname * released)) : released :=
  match get_field n m with Ok v => v | Err _ => RNone end.
Definition extracted {P} (n : mname) (o : outcome P) : result (list (option released) * list P) :=
  rmap (fun x => (map (option_map (pick n)) (fst x), snd x)) o.
Lemma extracted_seen {P} `{EqDec P} n (keys : list P) (out : list (P * list (mname * released))) :
  (forall k d, In (k, d) out -> exists v, d = [(n, v)]) ->
  rmap (seen keys) (rbind (Ok out) (extract_field n)) = extracted n (rmap (seen keys) (Ok out)).
Proof.
  intro F. destruct (extract_field_ok n out F) as [vals [Ev G]]. cbn [rbind rmap]. rewrite Ev. cbn [rmap extracted]. f_equal.
  unfold seen. cbn [fst snd]. f_equal.
  - rewrite map_map. apply map_ext. intro k. clear Ev F. induction G as [|[k1 d1] [k2 v2] out vals [Ek Ed] G IH]; [reflexivity|].
    cbn [fst snd] in Ek, Ed. subst. cbn [find fst]. destruct (eqb k2 k); [|exact IH]. cbn. unfold pick. cbn [get_field]. rewrite eqb_refl. reflexivity.
  - rewrite (extract_field_keys n out vals Ev). reflexivity.
Qed.

(** ** Rows without privacy ids *)
Lemma enforced_rows {U U' P} `{EqDec U} `{EqDec U'} `{EqDec P} p cs (sm : sampling U P) (sm' : sampling U' P) public
    (rows : list (U * P * value)) (rows' : list (U' * P * value)) :
  contribution_bounds_already_enforced p = true ->
  map (fun r => (snd (fst r), snd r)) rows = map (fun r => (snd (fst r), snd r)) rows' ->
  contributions p cs sm public rows = contributions p cs sm' public rows'.
Proof.
  intros He Er. unfold contributions. rewrite He. f_equal.
  assert (G : forall (A : Type) (l : list (A * P * value)), map (fun r => (snd (fst r), compound_create cs [snd r])) l
              = map (fun kv => (fst kv, compound_create cs [snd kv])) (map (fun r => (snd (fst r), snd r)) l)) by (intros; rewrite map_map; reflexivity).
  rewrite !G. f_equal. destruct public as [pub|]; [|exact Er]. destruct (public_partitions_already_filtered p); [exact Er|].
  assert (D : forall (A : Type) (l : list (A * P * value)), map (fun r => (snd (fst r), snd r)) (drop_partitions pub l)
              = filter (fun kv => mem (fst kv) pub) (map (fun r => (snd (fst r), snd r)) l)).
  { intros A l. unfold drop_partitions, filter_by_key. induction l as [|r l IH]; [reflexivity|]. cbn [map filter fst].
    destruct (mem (snd (fst r)) pub); cbn [map filter fst snd]; rewrite IH; reflexivity. }
  rewrite !D, Er. reflexivity.
Qed.

Lemma enforced_aggregate {U U' P} `{EqDec U} `{EqDec U'} `{EqDec P} p (sm : sampling U P) (sm' : sampling U' P) keep nz public
    (rows : list (U * P * value)) (rows' : list (U' * P * value)) :
  contribution_bounds_already_enforced p = true ->
  map (fun r => (snd (fst r), snd r)) rows = map (fun r => (snd (fst r), snd r)) rows' ->
  aggregate p sm keep nz public rows = aggregate p sm' keep nz public rows'.
Proof.
  intros He Er. unfold aggregate. destruct (create_compound_combiner p) as [cs|]; cbn [rbind]; [|reflexivity].
  unfold selected_accumulators, raw_accumulators. rewrite (enforced_rows p cs sm sm' public rows rows' He Er). reflexivity.
Qed.

(** ** The engine call *)
Lemma wrapper_run_is {U E P} `{EqDec U} `{EqDec P} fw (w : world (option U) P) (c : request E P) public (col : list (U * E)) :
  wrapper_run fw w c public col =
  rbind (post_init (wrapper_params fw c)) (fun p =>
  rbind (check_aggregate_params true true p) (fun _ =>
  rbind (create_compound_combiner p) (fun cs =>
  Ok (aggregate_ops p public cs,
      rbind (aggregate p (w_sampling w)
        (w_keep w (partition_selection_strategy p) (max_partitions_contributed p) (pre_threshold p))
        (w_noise w) public (map (beam_row c) col)) (extract_field (field c)))))).
Proof.
  destruct fw; cbn [wrapper_run wrapper_params]; [unfold beam_run | unfold spark_run]; unfold run_wrapper, run_engine;
    (destruct (post_init _) as [p|] eqn:Hp; cbn [rbind rmap]; [|reflexivity]);
    (destruct (check_aggregate_params true true p); cbn [rbind rmap]; [|reflexivity]);
    (destruct (create_compound_combiner p); cbn [rbind rmap fst snd]; [|reflexivity]); [reflexivity|].
  f_equal. f_equal. f_equal.
  destruct (wrapper_fields Spark c p Hp) as [_ [_ [_ [_ [_ [_ Ee]]]]]]. cbn [wrapper_params] in Ee.
  destruct (r_contribution_bounds_already_enforced (spark_params c)) eqn:Er.
  - apply enforced_aggregate; [exact Ee|]. rewrite !map_map. reflexivity.
  - f_equal. apply map_ext. intro x. unfold spark_row, beam_row. rewrite Er. reflexivity.
Qed.

Lemma calls_metric {U E P} `{EqDec U} `{EqDec P} fw (k : ask U E P) c public ops : k_query k = AskMetric c public ->
  ask_calls fw k = Ok ops ->
  exists p cs, post_init (wrapper_params fw c) = Ok p /\ check_aggregate_params true true p = Ok tt /\
    create_compound_combiner p = Ok cs /\ ops = aggregate_ops p public cs.
Proof.
  intros Ek. unfold ask_calls. rewrite Ek, wrapper_run_is. destruct (post_init (wrapper_params fw c)) as [p|]; cbn [rbind rmap]; [|discriminate].
  destruct (check_aggregate_params true true p) as [[]|] eqn:Ea; cbn [rbind rmap]; [|discriminate].
  destruct (create_compound_combiner p) as [cs|] eqn:Ec; cbn [rbind rmap fst]; [|discriminate]. intro X. injection X as <-.
  exists p, cs. auto.
Qed.

Lemma wrapper_select_is {U E P} `{EqDec U} `{EqDec P} fw (w : world (option U) P) r (extractor : E -> P) (col : list (U * E)) :
  wrapper_select fw w r extractor col =
  run_select w (wrapper_select_params fw r) (map (fun x => (Some (fst x), extractor (snd x))) col).
Proof. destruct fw; cbn; unfold beam_select, spark_select; rewrite map_map; reflexivity. Qed.

Lemma calls_select {U E P} `{EqDec U} `{EqDec P} fw (k : ask U E P) r partition ops : k_query k = AskPartitions r partition ->
  ask_calls fw k = Ok ops ->
  let r' := wrapper_select_params fw r in
  check_select_params true true r' = Ok tt /\ (exists l0, int_of (rs_max_partitions_contributed r') = Some l0) /\
  ops = [Enter (rs_budget_weight r'); Request GENERIC 1 1 None; StartAgg (rs_budget_weight r'); Exit].
Proof.
  intros Ek. unfold ask_calls. rewrite Ek, wrapper_select_is. unfold run_select. cbv zeta.
  destruct (check_select_params true true (wrapper_select_params fw r)) as [[]|]; cbn [rbind rmap]; [|discriminate].
  destruct (int_of (rs_max_partitions_contributed (wrapper_select_params fw r))) as [l0|]; cbn [rmap fst]; [|discriminate].
  intro X. injection X as <-. eauto.
Qed.

(** ** Transformations *)
Lemma collection_without {U E} `{EqDec U} (extractor : E -> U) source u (steps : list (transform U E unit)) :
  collection extractor (source_without extractor u source) steps = rows_without u (collection extractor source steps).
Proof.
  assert (D : Forall stays_private steps \/ forall col, collection (U := U) extractor col steps = []).
  { unfold collection. destruct (pipes (make_private extractor source) steps) as [[[col|o]|]|] eqn:E0.
    1: left; apply (pipes_private _ _ _ E0).
    all: right; intro col; destruct (pipes (make_private extractor col) steps) as [[[col'|o']|]|] eqn:E1; try reflexivity;
      destruct (pipes_private _ _ _ E1) as [F _]; rewrite (pipes_apply steps _ F) in E0; discriminate. }
  destruct D as [F|D]; [|rewrite !D; reflexivity].
  unfold collection, source_without. rewrite !(pipes_apply steps _ F). unfold rows_without.
  rewrite (apply_all_filter steps (fun v => negb (eqb v u))), (make_private_filter extractor (fun v => negb (eqb v u))). reflexivity.
Qed.

Lemma eqb_some {U} `{EqDec U} (a b : U) : eqb (Some a) (Some b) = eqb a b.
Proof.
  destruct (eqb a b) eqn:E1.
  - apply eqb_eq in E1. subst. apply eqb_refl.
  - destruct (eqb (Some a) (Some b)) eqn:E2; [|reflexivity]. apply eqb_eq in E2. injection E2 as ->. rewrite eqb_refl in E1. discriminate.
Qed.

Lemma rows_metric {U E P} `{EqDec U} (c : request E P) u (col : list (U * E)) :
  map (beam_row c) (rows_without u col) = without (Some u) (map (beam_row c) col).
Proof.
  unfold rows_without, without. induction col as [|[v x] col IH]; [reflexivity|]. cbn [filter map fst snd beam_row].
  unfold beam_row at 2. cbn [fst snd]. rewrite eqb_some. destruct (eqb v u); cbn [negb filter map]; rewrite IH; reflexivity.
Qed.

Lemma rows_select {U E P} `{EqDec U} (f : E -> P) u (col : list (U * E)) :
  map (fun x => (Some (fst x), f (snd x))) (rows_without u col) =
  filter (fun r => negb (eqb (fst r) (Some u))) (map (fun x => (Some (fst x), f (snd x))) col).
Proof.
  unfold rows_without. induction col as [|[v x] col IH]; [reflexivity|]. cbn [filter map fst snd].
  rewrite eqb_some. destruct (eqb v u); cbn [negb filter map]; rewrite IH; reflexivity.
Qed.
