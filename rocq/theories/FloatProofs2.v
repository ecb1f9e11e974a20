(** Lemmas for C80: the engine. *)
From Coq Require Import List ZArith QArith Qabs Qminmax Bool Lia Lqa.
From Verif Require Import Base BaseLemmas ListLemmas BackendModel BackendSpec BackendProofs BounderModel BounderProofs ParamsModel SensModel CombinerModel EngineModel
  EngineProofs ArrayProofs2 FloatModel FloatSpec FloatProofs.
Import ListNotations.

(** ** The bounders do not invent values *)
Lemma in_pick {V} idx (vs : list V) v : In v (pick idx vs) -> In v vs.
Proof.
  unfold pick. rewrite in_flat_map. intros [i [_ I]]. destruct (nth_error vs i) eqn:E; [|destruct I]. destruct I as [<-|[]]. eapply nth_error_In, E.
Qed.
Lemma in_choose {V} idx n (vs : list V) v : In v (choose idx n vs) -> In v vs.
Proof. unfold choose. destruct (n <? length vs)%nat; [apply in_pick | auto]. Qed.
Lemma in_the_values_of {K V} `{EqDec K} (k : K) (col : list (K * V)) v : In v (values_of k col) -> In (k, v) col.
Proof.
  unfold values_of. rewrite in_map_iff. intros [[k' v'] [E I]]. cbn in E. subst v'. apply filter_In in I. destruct I as [I E].
  apply eqb_eq in E. cbn in E. subst k'. exact I.
Qed.
Lemma in_sample_values {K V} `{EqDec K} (ch : source K) n (col : list (K * V)) k vs v : In (k, vs) (sample_fixed_per_key ch n col) -> In v vs -> In (k, v) col.
Proof. intros I Iv. apply in_sample in I. destruct I as [_ ->]. apply in_choose in Iv. apply in_the_values_of, Iv. Qed.
Lemma in_group_values {K V} `{EqDec K} (col : list (K * V)) k vs v : In (k, vs) (group_by_key col) -> In v vs -> In (k, v) col.
Proof. intros I Iv. apply in_group_by_key in I. destruct I as [_ ->]. apply in_the_values_of, Iv. Qed.
Lemma in_key_by_pid {U P V} (rows : list (U * P * V)) u k v : In (u, (k, v)) (key_by_pid rows) -> In ((u, k), v) rows.
Proof. unfold key_by_pid. rewrite in_map_iff. intros [[[u' k'] v'] [E I]]. cbn in E. injection E as -> -> ->. exact I. Qed.
Lemma in_collect {U P V} `{EqDec P} (col : list (U * list (P * V))) u kvs : In (u, kvs) (collect_values col) ->
  exists pvs, In (u, pvs) col /\ kvs = group_by_key pvs.
Proof. unfold collect_values, map_values. rewrite in_map_iff. intros [[u' pvs] [E I]]. cbn in E. injection E as -> <-. eauto. Qed.

Lemma in_bound {U P V} `{EqDec U} `{EqDec P} p ex (sm : sampling U P) (rows : list (U * P * V)) col e vs v :
  bound_contributions p ex sm (fun l => l) rows = Ok col -> In (e, vs) col -> In v vs -> In (e, v) rows.
Proof.
  destruct e as [u k]. unfold bound_contributions. destruct (max_contributions p) as [m|].
  { destruct (m =? 0)%Z; [discriminate|]. intros E. injection E as <-. unfold bound_per_privacy_id. rewrite map_values_id. intros I Iv.
    apply in_unnest in I. destruct I as [kvs [I Ik]]. apply in_collect in I. destruct I as [pvs [I ->]].
    apply (fun X => in_group_values _ _ _ _ X Iv) in Ik. apply (fun X => in_sample_values _ _ _ _ _ _ X Ik) in I. apply in_key_by_pid, I. }
  destruct (perform_cross_partition_contribution_bounding p); destruct ex.
  - destruct (max_partitions_contributed p) as [l0|]; [|discriminate]. destruct (max_contributions_per_partition p) as [linf|]; [|discriminate].
    intros E. injection E as <-. intros I Iv. apply in_cross_and_per in I. destruct I as [pas [I Ik]].
    apply (fun X => in_sample_values _ _ _ _ _ _ X Ik) in I. rewrite map_values_id in I. unfold rekey_pid in I. apply in_map_iff in I.
    destruct I as [[[u' k'] vs'] [E I]]. cbn in E. injection E as -> -> ->. apply (fun X => in_sample_values _ _ _ _ _ _ X Iv) in I. exact I.
  - destruct (max_partitions_contributed p) as [l0|]; [|discriminate]. intros E. injection E as <-. unfold bound_cross_partition. rewrite map_values_id.
    intros I Iv. apply in_unnest in I. destruct I as [kvs [I Ik]]. apply in_map_iff in I. destruct I as [[u' kvs'] [E I]]. cbn [fst snd] in E.
    injection E as -> <-. apply in_choose in Ik. apply in_collect in I. destruct I as [pvs [I ->]].
    apply (fun X => in_group_values _ _ _ _ X Iv) in Ik. apply (fun X => in_group_values _ _ _ _ X Ik) in I. apply in_key_by_pid, I.
  - destruct (max_contributions_per_partition p) as [linf|]; [|discriminate]. intros E. injection E as <-. unfold bound_linf. rewrite map_values_id.
    intros I Iv. apply (fun X => in_sample_values _ _ _ _ _ _ X Iv) in I. rewrite key_by_pid_pk_id in I. exact I.
  - intros E. injection E as <-. unfold bound_noop. rewrite map_values_id. intros I Iv. apply (fun X => in_group_values _ _ _ _ X Iv) in I.
    rewrite key_by_pid_pk_id in I. exact I.
Qed.

(** ** The bounders do not look at the values *)
Lemma bound_map {U P V W} `{EqDec U} `{EqDec P} (f : V -> W) p ex (sm : sampling U P) (rows : list (U * P * V)) :
  bound_contributions p ex sm (fun l => l) (map_values f rows) = rmap (map_values (map f)) (bound_contributions p ex sm (fun l => l) rows).
Proof.
  unfold bound_contributions. destruct (max_contributions p) as [n|].
  { destruct (n =? 0)%Z; [reflexivity|]. rewrite per_privacy_id_map. reflexivity. }
  destruct (perform_cross_partition_contribution_bounding p); destruct ex.
  - destruct (max_partitions_contributed p) as [l0|]; [|reflexivity]. destruct (max_contributions_per_partition p) as [linf|]; [|reflexivity].
    cbn [rmap]. f_equal. unfold bound_cross_and_per. rewrite key_by_pid_pk_map, sample_map_values, !map_values_id.
    set (c := sample_fixed_per_key (ch_pid_pk sm) (Z.to_nat linf) (key_by_pid_pk rows)).
    change (map (fun x : U * P * list W => (fst (fst x), (snd (fst x), snd x))) (map_values (map f) c)) with (rekey_pid (map_values (map f) c)).
    change (map (fun x : U * P * list V => (fst (fst x), (snd (fst x), snd x))) c) with (rekey_pid c).
    rewrite rekey_map, sample_map_values. change (map (fun pa : P * list V => (fst pa, map f (snd pa)))) with (@map_values P (list V) (list W) (map f)).
    apply (unnest_map (map f)).
  - destruct (max_partitions_contributed p) as [l0|]; [|reflexivity]. rewrite cross_partition_map. reflexivity.
  - destruct (max_contributions_per_partition p) as [linf|]; [|reflexivity]. rewrite linf_map. reflexivity.
  - rewrite noop_map. reflexivity.
Qed.

Lemma kept_large {U P} `{EqDec P} p public m (rows : list (U * P * num)) : kept_rows p public (large_rows m rows) = large_rows m (kept_rows p public rows).
Proof.
  unfold kept_rows. destruct public as [pub|]; [|reflexivity]. destruct (public_partitions_already_filtered p); [reflexivity|].
  rewrite !drop_partitions_filter. unfold large_rows. rewrite filter_map. reflexivity.
Qed.
Lemma in_kept {U P V} `{EqDec P} p public (rows : list (U * P * V)) r : In r (kept_rows p public rows) -> In r rows.
Proof.
  unfold kept_rows. destruct public as [pub|]; [|auto]. destruct (public_partitions_already_filtered p); [auto|].
  rewrite drop_partitions_filter, filter_In. tauto.
Qed.

(** The lists of values given to create_accumulator. *)
Definition groups {U P} `{EqDec U} `{EqDec P} (p : params) (cs : list combiner) (sm : sampling U P) (public : option (list P)) (rows : list (U * P * num))
  : result (list ((U * P) * list num)) :=
  if contribution_bounds_already_enforced p then Ok (map (fun r => (fst r, [snd r])) (kept_rows p public rows))
  else bound_contributions p (compound_expects_sampling cs) sm (fun l => l) (kept_rows p public rows).
Lemma in_groups {U P} `{EqDec U} `{EqDec P} p cs (sm : sampling U P) public rows g e vs v :
  groups p cs sm public rows = Ok g -> In (e, vs) g -> In v vs -> In (e, v) rows.
Proof.
  unfold groups. destruct (contribution_bounds_already_enforced p).
  - intros E. injection E as <-. rewrite in_map_iff. intros [[e' v'] [E I]] Iv. cbn in E. injection E as -> <-. destruct Iv as [<-|[]]. eapply in_kept, I.
  - intros E I Iv. eapply in_kept, in_bound; eassumption.
Qed.
Lemma x_contributions_groups {U P} `{EqDec U} `{EqDec P} p cs (sm : sampling U P) public rows :
  x_contributions p cs sm public rows = rmap (map (fun e => (snd (fst e), x_compound_create cs (snd e)))) (groups p cs sm public rows).
Proof.
  unfold x_contributions, groups. fold (kept_rows p public rows). destruct (contribution_bounds_already_enforced p).
  - cbn [rmap]. rewrite map_map. reflexivity.
  - rewrite bound_natural. destruct (bound_contributions _ _ _ _ _); [|reflexivity]. cbn [rmap]. unfold map_values. rewrite map_map. reflexivity.
Qed.
Lemma contributions_groups {U P} `{EqDec U} `{EqDec P} p cs (sm : sampling U P) public m rows :
  contributions p cs sm public (large_rows m rows)
  = rmap (map (fun e => (snd (fst e), compound_create cs (map (large m) (snd e))))) (groups p cs sm public rows).
Proof.
  unfold contributions, groups. fold (kept_rows p public (large_rows m rows)). rewrite kept_large. destruct (contribution_bounds_already_enforced p).
  - cbn [rmap]. unfold large_rows. rewrite !map_map. reflexivity.
  - rewrite bound_natural. change (large_rows m (kept_rows p public rows)) with (map_values (large m) (kept_rows p public rows)). rewrite bound_map.
    destruct (bound_contributions _ _ _ _ _); [|reflexivity]. cbn [rmap]. unfold map_values. rewrite !map_map. reflexivity.
Qed.

(** ** The engine *)
Lemma embed_create cs vs m : forallb of_numbers cs = true -> ~ In NaN vs -> (existsb per_partition_sum cs = true -> ~ (In PosInf vs /\ In NegInf vs)) ->
  (forall c, In c cs -> need c vs < m) -> x_compound_create cs vs = embed_c (compound_create cs (map (large m) vs)).
Proof.
  intros Hc Nn No L. unfold x_compound_create, compound_create, embed_c. cbn [fst snd]. f_equal. rewrite map_map. apply map_ext_in. intros c I.
  apply create_large; [apply (proj1 (forallb_forall _ _) Hc), I | exact Nn | | apply L, I]. intros X. apply No. apply existsb_exists. eauto.
Qed.

Lemma fold_left_hom {A B} (e : A -> B) ma mb (Hm : forall a b, e (ma a b) = mb (e a) (e b)) l : forall a, e (fold_left ma l a) = fold_left mb (map e l) (e a).
Proof. induction l as [|x l IH]; intros a; [reflexivity|]. cbn [fold_left map]. rewrite IH, Hm. reflexivity. Qed.
Lemma combine_hom {K A B} `{EqDec K} (e : A -> B) ma mb (Hm : forall a b, e (ma a b) = mb (e a) (e b)) (col : list (K * A)) :
  combine_per_key mb (map_values e col) = map_values e (combine_per_key ma col).
Proof.
  unfold combine_per_key. rewrite group_by_key_map_values. induction (group_by_key col) as [|[k vs] l IH]; [reflexivity|].
  cbn [map_values map flat_map fst snd]. change (map (fun kv : K * list A => (fst kv, map e (snd kv))) l) with (map_values (map e) l). rewrite IH.
  unfold map_values. rewrite map_app. destruct vs as [|a vs]; [reflexivity|]. cbn [map app fst snd]. rewrite (fold_left_hom e ma mb Hm). reflexivity.
Qed.

Lemma contributions_large {U P} `{EqDec U} `{EqDec P} p cs (sm : sampling U P) public rows :
  forallb of_numbers cs = true -> no_nan rows -> (existsb per_partition_sum cs = true -> no_opposites rows) ->
  exists m0, forall m, m0 <= m -> x_contributions p cs sm public rows = rmap (map_values embed_c) (contributions p cs sm public (large_rows m rows)).
Proof.
  intros Hc Nn No. destruct (groups p cs sm public rows) as [g|e] eqn:G.
  - destruct (enough_for_all cs (map snd g)) as [m0 Hm]. exists m0. intros m L. rewrite x_contributions_groups, contributions_groups, G. cbn [rmap]. f_equal.
    unfold map_values. rewrite map_map. apply map_ext_in. intros [[u k] vs] I. cbn [fst snd]. f_equal. apply embed_create; [exact Hc | | |].
    + intros X. apply (Nn (u, k)). eapply in_groups; eassumption.
    + intros X [Y1 Y2]. apply (No X (u, k)). split; eapply in_groups; eassumption.
    + intros c Ic. assert (X : need c vs < m0) by (apply Hm; [exact Ic | apply (in_map snd) in I; exact I]). lra.
  - exists 0. intros m _. rewrite x_contributions_groups, contributions_groups, G. reflexivity.
Qed.
Lemma raw_large {U P} `{EqDec U} `{EqDec P} p cs (sm : sampling U P) public rows :
  forallb of_numbers cs = true -> no_nan rows -> (existsb per_partition_sum cs = true -> no_opposites rows) ->
  exists m0, forall m, m0 <= m -> x_raw_accumulators p cs sm public rows = rmap (map_values embed_c) (raw_accumulators p cs sm public (large_rows m rows)).
Proof.
  intros Hc Nn No. destruct (contributions_large p cs sm public rows Hc Nn No) as [m0 Hm]. destruct (enough_for_one cs []) as [m1 H1].
  exists (Qmax m0 m1). intros m L. assert (A := Q.le_max_l m0 m1). assert (B := Q.le_max_r m0 m1).
  unfold x_raw_accumulators, raw_accumulators. rewrite (Hm m) by lra. destruct (contributions p cs sm public (large_rows m rows)) as [col|]; [|reflexivity].
  cbn [rmap]. f_equal. rewrite <- (combine_hom embed_c (compound_merge cs) (x_compound_merge cs) (embed_compound cs Hc)). f_equal.
  destruct public as [[|k ks]|]; try reflexivity. unfold add_empty_public_partitions, map_values. rewrite map_app, !map_map. f_equal.
  apply map_ext. intros k'. cbn [fst snd]. f_equal. change (compound_create cs []) with (compound_create cs (map (large m) [])).
  apply embed_create; [exact Hc | intros [] | intros _ [[] _] |]. intros c Ic. specialize (H1 c Ic). lra.
Qed.
Lemma selected_large {U P} `{EqDec U} `{EqDec P} p cs (sm : sampling U P) keep public rows :
  forallb of_numbers cs = true -> no_nan rows -> (existsb per_partition_sum cs = true -> no_opposites rows) ->
  exists m0, forall m, m0 <= m ->
    x_selected_accumulators p cs sm keep public rows = rmap (map_values embed_c) (selected_accumulators p cs sm keep public (large_rows m rows)).
Proof.
  intros Hc Nn No. destruct (raw_large p cs sm public rows Hc Nn No) as [m0 Hm]. exists m0. intros m L. unfold x_selected_accumulators, selected_accumulators.
  rewrite (Hm m L). destruct (raw_accumulators p cs sm public (large_rows m rows)) as [col|]; [|reflexivity]. cbn [rmap rbind].
  destruct (selects_privately p public); [|reflexivity]. destruct (max_rows_per_privacy_id p); [|reflexivity]. cbn [rmap]. f_equal.
  unfold select_private_partitions, map_values. rewrite filter_map. reflexivity.
Qed.

(** ** Metrics *)
Lemma metrics_embed nz c a : of_numbers c = true -> x_compute_metrics nz c (embed a) = rmap as_floats (compute_metrics nz c a).
Proof.
  destruct c; try discriminate; intros _; destruct a; try reflexivity.
  - cbn. destruct (n_thresh nz z); reflexivity.
  - cbn [embed x_compute_metrics compute_metrics]. unfold x_compute_mean, compute_mean. cbn [noised div_pos add mul].
    cbn [rmap]. f_equal. unfold as_floats. rewrite !map_app. destruct (existsb (eqb NCount) names), (existsb (eqb NSum) names); reflexivity.
  - cbn [embed x_compute_metrics compute_metrics]. unfold x_compute_dp_var, compute_dp_var, x_mean_for_normalized_sum, mean_for_normalized_sum.
    destruct (Qeq_bool (fst (squares_interval lo hi)) (snd (squares_interval lo hi))), (Qeq_bool lo hi); cbn [noised div_pos mul sub add negb rmap];
    f_equal; unfold as_floats; rewrite !map_app; destruct (existsb (eqb NCount) names), (existsb (eqb NSum) names), (existsb (eqb NMean) names); reflexivity.
Qed.
Lemma as_floats_names m : map fst (as_floats m) = map fst m.
Proof. unfold as_floats. rewrite map_map. reflexivity. Qed.
Lemma combine_embed nzs cs : forallb of_numbers cs = true -> forall i accs sofar,
  x_combine_metrics nzs i cs (map embed accs) (as_floats sofar) = rmap as_floats (combine_metrics nzs i cs accs sofar).
Proof.
  induction cs as [|c cs IH]; intros Hc i accs sofar; [reflexivity|]. cbn [forallb] in Hc. apply andb_prop in Hc. destruct Hc as [Hc Hcs].
  destruct accs as [|a accs]; [reflexivity|]. cbn [map x_combine_metrics combine_metrics]. rewrite metrics_embed by exact Hc.
  destruct (compute_metrics (nzs i) c a) as [d|]; [|reflexivity]. cbn [rmap rbind]. rewrite as_floats_names.
  replace (existsb _ (as_floats d)) with (existsb (fun kv => existsb (eqb (fst kv)) (map fst sofar)) d)
    by (unfold as_floats; induction d as [|x d IHd]; [reflexivity|]; cbn [existsb map fst]; rewrite IHd; reflexivity).
  destruct (existsb _ d); [reflexivity|]. rewrite <- (IH Hcs). unfold as_floats. rewrite map_app. reflexivity.
Qed.
Lemma threshold_embed m : x_above_threshold (as_floats m) = above_threshold m.
Proof.
  unfold x_above_threshold, above_threshold, as_floats. f_equal. induction m as [|[n r] m IH]; [reflexivity|]. cbn [map existsb fst snd]. rewrite IH.
  destruct n, r; reflexivity.
Qed.
Lemma map_result_hom {A B C D} (f : A -> result B) (g : C -> result D) (e : A -> C) (h : B -> D) l :
  (forall a, g (e a) = rmap h (f a)) -> map_result g (map e l) = rmap (map h) (map_result f l).
Proof.
  intros E. induction l as [|x l IH]; [reflexivity|]. cbn [map map_result]. rewrite E, IH. destruct (f x); [|reflexivity]. cbn [rmap rbind].
  destruct (map_result f l); reflexivity.
Qed.

Lemma combiners_of p cs : create_compound_combiner p = Ok cs ->
  Forall (fun c => match c with CQuantile _ => percentiles (metrics p) <> [] | CVector _ => has VECTOR_SUM (metrics p) = true
                   | CSum true _ _ => bounds_per_partition_are_set p = true | _ => True end) cs.
Proof.
  set (Q := fun c : combiner => _). unfold create_compound_combiner. destruct (create_combiners p) as [cs'|e] eqn:E; [|discriminate]. cbn [rbind].
  unfold compound_init, raise_if. destruct (has_duplicates _); [discriminate|]. intros X. injection X as <-. revert cs' E.
  assert (A : forall b mk k, (b = true -> forall c, mk = Ok c -> Q c) -> (forall l, k = Ok l -> Forall Q l) -> forall l, append_if b mk k = Ok l -> Forall Q l).
  { intros b mk k Hb Hk l. unfold append_if. destruct b; [|apply Hk]. destruct mk as [c|]; [|discriminate]. destruct k as [l'|]; [|discriminate].
    cbn. intros X. injection X as <-. constructor; auto. }
  unfold create_combiners. cbv zeta.
  set (k4 := append_if (match percentiles (metrics p) with [] => false | _ => true end) _ _).
  set (k3 := append_if _ _ k4). set (k2 := append_if _ _ k3).
  assert (H4 : forall l, k4 = Ok l -> Forall Q l).
  { apply A; [|intros l X; injection X as <-; constructor]. intros B c X. injection X as <-. unfold Q. destruct (percentiles (metrics p)); [discriminate|congruence]. }
  assert (H3 : forall l, k3 = Ok l -> Forall Q l) by (apply A; [|exact H4]; intros B c X; injection X as <-; exact B).
  assert (H2 : forall l, k2 = Ok l -> Forall Q l).
  { apply A; [|exact H3]. intros _ c. unfold new_thresh, new_pid_count. destruct (post_aggregation_thresholding p), (sens_privacy_id_count p); intros X; try discriminate;
    injection X as <-; exact I. }
  destruct (has VARIANCE (metrics p)).
  { apply A; [|exact H2]. intros _ c. unfold new_variance. destruct (min_value p), (max_value p); intros X; try discriminate; injection X as <-; exact I. }
  destruct (has MEAN (metrics p)).
  { apply A; [|exact H2]. intros _ c. unfold new_mean. destruct (min_value p), (max_value p), (sens_count p), (sens_normalized_sum p); intros X; try discriminate;
    injection X as <-; exact I. }
  apply A; [intros _ c; unfold new_count; destruct (sens_count p); intros X; try discriminate; injection X as <-; exact I|].
  apply A; [|exact H2]. intros _ c. unfold new_sum. destruct (sens_sum p); [|discriminate]. cbn [rbind]. destruct (bounds_per_partition_are_set p) eqn:B.
  - destruct (min_sum_per_partition p), (max_sum_per_partition p); intros X; try discriminate. injection X as <-. reflexivity.
  - destruct (min_value p), (max_value p); intros X; try discriminate. injection X as <-. exact I.
Qed.

Lemma aggregate_large {U P} `{EqDec U} `{EqDec P} p (sm : sampling U P) keep nz public rows :
  has VECTOR_SUM (metrics p) = false -> percentiles (metrics p) = [] -> no_nan rows -> (bounds_per_partition_are_set p = true -> no_opposites rows) ->
  exists m0, forall m, m0 <= m -> x_aggregate p sm keep nz public rows = rmap (map_values as_floats) (aggregate p sm keep nz public (large_rows m rows)).
Proof.
  intros Hv Hp Nn No. unfold x_aggregate, aggregate. destruct (create_compound_combiner p) as [cs|] eqn:C; [|exists 0; reflexivity]. cbn [rbind].
  assert (Ck := combiners_of p cs C). rewrite Forall_forall in Ck.
  assert (Hc : forallb of_numbers cs = true).
  { apply forallb_forall. intros c I. specialize (Ck c I). destruct c; try reflexivity; [contradiction | congruence]. }
  assert (No' : existsb per_partition_sum cs = true -> no_opposites rows).
  { intros X. apply existsb_exists in X. destruct X as [c [I X]]. specialize (Ck c I). destruct c as [| | |[|] ? ?| | | |]; try discriminate. apply No, Ck. }
  destruct (selected_large p cs sm keep public rows Hc Nn No') as [m0 Hm]. exists m0. intros m L. rewrite (Hm m L).
  destruct (selected_accumulators p cs sm keep public (large_rows m rows)) as [col|]; [|reflexivity]. cbn [rmap rbind].
  unfold map_values at 1.
  rewrite (map_result_hom (fun row => rmap (pair (fst row)) (compound_metrics (nz (fst row)) cs (snd row))) _ _ (fun kv => (fst kv, as_floats (snd kv)))).
  2:{ intros [k a]. cbn [fst snd]. unfold compound_metrics. change (@nil (mname * option num)) with (as_floats []). unfold embed_c. cbn [snd].
      rewrite combine_embed by exact Hc. destruct (combine_metrics _ _ _ _ _); reflexivity. }
  destruct (map_result _ col) as [out|]; [|reflexivity]. cbn [rmap]. f_equal. destruct (post_aggregation_thresholding p); [|reflexivity].
  unfold map_values. rewrite filter_map. cbn [fst snd]. f_equal. apply filter_ext. intros [k x]. apply threshold_embed.
Qed.
