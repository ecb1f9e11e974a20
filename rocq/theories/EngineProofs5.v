(** The aggregation end to end: it succeeds, and what it releases per partition. *)
From Coq Require Import List ZArith QArith Bool Permutation Lia.
From Verif Require Import Base BaseLemmas BackendModel BackendSpec ListLemmas BackendProofs
  BounderModel BounderSpec BounderProofs ParamsModel SensModel CombinerModel CombinerSpec CombinerProofs
  CombinerProofs2 CombinerProofs3 EngineModel EngineSpec
  EngineProofs EngineProofs2 EngineProofs3 EngineProofs4.
Import ListNotations.
Local Close Scope Q_scope.

Lemma fold_tree {A} (f : A -> A -> A) a l :
  exists t, leaves t = a :: l /\ reduce_tree f t = fold_left f l a.
Proof.
  revert a. assert (G : forall l t, exists t', leaves t' = leaves t ++ l /\ reduce_tree f t' = fold_left f l (reduce_tree f t)).
  { clear l. induction l as [|x l IH]; intro t.
    - exists t. rewrite app_nil_r. split; reflexivity.
    - destruct (IH (Node t (Leaf x))) as [t' [L R]]. exists t'. rewrite L, R. cbn. rewrite <- app_assoc. split; reflexivity. }
  intro a. destruct (G l (Leaf a)) as [t' [L R]]. exists t'. split; assumption.
Qed.

(** The pairs (partition, values) behind the raw accumulators. *)
Lemma raw_pairs {U P} `{EqDec U} `{EqDec P} p cs (sm : sampling U P) public rows col :
  raw_accumulators p cs sm public rows = Ok col ->
  exists pairs, col = combine_per_key (compound_merge cs) (with_accs cs pairs).
Proof.
  destruct (contribution_bounds_already_enforced p) eqn:Hb; intro E.
  - unfold raw_accumulators, contributions in E. rewrite Hb in E. cbn [rmap] in E. inversion E; subst.
    fold (to_bound p public rows).
    exists (map (fun r => (snd (fst r), [snd r])) (to_bound p public rows) ++ empties public).
    f_equal. unfold with_accs, map_values. rewrite map_app, map_map. cbn [fst snd].
    destruct public as [[|k ks]|]; cbn [empties map].
    + rewrite app_nil_r. reflexivity.
    + unfold add_empty_public_partitions. cbn [map]. rewrite map_map. reflexivity.
    + rewrite app_nil_r. reflexivity.
  - destruct (raw_accumulators_pairs _ _ _ _ _ _ Hb E) as [kept [_ ->]]. eauto.
Qed.

Lemma raw_row {P} `{EqDec P} cs (pairs : list (P * list value)) k a :
  In (k, a) (combine_per_key (compound_merge cs) (with_accs cs pairs)) ->
  exists t, values_of k pairs <> [] /\
    leaves t = map (compound_create cs) (values_of k pairs) /\ a = reduce_tree (compound_merge cs) t.
Proof.
  intro Hin. apply (proj1 (in_combine_per_key _ _ _ _)) in Hin. unfold with_accs in Hin.
  rewrite values_of_map_values in Hin. destruct (values_of k pairs) as [|g gs]; cbn in Hin; [discriminate|].
  inversion Hin. destruct (fold_tree (compound_merge cs) (compound_create cs g) (map (compound_create cs) gs)) as [t [L R]].
  exists t. split; [discriminate|]. split; [exact L | symmetry; exact R].
Qed.

Lemma selected_raw {U P} `{EqDec U} `{EqDec P} p cs (sm : sampling U P) keep public rows col :
  selected_accumulators p cs sm keep public rows = Ok col ->
  exists raw, raw_accumulators p cs sm public rows = Ok raw /\ incl col raw /\
    (selects_privately p public = false -> col = raw) /\
    (selects_privately p public = true -> exists m, max_rows_per_privacy_id p = Some m /\
       col = select_private_partitions m keep raw).
Proof.
  unfold selected_accumulators. destruct (raw_accumulators p cs sm public rows) as [raw|]; cbn [rbind]; [|discriminate].
  destruct (selects_privately p public).
  - destruct (max_rows_per_privacy_id p) as [m|]; [|discriminate]. intro E. inversion E; subst.
    exists raw. split; [reflexivity|]. split; [|split; [discriminate|]].
    + intros x Hx. apply filter_In in Hx. tauto.
    + intros _. exists m. split; reflexivity.
  - intro E. inversion E; subst. exists col. split; [reflexivity|]. split; [apply incl_refl|]. split; [reflexivity | discriminate].
Qed.

Lemma no_vector p cs : create_compound_combiner p = Ok cs -> has VECTOR_SUM (metrics p) = false ->
  forall c, In c cs -> forall gs, Forall (fits c) gs.
Proof.
  intros E Hv. assert (F : Forall (fun c => forall n, c <> CVector n) cs).
  { unfold create_compound_combiner, compound_init in E. destruct (create_combiners p) as [cs'|] eqn:E1; cbn [rbind] in E; [|discriminate].
    apply raise_if_ok in E. destruct E as [_ E]. inversion E; subst cs'. clear E. unfold create_combiners in E1.
    rewrite Hv in E1.
    assert (H2 : forall l, append_if (has PRIVACY_ID_COUNT (metrics p))
               (if post_aggregation_thresholding p then new_thresh p else new_pid_count p)
               (append_if false (new_vector p)
                 (append_if (match percentiles (metrics p) with [] => false | _ => true end)
                      (Ok (CQuantile (percentiles (metrics p)))) (Ok []))) = Ok l -> Forall (fun c => forall n, c <> CVector n) l).
    { intros l El. eapply append_if_forall; [exact El| |].
      - intros c Ec. destruct (post_aggregation_thresholding p); apply rmap_const_inv in Ec; destruct Ec as [_ ->]; discriminate.
      - intros l' El'. unfold append_if at 1 in El'. eapply append_if_forall; [exact El'| |].
        + intros c Ec. inversion Ec. discriminate.
        + intros l3 E3. inversion E3. constructor. }
    destruct (has VARIANCE (metrics p)).
    { eapply append_if_forall; [exact E1| |exact H2]. intros c Ec. unfold new_variance in Ec.
      destruct (min_value p), (max_value p); try discriminate. inversion Ec. discriminate. }
    destruct (has MEAN (metrics p)).
    { eapply append_if_forall; [exact E1| |exact H2]. intros c Ec. unfold new_mean in Ec.
      destruct (min_value p), (max_value p); try discriminate. destruct (sens_count p); cbn [rbind] in Ec; [|discriminate].
      apply rmap_const_inv in Ec. destruct Ec as [_ ->]. discriminate. }
    eapply append_if_forall; [exact E1| |].
    - intros c Ec. apply rmap_const_inv in Ec. destruct Ec as [_ ->]. discriminate.
    - intros l El. eapply append_if_forall; [exact El| |exact H2]. intros c Ec. unfold new_sum in Ec.
      destruct (sens_sum p); cbn [rbind] in Ec; [|discriminate]. destruct (bounds_per_partition_are_set p).
      + destruct (min_sum_per_partition p), (max_sum_per_partition p); try discriminate; inversion Ec; discriminate.
      + destruct (min_value p), (max_value p); try discriminate; inversion Ec; discriminate. }
  intros c Hc gs. rewrite Forall_forall in F. specialize (F c Hc). apply Forall_forall. intros g _.
  destruct c; try exact I. exfalso. eapply F. reflexivity.
Qed.

Lemma selected_rows {U P} `{EqDec U} `{EqDec P} p cs (sm : sampling U P) keep public rows col (nz : P -> nat -> noises) :
  create_compound_combiner p = Ok cs -> has VECTOR_SUM (metrics p) = false ->
  (forall k i l qs, length (n_quantiles (nz k i) l qs) = length qs) ->
  selected_accumulators p cs sm keep public rows = Ok col ->
  forall k a, In (k, a) col -> exists d, compound_metrics (nz k) cs a = Ok d /\ NoDup (map fst d) /\
    (forall n, In n (map fst d) <-> In n (map name_of (metrics p))).
Proof.
  intros Hcs Hv Hq Hs k a Hin. destruct (selected_raw _ _ _ _ _ _ _ Hs) as [raw [Er [I _]]]. apply I in Hin.
  destruct (raw_pairs _ _ _ _ _ _ Er) as [pairs ->]. apply raw_row in Hin. destruct Hin as [t [Ne [L ->]]].
  destruct (released_metrics p cs (values_of k pairs) t (nz k)) as [d [E [N [F _]]]]; auto.
  - rewrite L. apply Permutation_refl.
  - intros c Hc. eapply no_vector; eassumption.
  - intros i l qs. apply Hq.
  - exists d. auto.
Qed.

Lemma map_result_ok {A B} (f : A -> result B) l : (forall x, In x l -> exists y, f x = Ok y) ->
  exists out, map_result f l = Ok out.
Proof.
  induction l as [|x l IH]; intro F; [eexists; reflexivity|]. cbn [map_result].
  destruct (F x (or_introl eq_refl)) as [y ->]. destruct IH as [out ->]; [intros; apply F; right; assumption|].
  cbn. eauto.
Qed.

Lemma bound_ok {U P V A} `{EqDec U} `{EqDec P} p ex (sm : sampling U P) (agg : list V -> A) rows :
  accepted p -> exists out, bound_contributions p ex sm agg rows = Ok out.
Proof.
  intro Ha. destruct (accepted_facts p Ha) as [_ [_ [_ Hf]]]. unfold bound_contributions.
  destruct (max_contributions p) as [m|].
  - destruct Hf as [Pm _]. destruct (Z.eqb_spec m 0); [lia|]. eauto.
  - destruct Hf as [l0 [linf [-> [-> _]]]]. destruct (perform_cross_partition_contribution_bounding p), ex; eauto.
Qed.

Lemma selected_ok {U P} `{EqDec U} `{EqDec P} p cs (sm : sampling U P) keep public rows :
  accepted p -> exists col, selected_accumulators p cs sm keep public rows = Ok col.
Proof.
  intro Ha. assert (R : exists raw, raw_accumulators p cs sm public rows = Ok raw).
  { unfold raw_accumulators, contributions. destruct (contribution_bounds_already_enforced p); [eexists; reflexivity|].
    fold (to_bound p public rows).
    destruct (bound_ok p (compound_expects_sampling cs) sm (compound_create cs) (to_bound p public rows) Ha) as [o ->].
    eexists. reflexivity. }
  destruct R as [raw Er]. unfold selected_accumulators. rewrite Er. cbn [rbind].
  destruct (selects_privately p public); [|eauto].
  assert (M : exists m, max_rows_per_privacy_id p = Some m).
  { unfold max_rows_per_privacy_id. destruct (contribution_bounds_already_enforced p); [|eauto].
    destruct (accepted_facts p Ha) as [_ [_ [_ Hf]]]. destruct (max_contributions p) as [m|].
    - destruct Hf as [Pm _]. destruct (Z.eqb_spec m 0); [lia|]. eauto.
    - destruct Hf as [l0 [linf [_ [-> _]]]]. eauto. }
  destruct M as [m ->]. eauto.
Qed.

Lemma aggregate_succeeds {U P} `{EqDec U} `{EqDec P} p cs (sm : sampling U P) keep nz public rows :
  accepted p -> create_compound_combiner p = Ok cs -> has VECTOR_SUM (metrics p) = false ->
  (forall k i l qs, length (n_quantiles (nz k i) l qs) = length qs) ->
  exists out, aggregate p sm keep nz public rows = Ok out /\
    forall k d, In (k, d) out -> NoDup (map fst d) /\ (forall n, In n (map fst d) <-> In n (map name_of (metrics p))).
Proof.
  intros Ha Hcs Hv Hq. destruct (selected_ok p cs sm keep public rows Ha) as [col Es].
  assert (R := selected_rows p cs sm keep public rows col nz Hcs Hv Hq Es).
  destruct (map_result_ok (fun row => rmap (pair (fst row)) (compound_metrics (nz (fst row)) cs (snd row))) col) as [out0 E0].
  { intros [k a] Hin. destruct (R k a Hin) as [d [E _]]. cbn [fst snd]. rewrite E. cbn. eauto. }
  assert (G : forall k d, In (k, d) out0 -> NoDup (map fst d) /\ (forall n, In n (map fst d) <-> In n (map name_of (metrics p)))).
  { apply map_result_forall2 in E0. intros k d Hin. clear Es.
    induction E0 as [|[k' a] y l l' E1 E2 IH]; [destruct Hin|]. destruct Hin as [->|Hin].
    - destruct (R k' a (or_introl eq_refl)) as [d' [E F]]. cbn [fst snd] in E1. rewrite E in E1. inversion E1; subst. exact F.
    - apply IH; [|exact Hin]. intros k0 a0 X. apply R. right. exact X. }
  unfold aggregate. rewrite Hcs. cbn [rbind]. rewrite Es. cbn [rbind]. rewrite E0. cbn [rmap].
  eexists. split; [reflexivity|]. intros k d Hin. destruct (post_aggregation_thresholding p); [|exact (G k d Hin)].
  apply filter_In in Hin. apply (G k d). tauto.
Qed.

(** ** Thresholding *)

Lemma thresh_only p cs c : create_compound_combiner p = Ok cs -> post_aggregation_thresholding p = true ->
  In c cs -> In NPidCount (names_of c) -> c = CThresh.
Proof.
  intros E Hp. assert (F : Forall (fun c => In NPidCount (names_of c) -> c = CThresh) cs).
  { unfold create_compound_combiner, compound_init in E. destruct (create_combiners p) as [cs'|] eqn:E1; cbn [rbind] in E; [|discriminate].
    apply raise_if_ok in E. destruct E as [_ E]. inversion E; subst cs'. clear E. unfold create_combiners in E1.
    rewrite Hp in E1.
    set (k2 := append_if (has PRIVACY_ID_COUNT (metrics p)) (new_thresh p) _) in E1.
    assert (H2 : forall l, k2 = Ok l -> Forall (fun c => In NPidCount (names_of c) -> c = CThresh) l).
    { intros l El. unfold k2 in El. eapply append_if_forall; [exact El| |].
      - intros c0 Ec. apply rmap_const_inv in Ec. destruct Ec as [_ ->]. reflexivity.
      - intros l' El'. eapply append_if_forall; [exact El'| |].
        + intros c0 Ec. inversion Ec. cbn. intros [X|[]]. discriminate.
        + intros l2 El2. eapply append_if_forall; [exact El2| |].
          * intros c0 Ec. inversion Ec. cbn [names_of]. intro X. apply in_map_iff in X. destruct X as [q [X _]]. discriminate.
          * intros l3 E3. inversion E3. constructor. }
    destruct (has VARIANCE (metrics p)).
    { eapply append_if_forall; [exact E1| |exact H2]. intros c0 Ec. unfold new_variance in Ec.
      destruct (min_value p), (max_value p); try discriminate. inversion Ec. destruct (has MEAN (metrics p)), (has COUNT (metrics p)), (has SUM (metrics p)); cbn; intuition discriminate. }
    destruct (has MEAN (metrics p)).
    { eapply append_if_forall; [exact E1| |exact H2]. intros c0 Ec. unfold new_mean in Ec.
      destruct (min_value p), (max_value p); try discriminate. destruct (sens_count p); cbn [rbind] in Ec; [|discriminate].
      apply rmap_const_inv in Ec. destruct Ec as [_ ->]. destruct (has COUNT (metrics p)), (has SUM (metrics p)); cbn; intuition discriminate. }
    eapply append_if_forall; [exact E1| |].
    - intros c0 Ec. apply rmap_const_inv in Ec. destruct Ec as [_ ->]. cbn. intros [X|[]]. discriminate.
    - intros l El. eapply append_if_forall; [exact El| |exact H2]. intros c0 Ec. unfold new_sum in Ec.
      destruct (sens_sum p); cbn [rbind] in Ec; [|discriminate].
      assert (Hc : exists b lo hi, c0 = CSum b lo hi).
      { destruct (bounds_per_partition_are_set p).
        + destruct (min_sum_per_partition p), (max_sum_per_partition p); try discriminate; inversion Ec; eauto.
        + destruct (min_value p), (max_value p); try discriminate; inversion Ec; eauto. }
      destruct Hc as [b [lo [hi ->]]]. cbn. intros [X|[]]. discriminate. }
  intro Hc. rewrite Forall_forall in F. exact (F c Hc).
Qed.

Lemma thresholded_row {U P} `{EqDec U} `{EqDec P} p (sm : sampling U P) keep nz rows out k d :
  accepted p -> contribution_bounds_already_enforced p = false -> valid_sampling p sm ->
  post_aggregation_thresholding p = true -> In PRIVACY_ID_COUNT (metrics p) -> has VECTOR_SUM (metrics p) = false ->
  (forall k i l qs, length (n_quantiles (nz k i) l qs) = length qs) ->
  aggregate p sm keep nz None rows = Ok out -> In (k, d) out ->
  exists i z q, n_thresh (nz k i) z = Some q /\ In (NPidCount, RNum q) d /\
                (z <= Z.of_nat (length (ids_of k rows)))%Z.
Proof.
  intros Ha Hb Hsm Hp Hm Hv Hq E Hin. destruct (aggregate_split _ _ _ _ _ _ _ E) as [cs [col [out0 [Hcs [Es [F ->]]]]]].
  rewrite Hp in Hin. apply filter_In in Hin. destruct Hin as [Hin Ab]. cbn [snd] in Ab.
  assert (Hrow : exists a, In (k, a) col /\ compound_metrics (nz k) cs a = Ok d).
  { clear Es E Ab. induction F as [|[k' a] y l l' E1 E2 IH]; [destruct Hin|]. destruct Hin as [->|Hin].
    - cbn [fst snd] in E1. destruct (compound_metrics (nz k') cs a) eqn:Ec; cbn in E1; [|discriminate].
      inversion E1; subst. exists a. split; [left; reflexivity | exact Ec].
    - destruct (IH Hin) as [a' [X Y]]. exists a'. split; [right; exact X | exact Y]. }
  destruct Hrow as [a [Hcol Hd]].
  destruct (selected_raw _ _ _ _ _ _ _ Es) as [raw [Er [I _]]]. apply I in Hcol.
  destruct (raw_accumulators_pairs _ _ _ _ _ _ Hb Er) as [kept [Ek ->]].
  apply raw_row in Hcol. destruct Hcol as [t [Ne [L ->]]].
  destruct (released_metrics p cs (values_of k (pairs_of kept None)) t (nz k)) as [d' [E' [N [Nm Src]]]]; auto.
  { rewrite L. apply Permutation_refl. }
  { intros c Hc. eapply no_vector; eassumption. }
  { intros i l qs. apply Hq. }
  rewrite Hd in E'. inversion E'; subst d'. clear E'.
  assert (Hn : In NPidCount (map fst d)).
  { apply Nm. apply in_map_iff. exists PRIVACY_ID_COUNT. split; [reflexivity | exact Hm]. }
  apply keys_in in Hn. destruct Hn as [v Hn].
  destruct (Src _ _ Hn) as [i [c [ac [di [Hi [Hnames [Hac [Eq [Ecm Hdi]]]]]]]]].
  assert (c = CThresh) by (eapply thresh_only; eauto using nth_error_In). subst c.
  cbn [total] in Eq. inversion Eq; subst. cbn [compute_metrics] in Ecm. inversion Ecm; subst di. clear Ecm.
  destruct Hdi as [Hdi|[]]. inversion Hdi; subst v. clear Hdi.
  set (z := Z.of_nat (length (filter nonempty (values_of k (pairs_of kept None))))) in *.
  destruct (n_thresh (nz k i) z) as [q|] eqn:Et.
  - exists i, z, q. split; [exact Et|]. split; [exact Hn|].
    assert (Len : (length (filter nonempty (values_of k (pairs_of kept None))) <= length (ids_of k rows))%nat).
    { eapply Nat.le_trans; [apply filter_length_le|]. unfold pairs_of. cbn [empties]. rewrite app_nil_r, values_of_rekey.
      cbn [to_bound] in Ek. destruct (kept_keys _ _ _ _ _ Hsm Ek) as [Nk Ik].
      assert (B := nk_ids k (map fst kept) (map fst rows) Nk Ik).
      assert (X : pairs_ids k (map fst rows) = ids_of k rows).
      { unfold pairs_ids, ids_of. rewrite filter_map, map_map. reflexivity. }
      rewrite X in B. exact B. }
    unfold z. lia.
  - exfalso. unfold above_threshold in Ab. apply negb_true_iff in Ab.
    assert (T : existsb (fun kv => match kv with (NPidCount, RNone) => true | _ => false end) d = true).
    { apply existsb_exists. exists (NPidCount, RNone). split; [exact Hn | reflexivity]. }
    congruence.
Qed.
