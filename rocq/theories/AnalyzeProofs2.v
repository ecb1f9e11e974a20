(** Lemmas for C64: the exact result of the engine as a sum over the privacy ids. *)
From Coq Require Import List ZArith QArith Qreals Reals Bool Permutation Lia Lqa.
From Verif Require Import Base BaseLemmas BackendModel BackendSpec ListLemmas BackendProofs BounderModel BounderSpec BounderProofs
  ParamsModel SensModel CombinerModel CombinerSpec EngineModel EngineSpec EngineProofs EngineProofs2 EngineProofs3 EngineProofs4 EngineProofs5
  LaplaceProofs DpProofs HistProofs4 AnalyzeSpec AnalyzeProofs.
Import ListNotations.
Local Open Scope Q_scope.

Section Engine.
Context {U P : Type} `{EqDec U} `{EqDec P}.

(** The partitions kept for a privacy id, and the values kept there. *)
Definition kept_partitions {V} (p : params) (sm : sampling U P) (rows : list (U * P * V)) (u : U) : list P :=
  if perform_cross_partition_contribution_bounding p
  then match max_partitions_contributed p with
       | Some l0 => choose (ch_pid sm u (length (partitions_of u rows))) (Z.to_nat l0) (partitions_of u rows)
       | None => []
       end
  else partitions_of u rows.
Definition kept_values {V} (p : params) (ex : bool) (sm : sampling U P) (rows : list (U * P * V)) (u : U) (k : P) : list V :=
  if ex then match max_contributions_per_partition p with
             | Some linf => choose (ch_pid_pk sm (u, k) (length (values_in u k rows))) (Z.to_nat linf) (values_in u k rows)
             | None => []
             end
  else values_in u k rows.

Lemma kept_form {V} p ex (sm : sampling U P) (rows : list (U * P * V)) kept :
  max_contributions p = None -> bound_contributions p ex sm (fun vs => vs) rows = Ok kept ->
  Permutation kept (entries_of (kept_partitions p sm rows) (kept_values p ex sm rows) (id_list rows)).
Proof.
  intros Hm. unfold bound_contributions, kept_partitions, kept_values. rewrite Hm.
  destruct (perform_cross_partition_contribution_bounding p), ex.
  - destruct (max_partitions_contributed p), (max_contributions_per_partition p); try discriminate. intro E.
    assert (E' : kept = bound_cross_and_per (ch_pid_pk sm) (ch_pid sm) (Z.to_nat z) (Z.to_nat z0) (fun vs => vs) rows) by congruence.
    rewrite E', cross_and_per_form. apply Permutation_refl.
  - destruct (max_partitions_contributed p); try discriminate. intro E.
    assert (E' : kept = bound_cross_partition (ch_pid sm) (Z.to_nat z) (fun vs => vs) rows) by congruence.
    rewrite E', cross_partition_form. apply Permutation_refl.
  - destruct (max_contributions_per_partition p); try discriminate. intro E.
    assert (E' : kept = bound_linf (ch_pid_pk sm) (Z.to_nat z) (fun vs => vs) rows) by congruence.
    rewrite E'. apply linf_form.
  - intro E. assert (E' : kept = bound_noop (fun vs => vs) rows) by congruence. rewrite E'. apply noop_form.
Qed.

Lemma kept_partitions_NoDup {V} p (sm : sampling U P) (rows : list (U * P * V)) u :
  max_contributions p = None -> valid_sampling p sm -> NoDup (kept_partitions p sm rows u).
Proof.
  intros Hm Hv. unfold valid_sampling in Hv. rewrite Hm in Hv. destruct Hv as [Hv _]. unfold kept_partitions.
  destruct (perform_cross_partition_contribution_bounding p); [|apply NoDup_distinct].
  destruct (max_partitions_contributed p) as [l0|]; [|constructor].
  apply choose_NoDup; [|apply NoDup_distinct]. intro L. apply (Hv l0 eq_refl). exact L.
Qed.
Lemma kept_partitions_incl {V} p (sm : sampling U P) (rows : list (U * P * V)) u k :
  max_contributions p = None -> valid_sampling p sm -> In k (kept_partitions p sm rows u) -> In k (partitions_of u rows).
Proof.
  intros Hm Hv. unfold valid_sampling in Hv. rewrite Hm in Hv. destruct Hv as [Hv _]. unfold kept_partitions.
  destruct (perform_cross_partition_contribution_bounding p); [|auto].
  destruct (max_partitions_contributed p) as [l0|]; [|intros []].
  apply submset_In. apply choose_submset. intro L. apply (Hv l0 eq_refl). exact L.
Qed.

(** ** Sums over the kept entries *)
Lemma sumQ_Permutation l l' : Permutation l l' -> sumQ l == sumQ l'.
Proof. induction 1; unfold sumQ in *; cbn [fold_right] in *; lra. Qed.

Lemma sum_entries (g : list value -> Q) p ex (sm : sampling U P) public rows kept k :
  max_contributions p = None -> valid_sampling p sm ->
  bound_contributions p ex sm (fun vs => vs) rows = Ok kept ->
  (public = None \/ g [] == 0) ->
  sumQ (map g (values_of k (pairs_of kept public))) ==
  sumQ (map (fun u => if mem k (kept_partitions p sm rows u) then g (kept_values p ex sm rows u k) else 0) (id_list rows)).
Proof.
  intros Hm Hv E Z0. unfold pairs_of. rewrite values_of_app, map_app, sumQ_app.
  assert (X : sumQ (map g (values_of k (empties public))) == 0).
  { destruct Z0 as [->|Z0]; [reflexivity|]. destruct public as [pub|]; [|reflexivity]. cbn [empties].
    assert (forall l, (forall x, In x l -> x == 0) -> sumQ l == 0) as S0.
    { induction l as [|x l IH]; intro A; [reflexivity|]. unfold sumQ in *. cbn [fold_right]. rewrite (A x) by (left; reflexivity).
      rewrite IH by (intros; apply A; right; assumption). reflexivity. }
    apply S0. intros x I. apply in_map_iff in I. destruct I as (v & <- & I). apply in_values_of in I.
    apply in_map_iff in I. destruct I as (y & Ey & _). inversion Ey; subst. exact Z0. }
  rewrite X, Qplus_0_r.
  assert (Pk := kept_form p ex sm rows kept Hm E).
  rewrite (sumQ_Permutation _ _ (Permutation_map g (values_of_Permutation k _ _ (Permutation_map (fun e => (snd (fst e), snd e)) Pk)))).
  rewrite values_of_entries by (intros u _; apply kept_partitions_NoDup; assumption).
  clear. induction (id_list rows) as [|u l IH]; [reflexivity|]. cbn [flat_map map]. rewrite map_app, sumQ_app, IH.
  destruct (mem k (kept_partitions p sm rows u)); unfold sumQ; cbn; ring.
Qed.

(** ** The combiners of the engine *)
Definition simple_metrics (ms : list metric) : Prop := only [COUNT; SUM; PRIVACY_ID_COUNT] ms = true.

Lemma only_has m ms : simple_metrics ms -> has m ms = true -> m = COUNT \/ m = SUM \/ m = PRIVACY_ID_COUNT.
Proof.
  unfold simple_metrics, only, has. intros O Hm. rewrite forallb_forall in O. apply existsb_exists in Hm. destruct Hm as (x & I & E).
  specialize (O x I). destruct x; cbn in O; try discriminate; destruct m; cbn in E; try discriminate; auto.
Qed.
Lemma no_percentiles ms : simple_metrics ms -> percentiles ms = [].
Proof.
  unfold simple_metrics, only. intro O. rewrite forallb_forall in O. induction ms as [|x ms IH]; [reflexivity|].
  unfold percentiles in *. cbn [flat_map]. rewrite IH by (intros; apply O; right; assumption).
  specialize (O x (or_introl eq_refl)). destruct x; try reflexivity; discriminate.
Qed.

Definition engine_combiners (ms : list metric) (lo hi : Q) : list combiner :=
  (if has COUNT ms then [CCount] else []) ++ (if has SUM ms then [CSum true lo hi] else []) ++
  (if has PRIVACY_ID_COUNT ms then [CPidCount] else []).

Lemma engine_combiners_form p cs lo hi : simple_metrics (metrics p) -> post_aggregation_thresholding p = false ->
  (has SUM (metrics p) = true -> min_sum_per_partition p = Some lo /\ max_sum_per_partition p = Some hi) ->
  create_compound_combiner p = Ok cs -> cs = engine_combiners (metrics p) lo hi.
Proof.
  intros S T B E. unfold create_compound_combiner in E. destruct (create_combiners p) as [cs'|] eqn:Ec; [|discriminate]. cbn [rbind] in E.
  unfold compound_init, raise_if in E. destruct (has_duplicates _); [discriminate|]. assert (cs' = cs) by congruence. subst cs'. clear E.
  unfold create_combiners in Ec. rewrite (no_percentiles _ S), T in Ec.
  assert (N : forall m, m <> COUNT -> m <> SUM -> m <> PRIVACY_ID_COUNT -> has m (metrics p) = false).
  { intros m A1 A2 A3. destruct (has m (metrics p)) eqn:X; [|reflexivity]. destruct (only_has m _ S X) as [?|[?|?]]; contradiction. }
  rewrite (N VECTOR_SUM), (N VARIANCE), (N MEAN) in Ec by discriminate.
  unfold append_if, new_count, new_sum, new_pid_count, bounds_per_partition_are_set, engine_combiners in *.
  destruct (has COUNT (metrics p)), (has SUM (metrics p)) eqn:Hs, (has PRIVACY_ID_COUNT (metrics p));
    try (destruct (B eq_refl) as [B1 B2]; rewrite B1, B2 in Ec; cbn [is_some andb] in Ec);
    repeat match type of Ec with context [rmap _ ?x] => match x with sens_count _ => idtac | sens_privacy_id_count _ => idtac end; destruct x; cbn in Ec; try discriminate end;
    repeat match type of Ec with context [rbind ?x _] => match x with sens_sum _ => idtac end; destruct x; cbn in Ec; try discriminate end;
    cbn [app]; congruence.
Qed.

(** The combiner of a metric, the quantity that it releases. *)
Definition combiner_for (m : metric) (lo hi : Q) : combiner :=
  match m with COUNT => CCount | SUM => CSum true lo hi | _ => CPidCount end.
Definition quantity_for (m : metric) : quantity := match m with SUM => QSum | _ => QCount end.

Lemma rendered ms lo hi m : simple_metrics ms -> has m ms = true ->
  exists i, nth_error (engine_combiners ms lo hi) i = Some (combiner_for m lo hi) /\
    forall T o A, exists n, find (fun nv => eqb (fst nv) (name_of m)) (render (engine_combiners ms lo hi) T o A) = Some (n, RNum (T i (quantity_for m))).
Proof.
  intros S Hm. unfold engine_combiners. destruct (only_has m _ S Hm) as [->|[->| ->]]; rewrite Hm; cbn [combiner_for quantity_for name_of].
  - exists 0%nat. destruct (has SUM ms), (has PRIVACY_ID_COUNT ms); (split; [reflexivity|]; intros T o A; eexists; reflexivity).
  - destruct (has COUNT ms); [exists 1%nat|exists 0%nat]; destruct (has PRIVACY_ID_COUNT ms); (split; [reflexivity|]; intros T o A; eexists; reflexivity).
  - destruct (has COUNT ms), (has SUM ms); [exists 2%nat|exists 1%nat|exists 1%nat|exists 0%nat]; (split; [reflexivity|]; intros T o A; eexists; reflexivity).
Qed.

Lemma engine_plain ms lo hi : Forall plain (engine_combiners ms lo hi).
Proof.
  unfold engine_combiners, plain. destruct (has COUNT ms), (has SUM ms), (has PRIVACY_ID_COUNT ms); cbn; repeat constructor; discriminate.
Qed.
Lemma engine_no_quantiles ms lo hi ps : ~ In (CQuantile ps) (engine_combiners ms lo hi).
Proof.
  unfold engine_combiners. destruct (has COUNT ms), (has SUM ms), (has PRIVACY_ID_COUNT ms); cbn; intuition discriminate.
Qed.
Lemma engine_expects ms lo hi : compound_expects_sampling (engine_combiners ms lo hi) = has COUNT ms.
Proof. unfold engine_combiners. destruct (has COUNT ms), (has SUM ms), (has PRIVACY_ID_COUNT ms); reflexivity. Qed.

(** ** The exact result *)
Lemma quantity_additive m : additive (quantity_of (quantity_for m)).
Proof. destruct m; cbn; try exact count_additive. exact sum_additive. Qed.

Lemma exact_raw p public rows m k (sm : sampling U P) cs lo hi :
  accepted p -> create_compound_combiner p = Ok cs -> simple_metrics (metrics p) -> post_aggregation_thresholding p = false ->
  contribution_bounds_already_enforced p = false -> has m (metrics p) = true ->
  (has SUM (metrics p) = true -> min_sum_per_partition p = Some lo /\ max_sum_per_partition p = Some hi) ->
  exists i col, nth_error cs i = Some (combiner_for m lo hi) /\ raw_accumulators p cs sm public rows = Ok col /\
    exact p public rows m k sm = Q2R (raw_value (quantity_of (quantity_for m)) i k col).
Proof.
  intros Ha Hcs S T Eb Hm B.
  assert (Fc := engine_combiners_form p cs lo hi S T B Hcs).
  destruct (rendered (metrics p) lo hi m S Hm) as (i & Ei & Er). rewrite <- Fc in *.
  assert (Vs : has VECTOR_SUM (metrics p) = false).
  { destruct (has VECTOR_SUM (metrics p)) eqn:X; [|reflexivity]. destruct (only_has _ _ S X) as [?|[?|?]]; discriminate. }
  destruct (aggregate_succeeds p cs sm (fun _ _ => true) (fun _ _ => no_noise) public rows Ha Hcs Vs) as (out & Eo & _).
  { intros. reflexivity. }
  assert (R : exists col, raw_accumulators p cs sm public rows = Ok col).
  { unfold raw_accumulators, contributions. rewrite Eb. fold (to_bound p public rows).
    destruct (bound_ok p (compound_expects_sampling cs) sm (compound_create cs) (to_bound p public rows) Ha) as [x ->]. eexists; reflexivity. }
  destruct R as [col Ec]. exists i, col. split; [exact Ei|]. split; [exact Ec|].
  unfold exact. rewrite Eo.
  destruct (found_in_result p cs sm (fun _ _ => true) (fun _ _ => no_noise) public rows col out
             (fun i qt => raw_value (quantity_of qt) i k col) (fun i => Some (inject_Z (Qnum (raw_value count_of i k col)))) (fun _ => []) k) as [F I]; auto.
  { apply (plain_usable p cs sm public rows); [rewrite Fc; apply engine_plain | exact Ec]. }
  { intros j c qt _ _. destruct qt; reflexivity. }
  { intros j ps Ej. exfalso. apply nth_error_In in Ej. rewrite Fc in Ej. exact (engine_no_quantiles _ _ _ _ Ej). }
  { intros j n Ej. exfalso. apply nth_error_In in Ej. rewrite Fc in Ej. pose proof (engine_plain (metrics p) lo hi) as Pl. rewrite Forall_forall in Pl. exact (Pl _ Ej n eq_refl). }
  rewrite T in F.
  assert (M : max_rows_per_privacy_id p = Some 1%Z) by (unfold max_rows_per_privacy_id; rewrite Eb; reflexivity).
  rewrite M in F.
  assert (C : (if selects_privately p public then true else true) = true) by (destruct (selects_privately p public); reflexivity).
  rewrite C, !andb_true_r in F.
  destruct (mem k (map fst col)) eqn:Mk.
  - destruct (find _ out) as [[k' d]|] eqn:Ef; [|discriminate]. cbn [option_map snd] in F. assert (d = render cs (fun i qt => raw_value (quantity_of qt) i k col) (fun i => Some (inject_Z (Qnum (raw_value count_of i k col)))) (fun _ => [])) by congruence.
    subst d. cbn [snd]. destruct (Er (fun i qt => raw_value (quantity_of qt) i k col) (fun i => Some (inject_Z (Qnum (raw_value count_of i k col)))) (fun _ => [])) as [n En].
    rewrite En. reflexivity.
  - destruct (find _ out) as [[k' d]|] eqn:Ef; [discriminate|].
    apply mem_false_iff in Mk. unfold raw_value. rewrite find_none_keys by exact Mk. unfold Q2R. cbn. field.
Qed.

Lemma exact_sum p public rows m k (sm : sampling U P) cs lo hi :
  accepted p -> create_compound_combiner p = Ok cs -> simple_metrics (metrics p) -> post_aggregation_thresholding p = false ->
  contribution_bounds_already_enforced p = false -> has m (metrics p) = true ->
  (has SUM (metrics p) = true -> min_sum_per_partition p = Some lo /\ max_sum_per_partition p = Some hi) ->
  max_contributions p = None -> valid_sampling p sm ->
  (public = None \/ quantity_of (quantity_for m) (create (combiner_for m lo hi) []) == 0) ->
  exact p public rows m k sm =
  Q2R (sumQ (map (fun u => if mem k (kept_partitions p sm (counted p public rows) u)
                           then quantity_of (quantity_for m) (create (combiner_for m lo hi)
                                  (kept_values p (has COUNT (metrics p)) sm (counted p public rows) u k)) else 0)
                 (id_list (counted p public rows)))).
Proof.
  intros Ha Hcs S T Eb Hm B Mc Hv Z0.
  assert (Fc := engine_combiners_form p cs lo hi S T B Hcs).
  destruct (exact_raw p public rows m k sm cs lo hi Ha Hcs S T Eb Hm B) as (i & col & Ei & Ec & ->).
  apply Qeq_eqR. destruct (raw_accumulators_pairs _ _ _ _ _ _ Eb Ec) as (kept & Ek & ->).
  rewrite (raw_value_sum (quantity_of (quantity_for m)) cs i _ _ k (quantity_additive m) Ei).
  rewrite Fc, engine_expects in Ek.
  assert (Et : to_bound p public rows = counted p public rows).
  { unfold to_bound, counted. destruct public; [|reflexivity]. destruct (public_partitions_already_filtered p); [reflexivity|]. apply drop_partitions_filter. }
  rewrite Et in Ek.
  exact (sum_entries (fun g => quantity_of (quantity_for m) (create (combiner_for m lo hi) g)) p _ sm public _ kept k Mc Hv Ek Z0).
Qed.

End Engine.
