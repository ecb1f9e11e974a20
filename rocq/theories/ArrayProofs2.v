(** Proofs about aggregations over arrays: the bounders and the engine. *)
From Coq Require Import List ZArith QArith Bool Permutation Lia.
From Verif Require Import Base BackendModel ListLemmas BackendSpec BackendProofs BounderModel BounderSpec BounderProofs
  ParamsModel CombinerModel EngineModel EngineSpec EngineProofs ArrayModel ArraySpec ArrayProofs.
Import ListNotations.
Local Open Scope nat_scope.

(** ** The bounders keep a part of the values *)
Lemma group_values {K V} `{EqDec K} (col : list (K * V)) :
  Permutation (flat_map snd (group_by_key col)) (map snd col).
Proof.
  pose proof (Permutation_map snd (group_by_key_ungroup col)) as P. rewrite map_flat_map in P.
  rewrite <- P. apply Permutation_refl'. apply flat_map_ext. intros [k vs]. cbn. rewrite map_map. cbn. symmetry. apply map_id.
Qed.

Lemma sample_values {K V} `{EqDec K} (ch : source K) n (col : list (K * V)) : valid_source n ch ->
  submset (flat_map snd (sample_fixed_per_key ch n col)) (map snd col).
Proof.
  intros Vs. apply (submset_trans _ (flat_map snd (group_by_key col))); [|apply submset_Permutation, group_values].
  unfold sample_fixed_per_key. rewrite flat_map_map. cbn [snd].
  apply submset_flat_map_pointwise. intros [k vs] _. cbn [fst snd]. apply choose_submset.
  intros L. apply Vs, L.
Qed.

Lemma unnest_values {U P A} (col : list (U * list (P * list A))) :
  flat_map snd (unnest col) = flat_map (fun x => flat_map snd (snd x)) col.
Proof.
  unfold unnest. rewrite flat_map_flat_map. apply flat_map_ext. intros [u ps]. cbn [fst snd].
  rewrite flat_map_map. apply flat_map_ext. intros [p vs]. reflexivity.
Qed.

Lemma key_by_pid_values {U P V} (rows : list (U * P * V)) : map snd (map snd (key_by_pid rows)) = map snd rows.
Proof. unfold key_by_pid. rewrite !map_map. reflexivity. Qed.

Lemma key_by_pid_pk_values {U P V} (rows : list (U * P * V)) : map snd (key_by_pid_pk rows) = map snd rows.
Proof. unfold key_by_pid_pk. rewrite map_map. reflexivity. Qed.

Lemma per_privacy_id_values {U P V} `{EqDec U} `{EqDec P} (ch : source U) n (rows : list (U * P * V)) :
  valid_source n ch ->
  submset (flat_map snd (bound_per_privacy_id ch n (fun vs => vs) rows)) (map snd rows).
Proof.
  intros Vs. unfold bound_per_privacy_id. rewrite map_values_id, unnest_values.
  unfold collect_values, map_values. rewrite flat_map_map. cbn [snd].
  apply (submset_trans _ (flat_map (fun x => map snd (snd x)) (sample_fixed_per_key ch n (key_by_pid rows)))).
  - apply submset_flat_map_pointwise. intros [u c] _. apply submset_Permutation, group_values.
  - rewrite <- (map_flat_map snd snd), <- key_by_pid_values. apply submset_map, sample_values, Vs.
Qed.

Lemma cross_partition_values {U P V} `{EqDec U} `{EqDec P} (ch : source U) n (rows : list (U * P * V)) :
  valid_source n ch ->
  submset (flat_map snd (bound_cross_partition ch n (fun vs => vs) rows)) (map snd rows).
Proof.
  intros Vs. unfold bound_cross_partition. rewrite map_values_id, unnest_values.
  unfold collect_values, map_values. rewrite !flat_map_map. cbn [snd fst].
  apply (submset_trans _ (flat_map (fun x => map snd (snd x)) (group_by_key (key_by_pid rows)))).
  - apply submset_flat_map_pointwise. intros [u c] _. cbn [fst snd].
    apply (submset_trans _ (flat_map snd (group_by_key c))); [|apply submset_Permutation, group_values].
    apply submset_flat_map, choose_submset. intros L. apply Vs, L.
  - rewrite <- (map_flat_map snd snd), <- key_by_pid_values. apply submset_map, submset_Permutation, group_values.
Qed.

Lemma linf_values {U P V} `{EqDec U} `{EqDec P} (ch : source (U * P)) n (rows : list (U * P * V)) :
  valid_source n ch ->
  submset (flat_map snd (bound_linf ch n (fun vs => vs) rows)) (map snd rows).
Proof.
  intros Vs. unfold bound_linf. rewrite map_values_id, <- key_by_pid_pk_values. apply sample_values, Vs.
Qed.

Lemma noop_values {U P V} `{EqDec U} `{EqDec P} (rows : list (U * P * V)) :
  submset (flat_map snd (bound_noop (fun vs => vs) rows)) (map snd rows).
Proof.
  unfold bound_noop. rewrite map_values_id, <- key_by_pid_pk_values. apply submset_Permutation, group_values.
Qed.

(** ** The bounders do not look at the values *)
Definition on_values {K V W} (f : V -> W) (rows : list (K * V)) : list (K * W) := map_values f rows.

Lemma content_rows_values {U P} m (rows : list (U * P * aval)) : content_rows m rows = map_values (content m) rows.
Proof. reflexivity. Qed.

Lemma key_by_pid_map {U P V W} (f : V -> W) (rows : list (U * P * V)) :
  key_by_pid (map_values f rows) = map_values (fun pv => (fst pv, f (snd pv))) (key_by_pid rows).
Proof. unfold key_by_pid, map_values. rewrite !map_map. reflexivity. Qed.

Lemma key_by_pid_pk_map {U P V W} (f : V -> W) (rows : list (U * P * V)) :
  key_by_pid_pk (map_values f rows) = map_values f (key_by_pid_pk rows).
Proof. unfold key_by_pid_pk, map_values. rewrite !map_map. reflexivity. Qed.

Lemma collect_map {U P V W} `{EqDec P} (f : V -> W) (col : list (U * list (P * V))) :
  collect_values (map_values (map (fun pv => (fst pv, f (snd pv)))) col)
  = map_values (map_values (map f)) (collect_values col).
Proof.
  unfold collect_values. rewrite !map_values_map_values. unfold map_values at 1 3. apply map_ext. intros [u c].
  cbn [fst snd]. f_equal. change (map (fun pv : P * V => (fst pv, f (snd pv))) c) with (map_values f c).
  apply group_by_key_map_values.
Qed.

Lemma per_privacy_id_map {U P V W} `{EqDec U} `{EqDec P} (f : V -> W) ch n (rows : list (U * P * V)) :
  bound_per_privacy_id ch n (fun vs => vs) (map_values f rows)
  = map_values (map f) (bound_per_privacy_id ch n (fun vs => vs) rows).
Proof.
  unfold bound_per_privacy_id. rewrite !map_values_id, key_by_pid_map, sample_map_values, collect_map.
  apply unnest_map.
Qed.

Lemma cross_partition_map {U P V W} `{EqDec U} `{EqDec P} (f : V -> W) ch n (rows : list (U * P * V)) :
  bound_cross_partition ch n (fun vs => vs) (map_values f rows)
  = map_values (map f) (bound_cross_partition ch n (fun vs => vs) rows).
Proof.
  unfold bound_cross_partition. rewrite !map_values_id, key_by_pid_map, group_by_key_map_values, collect_map.
  rewrite <- unnest_map. f_equal. unfold map_values at 1 3. rewrite !map_map. apply map_ext. intros [u c]. cbn [fst snd].
  f_equal. unfold map_values. rewrite map_length. apply ListLemmas.choose_map.
Qed.

Lemma linf_map {U P V W} `{EqDec U} `{EqDec P} (f : V -> W) ch n (rows : list (U * P * V)) :
  bound_linf ch n (fun vs => vs) (map_values f rows)
  = map_values (map f) (bound_linf ch n (fun vs => vs) rows).
Proof. unfold bound_linf. rewrite !map_values_id, key_by_pid_pk_map. apply sample_map_values. Qed.

Lemma noop_map {U P V W} `{EqDec U} `{EqDec P} (f : V -> W) (rows : list (U * P * V)) :
  bound_noop (fun vs => vs) (map_values f rows)
  = map_values (map f) (bound_noop (fun vs => vs) rows).
Proof. unfold bound_noop. rewrite !map_values_id, key_by_pid_pk_map. apply group_by_key_map_values. Qed.

(** ** The groups whose accumulators are created *)
Definition created {U P} `{EqDec U} `{EqDec P} (p : params) (ex : bool) (sm : sampling U P)
    (rows : list (U * P * aval)) : list ((U * P) * list aval) :=
  match max_contributions p with
  | Some n => if (n =? 0)%Z then [] else bound_per_privacy_id (ch_pid sm) (Z.to_nat n) (fun vs => vs) rows
  | None =>
    if perform_cross_partition_contribution_bounding p then
      if ex then
        match max_partitions_contributed p, max_contributions_per_partition p with
        | Some l0, Some linf => sample_fixed_per_key (ch_pid_pk sm) (Z.to_nat linf) (key_by_pid_pk rows)
        | _, _ => []
        end
      else match max_partitions_contributed p with
           | Some l0 => bound_cross_partition (ch_pid sm) (Z.to_nat l0) (fun vs => vs) rows
           | None => []
           end
    else if ex then
      match max_contributions_per_partition p with
      | Some linf => bound_linf (ch_pid_pk sm) (Z.to_nat linf) (fun vs => vs) rows
      | None => []
      end
    else bound_noop (fun vs => vs) rows
  end.

Lemma bound_in_memory {U P} `{EqDec U} `{EqDec P} p cs (sm : sampling U P) m rows :
  fst (bound_contributions_in p cs sm m rows)
  = fst (create_groups m cs (created p (compound_expects_sampling cs) sm rows)).
Proof.
  unfold bound_contributions_in, created.
  repeat match goal with
  | |- context [match ?x with Some _ => _ | None => _ end] => destruct x
  | |- context [if ?x then _ else _] => destruct x
  end; try reflexivity;
  match goal with |- context [create_groups ?m ?cs ?g] => destruct (create_groups m cs g) end; reflexivity.
Qed.

Lemma bound_in_value {U P} `{EqDec U} `{EqDec P} p cs (sm : sampling U P) m (rows : list (U * P * aval)) :
  (let '(m', out) := create_groups m cs (created p (compound_expects_sampling cs) sm rows) in
   read_all m' out = map_values (fun vs => compound_create cs (map (content m) vs))
                                (created p (compound_expects_sampling cs) sm rows)) ->
  snd (bound_contributions_in p cs sm m rows)
  = bound_contributions p (compound_expects_sampling cs) sm (compound_create cs) (content_rows m rows).
Proof.
  rewrite content_rows_values, bound_natural.
  unfold bound_contributions_in, bound_contributions, created.
  destruct (max_contributions p) as [n|].
  { destruct (n =? 0)%Z; [reflexivity|]. rewrite per_privacy_id_map.
    destruct (create_groups m cs _) as [m' out]. intros E. cbn [snd rmap]. rewrite E, map_values_map_values. reflexivity. }
  destruct (perform_cross_partition_contribution_bounding p); destruct (compound_expects_sampling cs).
  - destruct (max_partitions_contributed p) as [l0|]; [|reflexivity].
    destruct (max_contributions_per_partition p) as [linf|]; [|reflexivity].
    destruct (create_groups m cs _) as [m' out]. intros E. cbn [snd rmap]. f_equal. rewrite E. clear E.
    unfold bound_cross_and_per. rewrite key_by_pid_pk_map, sample_map_values, map_values_id.
    rewrite <- (map_values_map_values (map (content m)) (compound_create cs)).
    set (c := map_values (map (content m)) _).
    change (map (fun x : U * P * cacc => (fst (fst x), (snd (fst x), snd x))) (map_values (compound_create cs) c))
      with (rekey_pid (map_values (compound_create cs) c)).
    change (map (fun x : U * P * list value => (fst (fst x), (snd (fst x), snd x))) c) with (rekey_pid c).
    rewrite rekey_map, sample_map_values.
    change (map (fun pa : P * list value => (fst pa, compound_create cs (snd pa))))
      with (@map_values P (list value) cacc (compound_create cs)).
    apply (unnest_map (compound_create cs)).
  - destruct (max_partitions_contributed p) as [l0|]; [|reflexivity]. rewrite cross_partition_map.
    destruct (create_groups m cs _) as [m' out]. intros E. cbn [snd rmap]. rewrite E, map_values_map_values. reflexivity.
  - destruct (max_contributions_per_partition p) as [linf|]; [|reflexivity]. rewrite linf_map.
    destruct (create_groups m cs _) as [m' out]. intros E. cbn [snd rmap]. rewrite E, map_values_map_values. reflexivity.
  - rewrite noop_map.
    destruct (create_groups m cs _) as [m' out]. intros E. cbn [snd rmap]. rewrite E, map_values_map_values. reflexivity.
Qed.

Lemma created_values {U P} `{EqDec U} `{EqDec P} p ex (sm : sampling U P) (rows : list (U * P * aval)) :
  valid_sampling p sm ->
  submset (flat_map snd (created p ex sm rows)) (map snd rows).
Proof.
  unfold valid_sampling, created. destruct (max_contributions p) as [n|]; intros Vs.
  { destruct (n =? 0)%Z; [apply submset_nil | apply per_privacy_id_values, Vs]. }
  destruct Vs as [V0 V1].
  destruct (perform_cross_partition_contribution_bounding p); destruct ex.
  - destruct (max_partitions_contributed p) as [l0|]; [|apply submset_nil].
    destruct (max_contributions_per_partition p) as [linf|]; [|apply submset_nil].
    rewrite <- key_by_pid_pk_values. apply sample_values, V1. reflexivity.
  - destruct (max_partitions_contributed p) as [l0|]; [|apply submset_nil].
    apply cross_partition_values, V0. reflexivity.
  - destruct (max_contributions_per_partition p) as [linf|]; [|apply submset_nil].
    apply linf_values, V1. reflexivity.
  - apply noop_values.
Qed.

(** ** Separation *)
Lemma arrays_of_app a b : arrays_of (a ++ b) = arrays_of a ++ arrays_of b.
Proof. unfold arrays_of. apply flat_map_app. Qed.

Lemma arrays_of_submset a b : submset a b -> submset (arrays_of a) (arrays_of b).
Proof. apply submset_flat_map. Qed.

Lemma in_arrays_groups (groups : list (list aval)) ws a :
  In ws groups -> In a (arrays_of ws) -> In a (arrays_of (concat groups)).
Proof.
  induction groups as [|g gs IH]; intros I Ha; [destruct I|]. cbn. rewrite arrays_of_app. apply in_app_iff.
  destruct I as [<-|I]; auto.
Qed.

Lemma NoDup_separate (groups : list (list aval)) : NoDup (arrays_of (concat groups)) -> separate groups.
Proof.
  induction groups as [|vs gs IH]; intros N; [exact I|]. cbn [concat] in N. rewrite arrays_of_app in N.
  apply NoDup_app_iff in N. destruct N as [N1 [N2 D]]. cbn [separate]. repeat split.
  - intros a Ha Ht. destruct vs as [|[b|l] [|w vs]]; try (destruct Ha; fail).
    destruct Ha as [<-|[]]. cbn in N1. inversion N1; subst. auto.
  - intros ws a I Ha Hw. apply (D a); [apply firsts_arrays, Ha | eapply in_arrays_groups; eassumption].
  - intros ws a I Ha Hv. apply (D a Hv). eapply in_arrays_groups; [exact I | apply firsts_arrays, Ha].
  - apply IH, N2.
Qed.

Lemma short_firsts vs : length vs <= 1 -> firsts vs = [].
Proof. destruct vs as [|[a|l] [|w vs]]; cbn; intros L; try reflexivity; lia. Qed.

Lemma short_separate (groups : list (list aval)) : (forall vs, In vs groups -> length vs <= 1) -> separate groups.
Proof.
  induction groups as [|vs gs IH]; intros S; [exact I|]. cbn [separate]. repeat split.
  - intros a. rewrite short_firsts by (apply S; left; reflexivity). intros [].
  - intros ws a _. rewrite short_firsts by (apply S; left; reflexivity). intros [].
  - intros ws a I. rewrite (short_firsts ws) by (apply S; right; exact I). intros [].
  - apply IH. intros ws I. apply S. right. exact I.
Qed.

Lemma flat_map_concat_snd {K V} (groups : list (K * list V)) : flat_map snd groups = concat (map snd groups).
Proof. apply flat_map_concat_map. Qed.

(** ** At most one VectorSumCombiner *)
Lemma one_vector p cs : create_compound_combiner p = Ok cs -> length (filter is_vector cs) <= 1.
Proof.
  unfold create_compound_combiner. destruct (create_combiners p) as [cs'|e]; [|discriminate].
  cbn [rbind]. unfold compound_init, raise_if. destruct (has_duplicates _) eqn:D; [discriminate|]. intros E. injection E as <-.
  unfold has_duplicates in D. apply negb_false_iff, Nat.eqb_eq in D.
  assert (N : length (filter (eqb NVectorSum) (flat_map names_of cs')) <= 1).
  { assert (ND : NoDup (flat_map names_of cs')).
    { assert (NoDup_len : forall l : list mname, length l = length (distinct l) -> NoDup l).
      { intros l E. apply (NoDup_incl_NoDup (l := distinct l) (l' := l)); [apply NoDup_distinct | lia|].
        intros x. apply in_distinct. }
      apply NoDup_len, D. }
    apply (NoDup_filter' (eqb NVectorSum)) in ND. remember (filter _ _) as l.
    destruct l as [|x [|y l]]; cbn; [lia | lia|]. exfalso.
    assert (Hx : In x (filter (eqb NVectorSum) (flat_map names_of cs'))) by (rewrite <- Heql; left; reflexivity).
    assert (Hy : In y (filter (eqb NVectorSum) (flat_map names_of cs'))) by (rewrite <- Heql; right; left; reflexivity).
    apply filter_In in Hx, Hy. destruct Hx as [_ Hx], Hy as [_ Hy]. apply eqb_eq in Hx, Hy. subst.
    inversion ND as [|? ? N _]. apply N. left. reflexivity. }
  clear D. revert N. induction cs' as [|c cs IH]; [cbn; lia|].
  cbn [flat_map filter]. rewrite filter_app, app_length. intros N.
  destruct c; cbn [is_vector]; try (apply IH; lia).
  cbn [names_of filter] in N. rewrite eqb_refl in N. cbn in N |- *.
  enough (length (filter is_vector cs) = 0) by lia.
  assert (N0 : length (filter (eqb NVectorSum) (flat_map names_of cs)) = 0) by lia. clear - N0.
  induction cs as [|c cs IH]; [reflexivity|]. cbn [flat_map filter] in *. rewrite filter_app, app_length in N0.
  destruct c; cbn [is_vector]; try (apply IH; lia).
  cbn [names_of filter] in N0. rewrite eqb_refl in N0. cbn in N0. lia.
Qed.

(** ** The engine *)
Definition kept_rows {U P V} `{EqDec P} (p : params) (public : option (list P)) (rows : list (U * P * V)) :=
  match public with
  | Some pub => if public_partitions_already_filtered p then rows else drop_partitions pub rows
  | None => rows
  end.

Lemma drop_partitions_filter {U P V} `{EqDec P} pub (rows : list (U * P * V)) :
  drop_partitions pub rows = filter (fun r => mem (snd (fst r)) pub) rows.
Proof.
  unfold drop_partitions, filter_by_key. rewrite filter_map. cbn [fst]. rewrite map_map. cbn [snd]. apply map_id.
Qed.

Lemma kept_submset {U P V} `{EqDec P} p public (rows : list (U * P * V)) :
  submset (kept_rows p public rows) rows.
Proof.
  unfold kept_rows. destruct public as [pub|]; [|apply submset_refl].
  destruct (public_partitions_already_filtered p); [apply submset_refl|].
  rewrite drop_partitions_filter. apply submset_filter_self.
Qed.

Lemma kept_map {U P} `{EqDec P} p public m (rows : list (U * P * aval)) :
  kept_rows p public (content_rows m rows) = content_rows m (kept_rows p public rows).
Proof.
  unfold kept_rows. destruct public as [pub|]; [|reflexivity].
  destruct (public_partitions_already_filtered p); [reflexivity|].
  rewrite !drop_partitions_filter. unfold content_rows. rewrite filter_map. reflexivity.
Qed.

(** All groups for which an aggregation creates accumulators. *)
Definition all_created {U P} `{EqDec U} `{EqDec P} (p : params) (cs : list combiner) (sm : sampling U P)
    (public : option (list P)) (rows : list (U * P * aval)) : list (list aval) :=
  if contribution_bounds_already_enforced p
  then map (fun r => [snd r]) (kept_rows p public rows)
  else map snd (created p (compound_expects_sampling cs) sm (kept_rows p public rows)).

Lemma all_created_submset {U P} `{EqDec U} `{EqDec P} p cs (sm : sampling U P) public (rows : list (U * P * aval)) :
  (contribution_bounds_already_enforced p = false -> valid_sampling p sm) ->
  submset (concat (all_created p cs sm public rows)) (map snd rows).
Proof.
  intros Vs. apply (submset_trans _ (map snd (kept_rows p public rows))); [|apply submset_map, kept_submset].
  unfold all_created. destruct (contribution_bounds_already_enforced p).
  - rewrite <- (flat_map_concat_map (fun r => [snd r])). rewrite flat_map_singleton. apply submset_refl.
  - rewrite <- flat_map_concat_snd. apply created_values. auto.
Qed.

Lemma in_memory_created {U P} `{EqDec U} `{EqDec P} p cs (sm : sampling U P) public (m : memory) (rows : list (U * P * aval)) :
  (contribution_bounds_already_enforced p = false -> valid_sampling p sm) -> in_memory m rows ->
  forall vs a, In vs (all_created p cs sm public rows) -> In a (arrays_of vs) -> a < length m.
Proof.
  intros Vs M vs a I Ha. apply M. unfold arrays_of_rows.
  apply (submset_In _ _ a (arrays_of_submset _ _ (all_created_submset p cs sm public rows Vs))).
  eapply in_arrays_groups; eassumption.
Qed.

Lemma contributions_memory {U P} `{EqDec U} `{EqDec P} p cs (sm : sampling U P) public m (rows : list (U * P * aval)) :
  (contribution_bounds_already_enforced p = false -> valid_sampling p sm) -> in_memory m rows ->
  frame (flat_map firsts (all_created p cs sm public rows)) m (fst (contributions_in p cs sm public m rows)).
Proof.
  intros Vs M. pose proof (in_memory_created p cs sm public m rows Vs M) as L.
  unfold contributions_in. fold (kept_rows p public rows). unfold all_created in *.
  destruct (contribution_bounds_already_enforced p).
  - pose proof (groups_frame cs (map (fun r => (snd (fst r), [snd r])) (kept_rows p public rows)) m) as F.
    destruct (create_groups m cs _) as [m' out]. cbn [fst] in *.
    unfold all_firsts in F. rewrite !flat_map_map in *. cbn [snd] in F. apply F.
    intros g a Hg Ha. apply in_map_iff in Hg. destruct Hg as [r [<- Hr]]. cbn [snd] in Ha.
    apply (L [snd r] a); [|exact Ha]. apply in_map_iff. eauto.
  - pose proof (bound_in_memory p cs sm m (kept_rows p public rows)) as E.
    destruct (bound_contributions_in p cs sm m (kept_rows p public rows)) as [m' out]. cbn [fst] in *. subst.
    rewrite flat_map_map. apply (groups_frame cs). intros g a Hg Ha. apply (L (snd g) a); [apply in_map, Hg | exact Ha].
Qed.

Lemma contributions_value {U P} `{EqDec U} `{EqDec P} p cs (sm : sampling U P) public m (rows : list (U * P * aval)) :
  (contribution_bounds_already_enforced p = false -> valid_sampling p sm) -> in_memory m rows ->
  length (filter is_vector cs) <= 1 ->
  separate (all_created p cs sm public rows) ->
  snd (contributions_in p cs sm public m rows) = contributions p cs sm public (content_rows m rows).
Proof.
  intros Vs M N S. pose proof (in_memory_created p cs sm public m rows Vs M) as L.
  unfold contributions_in, contributions. fold (kept_rows p public rows).
  fold (kept_rows p public (content_rows m rows)). rewrite kept_map. unfold all_created in *.
  destruct (contribution_bounds_already_enforced p).
  - pose proof (groups_value cs (map (fun r => (snd (fst r), [snd r])) (kept_rows p public rows)) N m) as V.
    assert (S' : separate (map snd (map (fun r : U * P * aval => (snd (fst r), [snd r])) (kept_rows p public rows)))).
    { rewrite map_map. exact S. }
    assert (L' : forall g a, In g (map (fun r : U * P * aval => (snd (fst r), [snd r])) (kept_rows p public rows)) ->
      In a (arrays_of (snd g)) -> a < length m).
    { intros g a Hg Ha. apply in_map_iff in Hg. destruct Hg as [r [<- Hr]]. cbn [snd] in Ha.
      apply (L [snd r] a); [|exact Ha]. apply in_map_iff. eauto. }
    specialize (V L' S'). destruct (create_groups m cs _) as [m' out]. cbn [snd]. f_equal. rewrite V.
    unfold map_values, content_rows. rewrite !map_map. reflexivity.
  - pose proof (groups_value cs (created p (compound_expects_sampling cs) sm (kept_rows p public rows)) N m) as V.
    assert (L' : forall g a, In g (created p (compound_expects_sampling cs) sm (kept_rows p public rows)) ->
      In a (arrays_of (snd g)) -> a < length m).
    { intros g a Hg Ha. apply (L (snd g) a); [apply in_map, Hg | exact Ha]. }
    pose proof (bound_in_value p cs sm m (kept_rows p public rows) (V L' S)) as E.
    destruct (bound_contributions_in p cs sm m (kept_rows p public rows)) as [m' out]. cbn [snd] in *. rewrite E. reflexivity.
Qed.

Lemma aggregate_in_value {U P} `{EqDec U} `{EqDec P} p (sm : sampling U P) sk nz public m (rows : list (U * P * aval)) :
  (contribution_bounds_already_enforced p = false -> valid_sampling p sm) -> in_memory m rows ->
  (forall cs, create_compound_combiner p = Ok cs -> separate (all_created p cs sm public rows)) ->
  snd (aggregate_in p sm sk nz public m rows) = aggregate p sm sk nz public (content_rows m rows).
Proof.
  intros Vs M S. unfold aggregate_in, aggregate. pose proof (one_vector p) as N.
  destruct (create_compound_combiner p) as [cs|e]; [|reflexivity]. specialize (N cs eq_refl).
  pose proof (contributions_value p cs sm public m rows Vs M N (S cs eq_refl)) as E.
  destruct (contributions_in p cs sm public m rows) as [m' c]. cbn [snd rbind] in *. rewrite E.
  unfold release, selected_accumulators, raw_accumulators. reflexivity.
Qed.

Lemma aggregate_in_frame {U P} `{EqDec U} `{EqDec P} p (sm : sampling U P) sk nz public m (rows : list (U * P * aval)) :
  (contribution_bounds_already_enforced p = false -> valid_sampling p sm) -> in_memory m rows ->
  exists cs, frame (flat_map firsts (all_created p cs sm public rows)) m (fst (aggregate_in p sm sk nz public m rows)).
Proof.
  intros Vs M. unfold aggregate_in. destruct (create_compound_combiner p) as [cs|e].
  - exists cs. pose proof (contributions_memory p cs sm public m rows Vs M) as F.
    destruct (contributions_in p cs sm public m rows) as [m' c]. exact F.
  - exists []. apply (frame_weaken []); [apply frame_refl | intros ? []].
Qed.

(** ** Which arrays change *)
Lemma created_group {U P} `{EqDec U} `{EqDec P} p ex (sm : sampling U P) (rows : list (U * P * aval)) k vs :
  valid_sampling p sm -> In (k, vs) (created p ex sm rows) -> submset vs (values_of k rows).
Proof.
  unfold valid_sampling, created. destruct (max_contributions p) as [n|]; intros Vs.
  { destruct (n =? 0)%Z; [intros []|]. intros I.
    destruct (per_privacy_id_any_bounds (Z.to_nat n) (fun vs => vs) rows _
                (per_privacy_id_local_any (ch_pid sm) _ _ rows Vs)) as [kept [Pm [N [Ne B]]]].
    rewrite map_values_id in Pm. apply (Permutation_in _ Pm) in I. destruct (B (fst k)) as [S _].
    assert (S' : submset (values_of k (as_rows (kept_of (fst k) kept))) (values_of k (rows_of (fst k) rows))).
    { apply submset_map, submset_filter, S. }
    apply (submset_trans _ (values_of k (rows_of (fst k) rows))).
    - apply (submset_trans _ (values_of k (as_rows (kept_of (fst k) kept)))); [|exact S'].
      assert (I' : In (k, vs) (kept_of (fst k) kept)) by (apply filter_In; split; [exact I | apply eqb_refl]).
      apply in_split in I'. destruct I' as [l1 [l2 E]]. rewrite E. unfold as_rows. rewrite flat_map_app.
      cbn [flat_map fst snd]. unfold values_of. rewrite !filter_app, !map_app.
      exists (map snd (filter (fun kv => eqb (fst kv) k) (flat_map (fun e => map (fun v => (fst e, v)) (snd e)) l1))
              ++ map snd (filter (fun kv => eqb (fst kv) k) (flat_map (fun e => map (fun v => (fst e, v)) (snd e)) l2))).
      rewrite (filter_all _ (map (fun v => (k, v)) vs)).
      + rewrite map_map. cbn [snd]. rewrite map_id. rewrite !app_assoc. apply Permutation_app_tail, Permutation_app_comm.
      + intros x Hx. apply in_map_iff in Hx. destruct Hx as [v [<- _]]. apply eqb_refl.
    - apply submset_map, submset_filter, submset_filter_self. }
  destruct Vs as [V0 V1].
  destruct (perform_cross_partition_contribution_bounding p); destruct ex.
  - destruct (max_partitions_contributed p) as [l0|]; [|intros []].
    destruct (max_contributions_per_partition p) as [linf|]; [|intros []].
    rewrite key_by_pid_pk_id. intros I. apply in_sample in I. destruct I as [_ ->]. apply choose_submset.
    intros L. apply V1; [reflexivity | exact L].
  - destruct (max_partitions_contributed p) as [l0|]; [|intros []]. intros I.
    destruct (cross_partition_local_bounds (ch_pid sm) (Z.to_nat l0) (fun vs => vs) rows (V0 _ eq_refl)) as [_ [_ B]].
    destruct k as [u pk]. destruct (B u pk vs I) as [_ ->]. apply submset_refl.
  - destruct (max_contributions_per_partition p) as [linf|]; [|intros []]. unfold bound_linf.
    rewrite map_values_id, key_by_pid_pk_id. intros I. apply in_sample in I. destruct I as [_ ->]. apply choose_submset.
    intros L. apply V1; [reflexivity | exact L].
  - unfold bound_noop. rewrite map_values_id, key_by_pid_pk_id. intros I. apply in_group_by_key in I.
    destruct I as [_ ->]. apply submset_refl.
Qed.

Lemma firsts_long vs a : In a (firsts vs) -> In (Arr a) vs /\ 2 <= length vs.
Proof.
  unfold firsts. destruct vs as [|[b|l] [|w vs]]; intros Ha; try (destruct Ha; fail).
  destruct Ha as [<-|[]]. cbn. split; [auto | lia].
Qed.

Lemma changed_arrays {U P} `{EqDec U} `{EqDec P} p (sm : sampling U P) sk nz public (m : memory) (rows : list (U * P * aval)) a :
  (contribution_bounds_already_enforced p = false -> valid_sampling p sm) -> in_memory m rows ->
  a < length m -> nth a (fst (aggregate_in p sm sk nz public m rows)) [] <> nth a m [] ->
  contribution_bounds_already_enforced p = false /\
  exists k, In (Arr a) (values_of k rows) /\ 2 <= length (values_of k rows).
Proof.
  intros Vs M La C. destruct (aggregate_in_frame p sm sk nz public m rows Vs M) as [cs [_ F]].
  assert (I : In a (flat_map firsts (all_created p cs sm public rows))).
  { destruct (in_dec Nat.eq_dec a (flat_map firsts (all_created p cs sm public rows))) as [I|N]; [exact I|].
    exfalso. apply C, F; assumption. }
  apply in_flat_map in I. destruct I as [vs [I Ha]]. apply firsts_long in Ha. destruct Ha as [Ia Lv].
  unfold all_created in I. destruct (contribution_bounds_already_enforced p).
  { apply in_map_iff in I. destruct I as [r [<- _]]. cbn in Lv. lia. }
  split; [reflexivity|]. apply in_map_iff in I. destruct I as [[k vs'] [<- I]]. cbn [snd] in *.
  apply created_group in I; [|auto]. exists k.
  assert (S : submset (values_of k (kept_rows p public rows)) (values_of k rows)).
  { apply submset_map, submset_filter, kept_submset. }
  pose proof (submset_trans _ _ _ I S) as T. split.
  - apply (submset_In _ _ _ T), Ia.
  - apply submset_length in T. lia.
Qed.

(** Groups of one value. *)
Lemma created_short {U P} `{EqDec U} `{EqDec P} p cs (sm : sampling U P) public (rows : list (U * P * aval)) :
  (contribution_bounds_already_enforced p = false ->
     max_contributions p = None /\ max_contributions_per_partition p = Some 1%Z /\
     compound_expects_sampling cs = true /\ valid_sampling p sm) ->
  forall vs, In vs (all_created p cs sm public rows) -> length vs <= 1.
Proof.
  intros Hp vs. unfold all_created. destruct (contribution_bounds_already_enforced p).
  { intros I. apply in_map_iff in I. destruct I as [r [<- _]]. cbn. lia. }
  destruct (Hp eq_refl) as [E1 [E2 [E3 Vs]]]. unfold valid_sampling in Vs. unfold created. rewrite E1, E2, E3 in *.
  destruct Vs as [_ V1]. specialize (V1 _ eq_refl).
  intros I. apply in_map_iff in I. destruct I as [[k vs'] [<- I]]. cbn [snd].
  assert (S : In (k, vs') (sample_fixed_per_key (ch_pid_pk sm) (Z.to_nat 1) (key_by_pid_pk (kept_rows p public rows)))).
  { destruct (perform_cross_partition_contribution_bounding p).
    - destruct (max_partitions_contributed p); [exact I | destruct I].
    - unfold bound_linf in I. rewrite map_values_id in I. exact I. }
  apply in_sample in S. destruct S as [_ ->]. rewrite choose_length; [|intros L; apply V1, L].
  change (Z.to_nat 1) with 1. lia.
Qed.

Lemma vector_expects p cs : has VECTOR_SUM (metrics p) = true -> create_compound_combiner p = Ok cs ->
  compound_expects_sampling cs = true.
Proof.
  intros Hv. unfold create_compound_combiner, create_combiners. rewrite Hv.
  assert (A : forall b mk k cs, append_if b mk k = Ok cs -> (forall cs', k = Ok cs' -> compound_expects_sampling cs' = true) ->
    compound_expects_sampling cs = true).
  { intros b mk k cs' E K. unfold append_if in E. destruct b; [|auto]. destruct mk; [|discriminate].
    destruct k; [|discriminate]. cbn in E. injection E as <-. cbn. apply orb_true_iff. right. apply K. reflexivity. }
  set (k4 := append_if _ (Ok (CQuantile _)) _).
  assert (K3 : forall cs', append_if true (new_vector p) k4 = Ok cs' -> compound_expects_sampling cs' = true).
  { intros cs' E. cbn in E. destruct k4; [|discriminate]. cbn in E. injection E as <-. reflexivity. }
  intros E. match type of E with rbind ?x _ = _ => destruct x as [cs'|e] eqn:E' end; [|discriminate].
  cbn [rbind] in E. unfold compound_init, raise_if in E. destruct (has_duplicates _); [discriminate|]. injection E as <-.
  destruct (has VARIANCE (metrics p)); [|destruct (has MEAN (metrics p))].
  - apply (A _ _ _ _ E'). intros c1 E1. apply (A _ _ _ _ E1), K3.
  - apply (A _ _ _ _ E'). intros c1 E1. apply (A _ _ _ _ E1), K3.
  - apply (A _ _ _ _ E'). intros c1 E1. apply (A _ _ _ _ E1). intros c2 E2. apply (A _ _ _ _ E2), K3.
Qed.
