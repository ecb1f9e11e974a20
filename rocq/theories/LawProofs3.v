(** Lemmas for C73: within the bounds the noised quantities are exact. *)
From Coq Require Import List ZArith QArith Qabs Qminmax Bool Permutation Lia Lqa.
From Verif Require Import Base BaseLemmas BackendModel BackendSpec ListLemmas BackendProofs
  BounderModel BounderSpec BounderProofs ParamsModel ParamsProofs SensModel CombinerModel CombinerSpec CombinerProofs CombinerProofs3 EngineModel EngineSpec
  EngineProofs EngineProofs2 EngineProofs3 EngineProofs4 EngineProofs5 EngineProps EngineProps2 EnforcedSpec EnforcedProofs EnforcedProofs2 EnforcedProps
  QuantileProps LawSpec.
Import ListNotations.
Local Open Scope Q_scope.

Lemma kept_groups {U P V} `{EqDec U} `{EqDec P} p ex (sm : sampling U P) (rows : list (U * P * V)) kept :
  accepted p -> within_bounds p rows ->
  bound_contributions p ex sm (fun vs => vs) rows = Ok kept -> Permutation kept (group_by_key rows).
Proof.
  intros Ha [A [B C]] E.
  assert (K : NoDup (map fst kept) /\ (forall k a, In (k, a) kept <-> In k (map fst rows) /\ a = values_of k rows)).
  { destruct (accepted_facts p Ha) as [_ [_ [_ Hf]]]. unfold bound_contributions in E.
    destruct (max_contributions p) as [m|].
    - destruct (m =? 0)%Z; [discriminate|]. inversion E; subst kept.
      apply (per_privacy_id_no_loss (ch_pid sm) (Z.to_nat m) (fun vs : list V => vs)). intro u. specialize (A m eq_refl u). lia.
    - destruct Hf as [l0 [linf [E0 [Ei _]]]]. rewrite E0, Ei in E.
      assert (L0 : forall u, (length (partitions_of u rows) <= Z.to_nat l0)%nat) by (intro u; specialize (B l0 E0 u); lia).
      assert (Li : forall k, (length (values_of k rows) <= Z.to_nat linf)%nat) by (intros [u k]; specialize (C linf Ei u k); lia).
      destruct (perform_cross_partition_contribution_bounding p), ex; inversion E; subst kept.
      + apply (cross_and_per_no_loss (ch_pid_pk sm) (ch_pid sm) _ _ (fun vs : list V => vs)); assumption.
      + apply (cross_partition_no_loss (ch_pid sm) _ (fun vs : list V => vs)); assumption.
      + apply (linf_no_loss (ch_pid_pk sm) _ (fun vs : list V => vs)); assumption.
      + apply (noop_exact (fun vs : list V => vs)). }
  destruct K as [N K]. apply NoDup_Permutation.
  - apply NoDup_map_inv in N. exact N.
  - apply (NoDup_map_inv fst). rewrite group_by_key_keys. apply NoDup_distinct.
  - intros [k a]. rewrite K. symmetry. apply in_group_by_key.
Qed.

Lemma rows_in_public {U P} `{EqDec U} `{EqDec P} p public (rows : list (U * P * value)) k :
  match public with Some pub => public_partitions_already_filtered p = false -> In k pub | None => True end ->
  rows_in k (to_bound p public rows) = rows_in k rows.
Proof.
  intro Hk. unfold rows_in, to_bound. destruct public as [pub|]; [|reflexivity]. destruct (public_partitions_already_filtered p); [reflexivity|].
  rewrite drop_partitions_filter, filter_filter. apply filter_ext_In. intros r _.
  destruct (eqb (snd (fst r)) k) eqn:B; [|apply andb_false_r]. apply eqb_eq in B. rewrite B, andb_true_r.
  apply mem_true_iff. exact (Hk eq_refl).
Qed.

Lemma empties_values {P} `{EqDec P} (k : P) public g : In g (values_of k (empties public)) -> g = [].
Proof.
  unfold values_of, empties. intro I. apply in_map_iff in I. destruct I as [[k' g'] [<- I]]. apply filter_In in I. destruct I as [I _].
  destruct public as [pub|]; [|destruct I]. apply in_map_iff in I. destruct I as [x [E _]]. inversion E. reflexivity.
Qed.

(** A combiner for which each row counts for itself. *)
Lemma row_wise_exact {U P} `{EqDec U} `{EqDec P} p cs (sm : sampling U P) public rows keys col i c qt k :
  bounded_run p cs sm public rows keys col -> within_bounds p rows -> nth_error cs i = Some c ->
  (forall lo hi, c <> CSum true lo hi) -> c <> CPidCount -> c <> CThresh ->
  match public with Some pub => public_partitions_already_filtered p = false -> In k pub | None => True end ->
  raw_value (quantity_of qt) i k col == sumQ (map (fun r => quantity_of qt (create c [snd r])) (rows_in k rows)).
Proof.
  intros R W Hi N1 N2 N3 Hk. assert (Pr := quantity_per_row qt c N1 N2 N3).
  assert (Af : additive (quantity_of qt)) by (destruct qt; [exact count_additive | exact sum_additive | exact squares_additive]).
  assert (Em : sumQ (map (fun g => quantity_of qt (create c g)) (values_of k (empties public))) == 0).
  { apply sumQ_zero. intros g Ig. rewrite (empties_values k public g Ig). exact (Pr []). }
  assert (Rp : forall l : list (U * P * value), sumQ (map (fun g => quantity_of qt (create c g)) (values_of k (row_pairs l))) =
               sumQ (map (fun r => quantity_of qt (create c [snd r])) (rows_in k l))).
  { intro l. unfold values_of, row_pairs, rows_in. rewrite filter_map, !map_map. reflexivity. }
  rewrite <- (rows_in_public p public rows k Hk). destruct R as [[Ha [_ [Hb [_ [_ [_ E]]]]]]|[Ha [_ [Hb [_ [_ E]]]]]].
  - destruct (raw_accumulators_pairs p cs sm public rows col Hb E) as [kept [Ek ->]].
    assert (Pm := kept_complete p _ sm (to_bound p public rows) kept Ha (within_to_bound p public rows W) Ek).
    rewrite (raw_value_sum (quantity_of qt) cs i c) by assumption. unfold pairs_of. rewrite values_of_app, map_app, sumQ_app, Em.
    rewrite (grouped_sum (quantity_of qt) c k kept Pr), Rp, Qplus_0_r. apply sumQ_Permutation. unfold rows_in. apply filter_Permutation. exact Pm.
  - rewrite (raw_trusted p cs sm public rows Hb) in E. inversion E; subst col.
    rewrite (raw_value_sum (quantity_of qt) cs i c) by assumption. rewrite values_of_app, map_app, sumQ_app, Em, Rp. ring.
Qed.

(** The groups of partition [k]. *)
Lemma groups_of {U P} `{EqDec U} `{EqDec P} k (rows : list (U * P * value)) :
  Permutation (values_of k (map (fun e => (snd (fst e), snd e)) (group_by_key rows))) (map (fun u => values_of (u, k) rows) (ids_of k rows)).
Proof.
  rewrite group_by_key_normal, map_map. cbn [fst snd]. unfold values_of at 1. rewrite filter_map, map_map. cbn [fst snd].
  assert (Pk : Permutation (filter (fun x : U * P => eqb (snd x) k) (distinct (map fst rows))) (map (fun u => (u, k)) (ids_of k rows))).
  { apply NoDup_Permutation.
    - apply NoDup_filter. apply NoDup_distinct.
    - apply FinFun.Injective_map_NoDup; [intros x y Exy; congruence | apply NoDup_distinct].
    - intros [u k']. rewrite filter_In, (in_distinct (map fst rows)). cbn [snd]. split.
      + intros [I B]. apply eqb_eq in B. subst k'. apply in_map_iff. exists u. split; [reflexivity|]. unfold ids_of. apply (proj2 (in_distinct _ _)).
        apply in_map_iff in I. destruct I as [r [Er Ir]]. apply in_map_iff. exists r. split; [rewrite Er; reflexivity|].
        apply filter_In. split; [exact Ir|]. rewrite Er. apply ListLemmas.eqb_refl.
      + intro I. apply in_map_iff in I. destruct I as [x [Ex I]]. inversion Ex; subst x k'. unfold ids_of in I. apply (proj1 (in_distinct _ _)) in I.
        apply in_map_iff in I. destruct I as [r [Er Ir]]. apply filter_In in Ir. destruct Ir as [Ir B]. apply eqb_eq in B.
        split; [|apply ListLemmas.eqb_refl]. apply in_map_iff. exists r. split; [|exact Ir]. destruct r as [[u' k'] v]. cbn in *. congruence. }
  apply (Permutation_map (fun x => values_of x rows)) in Pk. rewrite map_map in Pk. exact Pk.
Qed.

Lemma id_wise_exact {U P} `{EqDec U} `{EqDec P} p cs (sm : sampling U P) public rows keys col i c qt k :
  standard_run p cs sm public rows keys col -> within_bounds p rows -> nth_error cs i = Some c ->
  quantity_of qt (create c []) == 0 ->
  match public with Some pub => public_partitions_already_filtered p = false -> In k pub | None => True end ->
  raw_value (quantity_of qt) i k col == sumQ (map (fun u => quantity_of qt (create c (values_of (u, k) rows))) (ids_of k rows)).
Proof.
  intros R W Hi Z0 Hk.
  assert (Af : additive (quantity_of qt)) by (destruct qt; [exact count_additive | exact sum_additive | exact squares_additive]).
  assert (Em : sumQ (map (fun g => quantity_of qt (create c g)) (values_of k (empties public))) == 0).
  { apply sumQ_zero. intros g Ig. rewrite (empties_values k public g Ig). exact Z0. }
  destruct R as [Ha [_ [Hb [_ [_ [_ E]]]]]].
  destruct (raw_accumulators_pairs p cs sm public rows col Hb E) as [kept [Ek ->]].
  assert (Pm := kept_groups p _ sm (to_bound p public rows) kept Ha (within_to_bound p public rows W) Ek).
  rewrite (raw_value_sum (quantity_of qt) cs i c) by assumption. unfold pairs_of. rewrite values_of_app, map_app, sumQ_app, Em, Qplus_0_r.
  etransitivity.
  - apply sumQ_Permutation. apply values_of_Permutation. apply Permutation_map. exact Pm.
  - etransitivity; [apply sumQ_Permutation; apply groups_of|]. rewrite map_map.
    assert (Ev : forall u, values_of (u, k) (to_bound p public rows) = values_of (u, k) rows).
    { intro u. assert (Er := rows_in_public p public rows k Hk). unfold rows_in in Er. unfold values_of.
      assert (G : forall l : list (U * P * value), filter (fun kv => eqb (fst kv) (u, k)) l = filter (fun kv => eqb (fst kv) (u, k)) (filter (fun r => eqb (snd (fst r)) k) l)).
      { intro l. rewrite filter_filter. apply filter_ext_In. intros [[u' k'] v] _. cbn [fst snd]. apply eq_true_iff_eq. split.
        - intro B. apply eqb_eq in B. inversion B; subst. rewrite !ListLemmas.eqb_refl. reflexivity.
        - intro B. apply andb_true_iff in B. tauto. }
      rewrite (G (to_bound p public rows)), Er, <- G. reflexivity. }
    assert (Ei : ids_of k (to_bound p public rows) = ids_of k rows).
    { assert (Er := rows_in_public p public rows k Hk). unfold rows_in in Er. unfold ids_of. rewrite Er. reflexivity. }
    rewrite Ei. apply sumQ_ext. intros u _. rewrite Ev. reflexivity.
Qed.
