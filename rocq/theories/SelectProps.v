(** C59: the set of partitions that a run without public partitions releases is
    differentially private. *)
From Coq Require Import String List ZArith QArith Qreals Reals Bool Lia Lra.
From Verif Require Import Base BaseLemmas BackendModel BackendSpec ListLemmas BounderSpec ParamsModel CombinerModel EngineModel EngineSpec
  EngineProofs3 EngineProofs4 EngineProofs5 EngineProps EngineProps2 BudgetModel BudgetSpec VectorModel ExpMechProofs LaplaceSpec LaplaceProofs
  SelectModel SelectSpec SelectProofs SelectProofs2 SelectProofs3.
Import ListNotations.
Local Open Scope R_scope.

Lemma known_strategy s : In (strategy_name s) (map strategy_name [TruncatedGeometric; LaplaceThresholding; GaussianThresholding]).
Proof. destruct s; cbn; tauto. Qed.

(** DPEngine.aggregate: for every set [E] of sets of partitions, the probability that
    the partitions released are in [E] changes by at most a factor exp(eps) and a
    summand delta when all rows of a privacy id are removed; eps and delta are the ones
    that the accountant granted to partition selection. *)
Theorem C59_aggregate_partitions {U P} `{EqDec U} `{EqDec P} p cs (sm : sampling U P) nz rows u keys E
    (pydp : selector -> Z -> R) eps delta :
  pydp_contract pydp -> (0 < eps)%Q -> (0 <= delta < 1)%Q ->
  accepted p -> create_compound_combiner p = Ok cs -> ~ In VECTOR_SUM (metrics p) ->
  (forall k i l qs, length (n_quantiles (nz k i) l qs) = length qs) ->
  post_aggregation_thresholding p = false -> public_partitions_already_filtered p = false ->
  contribution_bounds_already_enforced p = false -> max_contributions p = None ->
  valid_sampling p sm -> promised p rows -> NoDup keys ->
  let Pr := aggregate_probability p sm nz (pydp (aggregate_selector p eps delta)) keys E in
  indistinguishable (Q2R eps) (Q2R delta) (Pr rows) (Pr (without u rows)).
Proof.
  intros Hpy He Hd Ha Hcs Hvs Hq Ht Hf Hb Hm Hv Hp Nk. cbv zeta.
  destruct (accepted_facts p Ha) as [_ [_ [_ Hl]]]. rewrite Hm in Hl. destruct Hl as [l0 [linf [E0 [_ [P0 _]]]]].
  destruct (Hpy (aggregate_selector p eps delta) l0 E0 P0 He Hd (known_strategy _)
              (fun t Et => accepted_pre_threshold p t Ha Et)) as [_ [Z0 C]].
  destruct (private_run p cs sm rows Ha Hcs Ht Hf) as [col [_ [Er _]]].
  destruct (private_run p cs sm (without u rows) Ha Hcs Ht Hf) as [col' [_ [Er' _]]].
  rewrite (aggregate_law p cs sm nz rows col) by assumption.
  rewrite (aggregate_law p cs sm nz (without u rows) col') by assumption.
  apply C. destruct (selection_influence p cs sm None rows col col' u keys l0 Ha Hb Hv Hp Nk Er Er') as [D1 D2].
  { rewrite Hm. exact E0. }
  apply neighbouring_counts; [|exact D1 | exact D2].
  apply (counts_of_run p cs sm (without u rows) col' Ha Hcs Ht Hf Hb Hv Er').
Qed.
Print Assumptions C59_aggregate_partitions.

(** DPEngine.select_partitions, likewise. *)
Theorem C59_select_partitions {U P} `{EqDec U} `{EqDec P} (l0 : Z) (ch : source U) (rows : list (U * P)) u keys E s pre
    (pydp : selector -> Z -> R) eps delta :
  pydp_contract pydp -> (0 < eps)%Q -> (0 <= delta < 1)%Q ->
  (0 < l0)%Z -> (forall t, pre = Some t -> (0 < t)%Z) ->
  valid_source (Z.to_nat l0) ch -> NoDup keys ->
  let Pr := selection_probability (Z.to_nat l0) ch (pydp (select_partitions_selector s l0 pre eps delta)) keys E in
  indistinguishable (Q2R eps) (Q2R delta) (Pr rows) (Pr (filter (fun r => negb (eqb (fst r) u)) rows)).
Proof.
  intros Hpy He Hd Hl Ht Hv Nk. cbv zeta.
  destruct (Hpy (select_partitions_selector s l0 pre eps delta) l0 eq_refl Hl He Hd (known_strategy s) Ht) as [_ [Z0 C]].
  destruct (C27_select_partitions (Z.to_nat l0) ch rows u Hv) as [n [n' [K [K' [B [D1 D2]]]]]].
  assert (Ln : forall (r : list (U * P)) k, (length (pairs_ids k r) <= length r)%nat).
  { intros r k. unfold pairs_ids. eapply Nat.le_trans; [apply distinct_length_le|]. rewrite map_length.
    induction r as [|x r IH]; [cbn; lia|]. cbn [filter]. destruct (eqb (snd x) k); cbn; lia. }
  assert (B' : forall k, (0 <= n' k <= Z.of_nat (length (filter (fun r => negb (eqb (fst r) u)) rows)))%Z).
  { intro k. destruct (C27_select_partitions (Z.to_nat l0) ch (filter (fun r => negb (eqb (fst r) u)) rows) u Hv)
      as [m [_ [Km [_ [Bm _]]]]].
    assert (Bk := Bm k). assert (L := Ln (filter (fun r => negb (eqb (fst r) u)) rows) k).
    (* n' and m agree: both are the counts for which should_keep is asked *)
    assert (Q : forall keep, (0 < n' k)%Z /\ keep k (n' k) = true <-> (0 < m k)%Z /\ keep k (m k) = true).
    { intro keep. destruct (Km keep) as [_ [_ Kk]]. rewrite <- Kk. symmetry. apply K'. }
    destruct (Z.lt_ge_cases 0 (n' k)) as [X|X].
    - specialize (Q (fun _ z => (z =? n' k)%Z)). cbn beta in Q. rewrite Z.eqb_refl in Q.
      destruct (proj1 Q (conj X eq_refl)) as [_ Y]. apply Z.eqb_eq in Y. lia.
    - destruct (D1 k). lia. }
  unfold selection_probability.
  rewrite (run_law _ keys (length rows) n); [| exact Nk | | exact Z0 |].
  2: { intro k. specialize (B k). specialize (Ln rows k). lia. }
  2: { intro heads. unfold shown. apply map_ext. intro k. apply eq_true_iff_eq.
       destruct (K (answers heads)) as [_ [_ Kk]]. rewrite mem_true_iff, (Kk k), andb_true_iff, Z.ltb_lt. reflexivity. }
  rewrite (run_law _ keys (length (filter (fun r => negb (eqb (fst r) u)) rows)) n'); [| exact Nk | exact B' | exact Z0 |].
  2: { intro heads. unfold shown. apply map_ext. intro k. apply eq_true_iff_eq.
       rewrite mem_true_iff, (K' _ k), andb_true_iff, Z.ltb_lt. reflexivity. }
  apply C. apply neighbouring_counts; [intro k; apply B' | intro k; apply D1 |].
  specialize (D2 keys Nk). lia.
Qed.
Print Assumptions C59_select_partitions.

(** Contribution bounding draws at random: averaged over any finite distribution of
    the draws, the guarantee is the same. *)
Theorem C59_random_contribution_bounding {U P} `{EqDec U} `{EqDec P} p cs (dist : list (R * sampling U P)) nz rows u keys E
    (pydp : selector -> Z -> R) eps delta :
  pydp_contract pydp -> (0 < eps)%Q -> (0 <= delta < 1)%Q ->
  accepted p -> create_compound_combiner p = Ok cs -> ~ In VECTOR_SUM (metrics p) ->
  (forall k i l qs, length (n_quantiles (nz k i) l qs) = length qs) ->
  post_aggregation_thresholding p = false -> public_partitions_already_filtered p = false ->
  contribution_bounds_already_enforced p = false -> max_contributions p = None ->
  promised p rows -> NoDup keys ->
  Forall (fun ws => 0 <= fst ws /\ valid_sampling p (snd ws)) dist -> sumR (map fst dist) = 1 ->
  let Pr := fun rows => mixture dist (fun sm =>
              aggregate_probability p sm nz (pydp (aggregate_selector p eps delta)) keys E rows) in
  indistinguishable (Q2R eps) (Q2R delta) (Pr rows) (Pr (without u rows)).
Proof.
  intros Hpy He Hd Ha Hcs Hvs Hq Ht Hf Hb Hm Hp Nk F S. cbv zeta.
  assert (G : forall f g : sampling U P -> R, (forall ws, In ws dist -> f (snd ws) <= exp (Q2R eps) * g (snd ws) + Q2R delta) ->
     mixture dist f <= exp (Q2R eps) * mixture dist g + Q2R delta).
  { intros f g I. unfold mixture. rewrite <- (Rmult_1_r (Q2R delta)), <- S, <- sumR_scale, <- sumR_scale.
    clear S. induction dist as [|ws ds IH]; [cbn; lra|]. inversion F; subst. cbn [map]. rewrite !sumR_cons.
    assert (X := I ws (or_introl eq_refl)). assert (Y := IH ltac:(assumption) (fun w Hw => I w (or_intror Hw))).
    destruct ws as [w s]. cbn [fst snd] in *. destruct H3 as [W _]. assert (Z := Rmult_le_compat_l _ _ _ W X). lra. }
  rewrite Forall_forall in F. unfold indistinguishable. split; apply G; intros ws I;
  apply (C59_aggregate_partitions p cs (snd ws) nz rows u keys E pydp eps delta); auto; apply F; exact I.
Qed.
Print Assumptions C59_random_contribution_bounding.

(** The contract of a strategy follows from a contract for single partitions: each
    partition gets eps / l0, and deltas [d1] with 1 - (1 - d1)^l0 <= delta. *)
Theorem C59_from_one_partition keep (l0 : Z) eps d1 delta :
  (0 < l0)%Z -> 0 <= eps -> 0 <= d1 <= 1 -> 1 - (1 - d1) ^ (Z.to_nat l0) <= delta ->
  one_partition_private keep (eps / IZR l0) d1 ->
  private_strategy keep l0 eps delta.
Proof. apply strategy_of_one_partition. Qed.
Print Assumptions C59_from_one_partition.

Lemma partition_delta_range l0 delta : (0 < l0)%Z -> 0 <= delta < 1 -> 0 <= partition_delta l0 delta <= 1.
Proof.
  intros Hl Hd. unfold partition_delta. assert (Pl : 0 < / IZR l0) by (apply Rinv_0_lt_compat, IZR_lt; exact Hl).
  assert (0 < Rpower (1 - delta) (/ IZR l0)) by apply exp_pos.
  assert (Rpower (1 - delta) (/ IZR l0) <= 1).
  { unfold Rpower. apply Rle_trans with (exp 0); [apply exp_le | rewrite exp_0; lra].
    assert (ln (1 - delta) <= ln 1).
    { destruct (Rle_lt_or_eq_dec 0 delta (proj1 Hd)) as [X|X];
        [apply Rlt_le, ln_increasing; lra | rewrite <- X, Rminus_0_r; lra]. }
    rewrite ln_1 in *.
    assert (0 <= / IZR l0 * - ln (1 - delta)) by (apply Rmult_le_pos; lra). lra. }
  lra.
Qed.
Lemma partition_delta_power l0 delta : (0 < l0)%Z -> 0 <= delta < 1 -> 1 - (1 - partition_delta l0 delta) ^ (Z.to_nat l0) = delta.
Proof.
  intros Hl Hd. unfold partition_delta. replace (1 - (1 - Rpower (1 - delta) (/ IZR l0))) with (Rpower (1 - delta) (/ IZR l0)) by ring.
  rewrite <- Rpower_pow by apply exp_pos. rewrite Rpower_mult, INR_IZR_INZ, Z2Nat.id by lia.
  rewrite Rinv_l by (apply not_0_IZR; lia). rewrite Rpower_1 by lra. ring.
Qed.

(** The truncated geometric strategy keeps the promise. *)
Theorem C59_truncated_geometric l0 eps delta pre :
  (0 < l0)%Z -> 0 <= eps -> 0 <= delta < 1 -> (forall t, pre = Some t -> (0 < t)%Z) ->
  private_strategy (pre_thresholded pre (geometric_keep (eps / IZR l0) (partition_delta l0 delta))) l0 eps delta.
Proof.
  intros Hl He Hd Ht. assert (R := partition_delta_range l0 delta Hl Hd).
  apply (strategy_of_one_partition _ l0 eps (partition_delta l0 delta) delta); [exact Hl | exact He | exact R | |].
  - rewrite partition_delta_power by assumption. lra.
  - apply geometric_one_partition; [|lra | exact Ht].
    apply Rmult_le_pos; [exact He | apply Rlt_le, Rinv_0_lt_compat, IZR_lt; exact Hl].
Qed.
Print Assumptions C59_truncated_geometric.

(** Laplace thresholding keeps it if the threshold is such that a partition with one
    privacy id is kept with probability at most the delta of one partition; the
    threshold 1 - ln(2 d1) l0 / eps achieves exactly that when d1 <= 1/2. *)
Theorem C59_laplace_thresholding l0 eps delta threshold pre :
  (0 < l0)%Z -> 0 <= eps -> 0 <= delta < 1 -> (forall t, pre = Some t -> (0 < t)%Z) ->
  laplace_tail (eps / IZR l0) (threshold - 1) <= partition_delta l0 delta ->
  private_strategy (pre_thresholded pre (threshold_keep (eps / IZR l0) threshold)) l0 eps delta.
Proof.
  intros Hl He Hd Ht Hth. assert (R := partition_delta_range l0 delta Hl Hd).
  apply (strategy_of_one_partition _ l0 eps (partition_delta l0 delta) delta); [exact Hl | exact He | exact R | |].
  - rewrite partition_delta_power by assumption. lra.
  - apply threshold_one_partition; [|lra | exact Hth | exact Ht].
    apply Rmult_le_pos; [exact He | apply Rlt_le, Rinv_0_lt_compat, IZR_lt; exact Hl].
Qed.
Print Assumptions C59_laplace_thresholding.

Theorem C59_laplace_threshold_value eps d1 : 0 < eps -> 0 < d1 <= / 2 ->
  laplace_tail eps ((1 - ln (2 * d1) / eps) - 1) = d1.
Proof.
  intros He Hd. unfold laplace_tail.
  assert (L : ln (2 * d1) <= 0).
  { destruct (Rle_lt_or_eq_dec d1 (/ 2) (proj2 Hd)) as [X|X].
    - rewrite <- ln_1. apply Rlt_le, ln_increasing; lra.
    - replace (2 * d1) with 1 by lra. rewrite ln_1. lra. }
  assert (P : 0 <= / eps * - ln (2 * d1)) by (apply Rmult_le_pos; [apply Rlt_le, Rinv_0_lt_compat; exact He | lra]).
  destruct (Rle_dec 0 (1 - ln (2 * d1) / eps - 1)) as [X|X]; [|exfalso; apply X; unfold Rdiv; lra].
  replace (- (eps * (1 - ln (2 * d1) / eps - 1))) with (ln (2 * d1)) by (field; lra).
  rewrite exp_ln by lra. field.
Qed.
Print Assumptions C59_laplace_threshold_value.

(** With max_contributions the selection strategy is not told how many partitions a
    privacy id may be in: it gets None, although such parameters are accepted with
    private partitions; and only then. *)
Theorem C59_bound_passed_to_selection p eps delta : accepted p ->
  (sel_l0 (aggregate_selector p eps delta) = None <-> exists m, max_contributions p = Some m).
Proof.
  intro Ha. destruct (accepted_facts p Ha) as [_ [_ [_ Hl]]]. cbn.
  destruct (max_contributions p) as [m|].
  - destruct Hl as [_ [E _]]. split; [intros _; eauto | intros _; exact E].
  - destruct Hl as [l0 [linf [E _]]]. rewrite E. split; [discriminate | intros [m X]; discriminate].
Qed.
Print Assumptions C59_bound_passed_to_selection.

(** The strategy of PyDP is the one that was asked for, with the granted budget and the
    declared bound and pre-threshold. *)
Theorem C59_strategy_asked_for p eps delta : accepted p -> max_contributions p = None ->
  let name := (match partition_selection_strategy p with
               | TruncatedGeometric => "truncated_geometric"
               | LaplaceThresholding => "laplace"
               | GaussianThresholding => "gaussian"
               end)%string in
  exists l0, max_partitions_contributed p = Some l0 /\
    aggregate_selector p eps delta = Selector name eps delta (Some l0) (pre_threshold p).
Proof.
  intros Ha Hm. cbv zeta. destruct (accepted_facts p Ha) as [_ [_ [_ Hl]]]. rewrite Hm in Hl. destruct Hl as [l0 [linf [E0 _]]].
  exists l0. split; [exact E0|]. unfold aggregate_selector. rewrite E0. destruct (partition_selection_strategy p); reflexivity.
Qed.
Print Assumptions C59_strategy_asked_for.

Theorem C59_max_contributions_refuted :
  exists p cs, accepted p /\ create_compound_combiner p = Ok cs /\ selects_privately p (@None (list Z)) = true /\
    contribution_bounds_already_enforced p = false /\
    forall eps delta, sel_l0 (aggregate_selector p eps delta) = None.
Proof.
  exists (demo_params [COUNT] (Some 2%Z)), [CCount]. split; [|split; [|split; [|split]]]; try (vm_compute; reflexivity).
  exists (raw_of (demo_params [COUNT] (Some 2%Z))). vm_compute. reflexivity.
Qed.
Print Assumptions C59_max_contributions_refuted.

(** ** The hypotheses are met *)
Definition demo_pydp (sel : selector) : Z -> R :=
  match sel_l0 sel with
  | Some l0 => pre_thresholded (sel_pre sel)
                 (geometric_keep (Q2R (sel_eps sel) / IZR l0) (partition_delta l0 (Q2R (sel_delta sel))))
  | None => fun _ => 0
  end.
Example demo_pydp_contract : pydp_contract demo_pydp.
Proof.
  intros sel l0 E0 P0 He Hd _ Ht. unfold demo_pydp. rewrite E0.
  apply C59_truncated_geometric; [exact P0 | | | exact Ht].
  - rewrite <- Q2R_zero. apply Qle_Rle. apply Qlt_le_weak. exact He.
  - split; [rewrite <- Q2R_zero; apply Qle_Rle; apply Hd|].
    replace 1 with (Q2R 1) by (unfold Q2R; cbn; lra). apply Qlt_Rlt. apply Hd.
Qed.
Definition demo_noises : Z -> nat -> noises :=
  fun _ _ => Noises (fun x => x) (fun x => x) (fun x => x) (fun n => Some (inject_Z n)) (fun l qs => map (fun _ => 0%Q) qs) (fun v => v).
Example C59_hypotheses_met :
  exists p cs (sm : sampling Z Z) (keys : list Z),
    accepted p /\ create_compound_combiner p = Ok cs /\ ~ In VECTOR_SUM (metrics p) /\
    (forall k i l qs, length (n_quantiles (demo_noises k i) l qs) = length qs) /\
    post_aggregation_thresholding p = false /\ public_partitions_already_filtered p = false /\
    contribution_bounds_already_enforced p = false /\ max_contributions p = None /\
    valid_sampling p sm /\ promised p demo_rows /\ NoDup keys /\
    length (ids_of 20%Z demo_rows) = 2%nat /\ length (ids_of 20%Z (without 1%Z demo_rows)) = 1%nat.
Proof.
  exists (demo_params [COUNT; SUM] None), [CCount; CSum false (-3) 5], (first_sampling 2 2), [10; 20; 30]%Z.
  split; [exists (raw_of (demo_params [COUNT; SUM] None)); vm_compute; reflexivity|].
  split; [vm_compute; reflexivity|]. split; [cbn; intuition discriminate|].
  split; [intros; cbn; apply map_length|].
  do 4 (split; [reflexivity|]). split; [|split; [discriminate|split; [repeat constructor; cbn; intuition discriminate|]]].
  - unfold valid_sampling. cbn. split; intros x X; inversion X; subst; apply first_n_valid.
  - split; vm_compute; reflexivity.
Qed.
(** The bound is not trivial: a partition with one privacy id is kept with probability
    delta, an empty one never. *)
Example C59_not_trivial : geometric_keep 1 (1 / 10) 1 = 1 / 10 /\ geometric_keep 1 (1 / 10) 0 = 0.
Proof.
  split; [|reflexivity]. cbn [geometric_keep]. cbv zeta. rewrite Rmult_0_r, Rplus_0_l.
  assert (0 < exp (- (1))) by apply exp_pos.
  assert (exp (- (1)) < exp 0) by (apply exp_increasing; lra). rewrite exp_0 in *.
  unfold Rmin at 2. destruct (Rle_dec (1 / 10) (1 - exp (- (1)) * (1 - 0 - 1 / 10))) as [X|X].
  - unfold Rmin. destruct (Rle_dec (1 / 10) 1); lra.
  - exfalso. apply X. lra.
Qed.
