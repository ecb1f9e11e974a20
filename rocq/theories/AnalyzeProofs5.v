(** Lemmas for C64: the law of the exact result, and what the analysis reports. *)
From Coq Require Import List ZArith QArith Qminmax Qreals Reals Bool Permutation Lia Lqa Lra.
From Verif Require Import Base BaseLemmas BackendModel BackendSpec ListLemmas BackendProofs BounderModel BounderSpec BounderProofs
  ParamsModel SensModel CombinerModel CombinerSpec EngineModel EngineSpec EngineProofs EngineProofs2 EngineProofs3 EngineProofs4 EngineProofs5
  VectorModel LaplaceSpec LaplaceProofs SelectSpec DistSpec DistProofs
  AnalysisModel AnalysisSpec AnalysisProofs AnalysisProofs2 HistProofs4
  CrossModel TuningModel UtilityModel UtilitySpec UtilityProofs3
  AnalyzeModel AnalyzeSpec AnalyzeProofs AnalyzeProofs2 AnalyzeProofs3 AnalyzeProofs4.
Import ListNotations.
Local Open Scope R_scope.

Section Main.
Context {U P : Type} `{EqDec U} `{EqDec P}.
Implicit Types rows : list (U * P * value).

(** The value of a privacy id and the bounds to which it is clipped. *)
Definition wanted_value (m : metric) rows (k : P) (u : U) : Q :=
  match m with
  | COUNT => inject_Z (Z.of_nat (length (values_in u k rows)))
  | SUM => sumQ (map num_of (values_in u k rows))
  | _ => 1
  end.
Definition wanted_bounds (m : metric) (linf : Z) (lo hi : Q) : Q * Q :=
  match m with COUNT => (0%Q, inject_Z linf) | SUM => (lo, hi) | _ => (0%Q, 1%Q) end.

Lemma inject_min a b : (inject_Z (Z.min a b) == Qmin (inject_Z a) (inject_Z b))%Q.
Proof.
  destruct (Z.le_ge_cases a b).
  - rewrite Z.min_l, Q.min_l by (rewrite <- ?Zle_Qle; assumption). reflexivity.
  - rewrite Z.min_r, Q.min_r by (rewrite <- ?Zle_Qle; assumption). reflexivity.
Qed.

Lemma kept_quantity p (sm : sampling U P) rows u k m lo hi linf :
  max_contributions_per_partition p = Some linf -> (0 < linf)%Z -> max_contributions p = None -> valid_sampling p sm ->
  In k (partitions_of u rows) -> m = COUNT \/ m = SUM \/ m = PRIVACY_ID_COUNT -> has m (metrics p) = true ->
  (m = SUM -> has COUNT (metrics p) = false) ->
  let b := wanted_bounds m linf lo hi in
  (quantity_of (quantity_for m) (create (combiner_for m lo hi) (kept_values p (has COUNT (metrics p)) sm rows u k)) ==
   clip (fst b) (snd b) (wanted_value m rows k u))%Q.
Proof.
  intros El Pl Mc Hv Ik Hm Hh Hs b. unfold b; clear b. unfold valid_sampling in Hv. rewrite Mc in Hv. destruct Hv as [_ Hv].
  unfold kept_values. rewrite El.
  assert (Lv : (0 < length (values_in u k rows))%nat).
  { apply (proj1 (values_in_nonempty u k rows)) in Ik. destruct (values_in u k rows); [congruence | cbn; lia]. }
  assert (Lc : length (choose (ch_pid_pk sm (u, k) (length (values_in u k rows))) (Z.to_nat linf) (values_in u k rows)) =
               Nat.min (Z.to_nat linf) (length (values_in u k rows))).
  { apply choose_length. apply (Hv linf El). }
  destruct Hm as [->|[->| ->]]; cbn [wanted_bounds wanted_value combiner_for quantity_for quantity_of create fst snd] in *.
  - rewrite Hh. unfold count_of. rewrite Lc. unfold clip.
    rewrite Q.max_l by (change 0%Q with (inject_Z 0); rewrite <- Zle_Qle; lia). rewrite <- inject_min.
    rewrite Nat2Z.inj_min, Z2Nat.id, Z.min_comm by lia. reflexivity.
  - rewrite Hs by reflexivity. reflexivity.
  - assert (X : exists v l, (if has COUNT (metrics p)
        then choose (ch_pid_pk sm (u, k) (length (values_in u k rows))) (Z.to_nat linf) (values_in u k rows) else values_in u k rows) = v :: l).
    { destruct (has COUNT (metrics p)).
      - destruct (choose _ _ _) as [|v l]; [cbn in Lc; lia|]. exists v, l. reflexivity.
      - destruct (values_in u k rows) as [|v l]; [cbn in Lv; lia|]. exists v, l. reflexivity. }
    destruct X as (v & l & ->). reflexivity.
Qed.

Lemma kept_law p rows1 k (a : U -> Q) l0 D : max_contributions p = None -> (0 < l0)%Z ->
  max_partitions_contributed p = Some l0 -> uniform_sampling p rows1 D ->
  let cross := perform_cross_partition_contribution_bounding p in
  forall G : R -> R,
  mixture D (fun sm => G (Q2R (sumQ (map (fun u => if mem k (kept_partitions p sm rows1 u) then a u else 0%Q) (id_list rows1))))) =
  expect (sum_dist (map (fun u => choice_law (Z.to_nat l0) (n_choices cross u rows1)
                                    (if cross then position k (partitions_of u rows1) else 0%nat) (a u))
                        (filter (fun u => mem k (partitions_of u rows1)) (id_list rows1)))) G.
Proof.
  intros Mc P0 E0 (Dd & Dv & Du) cross G.
  unfold cross, n_choices. destruct (perform_cross_partition_contribution_bounding p) eqn:Ec.
  - rewrite (mixture_ext_in _ _ (fun sm => (fun ls => G (Q2R (kept_sum (fun u => position k (partitions_of u rows1)) a
        (fun u => mem k (partitions_of u rows1)) (id_list rows1) ls)))
        (map (fun u => kept_positions sm (Z.to_nat l0) u (length (partitions_of u rows1))) (id_list rows1)))).
    + specialize (Du l0 E0). cbn zeta in Du. fold (id_list rows1) in Du.
      etransitivity; [apply (Du (fun ls => G (Q2R (kept_sum (fun u => position k (partitions_of u rows1)) a
        (fun u => mem k (partitions_of u rows1)) (id_list rows1) ls))))|].
      apply (sum_law (Z.to_nat l0) (fun u => length (partitions_of u rows1)) (fun u => position k (partitions_of u rows1)) a
               (fun u => mem k (partitions_of u rows1))).
    + intros w sm I. right. f_equal. f_equal. unfold kept_sum. f_equal. specialize (Dv w sm I). unfold valid_sampling in Dv. rewrite Mc in Dv.
      destruct Dv as [Dv _]. specialize (Dv l0 E0). clear -Dv Ec E0.
      induction (id_list rows1) as [|u ids IH]; [reflexivity|]. cbn [map combine fst snd]. f_equal; [|exact IH].
      unfold kept_partitions. rewrite Ec, E0.
      destruct (mem k (partitions_of u rows1)) eqn:M; cbn [andb].
      * rewrite kept_at; [reflexivity| apply NoDup_distinct | apply mem_true_iff; exact M | apply Dv].
      * replace (mem k (choose _ _ _)) with false; [reflexivity|]. symmetry. apply mem_false_iff. intro I. apply mem_false_iff in M. apply M. revert I. apply submset_In. apply choose_submset. apply Dv.
  - rewrite fixed_law by lia. rewrite (mixture_ext _ _ (fun _ => G (Q2R (sumQ (map a (filter (fun u => mem k (partitions_of u rows1)) (id_list rows1))))))).
    + apply mixture_const. exact Dd.
    + intro sm. f_equal. unfold kept_partitions. rewrite Ec. apply Qeq_eqR. clear.
      induction (id_list rows1) as [|u l IH]; [reflexivity|]. cbn [map filter]. destruct (mem k (partitions_of u rows1)); cbn [map]; unfold sumQ in *; cbn [fold_right]; rewrite IH; [reflexivity | ring].
Qed.

Lemma engine_law p public rows m k cs lo hi l0 linf D :
  accepted p -> create_compound_combiner p = Ok cs -> simple_metrics (metrics p) -> post_aggregation_thresholding p = false ->
  contribution_bounds_already_enforced p = false -> has m (metrics p) = true ->
  (has SUM (metrics p) = true -> min_sum_per_partition p = Some lo /\ max_sum_per_partition p = Some hi) ->
  max_partitions_contributed p = Some l0 -> max_contributions_per_partition p = Some linf ->
  (m = SUM -> has COUNT (metrics p) = false /\ (public = None \/ (lo <= 0 <= hi)%Q)) ->
  let rows1 := counted p public rows in
  let cross := perform_cross_partition_contribution_bounding p in
  let b := wanted_bounds m linf lo hi in
  uniform_sampling p rows1 D -> forall G : R -> R,
  mixture D (fun sm => G (exact p public rows m k sm)) =
  expect (sum_dist (map (fun u => choice_law (Z.to_nat l0) (n_choices cross u rows1) (if cross then position k (partitions_of u rows1) else 0%nat)
                                      (clip (fst b) (snd b) (wanted_value m rows1 k u)))
                        (filter (fun u => mem k (partitions_of u rows1)) (id_list rows1)))) G.
Proof.
  intros Ha Hcs S T Eb Hm B E0 El Hp rows1 cross b (Dd & Dv & Du) G.
  assert (Hk := only_has m _ S Hm).
  assert (Fa := accepted_facts p Ha). destruct Fa as (_ & _ & _ & Fa).
  assert (Mc : max_contributions p = None) by (destruct (max_contributions p); [destruct Fa as (_ & X & _); congruence | reflexivity]).
  rewrite Mc in Fa. destruct Fa as (l0' & linf' & X0 & Xl & P0 & Pl).
  assert (l0' = l0) by congruence. assert (linf' = linf) by congruence. subst l0' linf'. clear X0 Xl.
  assert (Zr : public = None \/ (quantity_of (quantity_for m) (create (combiner_for m lo hi) []) == 0)%Q).
  { destruct Hk as [->|[->| ->]]; cbn; try (right; reflexivity).
    destruct (Hp eq_refl) as [_ [N|[L1 L2]]]; [left; exact N|right]. unfold clip.
    rewrite Q.max_l by exact L1. rewrite Q.min_l by exact L2. reflexivity. }
  set (a := fun u => clip (fst b) (snd b) (wanted_value m rows1 k u)).
  assert (Ex : forall w sm, In (w, sm) D -> exact p public rows m k sm =
     Q2R (sumQ (map (fun u => if mem k (kept_partitions p sm rows1 u) then a u else 0%Q) (id_list rows1)))).
  { intros w sm I. specialize (Dv w sm I).
    rewrite (exact_sum p public rows m k sm cs lo hi) by assumption. apply Qeq_eqR. fold rows1. apply sumQ_ext. intros u _.
    destruct (mem k (kept_partitions p sm rows1 u)) eqn:M; [|reflexivity]. apply mem_true_iff in M.
    apply kept_partitions_incl in M; auto. apply kept_quantity; auto. intro. apply Hp. assumption. }
  rewrite (mixture_ext_in _ _ (fun sm => G (Q2R (sumQ (map (fun u => if mem k (kept_partitions p sm rows1 u) then a u else 0%Q) (id_list rows1)))))).
  2: { intros w sm I. right. rewrite (Ex w sm I). reflexivity. }
  apply kept_law; auto. split; [exact Dd|]. split; [exact Dv | exact Du].
Qed.

(** ** What the analysis reports *)

(** The combiner of the analysis for metric [m]. *)
Definition acombiner_for (m : metric) (linf l0 : Z) (lo hi : Q) : acombiner :=
  match m with COUNT => ACount linf l0 | SUM => ASum lo hi l0 None | _ => APid l0 end.

Lemma valid_position (cross : bool) rows k u : In k (partitions_of u rows) ->
  ((if cross then position k (partitions_of u rows) else 0) < n_choices cross u rows)%nat.
Proof. intro I. unfold n_choices. destruct cross; [apply position_lt; exact I | lia]. Qed.

Lemma in_ids_of rows k u : In u (ids_of k rows) -> In k (partitions_of u rows).
Proof.
  intro I. apply (Permutation_in _ (Permutation_sym (filter_ids k rows))) in I. apply filter_In in I. apply mem_true_iff. apply I.
Qed.

(** The contributions described by the data. *)
Lemma contributions_exist m linf l0 lo hi (cross : bool) rows k ids ds :
  m = COUNT \/ m = SUM \/ m = PRIVACY_ID_COUNT ->
  Forall2 (data_spec cross rows k) ids ds -> (forall u, In u ids -> In k (partitions_of u rows)) ->
  exists cs, Forall2 (describes (acombiner_for m linf l0 lo hi)) cs ds /\
    Forall2 (matches (fun u => n_choices cross u rows) (fun u => if cross then position k (partitions_of u rows) else 0%nat)
                     (wanted_value m rows k)) ids cs.
Proof.
  intros Hm F. induction F as [|u d ids ds (D1 & (q & D2 & Dq) & D3) F IH]; intro I.
  - exists []. split; constructor.
  - destruct IH as (cs & A1 & A2); [intros; apply I; right; assumption|].
    assert (Ik := I u (or_introl eq_refl)). assert (Vp := valid_position cross rows k u Ik).
    assert (Lv : (0 < length (values_in u k rows))%nat).
    { apply (proj1 (values_in_nonempty u k rows)) in Ik. destruct (values_in u k rows); [congruence | cbn; lia]. }
    set (v := match m with COUNT => inject_Z (fst (fst d)) | SUM => q | _ => 1%Q end).
    exists (Contribution v (n_choices cross u rows) (if cross then position k (partitions_of u rows) else 0%nat) :: cs).
    split; constructor; auto.
    + unfold describes, valid_contribution. cbn [c_position c_partitions c_value]. split; [exact Vp|]. split; [|exact D3].
      unfold v. destruct Hm as [->|[->| ->]]; cbn [acombiner_for combiner_value]; [reflexivity | |].
      * unfold value_of. rewrite D2. reflexivity.
      * rewrite D1. destruct (Z.ltb_spec 0 (Z.of_nat (length (values_in u k rows)))); [reflexivity | lia].
    + unfold matches, valid_contribution. cbn [c_position c_partitions c_value]. repeat split; auto.
      unfold v. destruct Hm as [->|[->| ->]]; cbn [wanted_value]; [rewrite D1; reflexivity | exact Dq | reflexivity].
Qed.

Lemma prediction m linf l0 lo hi (cross : bool) rows k ids ds s D (X : sampling U P -> R) :
  m = COUNT \/ m = SUM \/ m = PRIVACY_ID_COUNT -> (0 < l0)%Z -> (0 < linf)%Z -> (m = SUM -> (lo <= hi)%Q) ->
  Permutation ids (ids_of k rows) -> Forall2 (data_spec cross rows k) ids ds ->
  (forall keep approx, metric_spec keep approx (acombiner_for m linf l0 lo hi) ds (MSum s)) ->
  let b := wanted_bounds m linf lo hi in
  (forall G : R -> R, mixture D (fun sm => G (X sm)) =
    expect (sum_dist (map (fun u => choice_law (Z.to_nat l0) (n_choices cross u rows) (if cross then position k (partitions_of u rows) else 0%nat)
                                      (clip (fst b) (snd b) (wanted_value m rows k u)))
                        (filter (fun u => mem k (partitions_of u rows)) (id_list rows)))) G) ->
  mean D X = Q2R (a_sum s + a_min s + a_max s + a_l0 s) /\ spread D X = Q2R (a_var s).
Proof.
  intros Hm P0 Pl Hlh Pi F Sp b L.
  destruct (contributions_exist m linf l0 lo hi cross rows k ids ds Hm F) as (cs & A1 & A2).
  { intros u I. apply in_ids_of. eapply Permutation_in; eassumption. }
  destruct (metric_expectation (fun _ => 0%Q) (fun _ => (0%Z, [])) (acombiner_for m linf l0 lo hi) ds (MSum s) (Z.to_nat l0) (fst b) (snd b) cs)
    as (s' & Es & Ee & Ev); auto.
  { destruct Hm as [->|[->| ->]]; cbn; rewrite Z2Nat.id by lia; reflexivity. }
  { destruct Hm as [->|[->| ->]]; cbn; [change 0%Q with (inject_Z 0); rewrite <- Zle_Qle; lia | auto | Lqa.lra]. }
  injection Es as <-.
  destruct (order_irrelevant (Z.to_nat l0) (fst b) (snd b) _ _ _ (filter (fun u => mem k (partitions_of u rows)) (id_list rows)) ids cs
    (perm_trans Pi (Permutation_sym (filter_ids k rows))) A2) as [O1 O2].
  assert (Mean : mean D X = Q2R (a_sum s + a_min s + a_max s + a_l0 s)).
  { unfold mean. etransitivity; [apply (L (fun x => x))|]. rewrite expect_mean. apply Qeq_eqR. rewrite O1. exact Ee. }
  split; [exact Mean|]. unfold spread. etransitivity; [apply (L (fun x => (x - mean D X) * (x - mean D X)))|].
  assert (M' : mean D X = Q2R (AnalysisSpec.expectation (sum_dist (map (fun u => choice_law (Z.to_nat l0) (n_choices cross u rows)
     (if cross then position k (partitions_of u rows) else 0%nat) (clip (fst b) (snd b) (wanted_value m rows k u)))
                        (filter (fun u => mem k (partitions_of u rows)) (id_list rows)))))).
  { unfold mean. etransitivity; [apply (L (fun x => x))|]. rewrite expect_mean. reflexivity. }
  rewrite M', expect_spread. apply Qeq_eqR. rewrite O2. exact Ev.
Qed.
End Main.
