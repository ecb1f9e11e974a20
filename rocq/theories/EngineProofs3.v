(** Sensitivity of each metric. *)
From Coq Require Import List ZArith QArith Qabs Qminmax Bool Permutation Lia Lqa.
From Verif Require Import Base BaseLemmas BackendModel BackendSpec ListLemmas BackendProofs
  BounderModel BounderSpec BounderProofs ParamsModel SensModel CombinerModel CombinerSpec CombinerProofs
  CombinerProofs2 CombinerProofs3 EngineModel EngineSpec EngineProofs EngineProofs2.
Import ListNotations.
Local Open Scope Q_scope.

(** ** Consequences of acceptance *)
Lemma raise_if_ok {A} b e (k : result A) x : raise_if b e k = Ok x -> b = false /\ k = Ok x.
Proof. unfold raise_if. destruct b; [discriminate | auto]. Qed.

Definition ordered (lo hi : option Q) : Prop :=
  match lo, hi with Some a, Some b => a <= b | None, None => True | _, _ => False end.

Lemma range_ok lo hi :
  both_or_none lo hi = true -> is_some lo && bad_range lo hi = false ->
  ordered (fin lo) (fin hi) /\ is_some (fin lo) = is_some lo.
Proof.
  unfold both_or_none, bad_range, improper, out_of_order. intros A B.
  destruct lo as [[a|]|], hi as [[b|]|]; cbn in *; try discriminate; auto.
  split; [|reflexivity]. destruct (Qle_bool a b) eqn:E; [|discriminate]. apply Qle_bool_iff. exact E.
Qed.

Lemma positive_int n : not_positive_int n = false -> exists z, int_of n = Some z /\ (0 < z)%Z.
Proof.
  destruct n as [[z|]|]; cbn; try discriminate. intro E. exists z. split; [reflexivity|]. lia.
Qed.

Lemma accepted_facts p : accepted p ->
  ordered (min_value p) (max_value p) /\
  ordered (min_sum_per_partition p) (max_sum_per_partition p) /\
  is_some (min_value p) && is_some (min_sum_per_partition p) = false /\
  match max_contributions p with
  | Some m => (0 < m)%Z /\ max_partitions_contributed p = None /\ max_contributions_per_partition p = None
  | None => exists l0 linf, max_partitions_contributed p = Some l0 /\
              max_contributions_per_partition p = Some linf /\ (0 < l0)%Z /\ (0 < linf)%Z
  end.
Proof.
  intros [r E]. unfold post_init in E.
  repeat (apply raise_if_ok in E; let B := fresh "B" in destruct E as [B E]).
  inversion E; subst p. clear E. cbn [min_value max_value min_sum_per_partition max_sum_per_partition
    max_contributions max_partitions_contributed max_contributions_per_partition].
  apply negb_false_iff in B, B0.
  destruct (range_ok _ _ B B2) as [O1 S1]. destruct (range_ok _ _ B0 B3) as [O2 S2].
  split; [exact O1|]. split; [exact O2|]. split; [rewrite S1, S2; exact B1|].
  destruct (r_max_contributions r) as [m|].
  - apply orb_false_iff in B7. destruct B7 as [B7 C]. apply orb_false_iff in B7. destruct B7 as [B7 C'].
    destruct (positive_int (Some m) B7) as [z [Ez Pz]]. rewrite Ez. split; [exact Pz|].
    destruct (r_max_partitions_contributed r); [discriminate|].
    destruct (r_max_contributions_per_partition r); [discriminate|]. split; reflexivity.
  - cbn [int_of]. apply orb_false_iff in B7. destruct B7 as [B7 C]. apply orb_false_iff in B7. destruct B7 as [B7 C'].
    destruct (positive_int _ C) as [z [Ez Pz]]. destruct (positive_int _ C') as [z' [Ez' Pz']].
    exists z', z. auto.
Qed.

(** Each combiner comes from its constructor. *)
Definition constructed (p : params) (c : combiner) : Prop :=
  match c with
  | CCount => new_count p = Ok c
  | CPidCount => new_pid_count p = Ok c
  | CThresh => new_thresh p = Ok c
  | CSum _ _ _ => new_sum p = Ok c
  | CMean _ _ names => new_mean p names = Ok c
  | CVariance _ _ names => new_variance p names = Ok c
  | CQuantile ps => ps = percentiles (metrics p)
  | CVector _ => new_vector p = Ok c
  end.

Lemma append_if_forall (R : combiner -> Prop) b mk k l :
  append_if b mk k = Ok l -> (forall c, mk = Ok c -> R c) -> (forall l', k = Ok l' -> Forall R l') -> Forall R l.
Proof.
  intros E Hc Hk. apply append_if_split in E. destruct E as [[_ [c [l' [E1 [E2 ->]]]]]|[_ E]]; auto.
Qed.

Lemma rmap_const_inv {A B} (r : result A) (b c : B) : rmap (fun _ => b) r = Ok c -> (exists a, r = Ok a) /\ c = b.
Proof. destruct r; cbn; intro E; [|discriminate]. split; [eauto|congruence]. Qed.

Lemma new_sum_constructed p c : new_sum p = Ok c -> constructed p c.
Proof.
  intro E. assert (E0 := E). unfold new_sum in E. destruct (sens_sum p); cbn [rbind] in E; [|discriminate].
  destruct (bounds_per_partition_are_set p).
  - destruct (min_sum_per_partition p), (max_sum_per_partition p); try discriminate; inversion E; subst; exact E0.
  - destruct (min_value p), (max_value p); try discriminate; inversion E; subst; exact E0.
Qed.

Lemma all_constructed p cs : create_compound_combiner p = Ok cs -> Forall (constructed p) cs.
Proof.
  unfold create_compound_combiner, compound_init. destruct (create_combiners p) as [cs'|] eqn:E; cbn [rbind]; [|discriminate].
  intro Ei. apply raise_if_ok in Ei. destruct Ei as [_ Ei]. inversion Ei; subst cs'. clear Ei.
  unfold create_combiners in E.
  assert (H2 : forall l, append_if (has PRIVACY_ID_COUNT (metrics p))
               (if post_aggregation_thresholding p then new_thresh p else new_pid_count p)
               (append_if (has VECTOR_SUM (metrics p)) (new_vector p)
                 (append_if (match percentiles (metrics p) with [] => false | _ => true end)
                      (Ok (CQuantile (percentiles (metrics p)))) (Ok []))) = Ok l -> Forall (constructed p) l).
  { intros l El. eapply append_if_forall; [exact El| |].
    - intros c Ec. destruct (post_aggregation_thresholding p); assert (E0 := Ec); apply rmap_const_inv in E0;
        destruct E0 as [_ ->]; exact Ec.
    - intros l' El'. eapply append_if_forall; [exact El'| |].
      + intros c Ec. assert (E0 := Ec). inversion E0; subst. exact Ec.
      + intros l2 El2. eapply append_if_forall; [exact El2| |].
        * intros c Ec. inversion Ec. reflexivity.
        * intros l3 E3. inversion E3. constructor. }
  destruct (has VARIANCE (metrics p)).
  { eapply append_if_forall; [exact E| |exact H2]. intros c Ec. assert (E0 := Ec). unfold new_variance in E0.
    destruct (min_value p), (max_value p); try discriminate. inversion E0; subst. exact Ec. }
  destruct (has MEAN (metrics p)).
  { eapply append_if_forall; [exact E| |exact H2]. intros c Ec. assert (E0 := Ec). unfold new_mean in E0.
    destruct (min_value p), (max_value p); try discriminate. destruct (sens_count p); cbn [rbind] in E0; [|discriminate].
    apply rmap_const_inv in E0. destruct E0 as [_ ->]. exact Ec. }
  eapply append_if_forall; [exact E| |].
  - intros c Ec. assert (E0 := Ec). apply rmap_const_inv in E0. destruct E0 as [_ ->]. exact Ec.
  - intros l El. eapply append_if_forall; [exact El| |exact H2]. apply new_sum_constructed.
Qed.

Lemma nth_constructed p cs i c : create_compound_combiner p = Ok cs -> nth_error cs i = Some c -> constructed p c.
Proof.
  intros E Hi. assert (F := all_constructed p cs E). rewrite Forall_forall in F. apply F.
  eapply nth_error_In. exact Hi.
Qed.

(** ** Removing an id keeps the computation going *)
Lemma raw_without_ok {U P} `{EqDec U} `{EqDec P} p cs (sm : sampling U P) public rows u col :
  raw_accumulators p cs sm public rows = Ok col ->
  exists col', raw_accumulators p cs sm public (without u rows) = Ok col'.
Proof.
  unfold raw_accumulators, contributions. fold (to_bound p public rows). fold (to_bound p public (without u rows)).
  destruct (contribution_bounds_already_enforced p); [cbn; eauto|].
  unfold without. rewrite (to_bound_filter p public (fun x => negb (eqb x u))), (bound_filter (fun x => negb (eqb x u))).
  destruct (bound_contributions p _ sm (compound_create cs) (to_bound p public rows)); cbn; [eauto | discriminate].
Qed.

Lemma respects_covers {P} s (keys : list P) d :
  respects s keys d -> forall sp, exists m, create_additive_mechanism sp s = Ok m /\ covers m keys d.
Proof.
  intros [_ [_ [[l1 [S1 R1]] [l2 [S2 R2]]]]] sp. unfold create_additive_mechanism. rewrite S1, S2.
  destruct (ms_kind sp), (ms_std sp); eexists; (split; [reflexivity | assumption]).
Qed.

(** ** Bounds on one contribution *)
Lemma count_bound c vs linf :
  (c = CCount \/ (exists lo hi n, c = CMean lo hi n) \/ (exists lo hi n, c = CVariance lo hi n)) ->
  (length vs <= Z.to_nat linf)%nat -> (0 < linf)%Z ->
  Qabs (count_of (create c vs)) <= inject_Z linf.
Proof.
  intros Hc L Pl.
  assert (E : count_of (create c vs) = inject_Z (Z.of_nat (length vs))).
  { destruct Hc as [->|[[lo [hi [n ->]]]|[lo [hi [n ->]]]]]; reflexivity. }
  rewrite E, inject_nat_abs. apply inject_nat_le; assumption.
Qed.

Lemma scale_bound (vs : list value) linf b : (length vs <= Z.to_nat linf)%nat -> (0 < linf)%Z -> 0 <= b ->
  inject_Z (Z.of_nat (length vs)) * b <= b * inject_Z linf.
Proof.
  intros L Pl Pb. setoid_replace (b * inject_Z linf) with (inject_Z linf * b) by ring.
  apply Qmult_le_compat_r; [apply inject_nat_le; assumption | exact Pb].
Qed.

Lemma sum_value_bound lo hi vs : lo <= hi ->
  Qabs (sum_of (create (CSum false lo hi) vs)) <= inject_Z (Z.of_nat (length vs)) * max_abs lo hi.
Proof.
  intro Hle. cbn [create sum_of]. apply sum_abs. intros v _. destruct (clip_range lo hi (num_of v) Hle).
  apply max_abs_range; assumption.
Qed.

Lemma sum_partition_bound lo hi vs : lo <= hi ->
  Qabs (sum_of (create (CSum true lo hi) vs)) <= max_abs lo hi.
Proof.
  intro Hle. cbn [create sum_of]. destruct (clip_range lo hi (sumQ (map num_of vs)) Hle).
  apply max_abs_range; assumption.
Qed.

Lemma normalized_bound c lo hi n vs : lo <= hi -> (c = CMean lo hi n \/ c = CVariance lo hi n) ->
  Qabs (sum_of (create c vs)) <= inject_Z (Z.of_nat (length vs)) * ((hi - lo) / 2).
Proof.
  intros Hle Hc.
  assert (E : sum_of (create c vs) = sumQ (map (fun v => clip lo hi (num_of v) - middle lo hi) vs))
    by (destruct Hc as [->| ->]; reflexivity).
  rewrite E. apply (sum_abs (fun v => clip lo hi (num_of v) - middle lo hi)). intros v _.
  destruct (clip_range lo hi (num_of v) Hle). apply middle_range; assumption.
Qed.

Lemma squares_bound lo hi n vs : lo <= hi ->
  Qabs (squares_of (create (CVariance lo hi n) vs)) <=
  inject_Z (Z.of_nat (length vs)) * (((hi - lo) / 2) * ((hi - lo) / 2)).
Proof.
  intro Hle. cbn [create squares_of].
  apply (sum_abs (fun v => (clip lo hi (num_of v) - middle lo hi) * (clip lo hi (num_of v) - middle lo hi))).
  intros v _. rewrite Qabs_pos by apply Qsq_nonneg. apply Qsq_le.
  destruct (clip_range lo hi (num_of v) Hle). apply middle_range; assumption.
Qed.

Lemma max_abs_nonneg lo hi : 0 <= max_abs lo hi.
Proof.
  unfold max_abs. eapply Qle_trans; [apply (Qabs_nonneg lo)|]. apply Q.le_max_l.
Qed.

(** ** max_contributions mode *)
Lemma as_rows_length {U P V} (kept : list ((U * P) * list V)) :
  inject_Z (Z.of_nat (length (as_rows kept))) == sumQ (map (fun e => inject_Z (Z.of_nat (length (snd e)))) kept).
Proof.
  unfold as_rows. induction kept as [|e kept IH]; [reflexivity|].
  cbn [flat_map map sumQ fold_right]. change (fold_right Qplus 0) with sumQ.
  rewrite app_length, map_length, Nat2Z.inj_add, inject_Z_plus, IH. reflexivity.
Qed.

Lemma as_rows_count {U P V} (kept : list ((U * P) * list V)) :
  (forall e, In e kept -> snd e <> []) -> (length kept <= length (as_rows kept))%nat.
Proof.
  unfold as_rows. induction kept as [|[k vs] kept IH]; intro F; [cbn; lia|].
  cbn [flat_map length snd fst]. rewrite app_length, map_length.
  assert (vs <> []) by (apply (F (k, vs)); left; reflexivity).
  assert (length kept <= length (flat_map (fun e => map (fun v => (fst e, v)) (snd e)) kept))%nat
    by (apply IH; intros; apply F; right; assumption).
  destruct vs; [congruence|]. cbn [length]. lia.
Qed.

Lemma sensitivity_total {U P} `{EqDec U} `{EqDec P} f p cs i c (sm : sampling U P) public rows u col col' keys m b :
  additive f -> nth_error cs i = Some c ->
  max_contributions p = Some m -> (0 < m)%Z -> contribution_bounds_already_enforced p = false ->
  valid_sampling p sm ->
  raw_accumulators p cs sm public rows = Ok col ->
  raw_accumulators p cs sm public (without u rows) = Ok col' ->
  NoDup keys -> 0 <= b ->
  (forall vs, Qabs (f (create c vs)) <= inject_Z (Z.of_nat (length vs)) * b) ->
  respects (Sens None None (Some (b * inject_Z m)) (Some ((b * inject_Z m) * (b * inject_Z m)))) keys
           (fun k => raw_value f i k col - raw_value f i k col').
Proof.
  intros Af Hi Hm Pm Hb Hv E E' Nk Pb Bd.
  destruct (raw_value_diff f p cs i c sm public rows u col col' Af Hi Hb E E') as [kept [Ek D]].
  destruct (kept_facts_total p _ sm _ kept m Hm Hv Ek) as [N [_ L]].
  assert (S1 : sumQ (map (fun e => Qabs (snd e)) (entries f c u kept)) <= b * inject_Z m).
  { unfold entries. rewrite map_map. cbn [snd].
    eapply Qle_trans; [apply (sumQ_le _ (fun e => inject_Z (Z.of_nat (length (snd e))) * b)); intros; apply Bd|].
    rewrite sumQ_scale_r, <- as_rows_length.
    setoid_replace (b * inject_Z m) with (inject_Z m * b) by ring.
    apply Qmult_le_compat_r; [|exact Pb]. apply inject_nat_le; [apply L | exact Pm]. }
  eapply respects_ext; [exact D|]. apply respects_l1l2; auto.
  - apply entries_NoDup. exact N.
  - eapply Qle_trans; [apply sumQ_squares|].
    assert (0 <= sumQ (map (fun e => Qabs (snd e)) (entries f c u kept))).
    { apply sumQ_nonneg, Forall_forall. intros y Hy. apply in_map_iff in Hy. destruct Hy as [? [<- _]]. apply Qabs_nonneg. }
    apply Qmult_le_compat_nonneg; split; assumption.
Qed.

Lemma sensitivity_total_pid {U P} `{EqDec U} `{EqDec P} p cs i c (sm : sampling U P) public rows u col col' keys m :
  nth_error cs i = Some c -> c = CPidCount \/ c = CThresh ->
  max_contributions p = Some m -> (0 < m)%Z -> contribution_bounds_already_enforced p = false ->
  valid_sampling p sm ->
  raw_accumulators p cs sm public rows = Ok col ->
  raw_accumulators p cs sm public (without u rows) = Ok col' ->
  NoDup keys ->
  respects (Sens None None (Some (inject_Z m)) (Some (inject_Z m))) keys
           (fun k => raw_value count_of i k col - raw_value count_of i k col').
Proof.
  intros Hi Hc Hm Pm Hb Hv E E' Nk.
  destruct (raw_value_diff count_of p cs i c sm public rows u col col' count_additive Hi Hb E E') as [kept [Ek D]].
  destruct (kept_facts_total p _ sm _ kept m Hm Hv Ek) as [N [Ne L]].
  assert (Len : (length (entries count_of c u kept) <= Z.to_nat m)%nat).
  { unfold entries. rewrite map_length. eapply Nat.le_trans; [apply as_rows_count|apply L].
    intros e He. apply filter_In in He. apply Ne. tauto. }
  assert (One : forall e, In e (entries count_of c u kept) -> Qabs (snd e) <= 1).
  { intros [k x] He. unfold entries in He. apply in_map_iff in He. destruct He as [e [Ee _]]. inversion Ee; subst.
    cbn [snd]. destruct Hc as [->| ->]; cbn [create count_of]; destruct (snd e); vm_compute; discriminate. }
  assert (Lm : inject_Z (Z.of_nat (length (entries count_of c u kept))) <= inject_Z m) by (apply inject_nat_le; assumption).
  eapply respects_ext; [exact D|]. apply respects_l1l2; auto.
  - apply entries_NoDup. exact N.
  - eapply Qle_trans; [apply (sumQ_upper (fun e => Qabs (snd e)) 1 _ One)|]. lra.
  - eapply Qle_trans; [apply (sumQ_upper (fun e => snd e * snd e) 1)|lra].
    intros e He. apply One in He. apply Qsq_le in He. lra.
Qed.

(** ** One statement for every noised quantity *)
Definition squares_covered (lo hi : Q) : Prop :=
  ~ (lo < 0 /\ 0 < hi) \/ (hi - lo) * (hi - lo) <= 2 * Qmax (lo * lo) (hi * hi).

Lemma le_abs x y : x <= y -> x <= Qabs y.
Proof. intro L. eapply Qle_trans; [exact L | apply Qle_Qabs]. Qed.

Lemma squares_linf linf lo hi q :
  lo <= hi -> (0 < linf)%Z -> squares_covered lo hi -> var_linf_squares linf lo hi = Some q ->
  ((hi - lo) / 2) * ((hi - lo) / 2) * inject_Z linf <= q.
Proof.
  intros Hle Pl Cov E. unfold var_linf_squares, mean_linf in E.
  assert (Pi : 0 <= inject_Z linf) by (change 0 with (inject_Z 0); rewrite <- Zle_Qle; lia).
  set (I := squares_interval lo hi) in *.
  assert (Eq : q = inject_Z linf * Qabs (middle (fst I) (snd I) - fst I))
    by (destruct (Qeq_bool (fst I) (snd I)); congruence).
  rewrite Eq, (Qmult_comm _ (inject_Z linf)). clear E Eq q.
  rewrite (Qmult_comm (inject_Z linf)), (Qmult_comm (inject_Z linf)).
  apply Qmult_le_compat_r; [|exact Pi].
  unfold I, squares_interval. destruct (negb (Qle_bool 0 lo) && negb (Qle_bool hi 0)) eqn:B;
    unfold fst, snd; clear I; unfold middle.
  - apply andb_true_iff in B. destruct B as [B1 B2]. apply negb_true_iff in B1, B2.
    apply Qle_bool_false in B1, B2. destruct Cov as [C|C]; [exfalso; apply C; split; assumption|].
    apply le_abs. unfold Qdiv. change (/ 2) with (1 # 2). lra.
  - assert (D : 0 <= lo \/ hi <= 0).
    { apply andb_false_iff in B. destruct B as [B|B]; apply negb_false_iff, Qle_bool_iff in B; auto. }
    assert (Key : forall a b, 0 <= a -> a <= b -> (b - a) / 2 * ((b - a) / 2) <= (b * b - a * a) / 2).
    { intros a b Pa Pab. unfold Qdiv. change (/ 2) with (1 # 2).
      assert (0 <= (b - a) * (b + 3 * a)) by (apply Qmult_le_0_compat; lra). lra. }
    destruct D as [D|D].
    + eapply Qle_trans; [apply (Key lo hi D Hle)|]. apply le_abs.
      unfold Qdiv. change (/ 2) with (1 # 2). lra.
    + assert (K := Key (- hi) (- lo)). rewrite <- Qabs_opp. apply le_abs.
      unfold Qdiv in *. change (/ 2) with (1 # 2) in *.
      assert (0 <= - hi) by lra. assert (- hi <= - lo) by lra. specialize (K H H0). lra.
Qed.

Lemma middle_dist lo hi : lo <= hi -> Qabs (middle lo hi - lo) == (hi - lo) / 2.
Proof.
  intro Hle. unfold middle. rewrite Qabs_pos; unfold Qdiv; change (/ 2) with (1 # 2); lra.
Qed.

Theorem all_sensitivities {U P} `{EqDec U} `{EqDec P} p cs i c (sm : sampling U P) public rows u col keys qt rs :
  accepted p -> create_compound_combiner p = Ok cs -> nth_error cs i = Some c ->
  contribution_bounds_already_enforced p = false ->
  (forall lo hi n, c = CVariance lo hi n -> max_contributions p = None) ->
  valid_sampling p sm -> promised p rows -> NoDup keys ->
  raw_accumulators p cs sm public rows = Ok col ->
  In (qt, rs) (noise_plan p c) ->
  (forall lo hi n, qt = QSquares -> c = CVariance lo hi n -> squares_covered lo hi) ->
  exists col' s, raw_accumulators p cs sm public (without u rows) = Ok col' /\ rs = Ok s /\
    respects s keys (fun k => raw_value (quantity_of qt) i k col - raw_value (quantity_of qt) i k col').
Proof.
  intros Ha Hcs Hi Hb Hvar Hv Hp Nk E Hplan Hsq.
  destruct (raw_without_ok p cs sm public rows u col E) as [col' E']. exists col'.
  assert (Hk := nth_constructed p cs i c Hcs Hi).
  destruct (accepted_facts p Ha) as [O1 [O2 [Ex Hmode]]].
  destruct (max_contributions p) as [m|] eqn:Hm.
  - (* max_contributions *)
    destruct Hmode as [Pm [N0 Ni]].
    assert (Pmi : 0 < inject_Z m) by (change 0 with (inject_Z 0); rewrite <- Zlt_Qlt; exact Pm).
    assert (Cnt : (c = CCount \/ (exists lo hi n, c = CMean lo hi n)) -> forall s, sens_count p = Ok s ->
              respects s keys (fun k => raw_value count_of i k col - raw_value count_of i k col')).
    { intros Hc s Es. unfold sens_count in Es. rewrite Hm in Es. apply mk_sens_l1l2 in Es. destruct Es as [_ [_ ->]].
      assert (R := sensitivity_total count_of p cs i c sm public rows u col col' keys m 1
                count_additive Hi Hm Pm Hb Hv E E' Nk).
      assert (B : forall vs, Qabs (count_of (create c vs)) <= inject_Z (Z.of_nat (length vs)) * 1).
      { intro vs. assert (X : count_of (create c vs) = inject_Z (Z.of_nat (length vs)))
          by (destruct Hc as [->|[lo [hi [n ->]]]]; reflexivity).
        rewrite X, inject_nat_abs. lra. }
      specialize (R ltac:(lra) B). destruct R as [R0 [Ri [[l1 [S1 R1]] [l2 [S2 R2]]]]].
      cbn [s_l0 s_linf s_l1 s_l2sq] in *. inversion S1; inversion S2; subst.
      repeat split; cbn [s_l0 s_linf s_l1 s_l2sq]; try discriminate.
      - eexists. split; [reflexivity|]. lra.
      - eexists. split; [reflexivity|]. lra. }
    destruct c as [| | |pp lo hi|lo hi n|lo hi n|ps|sz]; cbn [noise_plan] in Hplan; cbn [constructed] in Hk.
    + destruct Hplan as [Hpl|[]]. inversion Hpl; subst. apply rmap_const_inv in Hk. destruct Hk as [[s Es] _].
      exists s. split; [exact E'|]. split; [exact Es|]. apply Cnt; auto.
    + destruct Hplan as [Hpl|[]]. inversion Hpl; subst. apply rmap_const_inv in Hk. destruct Hk as [[s Es] _].
      exists s. split; [exact E'|]. split; [exact Es|]. unfold sens_privacy_id_count in Es. rewrite Hm in Es.
      apply mk_sens_l1l2 in Es. destruct Es as [_ [_ ->]].
      apply (sensitivity_total_pid p cs i CPidCount sm public rows u); auto.
    + destruct Hplan as [Hpl|[]]. inversion Hpl; subst. apply rmap_const_inv in Hk. destruct Hk as [[s Es] _].
      exists s. split; [exact E'|]. split; [exact Es|]. unfold sens_privacy_id_count in Es. rewrite Hm in Es.
      apply mk_sens_l1l2 in Es. destruct Es as [_ [_ ->]].
      apply (sensitivity_total_pid p cs i CThresh sm public rows u); auto.
    + destruct Hplan as [Hpl|[]]. inversion Hpl; subst. clear Hpl.
      unfold new_sum in Hk. destruct (sens_sum p) as [s|] eqn:Es; cbn [rbind] in Hk; [|discriminate].
      exists s. split; [exact E'|]. split; [reflexivity|]. unfold bounds_per_partition_are_set in Hk.
      unfold sens_sum in Es. rewrite Hm, N0 in Es.
      destruct (min_value p) as [a|] eqn:Emin, (max_value p) as [b|] eqn:Emax; cbn [ordered] in O1; try contradiction.
      * destruct (min_sum_per_partition p) as [a'|]; [cbn in Ex; discriminate|]. cbn [is_some andb] in Hk.
        inversion Hk; subst. destruct (m =? 0)%Z; [discriminate|].
        apply mk_sens_l1l2 in Es. destruct Es as [_ [_ ->]].
        apply (sensitivity_total sum_of p cs i (CSum false lo hi) sm public rows u); auto.
        -- exact sum_additive.
        -- apply max_abs_nonneg.
        -- intro vs. apply sum_value_bound. exact O1.
      * destruct (min_sum_per_partition p) as [a'|], (max_sum_per_partition p) as [b'|]; try discriminate.
        unfold mk_sens, raise_if in Es. cbn [nonpos] in Es. destruct (Qle_bool (max_abs a' b') 0); discriminate.
    + unfold new_mean in Hk.
      destruct (min_value p) as [a|] eqn:Emin, (max_value p) as [b|] eqn:Emax; cbn [ordered] in O1; try contradiction;
        try discriminate.
      destruct (sens_count p) as [s1|] eqn:Es1; cbn [rbind] in Hk; [|discriminate].
      destruct (sens_normalized_sum p) as [s2|] eqn:Es2; cbn [rmap] in Hk; [|discriminate]. inversion Hk; subst.
      destruct Hplan as [Hpl|[Hpl|[]]]; inversion Hpl; subst.
      * exists s1. split; [exact E'|]. split; [reflexivity|]. apply Cnt; eauto 6.
      * exists s2. split; [exact E'|]. split; [reflexivity|].
        unfold sens_normalized_sum in Es2. rewrite Emin, Emax, Hm in Es2. destruct (m =? 0)%Z; [discriminate|].
        apply mk_sens_l1l2 in Es2. destruct Es2 as [_ [_ ->]].
        apply (sensitivity_total sum_of p cs i (CMean lo hi n) sm public rows u); auto.
        -- exact sum_additive.
        -- unfold Qdiv. change (/ 2) with (1 # 2). lra.
        -- intro vs. apply (normalized_bound _ lo hi n); auto.
    + specialize (Hvar lo hi n eq_refl). discriminate.
    + destruct Hplan.
    + destruct Hplan.
  - (* max_partitions_contributed / max_contributions_per_partition *)
    destruct Hmode as [l0 [linf [El0 [Elinf [P0 Pinf]]]]].
    assert (Pi : 0 <= inject_Z linf) by (change 0 with (inject_Z 0); rewrite <- Zle_Qle; lia).
    assert (Master : forall f q s, additive f ->
              mk_sens (max_partitions_contributed p) (Some q) None None = Ok s ->
              (forall vs, (expects_sampling c = true -> (length vs <= Z.to_nat linf)%nat) ->
                 Qabs (f (create c vs)) <= q) ->
              respects s keys (fun k => raw_value f i k col - raw_value f i k col')).
    { intros f q s Af Es Bd. apply (sensitivity_l0linf f p cs i c sm public rows u col col' keys l0 q s); auto.
      intros kept e _ _ _ Hl. apply Bd. intro Hx. apply Hl; [|exact Elinf]. eapply expects_in; eassumption. }
    assert (Cnt : forall s, (c = CCount \/ (exists lo hi n, c = CMean lo hi n)) -> sens_count p = Ok s ->
              respects s keys (fun k => raw_value count_of i k col - raw_value count_of i k col')).
    { intros s Hc Es. unfold sens_count in Es. rewrite Hm, Elinf in Es. cbn [injZ option_map] in Es.
      apply (Master count_of (inject_Z linf) s count_additive Es). intros vs L. apply count_bound; auto.
      - tauto.
      - apply L. destruct Hc as [->|[lo [hi [n ->]]]]; reflexivity. }
    destruct c as [| | |pp lo hi|lo hi n|lo hi n|ps|sz]; cbn [noise_plan] in Hplan; cbn [constructed] in Hk.
    + destruct Hplan as [Hpl|[]]. inversion Hpl; subst. apply rmap_const_inv in Hk. destruct Hk as [[s Es] _].
      exists s. split; [exact E'|]. split; [exact Es|]. apply Cnt; auto.
    + destruct Hplan as [Hpl|[]]. inversion Hpl; subst. apply rmap_const_inv in Hk. destruct Hk as [[s Es] _].
      exists s. split; [exact E'|]. split; [exact Es|]. unfold sens_privacy_id_count in Es. rewrite Hm in Es.
      apply (Master count_of 1 s count_additive Es). intros vs _. cbn [create count_of]. destruct vs; vm_compute; discriminate.
    + destruct Hplan as [Hpl|[]]. inversion Hpl; subst. apply rmap_const_inv in Hk. destruct Hk as [[s Es] _].
      exists s. split; [exact E'|]. split; [exact Es|]. unfold sens_privacy_id_count in Es. rewrite Hm in Es.
      apply (Master count_of 1 s count_additive Es). intros vs _. cbn [create count_of]. destruct vs; vm_compute; discriminate.
    + destruct Hplan as [Hpl|[]]. inversion Hpl; subst. clear Hpl.
      unfold new_sum in Hk. destruct (sens_sum p) as [s|] eqn:Es; cbn [rbind] in Hk; [|discriminate].
      exists s. split; [exact E'|]. split; [reflexivity|]. unfold bounds_per_partition_are_set in Hk.
      unfold sens_sum in Es. rewrite Hm, Elinf in Es.
      destruct (min_value p) as [a|] eqn:Emin, (max_value p) as [b|] eqn:Emax; cbn [ordered] in O1; try contradiction.
      * destruct (min_sum_per_partition p) as [a'|]; [cbn in Ex; discriminate|]. cbn [is_some andb] in Hk.
        inversion Hk; subst. apply (Master sum_of _ s sum_additive Es). intros vs L.
        eapply Qle_trans; [apply sum_value_bound; exact O1|].
        apply scale_bound; [apply L; reflexivity | exact Pinf | apply max_abs_nonneg].
      * destruct (min_sum_per_partition p) as [a'|], (max_sum_per_partition p) as [b'|]; try discriminate.
        cbn [is_some andb] in Hk. inversion Hk; subst. cbn [ordered] in O2.
        apply (Master sum_of _ s sum_additive Es). intros vs _. apply sum_partition_bound. exact O2.
    + unfold new_mean in Hk.
      destruct (min_value p) as [a|] eqn:Emin, (max_value p) as [b|] eqn:Emax; cbn [ordered] in O1; try contradiction;
        try discriminate.
      destruct (sens_count p) as [s1|] eqn:Es1; cbn [rbind] in Hk; [|discriminate].
      destruct (sens_normalized_sum p) as [s2|] eqn:Es2; cbn [rmap] in Hk; [|discriminate]. inversion Hk; subst.
      destruct Hplan as [Hpl|[Hpl|[]]]; inversion Hpl; subst.
      * exists s1. split; [exact E'|]. split; [reflexivity|]. apply Cnt; eauto 6.
      * exists s2. split; [exact E'|]. split; [reflexivity|].
        unfold sens_normalized_sum in Es2. rewrite Emin, Emax, Hm, Elinf in Es2.
        apply (Master sum_of _ s2 sum_additive Es2). intros vs L.
        eapply Qle_trans; [apply (normalized_bound _ lo hi n); auto|].
        apply scale_bound; [apply L; reflexivity | exact Pinf|]. unfold Qdiv. change (/ 2) with (1 # 2). lra.
    + unfold new_variance in Hk.
      destruct (min_value p) as [a|] eqn:Emin, (max_value p) as [b|] eqn:Emax; cbn [ordered] in O1; try contradiction;
        try discriminate. inversion Hk; subst a b. clear Hk.
      rewrite Elinf in Hplan.
      assert (VM : forall f q, additive f -> 0 <= q ->
                (forall vs, (length vs <= Z.to_nat linf)%nat -> Qabs (f (create (CVariance lo hi n) vs)) <= q) ->
                exists col' s, raw_accumulators p cs sm public (without u rows) = Ok col' /\
                  var_sens p (Some q) = Ok s /\
                  respects s keys (fun k => raw_value f i k col - raw_value f i k col')).
      { intros f q Af Pq Bd. exists col'. unfold var_sens. rewrite El0. eexists. split; [exact E'|]. split; [reflexivity|].
        destruct (raw_value_diff f p cs i _ sm public rows u col col' Af Hi Hb E E') as [kept [Ek D]].
        destruct (kept_facts p _ sm _ rows kept l0 Hm El0 Hv Hp (to_bound_incl p public rows) Ek) as [N [L [Li _]]].
        eapply respects_ext; [exact D|]. unfold l1_sensitivity, l2sq_sensitivity. apply respects_l0linf; auto.
        - apply entries_NoDup. exact N.
        - unfold entries. rewrite map_length. apply L.
        - intros [k x] He. unfold entries in He. apply in_map_iff in He. destruct He as [e [Ee He]].
          inversion Ee; subst. cbn [snd]. unfold kept_of in He. apply filter_In in He. destruct He as [He _].
          apply Bd. apply (Li (expects_in cs i _ Hi eq_refl) linf Elinf e He). }
      assert (VM' : forall f q, additive f -> 0 <= q ->
                (forall vs, (length vs <= Z.to_nat linf)%nat -> Qabs (f (create (CVariance lo hi n) vs)) <= q) ->
                exists s, raw_accumulators p cs sm public (without u rows) = Ok col' /\
                  var_sens p (Some q) = Ok s /\
                  respects s keys (fun k => raw_value f i k col - raw_value f i k col')).
      { intros f q Af Pq Bd. destruct (VM f q Af Pq Bd) as [c2 [s [X [Y Z]]]]. rewrite E' in X. inversion X; subst.
        exists s. auto. }
      rewrite !in_app_iff in Hplan. destruct Hplan as [Hpl|[Hpl|Hpl]].
      * destruct Hpl as [Hpl|[]]. inversion Hpl; subst. apply VM'; [exact count_additive | exact Pi|].
        intros vs L. apply count_bound; eauto 8.
      * destruct (Qeq_bool lo hi) eqn:Eq; [destruct Hpl|]. destruct Hpl as [Hpl|[]]. inversion Hpl; subst. clear Hpl.
        unfold var_linf_sum, mean_linf. rewrite Eq. apply VM'; [exact sum_additive| |].
        -- apply Qmult_le_0_compat; [exact Pi | apply Qabs_nonneg].
        -- intros vs L. rewrite middle_dist by exact O1.
           eapply Qle_trans; [apply (normalized_bound _ lo hi n); auto|].
           rewrite (Qmult_comm (inject_Z linf)).
           apply scale_bound; [exact L | exact Pinf|]. unfold Qdiv. change (/ 2) with (1 # 2). lra.
      * destruct (Qeq_bool (fst (squares_interval lo hi)) (snd (squares_interval lo hi))) eqn:Eq; [destruct Hpl|].
        destruct Hpl as [Hpl|[]]. inversion Hpl; subst. clear Hpl.
        destruct (var_linf_squares linf lo hi) as [q|] eqn:Evq;
          [|unfold var_linf_squares, mean_linf in Evq; rewrite Eq in Evq; discriminate].
        assert (B := squares_linf linf lo hi q O1 Pinf (Hsq lo hi n eq_refl eq_refl) Evq).
        apply VM'; [exact squares_additive| |].
        -- eapply Qle_trans; [|exact B]. apply Qmult_le_0_compat; [apply Qsq_nonneg | exact Pi].
        -- intros vs L. eapply Qle_trans; [apply (squares_bound lo hi n vs O1)|].
           eapply Qle_trans; [|exact B]. apply scale_bound; [exact L | exact Pinf | apply Qsq_nonneg].
    + destruct Hplan.
    + destruct Hplan.
Qed.
