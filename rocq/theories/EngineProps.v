(** Properties C13-C18: the raw results change within the noise calibration when
    one privacy id is removed. *)
From Coq Require Import List ZArith QArith Qabs Qminmax Bool Lia Lqa.
From Verif Require Import Base BackendModel BackendSpec BounderModel BounderSpec ParamsModel SensModel
  CombinerModel EngineModel EngineSpec EngineProofs EngineProofs2 EngineProofs3.
Import ListNotations.
Local Open Scope Q_scope.

(** Sensitivities with given L0 and Linf: L1 = L0*Linf and L2^2 = L0*Linf^2. *)
Definition l0_linf (l0 : Z) (linf : Q) : sens :=
  Sens (Some l0) (Some linf) (Some (inject_Z l0 * linf)) (Some (inject_Z l0 * (linf * linf))).
(** Sensitivities when only the total number of contributions is bounded. *)
Definition l1_l2 (l1 l2sq : Q) : sens := Sens None None (Some l1) (Some l2sq).

Lemma calibrated_intro {U P} `{EqDec U} `{EqDec P} p cs (sm : sampling U P) public rows keys col u i c qt s :
  standard_run p cs sm public rows keys col -> nth_error cs i = Some c ->
  (forall lo hi n, c = CVariance lo hi n -> max_contributions p = None) ->
  In (qt, Ok s) (noise_plan p c) ->
  (forall lo hi n, qt = QSquares -> c = CVariance lo hi n -> squares_covered lo hi) ->
  calibrated p cs sm public rows keys col u i c qt s.
Proof.
  intros [Ha [Hcs [Hb [Hv [Hp [Nk E]]]]]] Hi Hvar Hplan Hsq.
  destruct (all_sensitivities p cs i c sm public rows u col keys qt (Ok s) Ha Hcs Hi Hb Hvar Hv Hp Nk E Hplan Hsq)
    as [col' [s' [E' [Es R]]]]. inversion Es; subst s'.
  exists col'. split; [exact E'|]. cbn zeta. split; [exact Hplan|]. split; [exact R|].
  apply respects_covers. exact R.
Qed.

Lemma not_variance p c : (forall lo hi n, c <> CVariance lo hi n) ->
  forall lo hi n, c = CVariance lo hi n -> max_contributions p = None.
Proof. intros F lo hi n E. exfalso. exact (F lo hi n E). Qed.

Lemma created_ok {A B} (r : result A) (b c : B) : rmap (fun _ => b) r = Ok c -> exists a, r = Ok a.
Proof. destruct r; cbn; [eauto | discriminate]. Qed.

Ltac run_facts R Hi :=
  let Ha := fresh "Ha" in let Hcs := fresh "Hcs" in
  destruct R as [Ha [Hcs _]]; assert (Hk := nth_constructed _ _ _ _ Hcs Hi);
  assert (Hf := accepted_facts _ Ha); cbn [constructed] in Hk.

(** C13 *)
Theorem C13_count {U P} `{EqDec U} `{EqDec P} p cs (sm : sampling U P) public rows keys col u i l0 linf :
  standard_run p cs sm public rows keys col ->
  nth_error cs i = Some CCount ->
  max_partitions_contributed p = Some l0 -> max_contributions_per_partition p = Some linf ->
  calibrated p cs sm public rows keys col u i CCount QCount (l0_linf l0 (inject_Z linf)).
Proof.
  intros R Hi E0 Ei. apply calibrated_intro; [exact R | exact Hi | apply not_variance; discriminate | | discriminate].
  left. f_equal. run_facts R Hi. destruct (created_ok _ _ _ Hk) as [s Es]. unfold sens_count in *.
  destruct (max_contributions p); [destruct Hf as [_ [_ [_ [_ [X _]]]]]; congruence|].
  rewrite Es. rewrite E0, Ei in Es. cbn [injZ option_map] in Es.
  apply mk_sens_l0linf in Es; [|left; reflexivity]. destruct Es as [z [q [A [B [_ [_ ->]]]]]].
  inversion A; inversion B; subst. reflexivity.
Qed.
Print Assumptions C13_count.

(** The count used inside MEAN and VARIANCE. *)
Theorem C13_count_of_mean {U P} `{EqDec U} `{EqDec P} p cs (sm : sampling U P) public rows keys col u i lo hi names l0 linf :
  standard_run p cs sm public rows keys col ->
  nth_error cs i = Some (CMean lo hi names) ->
  max_partitions_contributed p = Some l0 -> max_contributions_per_partition p = Some linf ->
  calibrated p cs sm public rows keys col u i (CMean lo hi names) QCount (l0_linf l0 (inject_Z linf)).
Proof.
  intros R Hi E0 Ei. apply calibrated_intro; [exact R | exact Hi | apply not_variance; discriminate | | discriminate].
  left. f_equal. run_facts R Hi. unfold new_mean in Hk.
  destruct (min_value p), (max_value p); try discriminate.
  destruct (sens_count p) as [s|] eqn:Es; cbn [rbind] in Hk; [|discriminate]. unfold sens_count in *.
  destruct (max_contributions p); [destruct Hf as [_ [_ [_ [_ [X _]]]]]; congruence|].
  rewrite E0, Ei in Es. cbn [injZ option_map] in Es.
  apply mk_sens_l0linf in Es; [|left; reflexivity]. destruct Es as [z [q' [A [B [_ [_ ->]]]]]].
  inversion A; inversion B; subst. reflexivity.
Qed.
Print Assumptions C13_count_of_mean.

(** C14 *)
Theorem C14_privacy_id_count {U P} `{EqDec U} `{EqDec P} p cs (sm : sampling U P) public rows keys col u i c l0 :
  standard_run p cs sm public rows keys col ->
  nth_error cs i = Some c -> c = CPidCount \/ c = CThresh ->
  max_partitions_contributed p = Some l0 ->
  calibrated p cs sm public rows keys col u i c QCount (l0_linf l0 1).
Proof.
  intros R Hi Hc E0.
  assert (Hplan : noise_plan p c = [(QCount, sens_privacy_id_count p)]) by (destruct Hc as [->| ->]; reflexivity).
  apply calibrated_intro; [exact R | exact Hi | apply not_variance; destruct Hc as [->| ->]; discriminate | | discriminate].
  rewrite Hplan. left. f_equal.
  assert (exists s, sens_privacy_id_count p = Ok s) as [s Es].
  { run_facts R Hi. destruct Hc as [->| ->]; exact (created_ok _ _ _ Hk). }
  run_facts R Hi. unfold sens_privacy_id_count in *.
  destruct (max_contributions p); [destruct Hf as [_ [_ [_ [_ [X _]]]]]; congruence|].
  rewrite Es. rewrite E0 in Es.
  apply mk_sens_l0linf in Es; [|left; reflexivity]. destruct Es as [z [q [A [B [_ [_ ->]]]]]].
  inversion A; inversion B; subst. reflexivity.
Qed.
Print Assumptions C14_privacy_id_count.

(** C15: clipping of every value. *)
Theorem C15_sum_of_clipped_values {U P} `{EqDec U} `{EqDec P} p cs (sm : sampling U P) public rows keys col u i lo hi l0 linf :
  standard_run p cs sm public rows keys col ->
  nth_error cs i = Some (CSum false lo hi) ->
  max_partitions_contributed p = Some l0 -> max_contributions_per_partition p = Some linf ->
  min_value p = Some lo /\ max_value p = Some hi /\
  calibrated p cs sm public rows keys col u i (CSum false lo hi) QSum
    (l0_linf l0 (Qmax (Qabs lo) (Qabs hi) * inject_Z linf)).
Proof.
  intros R Hi E0 Ei.
  assert (F : min_value p = Some lo /\ max_value p = Some hi /\
              sens_sum p = Ok (l0_linf l0 (Qmax (Qabs lo) (Qabs hi) * inject_Z linf))).
  { run_facts R Hi. unfold new_sum in Hk. destruct (sens_sum p) as [s|] eqn:Es; cbn [rbind] in Hk; [|discriminate].
    destruct (bounds_per_partition_are_set p);
      [destruct (min_sum_per_partition p), (max_sum_per_partition p); discriminate|].
    destruct (min_value p) as [a|] eqn:Ea, (max_value p) as [b|] eqn:Eb; try discriminate. inversion Hk; subst.
    split; [reflexivity|]. split; [reflexivity|]. unfold sens_sum in Es. rewrite Ea, Eb in Es.
    destruct (max_contributions p); [destruct Hf as [_ [_ [_ [_ [X _]]]]]; congruence|].
    rewrite E0, Ei in Es. apply mk_sens_l0linf in Es; [|left; reflexivity].
    destruct Es as [z [q [A [B [_ [_ ->]]]]]]. inversion A; inversion B; subst. reflexivity. }
  destruct F as [Ea [Eb Es]]. split; [exact Ea|]. split; [exact Eb|].
  apply calibrated_intro; [exact R | exact Hi | apply not_variance; discriminate | | discriminate].
  left. rewrite <- Es. reflexivity.
Qed.
Print Assumptions C15_sum_of_clipped_values.

(** C15: clipping of the sum of a privacy id in a partition. *)
Theorem C15_clipped_sum_per_partition {U P} `{EqDec U} `{EqDec P} p cs (sm : sampling U P) public rows keys col u i lo hi l0 :
  standard_run p cs sm public rows keys col ->
  nth_error cs i = Some (CSum true lo hi) ->
  max_partitions_contributed p = Some l0 ->
  min_sum_per_partition p = Some lo /\ max_sum_per_partition p = Some hi /\
  calibrated p cs sm public rows keys col u i (CSum true lo hi) QSum (l0_linf l0 (Qmax (Qabs lo) (Qabs hi))).
Proof.
  intros R Hi E0.
  assert (F : min_sum_per_partition p = Some lo /\ max_sum_per_partition p = Some hi /\
              sens_sum p = Ok (l0_linf l0 (Qmax (Qabs lo) (Qabs hi)))).
  { run_facts R Hi. unfold new_sum in Hk. destruct (sens_sum p) as [s|] eqn:Es; cbn [rbind] in Hk; [|discriminate].
    unfold bounds_per_partition_are_set in Hk. destruct Hf as [O1 [O2 [Ex _]]].
    destruct (min_sum_per_partition p) as [a|] eqn:Ea, (max_sum_per_partition p) as [b|] eqn:Eb; cbn [is_some andb] in Hk;
      try (destruct (min_value p), (max_value p); discriminate).
    inversion Hk; subst. split; [reflexivity|]. split; [reflexivity|].
    unfold sens_sum in Es. rewrite Ea, Eb in Es. rewrite andb_comm in Ex. cbn [is_some andb] in Ex.
    destruct (min_value p); [discriminate|]. rewrite E0 in Es. apply mk_sens_l0linf in Es; [|left; reflexivity].
    destruct Es as [z [q [A [B [_ [_ ->]]]]]]. inversion A; inversion B; subst. reflexivity. }
  destruct F as [Ea [Eb Es]]. split; [exact Ea|]. split; [exact Eb|].
  apply calibrated_intro; [exact R | exact Hi | apply not_variance; discriminate | | discriminate].
  left. rewrite <- Es. reflexivity.
Qed.
Print Assumptions C15_clipped_sum_per_partition.

(** C16 *)
Theorem C16_mean_normalized_sum {U P} `{EqDec U} `{EqDec P} p cs (sm : sampling U P) public rows keys col u i lo hi names l0 linf :
  standard_run p cs sm public rows keys col ->
  nth_error cs i = Some (CMean lo hi names) ->
  max_partitions_contributed p = Some l0 -> max_contributions_per_partition p = Some linf ->
  min_value p = Some lo /\ max_value p = Some hi /\
  calibrated p cs sm public rows keys col u i (CMean lo hi names) QSum (l0_linf l0 ((hi - lo) / 2 * inject_Z linf)).
Proof.
  intros R Hi E0 Ei.
  assert (F : min_value p = Some lo /\ max_value p = Some hi /\
              sens_normalized_sum p = Ok (l0_linf l0 ((hi - lo) / 2 * inject_Z linf))).
  { run_facts R Hi. unfold new_mean in Hk.
    destruct (min_value p) as [a|] eqn:Ea, (max_value p) as [b|] eqn:Eb; try discriminate.
    destruct (sens_count p); cbn [rbind] in Hk; [|discriminate].
    destruct (sens_normalized_sum p) as [s|] eqn:Es; cbn [rmap] in Hk; [|discriminate]. inversion Hk; subst.
    split; [reflexivity|]. split; [reflexivity|]. unfold sens_normalized_sum in Es. rewrite Ea, Eb in Es.
    destruct (max_contributions p); [destruct Hf as [_ [_ [_ [_ [X _]]]]]; congruence|].
    rewrite E0, Ei in Es. apply mk_sens_l0linf in Es; [|left; reflexivity].
    destruct Es as [z [q [A [B [_ [_ ->]]]]]]. inversion A; inversion B; subst. reflexivity. }
  destruct F as [Ea [Eb Es]]. split; [exact Ea|]. split; [exact Eb|].
  apply calibrated_intro; [exact R | exact Hi | apply not_variance; discriminate | | discriminate].
  right. left. rewrite <- Es. reflexivity.
Qed.
Print Assumptions C16_mean_normalized_sum.

(** C17.  The engine refuses VARIANCE in max_contributions mode
    (dp_engine.py:423-432), so max_partitions_contributed is given. *)
Lemma variance_mode p l0 : accepted p -> max_partitions_contributed p = Some l0 -> max_contributions p = None.
Proof.
  intros Ha E0. assert (Hf := accepted_facts _ Ha).
  destruct (max_contributions p); [destruct Hf as [_ [_ [_ [_ [X _]]]]]; congruence | reflexivity].
Qed.

Theorem C17_variance_count_and_sum {U P} `{EqDec U} `{EqDec P} p cs (sm : sampling U P) public rows keys col u i lo hi names l0 linf :
  standard_run p cs sm public rows keys col ->
  nth_error cs i = Some (CVariance lo hi names) ->
  max_partitions_contributed p = Some l0 -> max_contributions_per_partition p = Some linf ->
  calibrated p cs sm public rows keys col u i (CVariance lo hi names) QCount (l0_linf l0 (inject_Z linf)) /\
  (~ lo == hi ->
   calibrated p cs sm public rows keys col u i (CVariance lo hi names) QSum
     (l0_linf l0 (inject_Z linf * Qabs (middle lo hi - lo))) /\
   Qabs (middle lo hi - lo) == (hi - lo) / 2).
Proof.
  intros R Hi E0 Ei. assert (R' := R). destruct R' as [Ha [Hcs _]].
  assert (Hm := variance_mode p l0 Ha E0).
  split.
  - apply calibrated_intro; [exact R | exact Hi | auto | | discriminate].
    cbn [noise_plan]. rewrite Ei. left. unfold var_sens. rewrite E0. reflexivity.
  - intro Ne. assert (Eq : Qeq_bool lo hi = false).
    { destruct (Qeq_bool lo hi) eqn:B; [|reflexivity]. apply Qeq_bool_iff in B. contradiction. }
    split.
    + apply calibrated_intro; [exact R | exact Hi | auto | | discriminate].
      cbn [noise_plan]. rewrite Ei, Eq, !in_app_iff. right. left. left. unfold var_sens, var_linf_sum, mean_linf.
      rewrite E0, Eq. reflexivity.
    + apply middle_dist. run_facts R Hi. unfold new_variance in Hk. destruct Hf as [O1 _].
      destruct (min_value p), (max_value p); try discriminate. inversion Hk; subst. exact O1.
Qed.
Print Assumptions C17_variance_count_and_sum.

(** Missing for the full statement: clipping ranges [lo < 0 < hi] with
    (hi - lo)^2 > 2 * max(lo^2, hi^2), for which it is false (below). *)
Theorem C17_variance_squares_partial {U P} `{EqDec U} `{EqDec P} p cs (sm : sampling U P) public rows keys col u i lo hi names l0 linf :
  standard_run p cs sm public rows keys col ->
  nth_error cs i = Some (CVariance lo hi names) ->
  max_partitions_contributed p = Some l0 -> max_contributions_per_partition p = Some linf ->
  ~ (lo < 0 /\ 0 < hi) \/ (hi - lo) * (hi - lo) <= 2 * Qmax (lo * lo) (hi * hi) ->
  forall s, In (QSquares, Ok s) (noise_plan p (CVariance lo hi names)) ->
  calibrated p cs sm public rows keys col u i (CVariance lo hi names) QSquares s.
Proof.
  intros R Hi E0 Ei Cov s Hs. assert (R' := R). destruct R' as [Ha [Hcs _]].
  assert (Hm := variance_mode p l0 Ha E0).
  apply calibrated_intro; [exact R | exact Hi | auto | exact Hs|].
  intros a b n _ E. inversion E; subst. exact Cov.
Qed.
Print Assumptions C17_variance_squares_partial.

(** The sum of squares is noised unless the clipping range is a point. *)
Theorem C17_squares_noised p lo hi names linf l0 :
  max_partitions_contributed p = Some l0 -> max_contributions_per_partition p = Some linf ->
  lo <= hi -> ~ lo == hi ->
  exists s, In (QSquares, Ok s) (noise_plan p (CVariance lo hi names)).
Proof.
  intros E0 Ei Le Ne. cbn [noise_plan]. rewrite Ei.
  assert (Eq : Qeq_bool (fst (squares_interval lo hi)) (snd (squares_interval lo hi)) = false).
  { apply not_true_is_false. intro B. apply Qeq_bool_iff in B. unfold squares_interval in B.
    destruct (negb (Qle_bool 0 lo) && negb (Qle_bool hi 0)) eqn:C; cbn [fst snd] in B.
    - apply andb_true_iff in C. destruct C as [C1 C2]. apply negb_true_iff in C1, C2.
      assert (L : lo < 0) by (apply Qnot_le_lt; intro X; apply Qle_bool_iff in X; congruence).
      assert (0 < lo * lo). { assert (0 < (- lo) * (- lo)) by (apply Qmult_lt_0_compat; lra). lra. }
      assert (lo * lo <= Qmax (lo * lo) (hi * hi)) by apply Q.le_max_l. lra.
    - assert (F : (hi - lo) * (hi + lo) == 0) by lra. apply Qmult_integral in F.
      assert (D : 0 <= lo \/ hi <= 0).
      { apply andb_false_iff in C. destruct C as [C|C]; apply negb_false_iff, Qle_bool_iff in C; auto. }
      destruct F, D; apply Ne; lra. }
  rewrite Eq. unfold var_linf_squares, mean_linf. rewrite Eq. unfold var_sens. rewrite E0.
  eexists. rewrite !in_app_iff. right. right. left. reflexivity.
Qed.
Print Assumptions C17_squares_noised.

(** With values in [-1, 1] the noise for the sum of squares is calibrated to 1/2
    while one privacy id with one row changes it by 1. *)
Definition variance_params (lo hi : Q) : params :=
  Params [VARIANCE] LaplaceNoise (Some 1%Z) (Some 1%Z) None 1 (Some lo) (Some hi) None None false None None None
         false false TruncatedGeometric None false true.
Definition raw_of (p : params) : raw_params :=
  let int := option_map PInt in let num := option_map Fin in
  RawParams (metrics p) (noise_kind p) (int (max_partitions_contributed p))
    (int (max_contributions_per_partition p)) (int (max_contributions p)) (budget_weight p)
    (num (min_value p)) (num (max_value p)) (num (min_sum_per_partition p)) (num (max_sum_per_partition p))
    (custom_combiners p) (vector_norm_kind p) (vector_max_norm p) (vector_size p)
    (contribution_bounds_already_enforced p) (public_partitions_already_filtered p)
    (partition_selection_strategy p) (int (pre_threshold p)) (post_aggregation_thresholding p)
    (perform_cross_partition_contribution_bounding p).
(** Draws the first [n] elements. *)
Definition first_n (n : nat) : nat -> list nat := fun _ => seq 0 n.
Definition first_sampling (l0 linf : nat) : sampling Z Z :=
  Sampling Z Z (fun _ => first_n linf) (fun _ => first_n l0).

Lemma first_n_valid {G} n : valid_source n (fun _ : G => first_n n).
Proof.
  intros g m L. unfold valid_draw, first_n. split; [apply seq_NoDup|]. split.
  - apply seq_length.
  - apply Forall_forall. intros x Hx. apply in_seq in Hx. lia.
Qed.

Theorem C17_variance_squares_refuted :
  exists p cs (sm : sampling Z Z) rows keys col u i lo hi names s,
    standard_run p cs sm None rows keys col /\
    nth_error cs i = Some (CVariance lo hi names) /\
    In (QSquares, Ok s) (noise_plan p (CVariance lo hi names)) /\
    exists col', raw_accumulators p cs sm None (without u rows) = Ok col' /\
      (exists linf k, s_linf s = Some linf /\ In k keys /\
         linf < Qabs (raw_value squares_of i k col - raw_value squares_of i k col')) /\
      (forall sp m, create_additive_mechanism sp s = Ok m ->
         ~ covers m keys (fun k => raw_value squares_of i k col - raw_value squares_of i k col')).
Proof.
  exists (variance_params (-1) 1), [CVariance (-1) 1 [NVariance]], (first_sampling 1 1),
         [(7%Z, 3%Z, Num 1)], [3%Z].
  exists [(3%Z, (1%Z, [AVar 1 (2 # 2) (4 # 4)]))], 7%Z, 0%nat, (-1), 1, [NVariance],
         (l0_linf 1 (1 # 2)).
  split.
  { split; [exists (raw_of (variance_params (-1) 1)); reflexivity|]. split; [reflexivity|]. split; [reflexivity|].
    split; [split; cbn; intros x E; inversion E; subst; apply first_n_valid|].
    split; [discriminate|]. split; [repeat constructor; intros []|]. vm_compute. reflexivity. }
  split; [reflexivity|]. split; [vm_compute; auto|].
  exists []. split; [vm_compute; reflexivity|]. split.
  - exists (1 # 2), 3%Z. split; [reflexivity|]. split; [left; reflexivity|]. vm_compute. reflexivity.
  - intros [k sd e dl] m. unfold create_additive_mechanism. cbn [ms_kind ms_std l0_linf s_l1 s_l2sq].
    destruct k, sd; intro E; inversion E; subst; vm_compute; intro X; apply X; reflexivity.
Qed.
Print Assumptions C17_variance_squares_refuted.

Lemma sumQ_one a : sumQ [a] == a.
Proof. cbn. ring. Qed.

(** The same happens for every clipping range that the partial theorem leaves out: the
    data of one person with one row of value [hi]. *)
Theorem C17_variance_squares_every_range_refuted : forall lo hi,
  lo < 0 -> 0 < hi -> 2 * Qmax (lo * lo) (hi * hi) < (hi - lo) * (hi - lo) ->
  exists p cs (sm : sampling Z Z) rows keys col u names s,
    standard_run p cs sm None rows keys col /\
    min_value p = Some lo /\ max_value p = Some hi /\
    max_partitions_contributed p = Some 1%Z /\ max_contributions_per_partition p = Some 1%Z /\
    nth_error cs 0 = Some (CVariance lo hi names) /\
    In (QSquares, Ok s) (noise_plan p (CVariance lo hi names)) /\
    exists col', raw_accumulators p cs sm None (without u rows) = Ok col' /\
      forall sp m, create_additive_mechanism sp s = Ok m ->
        ~ covers m keys (fun k => raw_value squares_of 0 k col - raw_value squares_of 0 k col').
Proof.
  intros lo hi L0 H0 W. set (p := variance_params lo hi). set (m2 := Qmax (lo * lo) (hi * hi)) in *.
  exists p, [CVariance lo hi [NVariance]], (first_sampling 1 1), [(7%Z, 3%Z, Num hi)], [3%Z].
  set (x := (clip lo hi hi - middle lo hi) * (clip lo hi hi - middle lo hi)).
  exists [(3%Z, (1%Z, [AVar 1 (sumQ [clip lo hi hi - middle lo hi]) (sumQ [x])]))], 7%Z, [NVariance].
  destruct (C17_squares_noised p lo hi [NVariance] 1 1 eq_refl eq_refl) as [s Hs]; [lra | lra |].
  assert (Sq : squares_interval lo hi = (0, m2)).
  { unfold squares_interval.
    assert (Qle_bool 0 lo = false) as -> by (apply not_true_is_false; rewrite Qle_bool_iff; lra).
    assert (Qle_bool hi 0 = false) as -> by (apply not_true_is_false; rewrite Qle_bool_iff; lra). reflexivity. }
  assert (Pm : 0 < m2).
  { apply Qlt_le_trans with (hi * hi); [apply Qmult_lt_0_compat; exact H0 | apply Q.le_max_r]. }
  assert (Es : s = Sens (Some 1%Z) (Some (inject_Z 1 * Qabs (middle 0 m2 - 0)))
                     (Some (l1_sensitivity 1 (inject_Z 1 * Qabs (middle 0 m2 - 0))))
                     (Some (l2sq_sensitivity 1 (inject_Z 1 * Qabs (middle 0 m2 - 0))))).
  { cbn [noise_plan p variance_params max_contributions_per_partition] in Hs. unfold var_linf_squares, mean_linf in Hs.
    rewrite Sq in Hs. cbn [fst snd] in Hs. rewrite !in_app_iff in Hs. destruct Hs as [[E|[]]|[Hs|Hs]]; [discriminate | |].
    - destruct (Qeq_bool lo hi); [destruct Hs | destruct Hs as [E|[]]; discriminate].
    - destruct (Qeq_bool 0 m2); [destruct Hs|]. destruct Hs as [E|[]]. cbn in E. injection E as <-. reflexivity. }
  exists s. split.
  { split.
    { exists (raw_of p). cbn. unfold raise_if. rewrite (proj2 (Qle_bool_iff lo hi)); [reflexivity | lra]. }
    split; [reflexivity|]. split; [reflexivity|].
    split; [split; cbn; intros y E; inversion E; subst; apply first_n_valid|].
    split; [discriminate|]. split; [repeat constructor; intros []|].
    subst x p. lazy -[Qplus Qminus Qdiv Qmult clip middle sumQ]. reflexivity. }
  do 4 (split; [reflexivity|]). split; [reflexivity|]. split; [exact Hs|].
  exists []. split; [reflexivity|].
  set (h := m2 / 2). set (t := middle 0 m2). assert (Et : Qabs (t - 0) == h).
  { unfold t, middle, h. rewrite Qabs_pos; [field|]. setoid_replace (0 + (m2 - 0) / 2 - 0) with (m2 / 2) by field.
    apply Qle_shift_div_l; lra. }
  assert (Ex : sumQ [x] == (hi - lo) * (hi - lo) / 4).
  { unfold sumQ, x. cbn [fold_right]. unfold clip, middle.
    rewrite (Q.max_l hi lo) by lra. rewrite (Q.min_l hi hi) by lra. field. }
  assert (Wh : h < sumQ [x]).
  { rewrite Ex. unfold h. apply Qlt_shift_div_l; [reflexivity|]. setoid_replace (m2 / 2 * 4) with (2 * m2) by field. exact W. }
  assert (Ph : 0 < h) by (unfold h; apply Qlt_shift_div_l; lra).
  assert (V : raw_value squares_of 0 3%Z [(3%Z, (1%Z, [AVar 1 (sumQ [clip lo hi hi - middle lo hi]) (sumQ [x])]))]
              - raw_value squares_of 0 3%Z ([] : list (Z * cacc)) == sumQ [x]).
  { change (sumQ [x] - 0 == sumQ [x]). ring. }
  intros [k sd e dl] m Em. subst s. unfold create_additive_mechanism in Em. cbn [ms_kind ms_std s_l1 s_l2sq] in Em.
  fold t in Em.
  assert (C1 : ~ l1_norm [3%Z] (fun k => raw_value squares_of 0 k [(3%Z, (1%Z, [AVar 1 (sumQ [clip lo hi hi - middle lo hi]) (sumQ [x])]))]
              - raw_value squares_of 0 k ([] : list (Z * cacc))) <= l1_sensitivity 1 (inject_Z 1 * Qabs (t - 0))).
  { unfold l1_norm. cbn [map]. rewrite sumQ_one. rewrite V, Qabs_pos by lra. unfold l1_sensitivity. change (inject_Z 1) with 1.
    setoid_replace (1 * (1 * Qabs (t - 0))) with (Qabs (t - 0)) by ring. rewrite Et. lra. }
  assert (C2 : ~ l2sq_norm [3%Z] (fun k => raw_value squares_of 0 k [(3%Z, (1%Z, [AVar 1 (sumQ [clip lo hi hi - middle lo hi]) (sumQ [x])]))]
              - raw_value squares_of 0 k ([] : list (Z * cacc))) <= l2sq_sensitivity 1 (inject_Z 1 * Qabs (t - 0))).
  { unfold l2sq_norm. cbn [map]. rewrite sumQ_one. rewrite V. unfold l2sq_sensitivity. change (inject_Z 1) with 1.
    setoid_replace (1 * (1 * Qabs (t - 0) * (1 * Qabs (t - 0)))) with (Qabs (t - 0) * Qabs (t - 0)) by ring. rewrite Et.
    intro X. assert (0 < (sumQ [x] - h) * (sumQ [x] + h)) by (apply Qmult_lt_0_compat; lra). lra. }
  destruct k, sd; injection Em as <-; cbn [covers]; assumption.
Qed.
Print Assumptions C17_variance_squares_every_range_refuted.

(** So the condition of the partial theorem is exact. *)
Theorem C17_variance_squares_exactly : forall lo hi,
  (forall p cs (sm : sampling Z Z) public rows keys col u i names l0 linf s,
     standard_run p cs sm public rows keys col ->
     nth_error cs i = Some (CVariance lo hi names) ->
     max_partitions_contributed p = Some l0 -> max_contributions_per_partition p = Some linf ->
     In (QSquares, Ok s) (noise_plan p (CVariance lo hi names)) ->
     calibrated p cs sm public rows keys col u i (CVariance lo hi names) QSquares s) <->
  ~ (lo < 0 /\ 0 < hi) \/ (hi - lo) * (hi - lo) <= 2 * Qmax (lo * lo) (hi * hi).
Proof.
  intros lo hi. split.
  - intros A. destruct (Qlt_le_dec lo 0) as [L|L]; [|left; lra]. destruct (Qlt_le_dec 0 hi) as [H|H]; [|left; lra].
    destruct (Qlt_le_dec (2 * Qmax (lo * lo) (hi * hi)) ((hi - lo) * (hi - lo))) as [W|W]; [|right; exact W].
    exfalso. destruct (C17_variance_squares_every_range_refuted lo hi L H W)
      as (p & cs & sm & rows & keys & col & u & names & s & R & _ & _ & E0 & Ei & Hc & Hs & col' & E' & No).
    destruct (A p cs sm None rows keys col u 0%nat names 1%Z 1%Z s R Hc E0 Ei Hs) as (col2 & E2 & _ & _ & Cv).
    assert (col2 = col') by congruence. subst col2.
    destruct (Cv (MSpec LaplaceNoise None 1 0)) as (m & Em & C). exact (No _ _ Em C).
  - intros C p cs sm public rows keys col u i names l0 linf s R Hc E0 Ei Hs.
    exact (C17_variance_squares_partial p cs sm public rows keys col u i lo hi names l0 linf R Hc E0 Ei C s Hs).
Qed.
Print Assumptions C17_variance_squares_exactly.

(** C18: max_contributions. *)
Theorem C18_count {U P} `{EqDec U} `{EqDec P} p cs (sm : sampling U P) public rows keys col u i m :
  standard_run p cs sm public rows keys col ->
  nth_error cs i = Some CCount -> max_contributions p = Some m ->
  calibrated p cs sm public rows keys col u i CCount QCount (l1_l2 (inject_Z m) (inject_Z m * inject_Z m)).
Proof.
  intros R Hi Em. apply calibrated_intro; [exact R | exact Hi | apply not_variance; discriminate | | discriminate].
  left. f_equal. run_facts R Hi. destruct (created_ok _ _ _ Hk) as [s Es]. unfold sens_count in *.
  rewrite Em in *. rewrite Es. apply mk_sens_l1l2 in Es. destruct Es as [_ [_ ->]]. reflexivity.
Qed.
Print Assumptions C18_count.

Theorem C18_privacy_id_count {U P} `{EqDec U} `{EqDec P} p cs (sm : sampling U P) public rows keys col u i m :
  standard_run p cs sm public rows keys col ->
  nth_error cs i = Some CPidCount -> max_contributions p = Some m ->
  calibrated p cs sm public rows keys col u i CPidCount QCount (l1_l2 (inject_Z m) (inject_Z m)).
Proof.
  intros R Hi Em. apply calibrated_intro; [exact R | exact Hi | apply not_variance; discriminate | | discriminate].
  left. f_equal. run_facts R Hi. destruct (created_ok _ _ _ Hk) as [s Es]. unfold sens_privacy_id_count in *.
  rewrite Em in *. rewrite Es. apply mk_sens_l1l2 in Es. destruct Es as [_ [_ ->]]. reflexivity.
Qed.
Print Assumptions C18_privacy_id_count.

Theorem C18_sum {U P} `{EqDec U} `{EqDec P} p cs (sm : sampling U P) public rows keys col u i b lo hi m :
  standard_run p cs sm public rows keys col ->
  nth_error cs i = Some (CSum b lo hi) -> max_contributions p = Some m ->
  b = false /\ min_value p = Some lo /\ max_value p = Some hi /\
  let l1 := Qmax (Qabs lo) (Qabs hi) * inject_Z m in
  calibrated p cs sm public rows keys col u i (CSum b lo hi) QSum (l1_l2 l1 (l1 * l1)).
Proof.
  intros R Hi Em.
  assert (F : b = false /\ min_value p = Some lo /\ max_value p = Some hi /\
              let l1 := Qmax (Qabs lo) (Qabs hi) * inject_Z m in sens_sum p = Ok (l1_l2 l1 (l1 * l1))).
  { run_facts R Hi. unfold new_sum in Hk. destruct (sens_sum p) as [s|] eqn:Es; cbn [rbind] in Hk; [|discriminate].
    destruct Hf as [O1 [O2 [Ex Hm]]]. rewrite Em in Hm. destruct Hm as [Pm [N0 Ni]].
    unfold sens_sum in Es. rewrite Em, N0 in Es. unfold bounds_per_partition_are_set in Hk.
    destruct (min_value p) as [a|] eqn:Ea, (max_value p) as [c|] eqn:Eb; cbn [ordered] in O1; try contradiction.
    - destruct (min_sum_per_partition p); [discriminate|]. cbn [is_some andb] in Hk. inversion Hk; subst.
      split; [reflexivity|]. split; [reflexivity|]. split; [reflexivity|]. destruct (m =? 0)%Z; [discriminate|].
      apply mk_sens_l1l2 in Es. destruct Es as [_ [_ ->]]. reflexivity.
    - destruct (min_sum_per_partition p) as [a'|], (max_sum_per_partition p) as [b'|]; try discriminate.
      unfold mk_sens, raise_if in Es. cbn [nonpos] in Es. destruct (Qle_bool (max_abs a' b') 0); discriminate. }
  destruct F as [-> [Ea [Eb Es]]]. cbn zeta in *. repeat (split; [assumption || reflexivity|]).
  apply calibrated_intro; [exact R | exact Hi | apply not_variance; discriminate | | discriminate].
  left. rewrite <- Es. reflexivity.
Qed.
Print Assumptions C18_sum.

Theorem C18_mean {U P} `{EqDec U} `{EqDec P} p cs (sm : sampling U P) public rows keys col u i lo hi names m :
  standard_run p cs sm public rows keys col ->
  nth_error cs i = Some (CMean lo hi names) -> max_contributions p = Some m ->
  calibrated p cs sm public rows keys col u i (CMean lo hi names) QCount (l1_l2 (inject_Z m) (inject_Z m * inject_Z m)) /\
  let l1 := (hi - lo) / 2 * inject_Z m in
  calibrated p cs sm public rows keys col u i (CMean lo hi names) QSum (l1_l2 l1 (l1 * l1)).
Proof.
  intros R Hi Em.
  assert (F : sens_count p = Ok (l1_l2 (inject_Z m) (inject_Z m * inject_Z m)) /\
              let l1 := (hi - lo) / 2 * inject_Z m in sens_normalized_sum p = Ok (l1_l2 l1 (l1 * l1))).
  { run_facts R Hi. unfold new_mean in Hk.
    destruct (min_value p) as [a|] eqn:Ea, (max_value p) as [b|] eqn:Eb; try discriminate.
    destruct (sens_count p) as [s1|] eqn:Es1; cbn [rbind] in Hk; [|discriminate].
    destruct (sens_normalized_sum p) as [s|] eqn:Es; cbn [rmap] in Hk; [|discriminate]. inversion Hk; subst.
    unfold sens_count in Es1. unfold sens_normalized_sum in Es. rewrite Ea, Eb in Es. rewrite Em in *.
    destruct (m =? 0)%Z; [discriminate|].
    apply mk_sens_l1l2 in Es. destruct Es as [_ [_ ->]].
    apply mk_sens_l1l2 in Es1. destruct Es1 as [_ [_ ->]]. split; reflexivity. }
  destruct F as [Ec Es]. cbn zeta in *. split.
  - apply calibrated_intro; [exact R | exact Hi | apply not_variance; discriminate | | discriminate].
    left. rewrite <- Ec. reflexivity.
  - apply calibrated_intro; [exact R | exact Hi | apply not_variance; discriminate | | discriminate].
    right. left. rewrite <- Es. reflexivity.
Qed.
Print Assumptions C18_mean.

(** Bounding the sum per partition together with max_contributions is accepted
    by AggregateParams, but the combiner cannot be created. *)
Theorem C18_partition_sum_bounds_rejected p m lo hi cs :
  accepted p -> max_contributions p = Some m -> min_sum_per_partition p = Some lo -> max_sum_per_partition p = Some hi ->
  In SUM (metrics p) -> has VARIANCE (metrics p) = false -> has MEAN (metrics p) = false ->
  create_compound_combiner p <> Ok cs.
Proof.
  intros Ha Em El Eh Hs Hv Hn E. destruct (accepted_facts p Ha) as [O1 [O2 [Ex Hf]]]. rewrite Em in Hf.
  destruct Hf as [Pm [N0 Ni]].
  unfold create_compound_combiner, create_combiners in E. rewrite Hv, Hn in E.
  assert (Hsum : has SUM (metrics p) = true) by (apply existsb_exists; exists SUM; auto).
  assert (X : new_sum p = Err ValueError).
  { unfold new_sum, sens_sum. rewrite El, Eh, N0. rewrite El in Ex. rewrite andb_comm in Ex. cbn [is_some andb] in Ex.
    destruct (min_value p); [discriminate|]. unfold mk_sens, raise_if. cbn [nonpos].
    destruct (Qle_bool (max_abs lo hi) 0); reflexivity. }
  rewrite Hsum in E. unfold append_if in E at 2. rewrite X in E. cbn [rbind] in E. unfold append_if in E.
  destruct (has COUNT (metrics p)); [destruct (new_count p)|]; cbn in E; discriminate.
Qed.
Print Assumptions C18_partition_sum_bounds_rejected.

(** The hypotheses are met: two privacy ids, three partitions, more rows than the
    bounds allow. *)
Definition demo_rows : list (Z * Z * value) :=
  [(1, 10, Num 4); (1, 10, Num (-2)); (1, 10, Num 9); (1, 20, Num 1); (1, 30, Num 2);
   (2, 20, Num 3); (2, 30, Num (-7)); (2, 30, Num 5)]%Z.
Definition demo_params (ms : list metric) (mc : option Z) : params :=
  let b := match mc with Some _ => None | None => Some 2%Z end in
  Params ms LaplaceNoise b b mc 1 (Some (-3)) (Some 5) None None false None None None
         false false TruncatedGeometric None false true.

Lemma demo_run ms mc cs col :
  post_init (raw_of (demo_params ms mc)) = Ok (demo_params ms mc) ->
  create_compound_combiner (demo_params ms mc) = Ok cs ->
  match mc with Some m => m = 2%Z | None => True end ->
  raw_accumulators (demo_params ms mc) cs (first_sampling 2 2) (Some [10; 20; 30; 40]%Z) demo_rows = Ok col ->
  standard_run (demo_params ms mc) cs (first_sampling 2 2) (Some [10; 20; 30; 40]%Z) demo_rows [10; 20; 30; 40]%Z col.
Proof.
  intros A B M E. split; [exists (raw_of (demo_params ms mc)); exact A|]. split; [exact B|]. split; [reflexivity|].
  split. { unfold valid_sampling. destruct mc as [m|]; cbn -[Z.to_nat].
    - subst m. apply first_n_valid.
    - split; intros x X; inversion X; subst; apply first_n_valid. }
  split; [discriminate|].
  split; [|exact E]. repeat constructor; cbn; intuition discriminate.
Qed.

Example C13_C14_C15_hypotheses_met :
  standard_run (demo_params [COUNT; SUM; PRIVACY_ID_COUNT] None) [CCount; CSum false (-3) 5; CPidCount]
    (first_sampling 2 2) (Some [10; 20; 30; 40]%Z) demo_rows [10; 20; 30; 40]%Z
    [(10, (2, [AInt 2; AFloat (2#1); AInt 1])); (20, (3, [AInt 2; AFloat (4#1); AInt 2]));
     (30, (2, [AInt 2; AFloat (2#1); AInt 1])); (40, (1, [AInt 0; AFloat (0#1); AInt 0]))]%Z.
Proof. apply demo_run; vm_compute; auto. Qed.

Example C16_hypotheses_met :
  exists col, standard_run (demo_params [MEAN] None) [CMean (-3) 5 [NMean]]
    (first_sampling 2 2) (Some [10; 20; 30; 40]%Z) demo_rows [10; 20; 30; 40]%Z col.
Proof. eexists. apply demo_run; vm_compute; auto. Qed.

Example C17_partial_hypotheses_met :
  exists col, standard_run (demo_params [VARIANCE] None) [CVariance (-3) 5 [NVariance]]
    (first_sampling 2 2) (Some [10; 20; 30; 40]%Z) demo_rows [10; 20; 30; 40]%Z col.
Proof. eexists. apply demo_run; vm_compute; auto. Qed.
Example C17_partial_range_exists : ~ (1 < 0 /\ 0 < 4) \/ (4 - 1) * (4 - 1) <= 2 * Qmax (1 * 1) (4 * 4).
Proof. left. intros [A _]. vm_compute in A. discriminate. Qed.
Example C17_partial_straddling_range_exists :
  (-1 < 0 /\ 0 < 4) /\ (4 - -1) * (4 - -1) <= 2 * Qmax (-1 * -1) (4 * 4).
Proof. vm_compute. repeat split; discriminate. Qed.

Example C18_hypotheses_met :
  standard_run (demo_params [COUNT; SUM; PRIVACY_ID_COUNT] (Some 2%Z)) [CCount; CSum false (-3) 5; CPidCount]
    (first_sampling 2 2) (Some [10; 20; 30; 40]%Z) demo_rows [10; 20; 30; 40]%Z
    [(10, (2, [AInt 2; AFloat (2#1); AInt 1])); (20, (2, [AInt 1; AFloat (3#1); AInt 1]));
     (30, (2, [AInt 1; AFloat (-3#1); AInt 1])); (40, (1, [AInt 0; AFloat (0#1); AInt 0]))]%Z.
Proof. apply demo_run; vm_compute; auto. Qed.
