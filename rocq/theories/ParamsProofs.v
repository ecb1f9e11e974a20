(** Proofs about parameter validation. *)
From Coq Require Import List ZArith QArith Qabs Qminmax Bool Lia Lqa.
From Verif Require Import Base BaseLemmas BackendModel ParamsModel ParamsSpec SensModel CombinerModel CombinerProofs3
  EngineSpec EngineProofs3.
Import ListNotations.
Local Open Scope Q_scope.

Lemma has_in m ms : (forall q, m <> PERCENTILE q) -> (has m ms = true <-> In m ms).
Proof.
  intro Np. unfold has. rewrite existsb_exists. split.
  - intros [x [Hx E]]. destruct m, x; try discriminate E; try exact Hx. exfalso. exact (Np _ eq_refl).
  - intro Hm. exists m. split; [exact Hm|]. destruct m; try reflexivity. exfalso. exact (Np _ eq_refl).
Qed.

Lemma has_not_in m ms : (forall q, m <> PERCENTILE q) -> (has m ms = false <-> ~ In m ms).
Proof. intro Np. rewrite <- (has_in m ms Np). destruct (has m ms); split; congruence. Qed.

Lemma positive_int_iff n : not_positive_int n = false <-> ParamsSpec.positive_int n.
Proof.
  unfold not_positive_int, ParamsSpec.positive_int. destruct n as [[z|]|].
  - split; [intro E; exists z; split; [reflexivity|]; lia | intros [z' [E P]]; inversion E; subst; lia].
  - split; [discriminate | intros [z' [E _]]; discriminate].
  - split; [discriminate | intros [z' [E _]]; discriminate].
Qed.

Lemma bounds_iff lo hi :
  (negb (both_or_none lo hi) = false /\ is_some lo && bad_range lo hi = false) <-> no_bounds lo hi \/ good_bounds lo hi.
Proof.
  unfold no_bounds, good_bounds, bad_range, both_or_none. rewrite negb_false_iff.
  destruct lo as [[a|]|], hi as [[b|]|]; cbn; split; intro X; try (destruct X as [X Y]; discriminate).
  all: try (destruct X as [[X1 X2]|[a' [b' [X1 [X2 _]]]]]; discriminate).
  - right. exists a, b. destruct X as [_ X]. apply negb_false_iff, Qle_bool_iff in X. auto.
  - split; [reflexivity|]. destruct X as [[X1 _]|[a' [b' [X1 [X2 L]]]]]; [discriminate|]. inversion X1; inversion X2; subst.
    apply negb_false_iff, Qle_bool_iff. exact L.
  - left. split; reflexivity.
  - split; reflexivity.
Qed.

Lemma good_some lo hi : good_bounds lo hi -> is_some lo = true.
Proof. intros [a [b [-> _]]]. reflexivity. Qed.
Lemma no_none lo hi : no_bounds lo hi -> is_some lo = false.
Proof. intros [-> _]. reflexivity. Qed.

Lemma only_forall allowed ms : only allowed ms = true <-> forall m, In m ms -> has m allowed = true.
Proof. unfold only. apply forallb_forall. Qed.

Lemma post_init_error r e : post_init r = Err e -> e = ValueError.
Proof.
  unfold post_init, raise_if. cbn zeta.
  repeat match goal with |- (if ?b then _ else _) = _ -> _ => destruct b; [intro X; inversion X; reflexivity|] end.
  discriminate.
Qed.

Lemma raise_if_iff {A} b e (k : result A) a : raise_if b e k = Ok a <-> b = false /\ k = Ok a.
Proof. destruct b; cbn; intuition congruence. Qed.

Lemma accepted_iff r :
  (exists p, post_init r = Ok p) <->
  (negb (both_or_none (r_min_value r) (r_max_value r)) = false /\
   is_some (r_min_value r) && bad_range (r_min_value r) (r_max_value r) = false) /\
  (negb (both_or_none (r_min_sum_per_partition r) (r_max_sum_per_partition r)) = false /\
   is_some (r_min_sum_per_partition r) && bad_range (r_min_sum_per_partition r) (r_max_sum_per_partition r) = false) /\
  is_some (r_min_value r) && is_some (r_min_sum_per_partition r) = false /\
  (if has VECTOR_SUM (r_metrics r) then has SUM (r_metrics r) || has MEAN (r_metrics r) || has VARIANCE (r_metrics r)
     else if is_some (r_min_sum_per_partition r) then negb (only [SUM; PRIVACY_ID_COUNT; COUNT] (r_metrics r))
     else if negb (is_some (r_min_value r)) then negb (only [PRIVACY_ID_COUNT; COUNT] (r_metrics r))
     else false) = false /\
  r_contribution_bounds_already_enforced r && has PRIVACY_ID_COUNT (r_metrics r) = false /\
  match r_metrics r with [] => false | _ => r_custom_combiners r end = false /\
  match r_max_contributions r with
     | Some m => not_positive_int (Some m)
                 || is_some (r_max_partitions_contributed r)
                 || is_some (r_max_contributions_per_partition r)
     | None => negb (is_some (r_max_partitions_contributed r))
               || negb (is_some (r_max_contributions_per_partition r))
               || not_positive_int (r_max_partitions_contributed r)
               || not_positive_int (r_max_contributions_per_partition r)
     end = false /\
  is_some (r_pre_threshold r) && not_positive_int (r_pre_threshold r) = false.
Proof.
  unfold post_init. cbn zeta. split.
  - intros [p E]. repeat (apply (proj1 (raise_if_iff _ _ _ _)) in E; let B := fresh "B" in destruct E as [B E]). tauto.
  - intros [[A1 A2] [[A3 A4] [A5 [A6 [A7 [A8 [A9 A10]]]]]]]. eexists.
    repeat (apply (proj2 (raise_if_iff _ _ _ _)); split; [assumption|]). reflexivity.
Qed.

Ltac np := intros ?; discriminate.

Lemma valid_iff r : (exists p, post_init r = Ok p) <-> valid r.
Proof.
  rewrite accepted_iff, !bounds_iff. split.
  - intros [A1 [A2 [A3 [A4 [A5 [A6 [A7 A8]]]]]]]. constructor.
    + destruct (r_max_contributions r) as [m|] eqn:Em.
      * left. apply orb_false_iff in A7. destruct A7 as [A7 C]. apply orb_false_iff in A7. destruct A7 as [A7 D].
        split; [apply positive_int_iff; exact A7|].
        destruct (r_max_partitions_contributed r); [discriminate|]. destruct (r_max_contributions_per_partition r); [discriminate|].
        split; reflexivity.
      * right. split; [reflexivity|]. apply orb_false_iff in A7. destruct A7 as [A7 C]. apply orb_false_iff in A7. destruct A7 as [_ D].
        split; apply positive_int_iff; assumption.
    + destruct A1 as [A1|A1], A2 as [A2|A2]; auto.
      rewrite (good_some _ _ A1), (good_some _ _ A2) in A3. discriminate.
    + intros Nv m Hm Hn. apply (has_not_in VECTOR_SUM _ ltac:(np)) in Nv. rewrite Nv in A4.
      destruct A1 as [A1|A1]; [|exact A1]. exfalso. rewrite (no_none _ _ A1) in A4. cbn [negb] in A4.
      destruct (is_some (r_min_sum_per_partition r)); apply negb_false_iff in A4;
        apply (proj1 (only_forall _ _)) with (m := m) in A4; try exact Hm; destruct m; try destruct Hn; discriminate A4.
    + intros Nv Hs. apply (has_not_in VECTOR_SUM _ ltac:(np)) in Nv. rewrite Nv in A4.
      destruct A1 as [A1|A1]; [|left; exact A1]. destruct A2 as [A2|A2]; [|right; exact A2]. exfalso.
      rewrite (no_none _ _ A1), (no_none _ _ A2) in A4. cbn [negb] in A4. apply negb_false_iff in A4.
      apply (proj1 (only_forall _ _)) with (m := SUM) in A4; [discriminate | exact Hs].
    + intro Hv. apply (has_in VECTOR_SUM _ ltac:(np)) in Hv. rewrite Hv in A4. apply orb_false_iff in A4. destruct A4 as [A4 C].
      apply orb_false_iff in A4. destruct A4 as [A4 D]. repeat split; apply has_not_in; try np; assumption.
    + intro He. rewrite He in A5. apply has_not_in; [np | exact A5].
    + intro Hc. rewrite Hc in A6. destruct (r_metrics r); [reflexivity | discriminate].
    + destruct (r_pre_threshold r) as [t|] eqn:Et; [|left; reflexivity]. right. apply positive_int_iff. exact A8.
  - intros [V1 V2 V3 V4 V5 V6 V7 V8].
    assert (A1 : no_bounds (r_min_value r) (r_max_value r) \/ good_bounds (r_min_value r) (r_max_value r)) by tauto.
    assert (A2 : no_bounds (r_min_sum_per_partition r) (r_max_sum_per_partition r) \/
                 good_bounds (r_min_sum_per_partition r) (r_max_sum_per_partition r)) by tauto.
    split; [exact A1|]. split; [exact A2|].
    split. { destruct V2 as [[X Y]|[[X Y]|[X Y]]]; [rewrite (no_none _ _ X)|rewrite (no_none _ _ Y), andb_comm|rewrite (no_none _ _ X)]; reflexivity. }
    split. { destruct (has VECTOR_SUM (r_metrics r)) eqn:Hv.
      - apply (has_in VECTOR_SUM _ ltac:(np)) in Hv. destruct (V5 Hv) as [X [Y Z]].
        apply (has_not_in SUM _ ltac:(np)) in X. apply (has_not_in MEAN _ ltac:(np)) in Y. apply (has_not_in VARIANCE _ ltac:(np)) in Z.
        rewrite X, Y, Z. reflexivity.
      - apply (has_not_in VECTOR_SUM _ ltac:(np)) in Hv. specialize (V3 Hv). specialize (V4 Hv).
        destruct (is_some (r_min_sum_per_partition r)) eqn:Es.
        + apply negb_false_iff. apply only_forall. intros m Hm.
          assert (Nv : ~ good_bounds (r_min_value r) (r_max_value r)).
          { intro G. destruct V2 as [[X Y]|[[X Y]|[X Y]]]; try (rewrite (no_none _ _ Y) in Es; discriminate).
            apply good_some in G. rewrite (no_none _ _ X) in G. discriminate. }
          destruct m; try reflexivity; exfalso; try (apply Nv; eapply V3; [eassumption | exact I]). exact (Hv Hm).
        + destruct (is_some (r_min_value r)) eqn:Ev; [reflexivity|]. cbn [negb]. apply negb_false_iff. apply only_forall. intros m Hm.
          assert (Nv : ~ good_bounds (r_min_value r) (r_max_value r)) by (intro G; apply good_some in G; congruence).
          assert (Ns : ~ good_bounds (r_min_sum_per_partition r) (r_max_sum_per_partition r)) by (intro G; apply good_some in G; congruence).
          destruct m; try reflexivity; exfalso; try (apply Nv; eapply V3; [eassumption | exact I]); [destruct (V4 Hm); tauto | exact (Hv Hm)]. }
    split. { destruct (r_contribution_bounds_already_enforced r); [|reflexivity]. apply has_not_in; [np|]. apply V6. reflexivity. }
    split. { destruct (r_custom_combiners r); [rewrite V7; reflexivity | destruct (r_metrics r); reflexivity]. }
    split. { destruct V1 as [[X [Y Z]]|[X [Y Z]]].
      - rewrite Y, Z. apply positive_int_iff in X. destruct (r_max_contributions r) as [m|]; [|discriminate X]. rewrite X. reflexivity.
      - rewrite X. assert (Y' := Y). assert (Z' := Z). apply positive_int_iff in Y', Z'. rewrite Y', Z'.
        destruct Y as [y [-> _]], Z as [z [-> _]]. reflexivity. }
    destruct V8 as [-> | X]; [reflexivity|]. apply positive_int_iff in X. rewrite X, andb_false_r. reflexivity.
Qed.

(** ** Accepted parameters give combiners *)
Lemma append_if_ok b mk k : (b = true -> exists c, mk = Ok c) -> (exists l, k = Ok l) -> exists l, append_if b mk k = Ok l.
Proof.
  intros Hc [l ->]. unfold append_if. destruct b; [|eauto]. destruct (Hc eq_refl) as [c ->]. cbn. eauto.
Qed.

Lemma mk_sens_l0linf_ok z q : (0 < z)%Z -> 0 < q -> exists s, mk_sens (Some z) (Some q) None None = Ok s.
Proof.
  intros Pz Pq. unfold mk_sens, raise_if, nonpos. destruct (Z.leb_spec z 0); [lia|].
  destruct (Qle_bool q 0) eqn:E; [apply Qle_bool_iff in E; lra|]. eauto.
Qed.
Lemma mk_sens_l1l2_ok a b : 0 < a -> 0 < b -> exists s, mk_sens None None (Some a) (Some b) = Ok s.
Proof.
  intros Pa Pb. unfold mk_sens, raise_if, nonpos.
  destruct (Qle_bool a 0) eqn:E; [apply Qle_bool_iff in E; lra|].
  destruct (Qle_bool b 0) eqn:E'; [apply Qle_bool_iff in E'; lra|]. eauto.
Qed.

Lemma injZ_pos z : (0 < z)%Z -> 0 < inject_Z z.
Proof. intro Pz. change 0 with (inject_Z 0). rewrite <- Zlt_Qlt. exact Pz. Qed.

Lemma max_abs_pos a b : ~ (a == 0 /\ b == 0) -> 0 < max_abs a b.
Proof.
  intro N. unfold max_abs. assert (X := Q.le_max_l (Qabs a) (Qabs b)). assert (Y := Q.le_max_r (Qabs a) (Qabs b)).
  assert (A := Qabs_nonneg a). assert (B := Qabs_nonneg b).
  destruct (Qlt_le_dec 0 (Qmax (Qabs a) (Qabs b))) as [L|L]; [exact L|]. exfalso. apply N.
  split; [assert (Z1 : Qabs a == 0) by lra; revert Z1; apply Qabs_case; intros; lra
         |assert (Z1 : Qabs b == 0) by lra; revert Z1; apply Qabs_case; intros; lra].
Qed.

Lemma combiners_created p :
  accepted p ->
  (In MEAN (metrics p) -> ~ one_point (min_value p) (max_value p)) ->
  (In SUM (metrics p) -> ~ both_zero (min_value p) (max_value p) /\
     ~ both_zero (min_sum_per_partition p) (max_sum_per_partition p) /\
     (min_sum_per_partition p <> None -> max_contributions p = None)) ->
  exists cs, create_combiners p = Ok cs.
Proof.
  intros Ha Hm Hs. assert (Ha' := Ha). destruct Ha' as [r E].
  assert (V : valid r) by (apply valid_iff; exists p; exact E).
  destruct (accepted_facts p Ha) as [O1 [O2 [Ex Hf]]].
  assert (Fields : metrics p = r_metrics r /\ min_value p = fin (r_min_value r) /\ max_value p = fin (r_max_value r) /\
     min_sum_per_partition p = fin (r_min_sum_per_partition r) /\ max_sum_per_partition p = fin (r_max_sum_per_partition r)).
  { unfold post_init in E. cbn zeta in E.
    repeat (apply (proj1 (raise_if_iff _ _ _ _)) in E; let B := fresh "B" in destruct E as [B E]). inversion E. repeat split; reflexivity. }
  destruct Fields as [Fm [Flo [Fhi [Fslo Fshi]]]]. destruct V as [_ V2 V3 V4 V5 _ _ _]. rewrite <- Fm in *.
  assert (Cnt : exists s, sens_count p = Ok s).
  { unfold sens_count. destruct (max_contributions p) as [m|].
    - destruct Hf as [Pm _]. apply injZ_pos in Pm. apply mk_sens_l1l2_ok; [exact Pm|]. apply Qmult_lt_0_compat; exact Pm.
    - destruct Hf as [l0 [linf [-> [-> [P0 Pi]]]]]. cbn [injZ option_map]. apply mk_sens_l0linf_ok; [exact P0 | apply injZ_pos; exact Pi]. }
  assert (Pid : exists s, sens_privacy_id_count p = Ok s).
  { unfold sens_privacy_id_count. destruct (max_contributions p) as [m|].
    - destruct Hf as [Pm _]. apply injZ_pos in Pm. apply mk_sens_l1l2_ok; exact Pm.
    - destruct Hf as [l0 [linf [-> [_ [P0 Pi]]]]]. apply mk_sens_l0linf_ok; [exact P0 | reflexivity]. }
  unfold create_combiners.
  assert (K2 : exists l, append_if (has PRIVACY_ID_COUNT (metrics p))
            (if post_aggregation_thresholding p then new_thresh p else new_pid_count p)
            (append_if (has VECTOR_SUM (metrics p)) (new_vector p)
              (append_if (match percentiles (metrics p) with [] => false | _ => true end)
                      (Ok (CQuantile (percentiles (metrics p)))) (Ok []))) = Ok l).
  { destruct Pid as [s Es]. apply append_if_ok.
    - intros _. unfold new_thresh, new_pid_count. rewrite Es. destruct (post_aggregation_thresholding p); cbn; eauto.
    - apply append_if_ok; [intros _; unfold new_vector; eauto|]. apply append_if_ok; eauto. }
  assert (NotVec : forall m, In m (metrics p) -> m = SUM \/ m = MEAN \/ m = VARIANCE -> ~ In VECTOR_SUM (metrics p)).
  { intros m Hin Hc Hv. destruct (V5 Hv) as [X [Y Z]]. destruct Hc as [->|[->| ->]]; tauto. }
  assert (Val : forall m, In m (metrics p) -> m = MEAN \/ m = VARIANCE ->
      exists a b, min_value p = Some a /\ max_value p = Some b /\ a <= b).
  { intros m Hin Hc. assert (Nv : ~ In VECTOR_SUM (metrics p)) by (apply (NotVec m Hin); tauto).
    destruct (V3 Nv m Hin) as [a [b [Ea [Eb L]]]]; [destruct Hc as [->| ->]; exact I|].
    exists a, b. rewrite Flo, Fhi, Ea, Eb. auto. }
  destruct (has VARIANCE (metrics p)) eqn:Hvar.
  { apply append_if_ok; [|exact K2]. intros _. apply (has_in VARIANCE _ ltac:(np)) in Hvar.
    destruct (Val _ Hvar (or_intror eq_refl)) as [a [b [Ea [Eb _]]]]. unfold new_variance. rewrite Ea, Eb. eauto. }
  destruct (has MEAN (metrics p)) eqn:Hmean.
  { apply append_if_ok; [|exact K2]. intros _. apply (has_in MEAN _ ltac:(np)) in Hmean.
    destruct (Val _ Hmean (or_introl eq_refl)) as [a [b [Ea [Eb L]]]]. unfold new_mean. rewrite Ea, Eb.
    destruct Cnt as [s ->]. cbn [rbind]. assert (Lt : 0 < (b - a) / 2).
    { destruct (Qeq_dec a b) as [Q|Q]; [exfalso; apply (Hm Hmean); exists a, b; auto|].
      unfold Qdiv. change (/ 2) with (1 # 2). lra. }
    assert (Sn : exists s', sens_normalized_sum p = Ok s').
    { unfold sens_normalized_sum. rewrite Ea, Eb. cbn zeta. destruct (max_contributions p) as [m|].
      - destruct Hf as [Pm _]. destruct (Z.eqb_spec m 0); [lia|]. apply injZ_pos in Pm.
        assert (X := Qmult_lt_0_compat _ _ Lt Pm). apply mk_sens_l1l2_ok; [exact X|]. apply Qmult_lt_0_compat; exact X.
      - destruct Hf as [l0 [linf [-> [-> [P0 Pi]]]]]. apply mk_sens_l0linf_ok; [exact P0|].
        apply Qmult_lt_0_compat; [exact Lt | apply injZ_pos; exact Pi]. }
    destruct Sn as [s' ->]. cbn. eauto. }
  apply append_if_ok; [intros _; unfold new_count; destruct Cnt as [s ->]; cbn; eauto|].
  apply append_if_ok; [|exact K2]. intro Hsum. apply (has_in SUM _ ltac:(np)) in Hsum.
  destruct (Hs Hsum) as [N1 [N2 N3]]. assert (Nv : ~ In VECTOR_SUM (metrics p)) by (apply (NotVec SUM Hsum); tauto).
  unfold new_sum, bounds_per_partition_are_set.
  destruct (V4 Nv Hsum) as [[a [b [Ea [Eb L]]]]|[a [b [Ea [Eb L]]]]].
  - rewrite Ea in Flo. rewrite Eb in Fhi. cbn [fin] in Flo, Fhi. rewrite Flo in Ex. cbn [is_some andb] in Ex.
    destruct (min_sum_per_partition p); [discriminate Ex|]. cbn [is_some andb].
    assert (M : 0 < max_abs a b). { apply max_abs_pos. intros [Z1 Z2]. apply N1. exists a, b. auto. }
    assert (Ss : exists s, sens_sum p = Ok s).
    { unfold sens_sum. rewrite Flo, Fhi. destruct (max_contributions p) as [m|].
      - destruct Hf as [Pm _]. destruct (Z.eqb_spec m 0); [lia|]. apply injZ_pos in Pm.
        assert (X := Qmult_lt_0_compat _ _ M Pm). apply mk_sens_l1l2_ok; [exact X|]. apply Qmult_lt_0_compat; exact X.
      - destruct Hf as [l0 [linf [-> [-> [P0 Pi]]]]]. apply mk_sens_l0linf_ok; [exact P0|].
        apply Qmult_lt_0_compat; [exact M | apply injZ_pos; exact Pi]. }
    destruct Ss as [s ->]. cbn [rbind]. rewrite Flo, Fhi. eauto.
  - rewrite Ea in Fslo. rewrite Eb in Fshi. cbn [fin] in Fslo, Fshi. rewrite Fslo in Ex. cbn [is_some] in Ex. rewrite andb_true_r in Ex.
    destruct (min_value p) eqn:Em; [discriminate Ex|].
    assert (M : 0 < max_abs a b). { apply max_abs_pos. intros [Z1 Z2]. apply N2. exists a, b. auto. }
    assert (Mc : max_contributions p = None) by (apply N3; congruence). rewrite Mc in Hf.
    destruct Hf as [l0 [linf [E0 [Ei [P0 Pi]]]]].
    assert (Ss : exists s, sens_sum p = Ok s).
    { unfold sens_sum. rewrite Em, Fslo, Fshi, E0. apply mk_sens_l0linf_ok; assumption. }
    destruct Ss as [s ->]. cbn [rbind]. rewrite Fslo, Fshi. cbn [is_some andb]. eauto.
Qed.
