(** Property C64: the utility analysis predicts what the engine does. *)
From Coq Require Import List ZArith QArith Qround Qreals Reals Bool Permutation Lia Lqa Lra.
From Verif Require Import Base BaseLemmas BackendModel BackendSpec ListLemmas BackendProofs BounderModel BounderSpec BounderProofs
  ParamsModel SensModel CombinerModel CombinerSpec EngineModel EngineSpec EngineProofs EngineProofs2 EngineProofs3
  VectorModel LaplaceSpec SelectModel SelectSpec DistSpec DistProofs HistModel HistProofs4 TuningModel TuningProofs
  AnalysisModel AnalysisSpec AnalysisProofs AnalysisProofs2 CrossModel UtilityModel UtilitySpec UtilityProofs3
  AnalyzeModel AnalyzeSpec AnalyzeProofs AnalyzeProofs2 AnalyzeProofs3 AnalyzeProofs4 AnalyzeProofs5 AnalyzeProofs6 AnalyzeProofs7.
Import ListNotations.
Local Open Scope R_scope.

(** The data that the analysis has for a partition: one element for each of its privacy
    ids, with the number and the sum of the values and the number of partitions among
    which contribution bounding chooses; and one None for each time the partition is
    listed as public.  A partition that is not sampled has no data. *)
Theorem C64_data_of_a_partition :
  forall U P `{EqDec U} `{EqDec P} p hash rate public (rows : list (U * P * value)),
  numeric_rows rows ->
  exists contribs, analysed p hash rate public (Raw rows) = Ok contribs /\
  forall plan, reduce_plan contribs plan ->
  let rows1 := counted p public rows in
  (forall k, In k (map fst plan) <->
     (exists pub, public = Some pub /\ In k pub) \/ (partition_kept hash rate k = true /\ ids_of k rows1 <> [])) /\
  forall k t, In (k, t) plan ->
    empties_number (leaves t) = match public with Some pub => length (filter (eqb k) pub) | None => 0%nat end /\
    exists ids, Permutation ids (if partition_kept hash rate k then ids_of k rows1 else []) /\
      Forall2 (data_spec (perform_cross_partition_contribution_bounding p) rows1 k) ids (given (leaves t)).
Proof.
  intros U P EU EP p hash rate public rows A. destruct (analysed_data p hash rate public rows A) as (contribs & E & _).
  exists contribs. split; [exact E|]. intros plan Pl. exact (plan_data p hash rate public rows contribs plan A E Pl).
Qed.

(** The analysis of a dataset succeeds, and for every sampled partition and every
    configuration the reported numbers are those of the engine run with this
    configuration, when contribution bounding chooses the partitions of each privacy id
    uniformly: the mean of the result without noise is the sum of the true value and
    the expected errors, its variance is the reported one (std_l0_bounding_error
    squared), and a private partition with at most 100 privacy ids is released with the
    reported probability. *)
Theorem C64_analysis_predicts_the_engine :
  forall U P `{EqDec U} `{EqDec P} root std keeps approx public o ps chunks hash rate (rows : list (U * P * value)) contribs plan,
  let p0 := o_params o in
  numeric approx -> config_valid o -> all_params o = Ok ps ->
  Forall2 (fun ub chunk => config_combiners (is_some public) (metrics p0) ub = Ok chunk) ps chunks ->
  Forall (fun ub => length (snd ub) = 1%nat) ps ->
  only [COUNT; SUM; PRIVACY_ID_COUNT] (metrics p0) = true -> max_contributions p0 = None ->
  post_aggregation_thresholding p0 = false -> contribution_bounds_already_enforced p0 = false ->
  numeric_rows rows -> analysed p0 hash rate public (Raw rows) = Ok contribs -> reduce_plan contribs plan ->
  exists pk, analyze root std keeps approx public o plan = Ok pk /\ map fst pk = map fst plan /\
  forall k row, In (k, row) pk -> length row = length ps /\
  forall c ub pm, nth_error ps c = Some ub -> nth_error row c = Some pm -> partition_kept hash rate k = true ->
  let p := with_config p0 ub in
  accepted p -> (exists cs, create_compound_combiner p = Ok cs) ->
  forall D, uniform_sampling p (counted p public rows) D ->
  pm_ids pm = Z.of_nat (length (ids_of k (counted p public rows))) /\
  (forall m, has m (metrics p0) = true -> exists e, In e (pm_errors pm) /\ sm_aggregation e = m) /\
  (forall e, In e (pm_errors pm) -> predictable (metrics p0) public (snd ub) (sm_aggregation e) ->
     exists v, sm_l0_std e = root v /\
       mean D (exact p public rows (sm_aggregation e) k) = Q2R (sm_sum e + sm_min_error e + sm_max_error e + sm_l0_error e) /\
       spread D (exact p public rows (sm_aggregation e) k) = Q2R v) /\
  (public = None -> public_partitions_already_filtered p0 = false -> (pm_ids pm <= 100)%Z ->
   let keep := keeps (1 + c * (1 + length (pm_errors pm)))%nat in
   (forall z, (z <= 0)%Z -> keep z == 0)%Q ->
   forall nz, (forall k i l qs, length (n_quantiles (nz k i) l qs) = length qs) ->
   mixture D (fun sm => aggregate_probability p sm nz (fun z => Q2R (keep z)) [k] (hd false) rows) = Q2R (pm_keep pm)).
Proof.
  intros U P EU EP root std keeps approx public o ps chunks hash rate rows contribs plan p0 Nu Cv Ep F L On Mc Th Eb Nr Ea Pl.
  destruct (all_params_spec _ _ Cv Ep) as (Lp & L1 & Lb).
  destruct (plan_data p0 hash rate public rows contribs plan Nr Ea Pl) as [Keys Data].
  assert (Kk : exists k, Forall (fun ub => k = n_errors (metrics p0) (snd ub)) ps).
  { destruct ps as [|ub ps]; [cbn in Lp; lia|]. exists (n_errors (metrics p0) (snd ub)).
    apply Forall_forall. intros x Ix. unfold n_errors. rewrite (Lb ub x (or_introl eq_refl) Ix). reflexivity. }
  destruct Kk as [nk Kk].
  destruct (metrics_of_lemma root std keeps approx (is_some public) o ps chunks plan nk Nu Ep (eq_sym Lp) ltac:(lia) F) as (pk & E & G); auto.
  { eapply Forall_impl; [|exact L]. intros ub Hu. cbn beta in Hu. destruct (snd ub); [discriminate | congruence]. }
  { intros [k t] I. apply (shapes_ok (is_some public) ps chunks (metrics p0)); auto; cbn [snd].
    - intros Hp. destruct public; [discriminate|]. destruct (Data k t I) as (En & ids & Pi & Fd). cbn [times_public] in En.
      destruct (proj1 (Keys k) (in_map fst _ _ I)) as [(pub & X & _)|[Kk' Ni]]; [discriminate|]. rewrite Kk' in Pi.
      intro Z. rewrite Z in Fd. inversion Fd; subst. apply Permutation_nil in Pi. exact (Ni Pi).
    - intros d Id. destruct (Data k t I) as (_ & ids & _ & Fd). destruct (Forall2_In_r _ _ _ _ Fd Id) as (u & _ & _ & (q & Eq & _) & _).
      unfold value_of. rewrite Eq. discriminate. }
  exists pk. split; [exact E|]. split.
  { clear -G. induction G as [|kt kv plan pk (X & _) G IH]; [reflexivity|]. cbn [map]. rewrite X, IH. reflexivity. }
  intros k row I. destruct (Forall2_In_r _ _ _ _ G I) as ([k' t] & It & Ek & _ & Fr). cbn [fst snd] in Ek, Fr. subst k'.
  split; [apply Forall2_len in Fr; rewrite combine_length, seq_length in Fr; lia|].
  intros c ub pm Ec Epm Kp p Ha Hcs D Un.
  assert (Nth : nth_error (combine (seq 0 (length ps)) ps) c = Some (c, ub)).
  { clear -Ec. assert (X : forall s, nth_error (combine (seq s (length ps)) ps) c = Some ((s + c)%nat, ub)).
    { revert c Ec. induction ps as [|x ps IH]; intros [|c] Ec s; try discriminate.
      - cbn in *. rewrite Nat.add_0_r. congruence.
      - cbn [length seq combine nth_error] in *. rewrite (IH c Ec). rewrite Nat.add_succ_r. reflexivity. }
    apply X. }
  destruct (UtilityProofs3.Forall2_nth _ _ _ Fr _ _ Nth) as (pm' & Epm' & Sp). assert (pm' = pm) by congruence. subst pm'. cbn [fst snd] in Sp.
  destruct (Data k t It) as (_ & ids & Pi & Fd). rewrite Kp in Pi.
  assert (N0 : u_l0 (fst ub) <> None).
  { assert (Fa := accepted_facts p Ha). destruct Fa as (_ & _ & _ & Fa). change (max_contributions p) with (max_contributions p0) in Fa. rewrite Mc in Fa.
    destruct Fa as (l0 & linf & X0 & _). change (max_partitions_contributed p) with (u_l0 (fst ub)) in X0. congruence. }
  assert (Lu : length (snd ub) = 1%nat) by (rewrite Forall_forall in L; apply L; eapply nth_error_In; exact Ec).
  split.
  - destruct Sp as (Sids & _). rewrite Sids. f_equal. rewrite <- (Forall2_len _ _ _ Fd). apply Permutation_length. exact Pi.
  - exact (partition_predicted root std keeps approx public p0 c ub rows k (given (leaves t)) ids pm D On Lu Th Eb Sp Pi Fd Ha Hcs N0 Un).
Qed.

(** Uniform choices exist for every dataset. *)
Theorem C64_uniform_sampling_exists :
  forall U P V `{EqDec U} `{EqDec P} p (rows : list (U * P * V)) l0 linf,
  max_contributions p = None -> max_partitions_contributed p = Some l0 -> max_contributions_per_partition p = Some linf ->
  (0 <= l0)%Z -> (0 <= linf)%Z -> exists D, uniform_sampling p rows D.
Proof.
  intros U P V EU EP p rows l0 linf Mc E0 El H0 Hl. exists (uniform_sampler (Z.to_nat l0) (Z.to_nat linf) rows).
  apply sampler_is_uniform; [exact Mc | |]; rewrite Z2Nat.id by assumption; assumption.
Qed.

(** Pre-aggregated data gives the same analysis as the raw data, when nothing was left to
    drop after pre-aggregation and partitions are chosen. *)
Theorem C64_preaggregated_data :
  forall U P `{EqDec U} `{EqDec P} p hash rate hash' rate' public (rows : list (U * P * value)) pre,
  preaggregation hash rate rows = Ok pre -> perform_cross_partition_contribution_bounding p = true ->
  (forall r pub, In r rows -> public = Some pub -> In (snd (fst r)) pub) ->
  analysed p hash' rate' public (PreAggregated (U := U) pre) = analysed p hash rate public (Raw rows).
Proof.
  intros U P EU EP p hash rate hash' rate' public rows pre E Cr A. unfold analysed. rewrite Cr.
  assert (Ed : drop_non_public p public rows = rows).
  { rewrite counted_drop. unfold counted. destruct public as [pub|]; [|reflexivity]. destruct (public_partitions_already_filtered p); [reflexivity|].
    apply filter_all. intros r I. apply mem_true_iff. apply (A r pub I eq_refl). }
  rewrite Ed. unfold preaggregation in E. destruct (l0linf_bounded (partition_kept hash rate) rows) as [col|] eqn:El; [|discriminate].
  cbn [rmap] in *. assert (Ep : pre = map (fun e => (snd (fst e), snd e)) col) by congruence. subst pre. clear E.
  f_equal. 
  assert (Ex : map (fun r : unit * P * AnalysisModel.pre => (snd (fst r), snd r))
       (drop_non_public p public (extract_pre (map (fun e : U * P * AnalysisModel.pre => (snd (fst e), snd e)) col))) =
     map (fun e => (snd (fst e), snd e)) col).
  { rewrite counted_drop_any. unfold extract_pre, counted. destruct public as [pub|].
    - destruct (public_partitions_already_filtered p).
      + rewrite !map_map. reflexivity.
      + rewrite filter_all; [rewrite !map_map; reflexivity|]. intros r I. apply mem_true_iff.
        apply in_map_iff in I. destruct I as (kd & <- & I). apply in_map_iff in I. destruct I as (e & <- & I). cbn [fst snd].
        destruct (bounded_keys _ _ _ El e I) as (r & Ir & Er). rewrite <- Er. apply (A r pub Ir eq_refl).
    - rewrite !map_map. reflexivity. }
  rewrite Ex. reflexivity.
Qed.

(** *** Sampling of partitions *)

Lemma py_round_mono a b : (a <= b)%Q -> (py_round a <= py_round b)%Z.
Proof.
  intro L. unfold py_round. set (fa := Qfloor (a + (1 # 2))). set (fb := Qfloor (b + (1 # 2))).
  assert (M : (fa <= fb)%Z) by (apply Qfloor_resp_le; Lqa.lra).
  destruct (Qeq_bool (inject_Z fb) (b + (1 # 2)) && Z.odd fb) eqn:Eb.
  - destruct (Qeq_bool (inject_Z fa) (a + (1 # 2)) && Z.odd fa) eqn:Ea; [lia|].
    apply andb_true_iff in Eb. destruct Eb as [Eb Ob]. apply Qeq_bool_eq in Eb.
    assert (fa <> fb); [|lia]. intro X. rewrite <- X in Eb, Ob. rewrite Ob, andb_true_r in Ea.
    assert (A := Qfloor_le (a + (1 # 2))). fold fa in A.
    assert (Y : (inject_Z fa == a + (1 # 2))%Q) by Lqa.lra. apply Qeq_bool_iff in Y. congruence.
  - destruct (Qeq_bool (inject_Z fa) (a + (1 # 2)) && Z.odd fa); lia.
Qed.

(** A partition is kept exactly when its 64-bit hash is below a bound, which is
    2^64 * rate up to 1/2; all partitions are kept with rate 1 and none with rate 0; a
    partition that is kept with a rate is kept with all larger rates. *)
Theorem C64_sampler_keeps_the_share : forall P (hash : P -> Z) rate,
  (0 <= rate)%Q -> (forall k, 0 <= hash k < 2 ^ 64)%Z ->
  (rate < 1 -> exists b, (0 <= b <= 2 ^ 64)%Z /\ inject_Z b <= (2 ^ 64) * rate + (1 # 2) /\ (2 ^ 64) * rate - (1 # 2) <= inject_Z b /\
     forall k, partition_kept hash rate k = true <-> (hash k < b)%Z)%Q /\
  (1 <= rate -> forall k, partition_kept hash rate k = true)%Q /\
  (rate == 0 -> forall k, partition_kept hash rate k = false)%Q /\
  (forall rate' k, (rate <= rate')%Q -> partition_kept hash rate k = true -> partition_kept hash rate' k = true).
Proof.
  intros P hash rate R0 Hh.
  assert (Bd : forall r, (inject_Z (sample_bound r) <= (2 ^ 64) * r + (1 # 2) /\ (2 ^ 64) * r - (1 # 2) <= inject_Z (sample_bound r))%Q).
  { intro r. unfold sample_bound. destruct (py_round_bounds (inject_Z (2 ^ 64) * r)) as [A B]. change (inject_Z (2 ^ 64)) with (2 ^ 64)%Q in *.
    split; Lqa.lra. }
  split; [|split; [|split]].
  - intros R1. exists (sample_bound rate). destruct (Bd rate) as [B1 B2].
    assert (N : (2 ^ 64 == 18446744073709551616)%Q) by reflexivity.
    split; [|split; [exact B1|split; [exact B2|]]].
    + split.
      * assert (X : (- (1) < inject_Z (sample_bound rate))%Q) by (rewrite N in B2; Lqa.lra). change (- (1))%Q with (inject_Z (-1)) in X. rewrite <- Zlt_Qlt in X. lia.
      * assert (X : (inject_Z (sample_bound rate) < inject_Z (2 ^ 64 + 1))%Q).
        { rewrite inject_Z_plus. change (inject_Z (2 ^ 64)) with (2 ^ 64)%Q. change (inject_Z 1) with 1%Q. rewrite N in *. Lqa.lra. }
        rewrite <- Zlt_Qlt in X. lia.
    + intro k. unfold partition_kept, sampler_keep. destruct (Qle_bool 1 rate) eqn:E; [apply Qle_bool_iff in E; Lqa.lra|]. apply Z.ltb_lt.
  - intros R1 k. unfold partition_kept. apply Qle_bool_iff in R1. rewrite R1. reflexivity.
  - intros Rz k. unfold partition_kept, sampler_keep. destruct (Qle_bool 1 rate) eqn:E; [apply Qle_bool_iff in E; Lqa.lra|]. apply Z.ltb_ge.
    destruct (Bd rate) as [B1 _]. specialize (Hh k). assert (N : (2 ^ 64 == 18446744073709551616)%Q) by reflexivity. rewrite N in B1.
    assert (X : (inject_Z (sample_bound rate) < inject_Z 1)%Q) by (change (inject_Z 1) with 1%Q; Lqa.lra). rewrite <- Zlt_Qlt in X. lia.
  - intros rate' k Le. unfold partition_kept. destruct (Qle_bool 1 rate) eqn:E1, (Qle_bool 1 rate') eqn:E2; auto.
    + apply Qle_bool_iff in E1. intros _. assert (X : (1 <= rate')%Q) by Lqa.lra. apply Qle_bool_iff in X. congruence.
    + unfold sampler_keep. rewrite !Z.ltb_lt. intro L. assert (sample_bound rate <= sample_bound rate')%Z; [|lia].
      unfold sample_bound. apply py_round_mono. change (inject_Z (2 ^ 64)) with (2 ^ 64)%Q.
      assert (N : (2 ^ 64 == 18446744073709551616)%Q) by reflexivity. rewrite N. Lqa.lra.
Qed.

(** *** Where the analysis does not predict the engine *)

Definition small_params (ms : list metric) (lo hi : Q) (filtered : bool) : params :=
  Params ms LaplaceNoise (Some 1%Z) (Some 1%Z) None 1 None None (Some lo) (Some hi) false None None None false filtered
         ParamsModel.TruncatedGeometric None false true.
(** The parameters are accepted by AggregateParams. *)
Definition small_raw (ms : list metric) (lo hi : Q) (f : bool) : raw_params :=
  RawParams ms LaplaceNoise (Some (PInt 1)) (Some (PInt 1)) None 1 None None (Some (Fin lo)) (Some (Fin hi)) false None None None
    false f ParamsModel.TruncatedGeometric None false true.
Definition small_options (p : params) : options := Options 1 (1 # 10) p None.

(** The analysis of [d] with the parameters [p] gives the metrics [pm] for partition [k]. *)
Definition analysis_result (p : params) (keep : Z -> Q) (public : option (list Z)) (hash : Z -> Z) (rate : Q) (d : dataset Z Z) (k : Z)
    (pm : partition_metrics) : Prop :=
  exists contribs plan pk, analysed p hash rate public d = Ok contribs /\ reduce_plan contribs plan /\
    analyze (fun q => q) (fun _ => 1%Q) (fun _ => keep) (fun _ => (0%Z, [1%Q])) public (small_options p) plan = Ok pk /\ In (k, [pm]) pk.
Definition reported (p : params) (public : option (list Z)) (hash : Z -> Z) (rate : Q) (d : dataset Z Z) (k : Z) (m : metric) (x : Q) : Prop :=
  exists pm e, analysis_result p (fun _ => 1%Q) public hash rate d k pm /\ In e (pm_errors pm) /\ sm_aggregation e = m /\
    (sm_sum e + sm_min_error e + sm_max_error e + sm_l0_error e == x)%Q.
(** Every run of the engine without noise has the value [x]. *)
Definition always_exact (p : params) (public : option (list Z)) (rows : list (Z * Z * value)) (m : metric) (k : Z) (x : Q) : Prop :=
  forall sm, valid_sampling p sm -> exact p public rows m k sm = Q2R x.

Ltac run_analysis contribs plan :=
  exists contribs, plan; eexists; split; [vm_compute; reflexivity|]; split;
  [split; [repeat (constructor; [cbn; intuition discriminate|]); constructor
          | split; [intro; cbn; tauto
                   | let k := fresh in let t := fresh in let I := fresh in
                     intros k t I; cbn in I; repeat (destruct I as [I|I]; [inversion I; subst; vm_compute; auto|]); destruct I]]
  | split; [vm_compute; reflexivity|]].

(** Sampled analysis with public partitions: a public partition that is not in the sample
    is analysed as if it was empty. *)
Theorem C64_sampled_public_partitions_refuted : exists p hash rate rows, accepted p /\
  (0 < rate < 1)%Q /\ reported p (Some [7; 8]%Z) hash rate (Raw rows) 7 COUNT 0 /\ always_exact p (Some [7; 8]%Z) rows COUNT 7 1.
Proof.
  exists (small_params [COUNT] 0 5 false), (fun k => if (k =? 7)%Z then 2 ^ 63 else 0)%Z, (1 # 4), [(1, 7, Num 1); (2, 8, Num 1)]%Z.
  split; [exists (small_raw [COUNT] 0 5 false); reflexivity|]. split; [split; reflexivity|]. split.
  - do 2 eexists. split.
    + run_analysis [(8, Some (1, Scalar 1, 1)); (7, None); (8, None)]%Z [(7, Leaf None); (8, Node (Leaf (Some (1, Scalar 1, 1))) (Leaf None))]%Z. left. reflexivity.
    + split; [left; reflexivity | split; reflexivity].
  - intros sm _. unfold exact.
    match goal with |- match ?a with _ => _ end = _ => let v := eval vm_compute in a in change a with v end. cbn. reflexivity.
Qed.

(** SUM together with COUNT: COUNT makes the engine sample the rows of a privacy id in a
    partition, the analysis sums up all of them. *)
Theorem C64_sum_with_count_refuted : exists p rows, accepted p /\
  (forall hash, reported p None hash 1 (Raw rows) 7 SUM 8) /\
  forall sm, valid_sampling p sm -> exact p None rows SUM 7%Z sm = 3 \/ exact p None rows SUM 7%Z sm = 5.
Proof.
  exists (small_params [SUM; COUNT] 0 10 false), [(1, 7, Num 3); (1, 7, Num 5)]%Z.
  split; [exists (small_raw [SUM; COUNT] 0 10 false); reflexivity|]. split.
  - intro hash. do 2 eexists. split.
    + run_analysis [(7, Some (2, Scalar (3 + (5 + 0)), 1))]%Z [(7, Leaf (Some (2, Scalar (3 + (5 + 0)), 1)))]%Z. left. reflexivity.
    + split; [left; reflexivity | split; reflexivity].
  - intros sm Hv.
    assert (Ha : accepted (small_params [SUM; COUNT] 0 10 false)) by (exists (small_raw [SUM; COUNT] 0 10 false); reflexivity).
    rewrite (exact_sum (small_params [SUM; COUNT] 0 10 false) None [(1, 7, Num 3); (1, 7, Num 5)]%Z SUM 7%Z sm
      (engine_combiners [SUM; COUNT] 0 10) 0 10 Ha); auto; try reflexivity.
    destruct Hv as [_ Hv]. specialize (Hv 1%Z eq_refl (1, 7)%Z 2%nat ltac:(cbn; lia)).
    assert (D : ch_pid_pk sm (1, 7)%Z 2%nat = [0%nat] \/ ch_pid_pk sm (1, 7)%Z 2%nat = [1%nat]).
    { destruct Hv as (_ & Hl & Hf). destruct (ch_pid_pk sm (1, 7)%Z 2%nat) as [|i [|j l]]; try discriminate.
      inversion Hf; subst. destruct i as [|[|i]]; [left; reflexivity | right; reflexivity | lia]. }
    unfold kept_values, choose. destruct D as [D|D].
    + left. cbn. rewrite D.
      match goal with |- Q2R ?q = _ => replace (Q2R q) with (Q2R 3) by (apply Qeq_eqR; vm_compute; reflexivity) end. unfold Q2R. cbn. field.
    + right. cbn. rewrite D.
      match goal with |- Q2R ?q = _ => replace (Q2R q) with (Q2R 5) by (apply Qeq_eqR; vm_compute; reflexivity) end. unfold Q2R. cbn. field.
Qed.

Ltac run_engine :=
  intros sm _; unfold exact;
  match goal with |- match ?a with _ => _ end = _ => let v := eval vm_compute in a in change a with v end; cbn;
  apply Qeq_eqR; vm_compute; reflexivity.

(** SUM with a positive lower bound: the engine clips the sum of an empty public
    partition, the analysis takes it as 0. *)
Theorem C64_empty_public_sum_refuted : exists p, accepted p /\
  (forall hash, reported p (Some [7; 8]%Z) hash 1 (Raw [(1, 8, Num 3)]%Z) 7 SUM 0) /\ always_exact p (Some [7; 8]%Z) [(1, 8, Num 3)]%Z SUM 7 2.
Proof.
  exists (small_params [SUM] 2 5 false). split; [exists (small_raw [SUM] 2 5 false); reflexivity|]. split.
  - intro hash. do 2 eexists. split.
    + run_analysis [(8, Some (1, Scalar 3, 1)); (7, None); (8, None)]%Z [(7, Leaf None); (8, Node (Leaf (Some (1, Scalar 3, 1))) (Leaf None))]%Z. left. reflexivity.
    + split; [left; reflexivity | split; reflexivity].
  - run_engine.
Qed.

(** Data that was pre-aggregated before the public partitions were known: the partitions
    that are not public still count in the number of partitions of a privacy id. *)
Theorem C64_preaggregated_public_refuted : exists p rows pre, accepted p /\
  (forall hash, preaggregation hash 1 rows = Ok pre) /\
  (forall hash, reported p (Some [7]%Z) hash 1 (PreAggregated pre) 7 COUNT (1 # 2)) /\
  (forall hash, reported p (Some [7]%Z) hash 1 (Raw rows) 7 COUNT 1) /\ always_exact p (Some [7]%Z) rows COUNT 7 1.
Proof.
  exists (small_params [COUNT] 0 5 false), [(1, 7, Num 1); (1, 8, Num 1)]%Z, [(7, (1, Scalar 1, 2)); (8, (1, Scalar 1, 2))]%Z.
  split; [exists (small_raw [COUNT] 0 5 false); reflexivity|]. split; [intro; vm_compute; reflexivity|]. split; [|split].
  - intro hash. do 2 eexists. split.
    + run_analysis [(7, Some (1, Scalar 1, 2)); (7, None)]%Z [(7, Node (Leaf (Some (1, Scalar 1, 2))) (Leaf None))]%Z. left. reflexivity.
    + split; [left; reflexivity | split; reflexivity].
  - intro hash. do 2 eexists. split.
    + run_analysis [(7, Some (1, Scalar 1, 1)); (7, None)]%Z [(7, Node (Leaf (Some (1, Scalar 1, 1))) (Leaf None))]%Z. left. reflexivity.
    + split; [left; reflexivity | split; reflexivity].
  - run_engine.
Qed.

(** public_partitions_already_filtered without public partitions: the engine does not
    select partitions and releases all of them, the analysis reports the probability
    with which the partition selection would have kept them. *)
Theorem C64_already_filtered_refuted : exists p rows keep, accepted p /\
  (forall hash, exists pm, analysis_result p keep None hash 1 (Raw rows) 7 pm /\ (pm_keep pm == 1 # 10)%Q) /\
  forall sm nz, valid_sampling p sm -> exists out, aggregate p sm (fun _ _ => false) nz None rows = Ok out /\ In 7%Z (map fst out).
Proof.
  exists (small_params [COUNT] 0 5 true), [(1, 7, Num 1)]%Z, (fun n => if (n <=? 0)%Z then 0 else 1 # 10)%Q.
  split; [exists (small_raw [COUNT] 0 5 true); reflexivity|]. split.
  - intro hash. eexists. split.
    + run_analysis [(7, Some (1, Scalar 1, 1))]%Z [(7, Leaf (Some (1, Scalar 1, 1)))]%Z. left. reflexivity.
    + vm_compute. reflexivity.
  - intros sm nz _. eexists. split; [vm_compute; reflexivity|]. left. reflexivity.
Qed.

(** *** The hypotheses are met *)
Definition demo_raw (l0 : Z) : raw_params :=
  RawParams [COUNT; PRIVACY_ID_COUNT] LaplaceNoise (Some (PInt l0)) (Some (PInt 2)) None 1 None None (Some (Fin 0)) (Some (Fin 5)) false None None None
    false false ParamsModel.TruncatedGeometric None false true.
Definition demo_analysis_options : options :=
  Options 1 (1 # 10)
    (Params [COUNT; PRIVACY_ID_COUNT] LaplaceNoise (Some 1%Z) (Some 2%Z) None 1 None None (Some 0%Q) (Some 5%Q) false None None None false false
       ParamsModel.TruncatedGeometric None false true)
    (Some (MConfig (Config (Some [1; 2]%Z) None None None) None None, 2%nat)).
Definition demo_rows : list (Z * Z * value) :=
  [(1, 7, Num 1); (1, 7, Num 2); (1, 7, Num 1); (1, 8, Num 4); (2, 7, Num 1); (3, 7, Num 2); (3, 8, Num 2); (3, 9, Num 1)]%Z.
Definition demo_keep (n : Z) : Q := if (n <=? 0)%Z then 0%Q else if (n <=? 2)%Z then (1 # 4)%Q else 1%Q.
Definition demo_contribs : list (Z * option pre) :=
  match analysed (o_params demo_analysis_options) (fun _ => 0%Z) 1 None (Raw demo_rows) with Ok c => c | Err _ => [] end.
Definition demo_plan : list (Z * tree (option pre)) :=
  [(7, Node (Leaf (Some (3, Scalar 4, 2))) (Node (Leaf (Some (1, Scalar 1, 1))) (Leaf (Some (1, Scalar 2, 3)))));
   (8, Node (Leaf (Some (1, Scalar 2, 3))) (Leaf (Some (1, Scalar 4, 2)))); (9, Leaf (Some (1, Scalar 1, 3)))]%Z.
Example C64_hypotheses_met : exists ps chunks,
  let o := demo_analysis_options in
  config_valid o /\ all_params o = Ok ps /\
  Forall2 (fun ub chunk => config_combiners false (metrics (o_params o)) ub = Ok chunk) ps chunks /\
  Forall (fun ub => length (snd ub) = 1%nat) ps /\ only [COUNT; SUM; PRIVACY_ID_COUNT] (metrics (o_params o)) = true /\
  numeric_rows demo_rows /\ analysed (o_params o) (fun _ => 0%Z) 1 None (Raw demo_rows) = Ok demo_contribs /\
  reduce_plan demo_contribs demo_plan /\
  Forall (fun ub => accepted (with_config (o_params o) ub) /\ (exists cs, create_compound_combiner (with_config (o_params o) ub) = Ok cs) /\
     exists D, uniform_sampling (with_config (o_params o) ub) (counted (with_config (o_params o) ub) None demo_rows) D) ps /\
  (forall ub e, In ub ps -> predictable (metrics (o_params o)) (@None (list Z)) (snd ub) (sm_aggregation e) \/ sm_aggregation e = SUM) /\
  rmap (map (fun kv => (fst kv, map (fun pm => (Qred (pm_keep pm), map (fun e => (sm_aggregation e, Qred (sm_sum e), Qred (sm_max_error e), Qred (sm_l0_error e))) (pm_errors pm))) (snd kv))))
    (analyze (fun q => q) (fun _ => 1%Q) (fun _ => demo_keep) (fun _ => (0%Z, [1%Q])) None o demo_plan) =
  Ok [(7%Z, [(3 # 8, [(COUNT, 5, -1, -5 # 3); (PRIVACY_ID_COUNT, 3, 0, -7 # 6)]); (3 # 4, [(COUNT, 5, -1, -1 # 3); (PRIVACY_ID_COUNT, 3, 0, -1 # 3)])]);
      (8%Z, [(1 # 6, [(COUNT, 2, 0, -7 # 6); (PRIVACY_ID_COUNT, 2, 0, -7 # 6)]); (1 # 4, [(COUNT, 2, 0, -1 # 3); (PRIVACY_ID_COUNT, 2, 0, -1 # 3)])]);
      (9%Z, [(1 # 12, [(COUNT, 1, 0, -2 # 3); (PRIVACY_ID_COUNT, 1, 0, -2 # 3)]); (1 # 6, [(COUNT, 1, 0, -1 # 3); (PRIVACY_ID_COUNT, 1, 0, -1 # 3)])])]%Q.
Proof.
  do 2 eexists. split; [reflexivity|]. split; [reflexivity|]. split; [repeat (constructor; [reflexivity|]); constructor|].
  split; [repeat constructor|]. split; [reflexivity|].
  split; [intros r I; cbn in I; repeat (destruct I as [<-|I]; [eexists; reflexivity|]); destruct I|].
  split; [reflexivity|]. split; [|split; [|split]].
  - split; [repeat (constructor; [cbn; intuition discriminate|]); constructor|]. split; [intro; cbn; tauto|].
    intros k t I. cbn in I. repeat (destruct I as [I|I]; [inversion I; subst; vm_compute; repeat constructor|]); destruct I.
  - constructor; [|constructor; [|constructor]].
    + split; [exists (demo_raw 1); reflexivity|]. split; [eexists; reflexivity|].
      eapply C64_uniform_sampling_exists; try reflexivity; discriminate.
    + split; [exists (demo_raw 2); reflexivity|]. split; [eexists; reflexivity|].
      eapply C64_uniform_sampling_exists; try reflexivity; discriminate.
  - intros ub e _. destruct (sm_aggregation e); auto; left; intro; discriminate.
  - vm_compute. reflexivity.
Qed.

Print Assumptions C64_data_of_a_partition.
Print Assumptions C64_analysis_predicts_the_engine.
Print Assumptions C64_uniform_sampling_exists.
Print Assumptions C64_preaggregated_data.
Print Assumptions C64_sampler_keeps_the_share.
Print Assumptions C64_sampled_public_partitions_refuted.
Print Assumptions C64_sum_with_count_refuted.
Print Assumptions C64_empty_public_sum_refuted.
Print Assumptions C64_preaggregated_public_refuted.
Print Assumptions C64_already_filtered_refuted.
