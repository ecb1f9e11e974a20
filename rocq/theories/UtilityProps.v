(** C57: the utility analysis reports on every configuration.

    [data]: partitions with the merge tree of their rows; [plan]: the reduction per
    (configuration, bucket); [grouper]: group_by_key.  All three are chosen by the runner.
    [root], [std], [keeps], [approx]: square root, standard deviations of the noise,
    probability_of_keep of the selection strategies, normal approximation. *)
From Coq Require Import List ZArith QArith Bool Lia Permutation Sorted.
From Verif Require Import Base BaseLemmas ListLemmas BudgetModel BudgetSpec BudgetProps ParamsModel BackendModel BackendSpec BackendProofs
  BounderModel AnalysisModel AnalysisSpec AnalysisProofs CrossModel TuningModel HistModel SummaryProps
  UtilityModel UtilitySpec UtilityProofs UtilityProofs2 UtilityProofs3.
Import ListNotations.
Local Open Scope Z_scope.

(** *** Buckets *)

(** The bucket of a partition contains it, and two partitions are in the same bucket
    exactly if the one is in the range of the other's bucket. *)
Theorem C57_buckets : forall n m, 0 <= n -> 0 <= m ->
  in_range (lower_bound n) (upper_bound (lower_bound n)) n = true /\
  (in_range (lower_bound m) (upper_bound (lower_bound m)) n = true <-> lower_bound n = lower_bound m) /\
  (lower_bound n < lower_bound m -> 0 < upper_bound (lower_bound n) <= lower_bound m).
Proof.
  intros n m Hn Hm. rewrite !bucket_iff by assumption. rewrite Z.eqb_refl, Z.eqb_eq.
  split; [reflexivity|]. split; [reflexivity|]. apply bucket_disjoint; assumption.
Qed.
(** The bounds are 0, 1 and 1, 2 and 5 times the powers of ten. *)
Theorem C57_bucket_ends : forall n, 0 <= n -> n < 5 * 10 ^ 12 ->
  exists i, 1 <= i <= 12 /\
    (upper_bound n = 1 /\ lower_bound n = 0 \/ upper_bound n = 10 /\ lower_bound n = 1 \/
     (lower_bound n, upper_bound n) = (10 ^ i, 2 * 10 ^ i) \/
     (lower_bound n, upper_bound n) = (2 * 10 ^ i, 5 * 10 ^ i) \/
     (lower_bound n, upper_bound n) = (5 * 10 ^ i, 10 ^ (i + 1))).
Proof.
  intros n H H2. destruct (lower_pos n H) as (i & I1 & I2 & I3 & I4).
  assert (U : upper_bound n = match nth_error bucket_bounds (S i) with Some b => b | None => -1 end).
  { unfold upper_bound. destruct (Z.ltb_spec n 0); [lia|]. rewrite I2. reflexivity. }
  assert (L : (i < 38)%nat).
  { assert (X : nth_error bucket_bounds i <> None) by congruence. apply nth_error_Some in X. exact X. }
  assert (L2 : i <> 37%nat).
  { intro Z37. rewrite Z37 in I3. cbn in I3. inversion I3 as [E]. rewrite <- E in I4. lia. }
  rewrite U. clear U I1 I2 I4 H H2.
  exists (Z.of_nat ((i - 2) / 3 + 1)).
  assert (HI : In i (seq 0 37)) by (apply in_seq; lia). clear L L2. cbn [seq] in HI.
  repeat (destruct HI as [<-|HI]; [cbn in I3; inversion I3 as [E]; rewrite <- ?E; split; [vm_compute; split; discriminate|];
    first [left; split; reflexivity | right; left; split; reflexivity | right; right; left; reflexivity
          | right; right; right; left; reflexivity | right; right; right; right; reflexivity]|]).
  destruct HI.
Qed.

(** *** Packing *)

(** The flat list of metrics of a partition is cut at the right places. *)
Theorem C57_metrics_packed : forall public k n ids count chunks,
  (1 <= n)%nat -> length chunks = n -> Forall (chunk_ok public k) chunks ->
  exists pms, pack n (URaw ids count :: concat chunks) = Ok pms /\ length pms = n /\
    forall c chunk, nth_error chunks c = Some chunk -> exists pm, nth_error pms c = Some pm /\
      pm_ids pm = ids /\ pm_count pm = count /\ length (pm_errors pm) = k /\
      if public then chunk = map USum (pm_errors pm) /\ pm_keep pm = 1%Q
      else chunk = UKeep (pm_keep pm) :: map USum (pm_errors pm).
Proof.
  intros public k n ids count chunks Hn L F. eexists. split; [apply (pack_row public k); assumption|].
  split; [rewrite map_length; exact L|]. intros c chunk Hc. exists (chunk_metrics ids count chunk).
  split; [rewrite nth_error_map, Hc; reflexivity|]. cbn [chunk_metrics pm_ids pm_count pm_errors pm_keep].
  split; [reflexivity|]. split; [reflexivity|]. rewrite Forall_forall in F. destruct (F chunk (nth_error_In _ _ Hc)) as (es & Le & C).
  destruct public.
  - subst chunk. rewrite errors_of_USum, keep_USum. auto.
  - destruct C as [p ->]. change (errors_of (UKeep p :: map USum es)) with (errors_of (map USum es)). rewrite errors_of_USum. auto.
Qed.

(** *** The configurations *)

(** A configuration that passed the checks, without empty attributes, defines parameters
    for every index below its size: its own values where given, the defaults elsewhere. *)
Theorem C57_configuration_parameters : forall p c n i,
  mconfig_size c = Ok n -> given_nonempty c -> (i < n)%nat ->
  exists u b, params_at p c i = Ok (u, b) /\
    chosen (c_l0 (mc_bounds c)) (max_partitions_contributed p) Some i (u_l0 u) /\
    chosen (c_linf (mc_bounds c)) (max_contributions_per_partition p) Some i (u_linf u) /\
    chosen (mc_noise c) (noise_kind p) (fun x => x) i (u_noise u) /\
    chosen (mc_strategy c) (partition_selection_strategy p) (fun x => x) i (u_strategy u) /\
    bounds_chosen p (mc_bounds c) i b.
Proof.
  intros p c n i V (G1 & G2 & G3 & G4 & G5) Hi. destruct (mconfig_size_spec _ _ V) as (S & _ & C).
  assert (O : forall (A B : Type) (attr : option (list A)) (d : B) inj, attr <> Some [] -> incl (olen (@length A) attr) (mconfig_sizes c) ->
            exists v, override d inj attr i = Ok v /\ chosen attr d inj i v).
  { intros A B attr d inj N I. destruct attr as [[|x l]|]; [congruence| |exists d; split; reflexivity].
    assert (L : length (x :: l) = n) by (apply S, I; left; reflexivity).
    unfold override, chosen. destruct (nth_error (x :: l) i) as [a|] eqn:E; [|apply nth_error_None in E; lia].
    exists (inj a). split; [reflexivity|]. exists a. auto. }
  assert (B : exists b, sum_bounds_at p (mc_bounds c) i = Ok b /\ bounds_chosen p (mc_bounds c) i b).
  { unfold sum_bounds_at, bounds_chosen, columns_ok in *.
    assert (Smin : forall s, c_min_sum (mc_bounds c) = Some s -> sums_len s <> 0%nat -> sums_len s = n).
    { intros s E N. apply S. unfold mconfig_sizes, config_sizes. rewrite !in_app_iff. left. right. right. left. rewrite E. cbn.
      apply Nat.eqb_neq in N. rewrite N. left. reflexivity. }
    assert (Smax : forall s, c_max_sum (mc_bounds c) = Some s -> sums_len s <> 0%nat -> sums_len s = n).
    { intros s E N. apply S. unfold mconfig_sizes, config_sizes. rewrite !in_app_iff. left. right. right. right. rewrite E. cbn.
      apply Nat.eqb_neq in N. rewrite N. left. reflexivity. }
    destruct (c_min_sum (mc_bounds c)) as [[a|a]|], (c_max_sum (mc_bounds c)) as [[b|b]|]; try contradiction.
    - destruct G5 as [Na Nb]. assert (La := Smin _ eq_refl). assert (Lb := Smax _ eq_refl). cbn [sums_len] in *.
      destruct a as [|a0 a]; [congruence|]. destruct b as [|b0 b]; [congruence|]. specialize (La ltac:(discriminate)). specialize (Lb ltac:(discriminate)).
      destruct (nth_error (a0 :: a) i) as [lo|] eqn:E1; [|apply nth_error_None in E1; lia].
      destruct (nth_error (b0 :: b) i) as [hi|] eqn:E2; [|apply nth_error_None in E2; lia].
      eexists. split; [reflexivity|]. exists lo, hi. auto.
    - destruct G5 as [Na Nb]. assert (La := Smin _ eq_refl). assert (Lb := Smax _ eq_refl). cbn [sums_len] in *.
      destruct a as [|a0 a]; [congruence|]. destruct b as [|b0 b]; [congruence|]. specialize (La ltac:(discriminate)). specialize (Lb ltac:(discriminate)).
      destruct (common_len (a0 :: a)) as [n1|] eqn:C1; [|discriminate]. destruct (common_len (b0 :: b)) as [n2|] eqn:C2; [|discriminate].
      apply Nat.eqb_eq in C. subst n2.
      destruct (nth_error (a0 :: a) i) as [lo|] eqn:E1; [|apply nth_error_None in E1; lia].
      destruct (nth_error (b0 :: b) i) as [hi|] eqn:E2; [|apply nth_error_None in E2; lia].
      eexists. split; [reflexivity|]. exists lo, hi. split; [reflexivity|]. split; [reflexivity|].
      assert (L : length lo = length hi).
      { rewrite (common_len_spec _ _ _ C1 (nth_error_In _ _ E1)), (common_len_spec _ _ _ C2 (nth_error_In _ _ E2)). reflexivity. }
      clear -L. rewrite !map_map. cbn [fst snd]. revert hi L.
      induction lo as [|x lo IH]; intros [|y hi] L; try discriminate; [split; reflexivity|]. cbn in *.
      destruct (IH hi ltac:(lia)) as [A B]. rewrite A, B. split; reflexivity.
    - eexists. split; reflexivity. }
  unfold mconfig_sizes, config_sizes in O.
  destruct (O _ _ _ (max_partitions_contributed p) Some G1) as (l0 & E1 & H1); [intros x Hx; rewrite !in_app_iff; auto|].
  destruct (O _ _ _ (max_contributions_per_partition p) Some G2) as (linf & E2 & H2); [intros x Hx; rewrite !in_app_iff; auto|].
  destruct (O _ _ _ (noise_kind p) (fun x => x) G3) as (nk & E3 & H3); [intros x Hx; rewrite !in_app_iff; auto|].
  destruct (O _ _ _ (partition_selection_strategy p) (fun x => x) G4) as (st & E4 & H4); [intros x Hx; rewrite !in_app_iff; auto|].
  destruct B as (b & E5 & H5).
  exists (UParams l0 linf nk st), b. unfold params_at. rewrite E1. cbn [rbind]. rewrite E2. cbn [rbind]. rewrite E3. cbn [rbind].
  rewrite E4. cbn [rbind]. rewrite E5. cbn [rmap u_l0 u_linf u_noise u_strategy]. auto 10.
Qed.

(** Finding: an empty list passes the checks (it is falsy) but is not replaced by the
    default when the configuration is read. *)
Definition demo_params (ms : list metric) : params :=
  Params ms GaussianNoise (Some 2) (Some 3) None 1 None None (Some 0%Q) (Some 5%Q) false None None None false false
         ParamsModel.TruncatedGeometric None false true.
Definition no_bounds : config := Config None None None None.
Theorem C57_accepted_configuration_usable_refuted : exists p c n i,
  mconfig_size c = Ok n /\ (i < n)%nat /\ params_at p c i = Err IndexError.
Proof.
  exists (demo_params [SUM]), (MConfig (Config None None (Some (Flat [0%Q])) (Some (Flat []))) None None), 1%nat, 0%nat.
  split; [reflexivity|]. split; [lia|]. reflexivity.
Qed.

(** *** The budget *)

Lemma request_all_run s ts s' : request_all s ts = Ok s' ->
  run s (map (fun t => Request t 1 1 None) ts) = s' /\
  granted (map (fun t => Request t 1 1 None) ts) (outs s (map (fun t => Request t 1 1 None) ts)) = map (fun t => (t, 1%Q, 1)) ts.
Proof.
  revert s. induction ts as [|t ts IH]; intros s E; [inversion E; split; reflexivity|].
  cbn [request_all] in E. destruct (request_budget s t 1 1 None) as [s1 [o|e]] eqn:R; [|discriminate]. cbn [rbind] in E.
  destruct (IH s1 E) as [A B]. cbn [map outs granted]. unfold run in *. cbn [fold_left step]. rewrite R. cbn [fst snd].
  split; [exact A|]. rewrite B. reflexivity.
Qed.

Lemma mechanisms_of_combiners public ms ub chunk : config_combiners public ms ub = Ok chunk ->
  config_mechanisms public ms ub = map (mechanism_wanted (u_noise (fst ub))) chunk.
Proof.
  destruct ub as [u bounds]. unfold config_combiners, config_mechanisms. intro E. cbn [fst].
  apply sequence_app_ok in E. destruct E as (sel & rest & -> & Es & E).
  apply sequence_app_ok in E. destruct E as (sums & rest2 & -> & Esum & E).
  apply sequence_app_ok in E. destruct E as (counts & pids & -> & Ec & Ep).
  rewrite !map_app. f_equal; [|f_equal; [|f_equal]].
  - destruct public; [inversion Es; reflexivity|]. destruct (u_l0 u); [|discriminate]. inversion Es. reflexivity.
  - destruct (has SUM ms); [|inversion Esum; reflexivity]. unfold sum_combiners in Esum. apply sequence_Forall2 in Esum.
    assert (L := Forall2_len _ _ _ Esum). rewrite combine_length, seq_length, Nat.min_id in L. rewrite L.
    clear L. revert Esum. generalize (combine (seq 0 (length bounds)) bounds). intros l F.
    induction F as [|[i [lo hi]] c ib cs Hc F IH]; [reflexivity|]. cbn [length repeat map]. rewrite IH. f_equal.
    destruct (u_l0 u) as [l0|]; [|discriminate]. cbn [need rbind fst snd] in Hc. destruct lo as [lo|]; [|discriminate].
    destruct hi as [hi|]; [|discriminate]. cbn in Hc. inversion Hc. reflexivity.
  - destruct (has COUNT ms); [|inversion Ec; reflexivity]. destruct (u_linf u) as [linf|]; [|discriminate].
    destruct (u_l0 u) as [l0|]; [|discriminate]. inversion Ec. reflexivity.
  - destruct (has PRIVACY_ID_COUNT ms); [|inversion Ep; reflexivity]. destruct (u_l0 u) as [l0|]; [|discriminate].
    inversion Ep. reflexivity.
Qed.
Lemma mechanisms_number public ms ub :
  config_mechanisms public ms ub = (if public then [] else [GENERIC]) ++
    repeat (mechanism_wanted (u_noise (fst ub)) ARaw) (errors_number ms (length (snd ub))).
Proof.
  destruct ub as [u bounds]. unfold config_mechanisms, errors_number. cbn [fst snd mechanism_wanted]. f_equal.
  rewrite !repeat_app, <- app_assoc.
  destruct (has SUM ms), (has COUNT ms), (has PRIVACY_ID_COUNT ms); reflexivity.
Qed.

(** Every configuration is analysed with the whole budget: the specs of its mechanisms,
    one per combiner and none more, share exactly the total epsilon, and the total delta
    if one of them uses delta.  Each has the mechanism that its combiner needs; nothing is
    requested for the selection of public partitions. *)
Theorem C57_full_budget_each : forall e d s public o ps specs c ub,
  new_accountant e d None None = Ok s -> all_params o = Ok ps -> all_specs public s o = Ok specs ->
  nth_error ps c = Some ub ->
  exists ms es ds, nth_error specs c = Some ms /\
    (forall chunk, config_combiners public (metrics (o_params o)) ub = Ok chunk ->
       map m_type ms = map (mechanism_wanted (u_noise (fst ub))) chunk) /\
    map m_type ms = (if public then [] else [GENERIC]) ++
      repeat (mechanism_wanted (u_noise (fst ub)) ARaw) (errors_number (metrics (o_params o)) (length (snd ub))) /\
    Forall2 (fun m x => get_eps m = Ok x) ms es /\ Forall2 (fun m x => get_delta m = Ok x) ms ds /\
    (ms <> [] -> (sumQ es == e)%Q /\ Forall (fun x => 0 < x)%Q es) /\
    (sumQ ds == if existsb uses_delta (map m_type ms) then d else 0)%Q.
Proof.
  intros e d s public o ps specs c ub Hn Hp Hs Hc. unfold all_specs in Hs. rewrite Hp in Hs. cbn [rbind] in Hs.
  apply sequence_Forall2 in Hs. destruct (Forall2_nth _ _ _ Hs _ _ Hc) as (ms & Nm & Em).
  set (ts := config_mechanisms public (metrics (o_params o)) ub) in *.
  unfold config_specs in Em. destruct (request_all s ts) as [s1|] eqn:R; [|discriminate]. cbn [rbind] in Em.
  destruct (request_all_run _ _ _ R) as [R1 R2]. set (ops := map (fun t => Request t 1 1 None) ts) in *.
  destruct (compute_budgets s1) as [s2 r] eqn:Cb. destruct r as [out|]; [|discriminate]. cbn [rmap] in Em. inversion Em; subst ms.
  assert (St : step (run s ops) Compute = (s2, Ok OutUnit)).
  { cbn [step]. rewrite R1, Cb. f_equal. clear -Cb. unfold compute_budgets in Cb. destruct (check_restrictions s1); [|congruence].
    destruct (finalized s1); [congruence|]. cbv zeta in Cb. destruct (mechs s1); [congruence|]. destruct (scopes s1); congruence. }
  assert (Pos : Forall op_pos ops).
  { unfold ops. clear. induction ts; constructor; [cbn; split; reflexivity|assumption]. }
  destruct (C02_naive_delta_spent_exactly e d None None s ops s2 Hn Pos St) as (ds & D1 & D2 & D3 & _).
  assert (T : map m_type (mechs s2) = ts).
  { destruct (BudgetProofs.granted_counts e d None None s ops Hn) as [_ Gt]. rewrite R2, map_map in Gt. cbn in Gt.
    rewrite map_id in Gt. rewrite <- Gt, R1. clear -Cb. unfold compute_budgets in Cb. destruct (check_restrictions s1); [|congruence].
    destruct (finalized s1); [congruence|]. cbv zeta in Cb. destruct (mechs s1) eqn:Em; [inversion Cb; cbn; rewrite Em; reflexivity|].
    destruct (scopes s1); [|congruence]. inversion Cb. cbn [set_mechs mechs].
    match goal with |- map m_type (?f ?x :: map ?f ?l) = _ => change (map m_type (map f (x :: l)) = map m_type (x :: l)) end.
    rewrite map_map. reflexivity. }
  assert (W : forall l : list Q, length l = length ts -> (weighted_sum (map req_count (map (fun t => (t, 1%Q, 1%Z)) ts)) l == sumQ l)%Q).
  { clear. intro l. rewrite map_map. cbn. unfold weighted_sum, sumQ. revert l.
    induction ts as [|t ts IH]; intros [|x l] L; try discriminate; [reflexivity|].
    cbn [map combine fold_right fst snd]. rewrite (IH l) by (cbn in L; lia). ring. }
  rewrite R2 in *. rewrite map_length in D2.
  assert (Wc := mechanisms_of_combiners public (metrics (o_params o)) ub). fold ts in Wc.
  assert (Wn := mechanisms_number public (metrics (o_params o)) ub). fold ts in Wn.
  exists (mechs s2). destruct ts as [|t0 ts0] eqn:Ets.
  - assert (Z : mechs s2 = []) by (destruct (mechs s2); [reflexivity|discriminate]).
    exists [], ds. unfold read_delta in D1. rewrite Z in *. inversion D1; subst. split; [exact Nm|].
    split; [exact Wc|]. split; [exact Wn|].
    split; [constructor|]. split; [constructor|]. split; [congruence|]. cbn. reflexivity.
  - destruct (C01_naive_epsilon_spent_exactly e d None None s ops s2 Hn Pos St) as (es & E1 & E2 & E3 & E4).
    { rewrite R2. discriminate. }
    rewrite R2, map_length in *. exists es, ds. split; [exact Nm|]. split; [rewrite T; exact Wc|]. split; [rewrite T; exact Wn|].
    split; [exact E1|]. split; [exact D1|].
    split.
    + intros _. rewrite (W es E2) in E3. split; [exact E3|]. rewrite Forall_forall in *. intros x Ix. apply E4, Ix.
    + rewrite (W ds D2) in D3. rewrite T. rewrite D3. rewrite map_map. cbn [req_type fst]. rewrite map_id. reflexivity.
Qed.

(** *** The reports *)


Lemma errors_enough ms bounds : NoDup ms -> only [COUNT; SUM; PRIVACY_ID_COUNT] ms = true -> bounds <> [] ->
  (length ms <= n_errors ms bounds)%nat.
Proof.
  intros N O B. assert (L : (1 <= length bounds)%nat) by (destruct bounds; [congruence|cbn; lia]).
  assert (I : incl ms (filter (fun m => has m ms) [SUM; COUNT; PRIVACY_ID_COUNT])).
  { intros m Im. unfold only in O. rewrite forallb_forall in O. assert (X := O m Im). apply filter_In.
    assert (H : has m ms = true) by (unfold has; apply existsb_exists; exists m; split; [exact Im|]; destruct m; try reflexivity; discriminate).
    split; [|exact H]. destruct m; try discriminate; cbn; auto. }
  apply (NoDup_incl_length N) in I. etransitivity; [exact I|]. unfold n_errors. cbn [filter].
  destruct (has SUM ms), (has COUNT ms), (has PRIVACY_ID_COUNT ms); cbn; lia.
Qed.

(** The main claim.  For accepted options, any number of configurations and partitions,
    and every run: each partition has for each configuration the metrics that the
    configuration's combiners define (C41), and there is exactly one report per
    configuration, labelled with its index and strategy, that summarises all partitions
    (C56); its histogram has one bin per non-empty bucket of partition sizes, in increasing
    order, each summarising exactly the partitions of that size. *)
Theorem C57_one_report_per_configuration :
  forall K root std keeps approx public o ps chunks (data : list (K * tree (option pre))) grouper,
  numeric approx -> config_valid o -> all_params o = Ok ps ->
  Forall2 (fun ub chunk => config_combiners public (metrics (o_params o)) ub = Ok chunk) ps chunks ->
  NoDup (metrics (o_params o)) -> only [COUNT; SUM; PRIVACY_ID_COUNT] (metrics (o_params o)) = true ->
  Forall (fun ub => snd ub <> []) ps ->
  (forall c n, o_config o = Some (c, n) -> mc_strategy c <> Some []) ->
  data <> [] -> (forall kt, In kt data -> Forall (shape_ok (leaves (snd kt))) (ARaw :: concat chunks)) ->
  (forall l, is_grouping l (grouper l)) ->
  exists pk, metrics_of root std keeps approx public o data = Ok pk /\
    Forall2 (fun kt kv => fst kv = fst kt /\
       Forall2 (fun ic pm => partition_spec root std keeps approx public (metrics (o_params o)) (fst ic) (snd ic) (given (leaves (snd kt))) pm)
               (combine (seq 0 (n_configurations o)) ps) (snd kv)) data pk /\
    forall plan, reduce_plan (unnested pk) plan ->
    exists us, reports_of root (length (metrics (o_params o))) public (strategies o) grouper plan = Ok (map Some us) /\
      Permutation (map (fun u => r_index (ur_report u)) us) (map Z.of_nat (seq 0 (n_configurations o))) /\
      forall u, In u us -> exists c, (c < n_configurations o)%nat /\ r_index (ur_report u) = Z.of_nat c /\
        report_ok root (length (metrics (o_params o))) public (strategies o) pk c u.
Proof.
  intros K root std keeps approx public o ps chunks data grouper Nu V Ep F ND On Nb Ns Nd Sh G.
  destruct (all_params_spec _ _ V Ep) as (Lp & L1 & Lb).
  assert (Kk : exists k, Forall (fun ub => k = n_errors (metrics (o_params o)) (snd ub)) ps /\ (length (metrics (o_params o)) <= k)%nat).
  { destruct ps as [|ub ps]; [cbn in Lp; lia|]. exists (n_errors (metrics (o_params o)) (snd ub)). split.
    - apply Forall_forall. intros x Ix. unfold n_errors. rewrite (Lb ub x (or_introl eq_refl) Ix). reflexivity.
    - apply errors_enough; auto. inversion Nb; assumption. }
  destruct Kk as (k & Kk & Lk).
  destruct (metrics_of_lemma root std keeps approx public o ps chunks data k Nu Ep (eq_sym Lp) ltac:(lia) F Nb Kk Sh) as (pk & E & D).
  exists pk. split; [exact E|]. rewrite <- Lp. split.
  - clear -D. induction D as [|kt kv data pk (A & _ & B) D IH]; constructor; auto.
  - intros plan P. apply (reports_lemma root _ k); auto.
    + intro Z. subst pk. inversion D. congruence.
    + clear -D. induction D as [|kt kv data pk (A & B & _) D IH]; constructor; auto.
    + intros _. rewrite Lp. apply strategies_length; assumption.
Qed.

(** The second result: every (partition, configuration) once, with its metrics. *)
Theorem C57_per_partition_output : forall K (pk : list (K * list partition_metrics)),
  NoDup (map fst pk) ->
  NoDup (map fst (per_partition_output pk)) /\
  forall k c m, In ((k, c), m) (per_partition_output pk) <-> exists row, In (k, row) pk /\ nth_error row c = Some m.
Proof.
  intros K pk N.
  assert (X : forall row s c (m : partition_metrics), In (c, m) (combine (seq s (length row)) row) <-> (s <= c)%nat /\ nth_error row (c - s) = Some m).
  { induction row as [|x row IH]; intros s c m; cbn [length seq combine In].
    - split; [tauto|]. intros [_ E]. destruct (c - s)%nat; discriminate.
    - rewrite IH. split.
      + intros [E|[L E]]; [inversion E; subst; rewrite Nat.sub_diag; auto|]. split; [lia|].
        replace (c - s)%nat with (S (c - S s)) by lia. exact E.
      + intros [L E]. destruct (Nat.eq_dec s c) as [->|D].
        * rewrite Nat.sub_diag in E. inversion E. left. reflexivity.
        * right. split; [lia|]. replace (c - s)%nat with (S (c - S s)) in E by lia. exact E. }
  assert (M : forall k c m, In ((k, c), m) (per_partition_output pk) <-> exists row, In (k, row) pk /\ nth_error row c = Some m).
  { intros k c m. unfold per_partition_output. rewrite in_flat_map. split.
    - intros ([k' row] & I & J). cbn [fst snd] in J. apply in_map_iff in J. destruct J as ([c' m'] & E & J). inversion E; subst.
      apply X in J. destruct J as [_ J]. cbn [fst snd] in J. rewrite Nat.sub_0_r in J. exists row. auto.
    - intros (row & I & J). exists (k, row). split; [exact I|]. cbn [fst snd]. apply in_map_iff. exists (c, m). split; [reflexivity|].
      apply X. rewrite Nat.sub_0_r. split; [lia|exact J]. }
  split; [|exact M]. clear M X. induction pk as [|[k row] pk IH]; [constructor|]. cbn [map fst] in N. inversion N as [|? ? N1 N2]; subst.
  unfold per_partition_output in *. cbn [flat_map fst snd]. rewrite map_app. apply NoDup_app_iff. split; [|split; [exact (IH N2)|]].
  - rewrite map_map. cbn [fst snd].
    assert (Y : map (fun x : nat * partition_metrics => (k, fst x)) (combine (seq 0 (length row)) row) = map (pair k) (seq 0 (length row))).
    { rewrite <- map_map with (g := pair k). f_equal. clear. generalize 0%nat. induction row; intro s; cbn; [reflexivity|]. rewrite IHrow. reflexivity. }
    rewrite Y. apply FinFun.Injective_map_NoDup; [intros a b H; congruence|apply seq_NoDup].
  - intros [k' c] I J. apply in_map_iff in I. destruct I as ([[k1 c1] m] & E & I). cbn in E. inversion E; subst.
    apply in_map_iff in I. destruct I as (cm & E2 & _). inversion E2; subst.
    apply in_map_iff in J. destruct J as ([[k2 c2] m2] & E3 & J). cbn in E3. inversion E3; subst.
    apply in_flat_map in J. destruct J as ([k3 r3] & J1 & J2). cbn in J2. apply in_map_iff in J2. destruct J2 as (x & E4 & _). inversion E4; subst.
    apply N1. apply in_map_iff. exists (k', r3). auto.
Qed.

(** *** Findings *)

(** Without partitions there is no report, although the docstring promises one per
    configuration. *)
Theorem C57_report_without_partitions_refuted : exists root std keeps approx public o ps plan,
  config_valid o /\ all_params o = Ok ps /\ n_configurations o = 2%nat /\
  metrics_of (K := Z) root std keeps approx public o [] = Ok [] /\ reduce_plan (unnested (K := Z) []) plan /\
  reports_of root 1 public (strategies o) group_by_key plan = Ok [].
Proof.
  exists (fun q => q), (fun _ => 1%Q), (fun _ _ => 1%Q), (fun _ => (0, [1%Q])), true,
    (Options 1 (1 # 10) (demo_params [COUNT]) (Some (MConfig (Config (Some [1; 2]) None None None) None None, 2%nat))).
  eexists. exists []. split; [reflexivity|]. split; [reflexivity|]. split; [reflexivity|]. split; [reflexivity|]. split; [|reflexivity].
  split; [constructor|]. split; [reflexivity|]. intros k t [].
Qed.
(** partition_selection_strategy=[] passes the checks, and the analysis of private
    partitions fails at the end with IndexError. *)
Definition one_partition : list (Z * tree (option pre)) := [(7, Leaf (Some (2, Scalar 3, 1)))].
Theorem C57_empty_strategies_refuted : exists root std keeps approx o ps pk plan,
  config_valid o /\ all_params o = Ok ps /\ metrics_of root std keeps approx false o one_partition = Ok pk /\
  reduce_plan (unnested pk) plan /\ reports_of root 1 false (strategies o) group_by_key plan = Err IndexError.
Proof.
  exists (fun q => q), (fun _ => 1%Q), (fun _ _ => 1%Q), (fun _ => (0, [1%Q])),
    (Options 1 (1 # 10) (demo_params [COUNT]) (Some (MConfig (Config (Some [1]) None None None) None (Some []), 1%nat))).
  do 2 eexists. exists (map (fun kv => (fst kv, Leaf (snd kv))) (unnested (map (fun kv => (fst kv, snd kv))
     match metrics_of (fun q => q) (fun _ => 1%Q) (fun _ _ => 1%Q) (fun _ => (0, [1%Q])) false
       (Options 1 (1 # 10) (demo_params [COUNT]) (Some (MConfig (Config (Some [1]) None None None) None (Some []), 1%nat))) one_partition
     with Ok pk => pk | Err _ => [] end))).
  split; [reflexivity|]. split; [reflexivity|]. split; [vm_compute; reflexivity|]. split; [|vm_compute; reflexivity].
  vm_compute. split; [|split].
  - constructor; [intros [E|[]]; discriminate|]. constructor; [intros []|constructor].
  - tauto.
  - intros k t [E|[E|[]]]; inversion E; subst; vm_compute; reflexivity.
Qed.

(** Options rejected before any analysis. *)
Theorem C57_unsupported_options_rejected : forall o sampling preagg pe de,
  check_options o sampling preagg pe de = Ok tt ->
  (0 < o_eps o /\ 0 <= o_delta o /\ o_delta o < 1 /\ 0 < sampling /\ sampling <= 1)%Q /\
  (if preagg then pe = true else de = true) /\
  custom_combiners (o_params o) = false /\ contribution_bounds_already_enforced (o_params o) = false /\
  post_aggregation_thresholding (o_params o) = false /\
  forall m, In m (metrics (o_params o)) -> m = COUNT \/ m = SUM \/ m = PRIVACY_ID_COUNT.
Proof.
  intros o sampling preagg pe de. unfold check_options, validate_epsilon_delta, raise_if.
  destruct (Qle_bool (o_eps o) 0) eqn:A1; [discriminate|]. destruct (Qle_bool 0 (o_delta o)) eqn:A2; cbn [negb]; [|discriminate].
  destruct (Qle_bool 1 (o_delta o)) eqn:A3; [discriminate|]. cbn [rbind].
  destruct (Qle_bool sampling 0) eqn:A4; [discriminate|]. destruct (Qle_bool sampling 1) eqn:A5; cbn [negb orb]; [|discriminate].
  destruct (if preagg then negb pe else negb de) eqn:A6; [discriminate|].
  destruct (custom_combiners (o_params o)); [discriminate|]. destruct (only _ _) eqn:A7; cbn [negb]; [|discriminate].
  destruct (contribution_bounds_already_enforced _); [discriminate|]. destruct (post_aggregation_thresholding _); [discriminate|].
  intros _. assert (X : forall a b, Qle_bool a b = false -> (b < a)%Q).
  { intros a b H. apply Qnot_le_lt. intro L. apply Qle_bool_iff in L. congruence. }
  apply Qle_bool_iff in A2, A5. repeat split; auto.
  - destruct preagg; [destruct pe|destruct de]; try discriminate; reflexivity.
  - intros m I. unfold only in A7. rewrite forallb_forall in A7. assert (Y := A7 m I). destruct m; try discriminate; auto.
Qed.

(** *** Hypotheses *)
Definition demo_config : mconfig :=
  MConfig (Config (Some [1; 2]) None (Some (Flat [0%Q; 1%Q])) (Some (Flat [4%Q; 9%Q]))) (Some [LaplaceNoise; GaussianNoise])
          (Some [ParamsModel.TruncatedGeometric; ParamsModel.GaussianThresholding]).
Definition demo_options : options := Options 1 (1 # 10) (demo_params [SUM; COUNT]) (Some (demo_config, 2%nat)).
Definition demo_row (c : Z) (v : Q) (n : Z) : tree (option pre) := Leaf (Some (c, Scalar v, n)).
Fixpoint many (n : nat) : tree (option pre) :=
  match n with O => demo_row 1 2 3 | S n' => Node (many n') (demo_row (Z.of_nat n) 5 1) end.
Definition demo_data : list (Z * tree (option pre)) :=
  [(7, Node (demo_row 2 3 1) (demo_row 1 10 4)); (8, many 11); (9, demo_row 1 (-1) 2)].
Definition plan_of (col : list ((nat * option Z) * partition_metrics)) : list ((nat * option Z) * tree partition_metrics) :=
  flat_map (fun kv => match snd kv with
                      | [] => []
                      | v :: vs => [(fst kv, fold_left (fun t x => Node t (Leaf x)) vs (Leaf v))]
                      end) (group_by_key col).
Definition demo_reports (public : bool) : result (list (Z * option strategy * list (Z * Z))) :=
  rbind (metrics_of (fun q => q) (fun _ => 1%Q) (fun _ n => if n <? 2 then 0%Q else 1%Q) (fun _ => (0, [1%Q])) public demo_options demo_data) (fun pk =>
  rmap (map (fun ou => match ou with
                       | Some u => (r_index (ur_report u), pi_strategy (r_partitions (ur_report u)),
                                    match ur_histogram u with Some bs => map (fun b => (br_from b, br_to b)) bs | None => [] end)
                       | None => (0, None, [])
                       end))
       (reports_of (fun q => q) 2 public (strategies demo_options) group_by_key (plan_of (unnested pk)))).
Example C57_hypotheses_met : exists ps chunks,
  config_valid demo_options /\ all_params demo_options = Ok ps /\
  Forall2 (fun ub chunk => config_combiners false (metrics (o_params demo_options)) ub = Ok chunk) ps chunks /\
  NoDup (metrics (o_params demo_options)) /\ only [COUNT; SUM; PRIVACY_ID_COUNT] (metrics (o_params demo_options)) = true /\
  Forall (fun ub => snd ub <> []) ps /\ given_nonempty demo_config /\
  (forall kt, In kt demo_data -> Forall (shape_ok (leaves (snd kt))) (ARaw :: concat chunks)) /\
  (forall l : list (nat * (option Z * report)), is_grouping l (group_by_key l)) /\ length (concat chunks) = 6%nat /\
  demo_reports false = Ok [(0, Some ParamsModel.TruncatedGeometric, [(1, 10); (10, 20)]); (1, Some ParamsModel.GaussianThresholding, [(1, 10); (10, 20)])] /\
  demo_reports true = Ok [(0, None, [(1, 10); (10, 20)]); (1, None, [(1, 10); (10, 20)])].
Proof.
  do 2 eexists. split; [reflexivity|]. split; [reflexivity|]. split; [repeat (constructor; [reflexivity|]); constructor|].
  split; [repeat constructor; cbn; intuition discriminate|]. split; [reflexivity|]. split; [repeat constructor; discriminate|].
  split; [repeat split; discriminate|].
  split.
  { assert (S : forall t c, (match c with ASum _ _ _ i => i = None | _ => True end) -> given (leaves t) <> [] ->
                 (forall d, In d (given (leaves t)) -> value_of None d <> None) -> shape_ok (leaves t) c).
    { intros t c Hc N V. destruct c; cbn [shape_ok]; auto. subst i_column. split; [exact V|congruence]. }
    intros kt Hk. apply Forall_forall. intros c Hc. apply S; clear S.
    - cbn in Hc. intuition (subst; auto).
    - cbn in Hk. destruct Hk as [<-|[<-|[<-|[]]]]; discriminate.
    - intros d Hd. cbn in Hk. destruct Hk as [<-|[<-|[<-|[]]]]; vm_compute in Hd; intuition (subst; discriminate). }
  split; [intro l; apply local_grouping|]. split; [reflexivity|]. split; vm_compute; reflexivity.
Qed.
Example C57_budget_hypotheses_met : exists s ps specs,
  new_accountant 1 (1 # 10) None None = Ok s /\ all_params demo_options = Ok ps /\ all_specs false s demo_options = Ok specs /\
  map (map m_type) specs = [[GENERIC; LAPLACE; LAPLACE]; [GENERIC; GAUSSIAN; GAUSSIAN]].
Proof. do 3 eexists. split; [reflexivity|]. split; [reflexivity|]. split; vm_compute; reflexivity. Qed.

Print Assumptions C57_one_report_per_configuration.
Print Assumptions C57_full_budget_each.
Print Assumptions C57_configuration_parameters.
Print Assumptions C57_bucket_ends.
Print Assumptions C57_per_partition_output.
