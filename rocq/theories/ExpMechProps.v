(** Property C34: the private choice of the contribution bound is epsilon-DP. *)
From Coq Require Import List ZArith QArith Qreals Reals Bool Permutation Sorted Lia Lqa Lra.
From Verif Require Import Base BaseLemmas BackendModel BackendSpec ListLemmas BackendProofs BackendProofs2 ParamsModel ParamsSpec ParamsProps
  EngineModel EngineSpec EngineProofs2 HistModel HistSpec HistProofs HistProofs2 HistProofs4 VectorModel
  ExpMechModel ExpMechSpec ExpMechProofs.
Import ListNotations.
Local Open Scope R_scope.

(** ** The exponential mechanism *)

(** Monotonic scores: on neighbouring data no score moves in the other
    direction, and none by more than the declared sensitivity. *)
Theorem C34_exponential_mechanism_monotonic : forall (A : Type) (f f' : scoring A) eps (inputs : list A),
  0 <= eps -> inputs <> [] -> 0 < global_sensitivity f -> global_sensitivity f' = global_sensitivity f ->
  is_monotonic f = true -> is_monotonic f' = true ->
  (forall x, In x inputs -> score f x <= score f' x <= score f x + global_sensitivity f) ->
  exists d d', exponential_mechanism f eps inputs = Ok d /\ exponential_mechanism f' eps inputs = Ok d' /\
    distribution d /\ distribution d' /\ map fst d = inputs /\ map fst d' = inputs /\ indistinguishable eps d d'.
Proof.
  intros A f f' eps inputs He N Hs Es M M' L.
  exists (normalised (weight_of f eps) inputs), (normalised (weight_of f' eps) inputs).
  split; [apply exponential_mechanism_run; [exact N | lra]|].
  split; [apply exponential_mechanism_run; [exact N | rewrite Es; lra]|].
  split; [apply normalised_distribution; auto using weight_pos|].
  split; [apply normalised_distribution; auto using weight_pos|].
  split; [unfold normalised; rewrite map_map; apply map_id|].
  split; [unfold normalised; rewrite map_map; apply map_id|].
  rewrite <- (Rmult_1_l eps) at 1. apply monotonic_indistinguishable; auto.
  intros x I. rewrite Rmult_1_l. exact (L x I).
Qed.

(** Other scores: moves in both directions. *)
Theorem C34_exponential_mechanism : forall (A : Type) (f f' : scoring A) eps (inputs : list A),
  0 <= eps -> inputs <> [] -> 0 < global_sensitivity f -> global_sensitivity f' = global_sensitivity f ->
  is_monotonic f = false -> is_monotonic f' = false ->
  (forall x, In x inputs -> Rabs (score f x - score f' x) <= global_sensitivity f) ->
  exists d d', exponential_mechanism f eps inputs = Ok d /\ exponential_mechanism f' eps inputs = Ok d' /\
    distribution d /\ distribution d' /\ map fst d = inputs /\ map fst d' = inputs /\ indistinguishable eps d d'.
Proof.
  intros A f f' eps inputs He N Hs Es M M' L.
  exists (normalised (weight_of f eps) inputs), (normalised (weight_of f' eps) inputs).
  split; [apply exponential_mechanism_run; [exact N | lra]|].
  split; [apply exponential_mechanism_run; [exact N | rewrite Es; lra]|].
  split; [apply normalised_distribution; auto using weight_pos|].
  split; [apply normalised_distribution; auto using weight_pos|].
  split; [unfold normalised; rewrite map_map; apply map_id|].
  split; [unfold normalised; rewrite map_map; apply map_id|].
  apply general_indistinguishable; auto.
Qed.

(** A higher score is at least as likely. *)
Theorem C34_higher_score_more_likely : forall (A : Type) (f : scoring A) eps (inputs : list A) x y,
  0 <= eps -> 0 < global_sensitivity f -> In x inputs -> In y inputs -> score f x <= score f y ->
  exists d px py, exponential_mechanism f eps inputs = Ok d /\ In (x, px) d /\ In (y, py) d /\ px <= py.
Proof.
  intros A f eps inputs x y He Hs Ix Iy L.
  assert (N : inputs <> []) by (destruct inputs; [destruct Ix | discriminate]).
  exists (normalised (weight_of f eps) inputs), (weight_of f eps x / sumR (map (weight_of f eps) inputs)),
    (weight_of f eps y / sumR (map (weight_of f eps) inputs)).
  split; [apply exponential_mechanism_run; [exact N | lra]|].
  split; [apply in_map_iff; exists x; auto|]. split; [apply in_map_iff; exists y; auto|].
  pose proof (sumR_pos (weight_of f eps) inputs N (weight_pos f eps)) as T.
  unfold Rdiv. apply Rmult_le_compat_r; [apply Rlt_le, Rinv_0_lt_compat; exact T|].
  unfold weight_of. apply exp_le. unfold Rdiv. apply Rmult_le_compat_r.
  - apply Rlt_le, Rinv_0_lt_compat. destruct (negb (is_monotonic f)); lra.
  - apply Rmult_le_compat_r; lra.
Qed.

(** ** The score of a candidate bound *)

(** The score is minus half the noise minus half of what is dropped, where each
    privacy id counts with the lower end of its bin, capped at [B]. *)
Theorem C34_score_value : forall sigma p n xs h k, histogram_of xs h ->
  score (l0_scoring sigma p n h) k
  = - (1 / 2 * (IZR n * count_noise_std sigma p k)
       + 1 / 2 * IZR (sumZ (map (fun x => Z.max 0 (Z.min (fst (log_bin x)) (Z.min (max_partitions_contributed_upper_bound p) n) - k)) xs))).
Proof.
  intros sigma p n xs h k H. cbn [l0_scoring score]. unfold l0_impact_noise. rewrite (dropped_data p n xs h k H).
  replace (1 - 1 / 2) with (1 / 2) by lra.
  rewrite (map_ext (dropped_of (best_upper_bound p n) k)
             (fun x => Z.max 0 (Z.min (fst (log_bin x)) (Z.min (max_partitions_contributed_upper_bound p) n) - k))).
  - reflexivity.
  - intros x. unfold dropped_of, best_upper_bound. apply Z.max_comm.
Qed.

(** Adding one privacy id lowers every score, or leaves it, by at most half the
    declared sensitivity. *)
Theorem C34_score_sensitivity : forall (U P : Type) (EU : EqDec U) (EP : EqDec P) sigma p n
    (rows : list (U * P * Q)) u h h' k,
  (1 <= max_partitions_contributed_upper_bound p)%Z -> (1 <= n)%Z -> (0 <= k)%Z ->
  h_l0 (compute_dataset_histograms number_of_buckets rows) = Ok h ->
  h_l0 (compute_dataset_histograms number_of_buckets (without u rows)) = Ok h' ->
  let s := score (l0_scoring sigma p n h) k in
  let s' := score (l0_scoring sigma p n h') k in
  s <= s' <= s + 1 / 2 * global_sensitivity (l0_scoring sigma p n h) /\
  global_sensitivity (l0_scoring sigma p n h') = global_sensitivity (l0_scoring sigma p n h) /\
  0 < global_sensitivity (l0_scoring sigma p n h).
Proof.
  intros U P EU EP sigma p n rows u h h' k Hu Hn Hk E E' s s'.
  destruct (l0_histogram_of rows) as (h1 & E1 & H1). destruct (l0_histogram_of (without u rows)) as (h2 & E2 & H2).
  assert (h1 = h) as -> by congruence. assert (h2 = h') as -> by congruence.
  set (B := best_upper_bound p n). assert (HB : (1 <= B)%Z) by (unfold B, best_upper_bound; lia).
  assert (G : global_sensitivity (l0_scoring sigma p n h) = IZR B) by reflexivity.
  assert (PB : 1 <= IZR B) by (apply (IZR_le 1); exact HB).
  split; [|split; [reflexivity | rewrite G; lra]]. rewrite G. unfold s, s'. cbn [l0_scoring score].
  rewrite (dropped_data p n _ h k H1), (dropped_data p n _ h' k H2).
  destruct (partition_counts_without u rows) as (extra & Le & Pm).
  rewrite (sumZ_Permutation _ _ (Permutation_map _ Pm)), map_app, sumZ_app, plus_IZR. fold B.
  assert (R : 0 <= IZR (sumZ (map (dropped_of B k) extra)) <= IZR B).
  { destruct extra as [|x [|]]; [cbn; lra | | cbn in Le; lia].
    cbn [map]. rewrite sumZ_cons. change (sumZ []) with 0%Z. rewrite Z.add_0_r.
    pose proof (dropped_of_range B k x Hk ltac:(lia)) as [D1 D2].
    apply IZR_le in D1. apply IZR_le in D2. lra. }
  lra.
Qed.

Example C34_score_example :
  let rows := [((1, 10), 0%Q); ((1, 11), 0%Q); ((1, 12), 0%Q); ((2, 10), 0%Q)]%Z in
  let p := mkBoundsParams LaplaceNoise 1 0 1 5 in
  exists h h', h_l0 (compute_dataset_histograms number_of_buckets rows) = Ok h /\
    h_l0 (compute_dataset_histograms number_of_buckets (without 1%Z rows)) = Ok h' /\
    l0_impact_dropped p 3 h 1 = 2%Z /\ l0_impact_dropped p 3 h' 1 = 0%Z.
Proof. eexists. eexists. repeat split; vm_compute; reflexivity. Qed.

(** ** The whole computation *)

(** For accepted parameters and at least one partition: the value chosen is one
    of the candidates up to the number of partitions and the user's bound, and
    with or without the rows of any one privacy id its distribution is the same
    up to [calculation_eps] - in fact up to half of it. *)
Theorem C34_private_contribution_bounds :
  forall (U P : Type) (EU : EqDec U) (EP : EqDec P) sigma p (partitions : list P) already_filtered
    (rows : list (U * P * Q)) u,
  check_private_bounds_params (Some (aggregation_noise_kind p)) (aggregation_eps p) (aggregation_delta p)
    (calculation_eps p) (Some (PInt (max_partitions_contributed_upper_bound p))) = Ok tt ->
  partitions <> [] ->
  exists d d',
    calculate_private_contribution_bounds sigma p partitions already_filtered rows = Ok d /\
    calculate_private_contribution_bounds sigma p partitions already_filtered (without u rows) = Ok d' /\
    distribution d /\ distribution d' /\
    map fst d = map fst d' /\
    Forall (fun x => 1 <= x <= max_partitions_contributed_upper_bound p /\
                     x <= Z.of_nat (length (distinct partitions)))%Z (map fst d) /\
    indistinguishable (Q2R (calculation_eps p) / 2) d d' /\
    indistinguishable (Q2R (calculation_eps p)) d d'.
Proof.
  intros U P EU EP sigma p partitions filtered rows u Chk Ne.
  apply C38_private_bounds_check in Chk. destruct Chk as (_ & _ & He & Hub & _).
  assert (Hub' : (1 <= max_partitions_contributed_upper_bound p)%Z).
  { destruct Hub as (z & Ez & Hz). injection Ez as Ez. lia. }
  assert (He' : 0 < Q2R (calculation_eps p)).
  { rewrite <- RMicromega.Q2R_0. apply Qlt_Rlt. exact He. }
  assert (Nd : distinct partitions <> []).
  { destruct partitions as [|x l]; [congruence|]. intros E.
    assert (I : In x (distinct (x :: l))) by (apply in_distinct; left; reflexivity). rewrite E in I. destruct I. }
  set (n := Z.of_nat (length (distinct partitions))).
  assert (Hn : (1 <= n)%Z) by (unfold n; destruct (distinct partitions); [congruence | cbn; lia]).
  set (B := best_upper_bound p n). assert (HB : (1 <= B)%Z) by (unfold B, best_upper_bound; lia).
  set (rows1 := if negb filtered then drop_partitions partitions rows else rows).
  assert (Comm : (if negb filtered then drop_partitions partitions (without u rows) else without u rows) = without u rows1).
  { unfold rows1. destruct filtered; [reflexivity|]. cbn [negb]. rewrite !drop_partitions_filter.
    unfold without. apply filter_comm. }
  destruct (l0_histogram_of rows1) as (h & E & H). destruct (l0_histogram_of (without u rows1)) as (h' & E' & H').
  assert (Nc : possible_bounds B <> []).
  { intros F. assert (I : In 1%Z (possible_bounds B)).
    { apply possible_bounds_spec. split; [lia|]. exists 2%Z. exists 0%Z.
      split; [lia|]. split; [reflexivity|]. split; [exists 1%Z; reflexivity|]. left. lia. }
    rewrite F in I. destruct I. }
  set (f := l0_scoring sigma p n h). set (f' := l0_scoring sigma p n h').
  assert (G : global_sensitivity f = IZR B) by reflexivity.
  assert (G' : global_sensitivity f' = IZR B) by reflexivity.
  assert (PB : 1 <= IZR B) by (apply (IZR_le 1); exact HB).
  set (eps := Q2R (calculation_eps p)).
  exists (normalised (weight_of f eps) (possible_bounds B)), (normalised (weight_of f' eps) (possible_bounds B)).
  assert (Sc : forall x, In x (possible_bounds B) -> score f x <= score f' x <= score f x + 1 / 2 * global_sensitivity f).
  { intros x I. apply possible_bounds_spec in I. destruct I as [I _].
    apply (C34_score_sensitivity U P EU EP sigma p n rows1 u h h' x); auto; lia. }
  split; [|split].
  - unfold calculate_private_contribution_bounds. fold rows1. rewrite E. cbn [rbind].
    rewrite (size_nonempty _ Nd). cbn [rev app]. fold n. unfold calculate_l0.
    apply exponential_mechanism_run; [exact Nc | rewrite G; lra].
  - unfold calculate_private_contribution_bounds. rewrite Comm, E'. cbn [rbind].
    rewrite (size_nonempty _ Nd). cbn [rev app]. fold n. unfold calculate_l0.
    apply exponential_mechanism_run; [exact Nc | rewrite G'; lra].
  - split; [apply normalised_distribution; auto using weight_pos|].
    split; [apply normalised_distribution; auto using weight_pos|].
    assert (Mf : forall g : Z -> R, map fst (normalised g (possible_bounds B)) = possible_bounds B).
    { intros g. unfold normalised. rewrite map_map. apply map_id. }
    rewrite !Mf. split; [reflexivity|]. split.
    { apply Forall_forall. intros x I. apply possible_bounds_spec in I. destruct I as [I _].
      unfold B, best_upper_bound in I. lia. }
    split.
    + replace (eps / 2) with (1 / 2 * eps) by lra. 
      apply (monotonic_indistinguishable f f' eps (1 / 2)); [unfold eps; lra | rewrite G; lra | reflexivity .. | exact Nc | exact Sc].
    + rewrite <- (Rmult_1_l eps) at 1. 
      apply (monotonic_indistinguishable f f' eps 1); [unfold eps; lra | rewrite G; lra | reflexivity .. | exact Nc |].
      intros x I. specialize (Sc x I). rewrite G in *. lra.
Qed.

Example C34_hypotheses :
  let p := mkBoundsParams LaplaceNoise 1 0 (1 # 2) 5 in
  check_private_bounds_params (Some (aggregation_noise_kind p)) (aggregation_eps p) (aggregation_delta p)
    (calculation_eps p) (Some (PInt (max_partitions_contributed_upper_bound p))) = Ok tt /\
  [10; 11; 12; 10]%Z <> [].
Proof. split; [vm_compute; reflexivity | discriminate]. Qed.

(** Without partitions the computation raises (missing constructor argument). *)
Theorem C34_no_partitions : forall (U P : Type) (EU : EqDec U) (EP : EqDec P) sigma p already_filtered
    (rows : list (U * P * Q)),
  calculate_private_contribution_bounds sigma p [] already_filtered rows = Err TypeError.
Proof.
  intros. unfold calculate_private_contribution_bounds.
  destruct (l0_histogram_of (if negb already_filtered then drop_partitions [] rows else rows)) as (h & -> & _).
  reflexivity.
Qed.

Print Assumptions C34_exponential_mechanism_monotonic.
Print Assumptions C34_exponential_mechanism.
Print Assumptions C34_higher_score_more_likely.
Print Assumptions C34_score_value.
Print Assumptions C34_score_sensitivity.
Print Assumptions C34_private_contribution_bounds.
Print Assumptions C34_no_partitions.
