(** Lemmas on the exponential mechanism and the L0 score. *)
From Coq Require Import List ZArith QArith Qreals Reals Bool Permutation Sorted Lia Lqa Lra.
From Verif Require Import Base BaseLemmas BackendModel BackendSpec ListLemmas BackendProofs ParamsModel SensModel CombinerModel
  EngineModel EngineSpec EngineProofs2 HistModel HistSpec HistProofs HistProofs2 HistProofs4 VectorModel ExpMechModel ExpMechSpec.
Import ListNotations.
Local Open Scope R_scope.

Lemma sumR_cons x l : sumR (x :: l) = x + sumR l.
Proof. reflexivity. Qed.

Lemma sumR_le {A} (f g : A -> R) l : (forall x, In x l -> f x <= g x) -> sumR (map f l) <= sumR (map g l).
Proof.
  induction l as [|x l IH]; intros L; [apply Rle_refl|]. cbn [map]. rewrite !sumR_cons.
  apply Rplus_le_compat; [apply L; left; reflexivity | apply IH; intros y I; apply L; right; exact I].
Qed.

Lemma sumR_scale {A} c (f : A -> R) l : sumR (map (fun x => c * f x) l) = c * sumR (map f l).
Proof. induction l as [|x l IH]; [cbn; ring|]. cbn [map]. rewrite !sumR_cons, IH. ring. Qed.

Lemma sumR_pos {A} (f : A -> R) l : l <> [] -> (forall x, 0 < f x) -> 0 < sumR (map f l).
Proof.
  intros N P. destruct l as [|x l]; [congruence|]. cbn [map]. rewrite sumR_cons.
  assert (0 <= sumR (map f l)); [|specialize (P x); lra].
  clear N. induction l as [|y l IH]; [cbn; lra|]. cbn [map]. rewrite sumR_cons. specialize (P y). lra.
Qed.

(** Normalised weights. *)
Definition normalised {A} (g : A -> R) (l : list A) : list (A * R) :=
  map (fun x => (x, g x / sumR (map g l))) l.

Lemma normalised_distribution {A} (g : A -> R) l : l <> [] -> (forall x, 0 < g x) -> distribution (normalised g l).
Proof.
  intros N P. pose proof (sumR_pos g l N P) as T. unfold distribution, normalised. rewrite map_map. cbn [snd]. split.
  - apply Forall_forall. intros e I. apply in_map_iff in I. destruct I as (x & <- & _). cbn [snd].
    apply Rlt_le, Rdiv_lt_0_compat; [apply P | exact T].
  - unfold Rdiv. rewrite (map_ext (fun x => g x * / sumR (map g l)) (fun x => / sumR (map g l) * g x)).
    + rewrite sumR_scale. field. lra.
    + intros x. ring.
Qed.

Lemma normalised_probability {A} (g : A -> R) l S :
  probability S (normalised g l) = sumR (map g (filter S l)) / sumR (map g l).
Proof.
  unfold probability, normalised. rewrite filter_map. cbn [fst]. rewrite map_map. cbn [snd].
  change (fun x => S x) with S. unfold Rdiv.
  rewrite (map_ext (fun x => g x * / sumR (map g l)) (fun x => / sumR (map g l) * g x)).
  - rewrite sumR_scale. ring.
  - intros x. ring.
Qed.

Lemma normalised_ratio {A} (g g' : A -> R) l a b S : l <> [] -> (forall x, 0 < g x) -> (forall x, 0 < g' x) ->
  0 < a -> 0 < b ->
  (forall x, In x l -> g x <= a * g' x) -> (forall x, In x l -> g' x <= b * g x) ->
  probability S (normalised g l) <= a * b * probability S (normalised g' l).
Proof.
  intros N P P' Ha Hb L L'. rewrite !normalised_probability.
  pose proof (sumR_pos g l N P) as T. pose proof (sumR_pos g' l N P') as T'.
  assert (N1 : sumR (map g (filter S l)) <= a * sumR (map g' (filter S l))).
  { rewrite <- sumR_scale. apply sumR_le. intros x I. apply filter_In in I. apply L. tauto. }
  assert (N2 : sumR (map g' l) <= b * sumR (map g l)).
  { rewrite <- sumR_scale. apply sumR_le. exact L'. }
  assert (N0 : 0 <= sumR (map g' (filter S l))).
  { destruct (filter S l) as [|x fl]; [cbn; lra|]. apply Rlt_le, sumR_pos; [discriminate | exact P']. }
  set (A0 := sumR (map g (filter S l))) in *. set (B0 := sumR (map g' (filter S l))) in *.
  set (T0 := sumR (map g l)) in *. set (T1 := sumR (map g' l)) in *.
  apply (Rmult_le_reg_r (T0 * T1)); [apply Rmult_lt_0_compat; assumption|].
  replace (A0 / T0 * (T0 * T1)) with (A0 * T1) by (field; lra).
  replace (a * b * (B0 / T1) * (T0 * T1)) with ((a * B0) * (b * T0)) by (field; lra).
  apply Rmult_le_compat; try lra.
  unfold A0. destruct (filter S l) as [|x fl]; [cbn; lra|]. apply Rlt_le, sumR_pos; [discriminate | exact P].
Qed.

Definition weight_of {A} (f : scoring A) (eps : R) (x : A) : R :=
  exp (score f x * eps / (if negb (is_monotonic f) then global_sensitivity f * 2 else global_sensitivity f)).

Lemma combine_map_same {A B} (h : A -> B) (l : list A) : combine l (map h l) = map (fun x => (x, h x)) l.
Proof. induction l as [|x l IH]; [reflexivity|]. cbn. rewrite IH. reflexivity. Qed.

Lemma exponential_mechanism_run {A} (f : scoring A) eps (l : list A) : l <> [] -> global_sensitivity f <> 0 ->
  exponential_mechanism f eps l = Ok (normalised (weight_of f eps) l).
Proof.
  intros N D. unfold exponential_mechanism. destruct l as [|x l]; [congruence|].
  destruct (Req_EM_T (global_sensitivity f) 0) as [E|_]; [contradiction|].
  f_equal. unfold calculate_probabilities. rewrite !map_map. unfold normalised.
  change (fun x0 : A => exp (score f x0 * eps / (if negb (is_monotonic f) then global_sensitivity f * 2 else global_sensitivity f)))
    with (weight_of f eps).
  rewrite combine_map_same. reflexivity.
Qed.

Lemma weight_pos {A} (f : scoring A) eps x : 0 < weight_of f eps x.
Proof. apply exp_pos. Qed.

Lemma exp_le x y : x <= y -> exp x <= exp y.
Proof. intros [L | ->]; [left; apply exp_increasing; exact L | right; reflexivity]. Qed.

(** Weights whose exponents differ by at most [c]. *)
Lemma weight_ratio {A} (f f' : scoring A) eps c x :
  0 <= eps -> 0 < global_sensitivity f -> global_sensitivity f = global_sensitivity f' ->
  is_monotonic f = is_monotonic f' ->
  score f x <= score f' x + c * global_sensitivity f ->
  weight_of f eps x <= exp ((if is_monotonic f then c else c / 2) * eps) * weight_of f' eps x.
Proof.
  intros He Hs Es Em L. unfold weight_of. rewrite <- Es, <- Em, <- exp_plus. apply exp_le.
  destruct (is_monotonic f); cbn [negb].
  - apply (Rmult_le_reg_r (global_sensitivity f)); [exact Hs|].
    replace (score f x * eps / global_sensitivity f * global_sensitivity f) with (score f x * eps) by (field; lra).
    replace ((c * eps + score f' x * eps / global_sensitivity f) * global_sensitivity f)
      with (eps * (score f' x + c * global_sensitivity f)) by (field; lra).
    rewrite Rmult_comm. apply Rmult_le_compat_l; lra.
  - apply (Rmult_le_reg_r (global_sensitivity f * 2)); [lra|].
    replace (score f x * eps / (global_sensitivity f * 2) * (global_sensitivity f * 2)) with (score f x * eps) by (field; lra).
    replace ((c / 2 * eps + score f' x * eps / (global_sensitivity f * 2)) * (global_sensitivity f * 2))
      with (eps * (score f' x + c * global_sensitivity f)) by (field; lra).
    rewrite Rmult_comm. apply Rmult_le_compat_l; lra.
Qed.

(** Monotonic case: the scores of [f] are below those of [f'], by at most [c]
    sensitivities. *)
Lemma monotonic_indistinguishable {A} (f f' : scoring A) eps c (l : list A) :
  0 <= eps -> 0 < global_sensitivity f -> global_sensitivity f = global_sensitivity f' ->
  is_monotonic f = true -> is_monotonic f' = true -> l <> [] ->
  (forall x, In x l -> score f x <= score f' x <= score f x + c * global_sensitivity f) ->
  indistinguishable (c * eps) (normalised (weight_of f eps) l) (normalised (weight_of f' eps) l).
Proof.
  intros He Hs Es M M' N L S.
  assert (G1 : forall x, In x l -> weight_of f eps x <= 1 * weight_of f' eps x).
  { intros x I. replace 1 with (exp ((if is_monotonic f then 0 else 0 / 2) * eps)).
    - apply weight_ratio; auto; [congruence|]. destruct (L x I). lra.
    - rewrite M, Rmult_0_l. apply exp_0. }
  assert (G2 : forall x, In x l -> weight_of f' eps x <= exp (c * eps) * weight_of f eps x).
  { intros x I. replace (c * eps) with ((if is_monotonic f' then c else c / 2) * eps) by (rewrite M'; reflexivity).
    apply weight_ratio; auto; [lra | congruence|]. rewrite <- Es. apply L. exact I. }
  pose proof (exp_pos (c * eps)). split.
  - rewrite <- (Rmult_1_l (exp (c * eps))). apply normalised_ratio; auto using weight_pos; lra.
  - rewrite <- (Rmult_1_r (exp (c * eps))). apply normalised_ratio; auto using weight_pos; lra.
Qed.

Lemma general_indistinguishable {A} (f f' : scoring A) eps (l : list A) :
  0 <= eps -> 0 < global_sensitivity f -> global_sensitivity f = global_sensitivity f' ->
  is_monotonic f = false -> is_monotonic f' = false -> l <> [] ->
  (forall x, In x l -> Rabs (score f x - score f' x) <= global_sensitivity f) ->
  indistinguishable eps (normalised (weight_of f eps) l) (normalised (weight_of f' eps) l).
Proof.
  intros He Hs Es M M' N L S.
  assert (L' : forall x, In x l -> score f x <= score f' x + 1 * global_sensitivity f /\
                          score f' x <= score f x + 1 * global_sensitivity f').
  { intros x I. specialize (L x I). rewrite <- Es. unfold Rabs in L. destruct (Rcase_abs _); lra. }
  assert (E : exp eps = exp (1 / 2 * eps) * exp (1 / 2 * eps)) by (rewrite <- exp_plus; f_equal; lra).
  pose proof (exp_pos (1 / 2 * eps)) as P.
  assert (G1 : forall x, In x l -> weight_of f eps x <= exp (1 / 2 * eps) * weight_of f' eps x).
  { intros x I. replace (1 / 2 * eps) with ((if is_monotonic f then 1 else 1 / 2) * eps) by (rewrite M; reflexivity).
    apply weight_ratio; auto; [congruence|]. apply L'. exact I. }
  assert (G2 : forall x, In x l -> weight_of f' eps x <= exp (1 / 2 * eps) * weight_of f eps x).
  { intros x I. replace (1 / 2 * eps) with ((if is_monotonic f' then 1 else 1 / 2) * eps) by (rewrite M'; reflexivity).
    apply weight_ratio; auto; [lra | congruence|]. apply L'. exact I. }
  rewrite E. split; apply normalised_ratio; auto using weight_pos.
Qed.

(** ** The L0 score *)

(** Per contributor: what is dropped of [x] partitions (represented by the lower
    end of the bin of [x]). *)
Definition dropped_of (B k x : Z) : Z := Z.max (Z.min (fst (log_bin x)) B - k) 0.

Lemma sumZ_map_const {A} (c : Z) (l : list A) : sumZ (map (fun _ => c) l) = (c * Z.of_nat (length l))%Z.
Proof. induction l as [|x l IH]; [cbn; lia|]. cbn [map length]. rewrite sumZ_cons, IH. lia. Qed.

Lemma sumZ_Permutation l l' : Permutation l l' -> sumZ l = sumZ l'.
Proof. induction 1; rewrite ?sumZ_cons; lia. Qed.

Lemma dropped_data p n xs h k : histogram_of xs h ->
  l0_impact_dropped p n h k = sumZ (map (dropped_of (best_upper_bound p n) k) xs).
Proof.
  intros (S & F & Cov). unfold l0_impact_dropped. set (B := best_upper_bound p n).
  apply (sum_over_bins _ h b_lower b_upper (fun l => sumZ (map (dropped_of B k) l))); auto.
  - intros a b. rewrite map_app, sumZ_app. reflexivity.
  - intros a b P. apply sumZ_Permutation, Permutation_map. exact P.
  - eapply Forall_impl; [|exact F]. cbn beta. intros b (L & C & _).
    split; [pose proof (leading_bin_pos _ _ L); lia|]. cbn zeta in C. rewrite C.
    rewrite <- sumZ_map_const. f_equal. rewrite <- (map_id (within _ _ xs)) at 1. rewrite map_map.
    apply map_eq_In. intros x I. apply within_In in I. destruct I as [_ R].
    unfold dropped_of. rewrite (log_bin_complete _ _ x L R). reflexivity.
Qed.

Lemma dropped_of_range B k x : (0 <= k)%Z -> (0 <= B)%Z -> (0 <= dropped_of B k x <= B)%Z.
Proof. unfold dropped_of. lia. Qed.

(** ** The dataset *)

Definition partition_counts {U P} `{EqDec U} `{EqDec P} (rows : list (U * P * Q)) : list Z :=
  map (fun u => Z.of_nat (length (distinct (values_of u (map fst rows))))) (distinct (map fst (map fst rows))).

Lemma l0_histogram_of {U P} `{EqDec U} `{EqDec P} (rows : list (U * P * Q)) :
  exists h, h_l0 (compute_dataset_histograms number_of_buckets rows) = Ok h /\ histogram_of (partition_counts rows) h.
Proof.
  cbn [compute_dataset_histograms h_l0]. unfold per_privacy_id_histogram.
  destruct (frequency_histogram_spec _ (counts_positive (map fst (distinct (map fst rows))))) as (h & E & Hh).
  exists h. split; [exact E|]. exact (histogram_Permutation _ _ _ (raw_partitions_per_id (map fst rows)) Hh).
Qed.

Lemma map_fst_without {U P} `{EqDec U} (u : U) (rows : list (U * P * Q)) :
  map fst (without u rows) = filter (fun r => negb (eqb (fst r) u)) (map fst rows).
Proof. unfold without. rewrite filter_map. reflexivity. Qed.

Lemma values_of_without {U P} `{EqDec U} (u v : U) (col : list (U * P)) : v <> u ->
  values_of v (filter (fun r => negb (eqb (fst r) u)) col) = values_of v col.
Proof.
  intros N. unfold values_of. rewrite filter_filter. f_equal. apply filter_ext_In. intros r _.
  destruct (eqb (fst r) v) eqn:E; [|rewrite ?andb_false_r, ?andb_false_l; reflexivity].
  apply ListLemmas.eqb_eq in E. rewrite E.
  destruct (eqb v u) eqn:E'; [apply ListLemmas.eqb_eq in E'; contradiction|]. reflexivity.
Qed.

Lemma distinct_split {U} `{EqDec U} (u : U) (l : list U) :
  Permutation (distinct l) (filter (fun v => negb (eqb v u)) (distinct l) ++ (if mem u l then [u] else [])).
Proof.
  apply NoDup_Permutation; [apply NoDup_distinct | |].
  - apply NoDup_app_iff. split; [apply NoDup_filter', NoDup_distinct|]. split.
    + destruct (mem u l); repeat constructor. cbn. tauto.
    + intros x I J. apply filter_In in I. destruct (mem u l); [|destruct J]. destruct J as [<- | []].
      rewrite eqb_refl in I. destruct I. discriminate.
  - intros x. rewrite in_app_iff, filter_In, in_distinct. split.
    + intros I. destruct (eqb x u) eqn:E; [|left; auto]. right. apply ListLemmas.eqb_eq in E. subst x.
      rewrite (proj2 (mem_true_iff u l) I). left. reflexivity.
    + intros [[I _] | I]; [exact I|]. destruct (mem u l) eqn:M; [|destruct I]. destruct I as [<- | []].
      apply mem_true_iff. exact M.
Qed.

Lemma partition_counts_without {U P} `{EqDec U} `{EqDec P} (u : U) (rows : list (U * P * Q)) :
  exists extra, (length extra <= 1)%nat /\
    Permutation (partition_counts rows) (partition_counts (without u rows) ++ extra).
Proof.
  unfold partition_counts. rewrite map_fst_without. set (col := map fst rows).
  exists (map (fun v => Z.of_nat (length (distinct (values_of v col)))) (if mem u (map fst col) then [u] else [])).
  split; [rewrite map_length; destruct (mem u (map fst col)); cbn; lia|].
  rewrite (Permutation_map _ (distinct_split u (map fst col))), map_app. apply Permutation_app_tail.
  rewrite <- (filter_map fst (fun v => negb (eqb v u)) col), distinct_filter.
  rewrite (map_eq_In _ (fun v => Z.of_nat (length (distinct (values_of v (filter (fun r => negb (eqb (fst r) u)) col)))))).
  - apply Permutation_refl.
  - intros v I. apply filter_In in I. destruct I as [_ I]. apply negb_true_iff in I.
    rewrite values_of_without; [reflexivity | exact (ListLemmas.eqb_neq _ _ I)].
Qed.
