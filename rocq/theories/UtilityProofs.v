(** Lemmas for the utility analysis of several configurations. *)
From Coq Require Import List ZArith QArith Bool Lia Permutation Sorted.
From Verif Require Import Base BaseLemmas ListLemmas BudgetModel ParamsModel BackendModel BackendSpec BackendProofs BounderModel
  AnalysisModel CrossModel CrossSpec CrossProofs TuningModel HistModel HistProofs2 UtilityModel UtilitySpec.
Import ListNotations.
Local Open Scope Z_scope.

(** ** Buckets *)
Lemma bisect_spec l n : StronglySorted Z.lt l ->
  forall i b, nth_error l i = Some b -> (b <= n <-> (i < bisect_right l n)%nat).
Proof.
  unfold bisect_right. induction l as [|x l IH]; intros S i b E; [destruct i; discriminate|].
  inversion S as [|? ? S' F]; subst. rewrite Forall_forall in F. cbn [filter].
  destruct i as [|i]; cbn in E.
  - inversion E; subst b. destruct (Z.leb_spec x n); cbn [length]; [lia|].
    assert (Z0 : filter (fun b => b <=? n) l = []).
    { clear -F H. induction l as [|y l IH]; [reflexivity|]. cbn. assert (x < y) by (apply F; left; reflexivity).
      destruct (Z.leb_spec y n); [lia|]. apply IH. intros z Hz. apply F. right. exact Hz. }
    rewrite Z0. cbn. lia.
  - assert (x < b) by (apply F; apply nth_error_In in E; exact E).
    rewrite (IH S' i b E). destruct (Z.leb_spec x n); cbn [length]; [lia|].
    assert (~ b <= n) by lia. rewrite (IH S' i b E) in H1. lia.
Qed.
Lemma bisect_le l n : (bisect_right l n <= length l)%nat.
Proof. unfold bisect_right. induction l as [|x l IH]; cbn; [lia|]. destruct (x <=? n); cbn; lia. Qed.

Lemma bounds_sorted : StronglySorted Z.lt bucket_bounds.
Proof.
  assert (G : forall l, (fix ok l := match l with [] => true | x :: l' => forallb (Z.ltb x) l' && ok l' end) l = true -> StronglySorted Z.lt l).
  { induction l as [|x l IH]; intro H; [constructor|]. apply andb_prop in H. destruct H as [H1 H2]. constructor; [exact (IH H2)|].
    apply Forall_forall. intros y Hy. rewrite forallb_forall in H1. apply Z.ltb_lt, H1, Hy. }
  apply G. vm_compute. reflexivity.
Qed.

(** The bucket of [n] is given by a position. *)
Lemma lower_pos n : 0 <= n -> exists i, (i = bisect_right bucket_bounds n - 1)%nat /\ (S i = bisect_right bucket_bounds n)%nat /\
  nth_error bucket_bounds i = Some (lower_bound n) /\ lower_bound n <= n.
Proof.
  intro H. unfold lower_bound. destruct (Z.ltb_spec n 0); [lia|].
  assert (B := bisect_le bucket_bounds n).
  assert (P : (0 < bisect_right bucket_bounds n)%nat) by (apply (bisect_spec _ n bounds_sorted 0 0); [reflexivity|exact H]).
  exists (bisect_right bucket_bounds n - 1)%nat. split; [reflexivity|]. split; [lia|].
  assert (E : nth_error bucket_bounds (bisect_right bucket_bounds n - 1) = Some (nth (bisect_right bucket_bounds n - 1) bucket_bounds 0))
    by (apply nth_error_nth'; lia).
  split; [exact E|]. apply (bisect_spec _ n bounds_sorted _ _ E). lia.
Qed.
Lemma nth_error_sorted l i j a b : StronglySorted Z.lt l -> nth_error l i = Some a -> nth_error l j = Some b ->
  (a < b <-> (i < j)%nat).
Proof.
  intros S Ea Eb. assert (G : forall l i j a b, StronglySorted Z.lt l -> nth_error l i = Some a -> nth_error l j = Some b -> (i < j)%nat -> a < b).
  { clear. induction l as [|x l IH]; intros i j a b S Ea Eb L; [destruct i; discriminate|].
    inversion S as [|? ? S' F]; subst. destruct j as [|j]; [lia|]. destruct i as [|i]; cbn in *.
    - inversion Ea; subst a. rewrite Forall_forall in F. apply F. exact (nth_error_In _ _ Eb).
    - apply (IH i j); auto. lia. }
  split; [|apply (G l i j a b S Ea Eb)]. intro L. destruct (Nat.lt_trichotomy i j) as [X|[X|X]]; [exact X| |].
  - subst. rewrite Ea in Eb. inversion Eb. lia.
  - assert (Y := G l j i b a S Eb Ea X). lia.
Qed.
Lemma bisect_of_bound i b : nth_error bucket_bounds i = Some b -> bisect_right bucket_bounds b = S i.
Proof.
  intro E. assert (L : (i < bisect_right bucket_bounds b)%nat) by (apply (bisect_spec _ b bounds_sorted _ _ E); lia).
  destruct (Nat.eq_dec (bisect_right bucket_bounds b) (S i)) as [X|X]; [exact X|].
  assert (B := bisect_le bucket_bounds b).
  assert (E2 : nth_error bucket_bounds (S i) = Some (nth (S i) bucket_bounds 0)) by (apply nth_error_nth'; lia).
  assert (M : nth (S i) bucket_bounds 0 <= b) by (apply (bisect_spec _ b bounds_sorted _ _ E2); lia).
  assert (M2 : b < nth (S i) bucket_bounds 0) by (apply (nth_error_sorted _ i (S i) _ _ bounds_sorted E E2); lia). lia.
Qed.
Lemma bound_nonneg i b : nth_error bucket_bounds i = Some b -> 0 <= b.
Proof.
  intro E. destruct i as [|i]; [inversion E; lia|].
  assert (0 < b) by (apply (nth_error_sorted bucket_bounds 0 (S i) 0 b bounds_sorted eq_refl E); lia). lia.
Qed.
Lemma upper_of_bound i b : nth_error bucket_bounds i = Some b ->
  upper_bound b = match nth_error bucket_bounds (S i) with Some u => u | None => -1 end.
Proof.
  intro E. unfold upper_bound. assert (H := bound_nonneg _ _ E). destruct (Z.ltb_spec b 0); [lia|].
  rewrite (bisect_of_bound _ _ E). reflexivity.
Qed.
Lemma bucket_iff n m : 0 <= n -> 0 <= m ->
  in_range (lower_bound m) (upper_bound (lower_bound m)) n = (lower_bound n =? lower_bound m).
Proof.
  intros Hn Hm. destruct (lower_pos n Hn) as (i & _ & I2 & I3 & I4), (lower_pos m Hm) as (j & _ & J2 & J3 & J4).
  rewrite (upper_of_bound _ _ J3). unfold in_range.
  assert (A : lower_bound m <= n <-> (j < S i)%nat).
  { rewrite (bisect_spec _ n bounds_sorted _ _ J3), <- I2. reflexivity. }
  destruct (Z.eqb_spec (lower_bound n) (lower_bound m)) as [E|E].
  - assert (i = j).
    { destruct (Nat.lt_trichotomy i j) as [X|[X|X]]; [|exact X|].
      - apply (nth_error_sorted _ i j _ _ bounds_sorted I3 J3) in X. lia.
      - apply (nth_error_sorted _ j i _ _ bounds_sorted J3 I3) in X. lia. }
    subst j. apply andb_true_iff. split; [apply Z.leb_le, A; lia|].
    destruct (nth_error bucket_bounds (S i)) as [u|] eqn:U; [|reflexivity].
    apply orb_true_iff. right. apply Z.ltb_lt. destruct (Z.lt_ge_cases n u) as [X|X]; [exact X|].
    assert (S i < bisect_right bucket_bounds n)%nat by (apply (bisect_spec _ n bounds_sorted _ _ U); lia). lia.
  - destruct (Z.leb_spec (lower_bound m) n) as [L|L]; [|reflexivity]. cbn [andb].
    assert (J : (j < S i)%nat) by (apply A; exact L).
    assert (j <> i) by (intro; subst; rewrite I3 in J3; inversion J3; congruence).
    destruct (nth_error bucket_bounds (S j)) as [u|] eqn:U.
    + assert (u <= n) by (apply (bisect_spec _ n bounds_sorted _ _ U); lia).
      assert (Hu := bound_nonneg _ _ U). apply orb_false_iff. split; [apply Z.eqb_neq; lia|apply Z.ltb_ge; lia].
    + apply nth_error_None in U. assert (nth_error bucket_bounds i <> None) by congruence.
      apply nth_error_Some in H0. lia.
Qed.
Lemma bucket_disjoint n m : 0 <= n -> 0 <= m -> lower_bound n < lower_bound m ->
  0 < upper_bound (lower_bound n) <= lower_bound m.
Proof.
  intros Hn Hm L. destruct (lower_pos n Hn) as (i & _ & _ & I3 & _), (lower_pos m Hm) as (j & _ & _ & J3 & _).
  rewrite (upper_of_bound _ _ I3). assert (X : (i < j)%nat) by (apply (nth_error_sorted _ i j _ _ bounds_sorted I3 J3); exact L).
  assert (Lj : (j < length bucket_bounds)%nat) by (apply nth_error_Some; congruence).
  destruct (nth_error bucket_bounds (S i)) as [u|] eqn:U; [|apply nth_error_None in U; lia].
  assert (0 < u) by (apply (nth_error_sorted bucket_bounds 0 (S i) 0 u bounds_sorted eq_refl U); lia).
  split; [assumption|]. destruct (Nat.eq_dec (S i) j) as [E|E]; [subst; rewrite U in J3; inversion J3; lia|].
  assert (u < lower_bound m) by (apply (nth_error_sorted _ (S i) j _ _ bounds_sorted U J3); lia). lia.
Qed.

(** ** Packing *)
Definition chunk_metrics (ids count : Z) (chunk : list umetric) : partition_metrics :=
  PartitionMetrics (keep_probability chunk) ids count (errors_of chunk).

Lemma errors_of_USum l : errors_of (map USum l) = l.
Proof. unfold errors_of. induction l as [|x l IH]; [reflexivity|]. cbn in *. rewrite IH. reflexivity. Qed.
Lemma keep_USum l : keep_probability (map USum l) = 1%Q.
Proof. induction l; cbn; auto. Qed.

Lemma update_nth_app {A} (f : A -> A) (a : list A) x b : update_nth (length a) f (a ++ x :: b) = a ++ f x :: b.
Proof. induction a as [|y a IH]; cbn; [reflexivity|]. rewrite IH. reflexivity. Qed.

(** One configuration is filled in, the metrics of the others stay. *)
Lemma pack_errors m done p rest (errs : list sum_metrics) i ms :
  (0 < m)%nat -> (i + length errs <= m * S (length done))%nat -> (m * length done <= i)%nat ->
  pack_loop m i (map USum errs ++ ms) (done ++ p :: rest) =
  pack_loop m (i + length errs) ms
    (done ++ PartitionMetrics (pm_keep p) (pm_ids p) (pm_count p) (pm_errors p ++ errs) :: rest).
Proof.
  intro Hm. revert p i. induction errs as [|e errs IH]; intros p i H1 H2; cbn [map app length].
  - rewrite Nat.add_0_r, app_nil_r. destruct p; reflexivity.
  - assert (D : (i / m = length done)%nat).
    { symmetry. apply Nat.div_unique with (i - m * length done)%nat; cbn [length] in H1; lia. }
    cbn [pack_loop]. rewrite D, nth_error_app2, Nat.sub_diag by lia. cbn [nth_error set_metric rbind].
    rewrite update_nth_app, IH by (cbn [length] in H1; lia). cbn [pm_keep pm_ids pm_count pm_errors].
    rewrite <- app_assoc. cbn [app]. f_equal. lia.
Qed.
Lemma pack_chunk public k m done ids count rest chunk i ms :
  (0 < m)%nat -> chunk_ok public k chunk -> length chunk = m -> i = (m * length done)%nat ->
  pack_loop m i (chunk ++ ms) (done ++ PartitionMetrics 1 ids count [] :: rest) =
  pack_loop m (m * S (length done)) ms (done ++ chunk_metrics ids count chunk :: rest).
Proof.
  intros Hm (errs & Lk & C) Lc ->. destruct public.
  - subst chunk. rewrite map_length in Lc. rewrite pack_errors by (try lia). cbn [pm_keep pm_ids pm_count pm_errors app].
    unfold chunk_metrics. rewrite errors_of_USum, keep_USum. f_equal. lia.
  - destruct C as [q ->]. cbn [length] in Lc. rewrite map_length in Lc. cbn [app pack_loop].
    assert (D : (m * length done / m = length done)%nat) by (rewrite Nat.mul_comm; apply Nat.div_mul; lia).
    rewrite D, nth_error_app2, Nat.sub_diag by lia. cbn [nth_error set_metric rbind]. rewrite update_nth_app.
    cbn [pm_keep pm_ids pm_count pm_errors]. rewrite pack_errors by lia. cbn [pm_keep pm_ids pm_count pm_errors app].
    unfold chunk_metrics. cbn [errors_of flat_map app keep_probability].
    change (flat_map _ (map USum errs)) with (errors_of (map USum errs)). rewrite errors_of_USum. f_equal. lia.
Qed.
Lemma pack_chunks public k m ids count chunks : forall done,
  (0 < m)%nat -> Forall (chunk_ok public k) chunks -> Forall (fun c => length c = m) chunks ->
  pack_loop m (m * length done) (concat chunks) (done ++ repeat (PartitionMetrics 1 ids count []) (length chunks)) =
  Ok (done ++ map (chunk_metrics ids count) chunks).
Proof.
  induction chunks as [|c cs IH]; intros done Hm F L; [reflexivity|].
  inversion F; subst. inversion L; subst. cbn [concat length repeat map].
  rewrite (pack_chunk public k _ done ids count _ c _ (concat cs)) by auto.
  replace (done ++ chunk_metrics ids count c :: repeat (PartitionMetrics 1 ids count []) (length cs))
    with ((done ++ [chunk_metrics ids count c]) ++ repeat (PartitionMetrics 1 ids count []) (length cs)) by (rewrite <- app_assoc; reflexivity).
  replace (length c * S (length done))%nat with (length c * length (done ++ [chunk_metrics ids count c]))%nat by (rewrite app_length; cbn; lia).
  rewrite IH by assumption. rewrite <- app_assoc. reflexivity.
Qed.
Lemma chunk_length public k chunk : chunk_ok public k chunk -> length chunk = (if public then k else S k).
Proof. intros (e & L & C). destruct public; [subst chunk; rewrite map_length; exact L|]. destruct C as [p ->]. cbn. rewrite map_length. lia. Qed.
Lemma concat_length_const {A} m (l : list (list A)) : Forall (fun c => length c = m) l -> length (concat l) = (m * length l)%nat.
Proof. induction 1; cbn; [lia|]. rewrite app_length. lia. Qed.
Lemma pack_row public k n ids count chunks :
  (1 <= n)%nat -> length chunks = n -> Forall (chunk_ok public k) chunks ->
  pack n (URaw ids count :: concat chunks) = Ok (map (chunk_metrics ids count) chunks).
Proof.
  intros Hn L F. unfold pack.
  assert (FL : Forall (fun c => length c = (if public then k else S k)) chunks).
  { apply Forall_forall. intros c Hc. rewrite Forall_forall in F. apply (chunk_length public k), F, Hc. }
  rewrite (concat_length_const _ _ FL), L, Nat.mod_mul by lia. cbn [Nat.eqb negb]. rewrite Nat.div_mul by lia.
  set (m := if public then k else S k) in *. destruct (Nat.eq_dec m 0) as [Z|Z].
  - assert (E : concat chunks = []). { apply length_zero_iff_nil. rewrite (concat_length_const _ _ FL), Z. reflexivity. }
    rewrite E. cbn [pack_loop]. f_equal. subst n. clear -FL Z. induction chunks as [|c cs IH]; [reflexivity|].
    inversion FL; subst. cbn. rewrite <- IH by assumption. rewrite Z in H1. apply length_zero_iff_nil in H1. subst c. reflexivity.
  - assert (P := pack_chunks public k m ids count chunks [] ltac:(lia) F FL). cbn [length app] in P. rewrite Nat.mul_0_r in P.
    rewrite <- L at 1. exact P.
Qed.
