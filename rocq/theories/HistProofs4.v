(** Proofs that the histograms of pre-aggregated data equal those of the raw
    data (count histograms). *)
From Coq Require Import List ZArith QArith Qround Bool Sorted Permutation Lia Lqa.
From Verif Require Import Base BaseLemmas BackendModel BackendSpec ListLemmas BackendProofs HistModel HistSpec
  HistProofs HistProofs2.
Import ListNotations.
Local Open Scope Z_scope.

(** ** Order of the data does not matter *)

Lemma frequency_histogram_Permutation xs ys :
  Forall (fun x => 1 <= x) xs -> Permutation xs ys -> frequency_histogram xs = frequency_histogram ys.
Proof.
  intros F P. destruct (frequency_histogram_spec xs F) as (h & E & H).
  destruct (frequency_histogram_spec ys (Permutation_Forall P F)) as (h' & E' & H').
  rewrite E, E'. f_equal. apply (histogram_unique ys); [|exact H'].
  exact (histogram_Permutation _ _ _ P H).
Qed.

Lemma occ_Permutation {A} `{EqDec A} (x : A) l l' : Permutation l l' -> occ x l = occ x l'.
Proof. induction 1; cbn; lia. Qed.

Lemma count_per_element_Permutation {A} `{EqDec A} (l l' : list A) :
  Permutation l l' -> Permutation (count_per_element l) (count_per_element l').
Proof.
  intros P. rewrite !count_per_element_normal.
  rewrite (map_ext_in _ (fun x => (x, Z.of_nat (occ x l')))).
  - apply Permutation_map. apply NoDup_Permutation; [apply NoDup_distinct .. |].
    intros x. rewrite !in_distinct. split; apply Permutation_in; [exact P | apply Permutation_sym, P].
  - intros x _. rewrite (occ_Permutation x l l' P). reflexivity.
Qed.

Lemma counts_positive {A} `{EqDec A} (l : list A) : Forall (fun x => 1 <= x) (map snd (count_per_element l)).
Proof.
  rewrite count_per_element_normal, map_map. apply Forall_forall. intros z I.
  apply in_map_iff in I. destruct I as (x & <- & I). apply (proj1 (in_distinct _ _)) in I.
  cbn [snd]. pose proof (occ_pos x l I). lia.
Qed.

(** ** Rounding a sum of unit fractions *)

Lemma py_round_integer q n : (q == inject_Z n)%Q -> py_round q = n.
Proof.
  intros E. unfold py_round.
  assert (Ef : Qfloor (q + (1 # 2)) = n).
  { pose proof (Qfloor_le (q + (1 # 2))) as L. pose proof (Qlt_floor (q + (1 # 2))) as U.
    set (f := Qfloor (q + (1 # 2))) in *. clearbody f.
    assert (inject_Z f < inject_Z (n + 1))%Q as L1.
    { rewrite inject_Z_plus. change (inject_Z 1) with 1%Q. lra. }
    assert (inject_Z n < inject_Z (f + 1))%Q as U1 by lra.
    rewrite <- Zlt_Qlt in L1, U1. lia. }
  rewrite Ef. destruct (Qeq_bool (inject_Z n) (q + (1 # 2))) eqn:B; [|reflexivity].
  apply Qeq_bool_iff in B. lra.
Qed.

Lemma sumQ_repeat q n : (sumQ (repeat q n) == inject_Z (Z.of_nat n) * q)%Q.
Proof.
  induction n as [|n IH]; [cbn; ring|]. cbn [repeat]. unfold sumQ in *. cbn [fold_right].
  rewrite IH, Nat2Z.inj_succ. unfold Z.succ. rewrite inject_Z_plus. change (inject_Z 1) with 1%Q. ring.
Qed.

Lemma unit_fractions n : (0 < n)%nat -> (sumQ (repeat (1 / inject_Z (Z.of_nat n)) n) == 1)%Q.
Proof.
  intros N. rewrite sumQ_repeat. field.
  change 0%Q with (inject_Z 0). rewrite inject_Z_injective. lia.
Qed.

(** The data behind weighted frequencies: every unit [u] appears [k u] times
    with weight [1 / k u]. *)
Lemma values_of_flat_map {U K V} `{EqDec K} (f : U -> list (K * V)) (us : list U) k :
  values_of k (flat_map f us) = flat_map (fun u => values_of k (f u)) us.
Proof. unfold values_of. rewrite filter_flat_map, map_flat_map. reflexivity. Qed.

Lemma values_of_repeat {K V} `{EqDec K} (k k' : K) (v : V) n :
  values_of k (repeat (k', v) n) = if eqb k' k then repeat v n else [].
Proof.
  unfold values_of. induction n as [|n IH]; [destruct (eqb k' k); reflexivity|].
  cbn [repeat filter fst]. destruct (eqb k' k); cbn [map]; rewrite IH; reflexivity.
Qed.

Lemma weighted_counts {U} (val : U -> Z) (k : U -> nat) (us : list U) :
  (forall u, In u us -> (0 < k u)%nat) ->
  let col := flat_map (fun u => repeat (val u, (1 / inject_Z (Z.of_nat (k u)))%Q) (k u)) us in
  map_values py_round (map_values sumQ (group_by_key col))
  = map (fun v => (v, Z.of_nat (occ v (map val us)))) (distinct (map fst col)) /\
  (forall v, In v (map fst col) <-> In v (map val us)).
Proof.
  intros Hk col. split.
  - unfold map_values. rewrite group_by_key_normal, !map_map. cbn [fst snd].
    apply map_ext. intros v. f_equal. apply py_round_integer.
    subst col. rewrite values_of_flat_map.
    induction us as [|u us IH]; [reflexivity|].
    cbn [flat_map map occ]. rewrite sumQ_app, IH by (intros u' I; apply Hk; right; exact I).
    rewrite values_of_repeat. rewrite Nat2Z.inj_add, inject_Z_plus.
    rewrite eqb_sym. unfold eqb. destruct (eq_dec v (val u)).
    + rewrite unit_fractions by (apply Hk; left; reflexivity). reflexivity.
    + reflexivity.
  - intros v. subst col. rewrite !in_map_iff. split.
    + intros ([v' w] & <- & I). apply in_flat_map in I. destruct I as (u & Iu & I).
      apply repeat_spec in I. injection I as -> ->. exists u. auto.
    + intros (u & <- & Iu). exists (val u, 1 / inject_Z (Z.of_nat (k u)))%Q. split; [reflexivity|].
      apply in_flat_map. exists u. split; [exact Iu|]. specialize (Hk u Iu).
      destruct (k u); [lia|]. left. reflexivity.
Qed.

Lemma weighted_histogram {U} (val : U -> Z) (k : U -> nat) (us : list U) :
  (forall u, In u us -> (0 < k u)%nat /\ 1 <= val u) ->
  weighted_frequency_histogram
    (flat_map (fun u => repeat (val u, (1 / inject_Z (Z.of_nat (k u)))%Q) (k u)) us)
  = frequency_histogram (map val us).
Proof.
  intros H. unfold weighted_frequency_histogram.
  destruct (weighted_counts val k us) as [E K]; [intros u I; apply H; exact I|].
  cbn zeta in E, K.
  set (col := flat_map (fun u => repeat (val u, (1 / inject_Z (Z.of_nat (k u)))%Q) (k u)) us) in *.
  rewrite E.
  assert (F : Forall (fun x => 1 <= x) (map val us)).
  { apply Forall_forall. intros x I. apply in_map_iff in I. destruct I as (u & <- & I). apply H. exact I. }
  destruct (frequency_histogram_spec _ F) as (h & Eh & Hh). rewrite Eh.
  destruct (frequencies_histogram (map (fun v => (v, Z.of_nat (occ v (map val us)))) (distinct (map fst col))))
    as (h' & Eh' & Hh').
  - intros v f I. apply in_map_iff in I. destruct I as (v' & Ev & I). injection Ev as <- <-.
    apply (proj1 (in_distinct _ _)) in I. apply K in I. rewrite Forall_forall in F.
    split; [exact (F v' I)|]. pose proof (occ_pos v' _ I). lia.
  - rewrite Eh'. f_equal. apply (histogram_unique (map val us)); [|exact Hh].
    refine (histogram_Permutation _ _ _ _ Hh'). unfold expand. rewrite flat_map_map. cbn [fst snd].
    rewrite (flat_map_ext_In _ (fun x => filter (fun y => eqb y x) (map val us))).
    + apply ungroup_distinct; [apply NoDup_distinct|]. intros x I. apply in_distinct, K. exact I.
    + intros x _. rewrite Nat2Z.id. apply repeat_eq_filter.
Qed.

(** ** The rows of the pre-aggregation *)

(** The (privacy id, partition key) pairs grouped by privacy id. *)
Definition pairs {P K} `{EqDec P} `{EqDec K} (col : list (P * K)) : list (P * K) :=
  flat_map (fun pid => map (pair pid) (distinct (values_of pid col))) (distinct (map fst col)).

Lemma in_values_of {K V} `{EqDec K} (k : K) (v : V) col : In v (values_of k col) <-> In (k, v) col.
Proof.
  unfold values_of. rewrite in_map_iff. split.
  - intros ([k' v'] & <- & I). apply filter_In in I. destruct I as [I E]. apply ListLemmas.eqb_eq in E.
    cbn in *. congruence.
  - intros I. exists (k, v). split; [reflexivity|]. apply filter_In. split; [exact I | apply eqb_refl].
Qed.

Lemma in_pairs {P K} `{EqDec P} `{EqDec K} (col : list (P * K)) pr : In pr (pairs col) <-> In pr col.
Proof.
  unfold pairs. rewrite in_flat_map. destruct pr as [p k]. split.
  - intros (pid & _ & I). apply in_map_iff in I. destruct I as (pk & E & I). injection E as -> ->.
    apply (proj1 (in_distinct _ _)) in I. apply in_values_of. exact I.
  - intros I. exists p. split.
    + apply in_distinct. apply in_map_iff. exists (p, k). auto.
    + apply in_map. apply in_distinct. apply in_values_of. exact I.
Qed.

Lemma NoDup_pairs {P K} `{EqDec P} `{EqDec K} (col : list (P * K)) : NoDup (pairs col).
Proof.
  unfold pairs. apply NoDup_flat_map.
  - apply NoDup_distinct.
  - intros pid _. apply NoDup_map_inj; [|apply NoDup_distinct]. intros a b _ _ E. congruence.
  - intros a b x _ _ Ia Ib. apply in_map_iff in Ia, Ib. destruct Ia as (? & <- & _), Ib as (? & E & _). congruence.
Qed.

Lemma pairs_Permutation {P K} `{EqDec P} `{EqDec K} (col : list (P * K)) : Permutation (pairs col) (distinct col).
Proof.
  apply NoDup_Permutation; [apply NoDup_pairs | apply NoDup_distinct |].
  intros x. rewrite in_pairs, in_distinct. reflexivity.
Qed.

Lemma occ_filter_length {A} `{EqDec A} (x : A) l : occ x l = length (filter (fun y => eqb y x) l).
Proof.
  rewrite <- repeat_eq_filter, repeat_length. reflexivity.
Qed.

Lemma values_of_length {K V} `{EqDec K} (k : K) (col : list (K * V)) :
  length (values_of k col) = occ k (map fst col).
Proof.
  rewrite occ_filter_length. unfold values_of. rewrite map_length, filter_map, map_length. reflexivity.
Qed.

Lemma values_of_rekeyed {P K V} `{EqDec P} (p : P) (rows : list ((P * K) * V)) :
  values_of p (map (fun r => (fst (fst r), (snd (fst r), snd r))) rows)
  = map (fun r => (snd (fst r), snd r)) (filter (fun r => eqb (fst (fst r)) p) rows).
Proof. unfold values_of. rewrite filter_map, map_map. reflexivity. Qed.

(** The rows of one pair, through the two stages of grouping. *)
Lemma values_of_nested {P K V} `{EqDec P} `{EqDec K} (p : P) (k : K) (rows : list ((P * K) * V)) :
  values_of k (values_of p (map (fun r => (fst (fst r), (snd (fst r), snd r))) rows))
  = values_of (p, k) rows.
Proof.
  rewrite values_of_rekeyed. unfold values_of. rewrite filter_map, map_map. cbn [fst snd].
  rewrite filter_filter. f_equal.
  apply filter_ext_In. intros [[p' k'] v] _. cbn [fst snd].
  unfold eqb. destruct (eq_dec (p', k') (p, k)) as [E|N].
  - injection E as -> ->. destruct (eq_dec p p); [|congruence]. destruct (eq_dec k k); [reflexivity | congruence].
  - destruct (eq_dec p' p); [|rewrite ?andb_false_r; reflexivity]. destruct (eq_dec k' k); [congruence|].
    rewrite ?andb_false_l; reflexivity.
Qed.

Lemma keys_nested {P K V} `{EqDec P} `{EqDec K} (p : P) (rows : list ((P * K) * V)) :
  map fst (values_of p (map (fun r => (fst (fst r), (snd (fst r), snd r))) rows)) = values_of p (map fst rows).
Proof.
  rewrite values_of_rekeyed. unfold values_of. rewrite filter_map, !map_map. reflexivity.
Qed.

(** What the analysis bounder reports about one pair. *)
Definition pre_of {P K} `{EqDec P} `{EqDec K} (rows : list ((P * K) * Q)) (pr : P * K) : preagg :=
  mkPre (Z.of_nat (occ pr (map fst rows))) (sum_values (values_of pr rows))
        (Z.of_nat (length (distinct (values_of (fst pr) (map fst rows)))))
        (Z.of_nat (occ (fst pr) (map fst (map fst rows)))).

Lemma sumZ_lengths_group {K V} `{EqDec K} (col : list (K * V)) :
  sumZ (map (fun p => Z.of_nat (length (snd p))) (group_by_key col)) = Z.of_nat (length col).
Proof.
  pose proof (Permutation_length (ungroup_Permutation (distinct (map fst col)) col (NoDup_distinct _)
    (fun k I => proj2 (in_distinct _ _) I))) as L.
  rewrite <- L. rewrite group_by_key_normal, map_map. cbn [snd].
  generalize (distinct (map fst col)) as ks. induction ks as [|k ks IH]; [reflexivity|].
  cbn [map flat_map]. rewrite sumZ_cons, app_length, map_length, IH. lia.
Qed.

Lemma analysis_rows_normal {P K} `{EqDec P} `{EqDec K} (keep : K -> bool) (rows : list ((P * K) * Q)) :
  analysis_rows keep rows
  = map (fun pr => (pr, pre_of rows pr)) (filter (fun pr => keep (snd pr)) (pairs (map fst rows))).
Proof.
  unfold analysis_rows, pairs. rewrite group_by_key_normal, flat_map_map.
  rewrite filter_flat_map, map_flat_map.
  assert (Ek : map fst (map (fun r : P * K * Q => (fst (fst r), (snd (fst r), snd r))) rows) = map fst (map fst rows)).
  { rewrite !map_map. reflexivity. }
  rewrite Ek. apply flat_map_ext_In. intros pid Ip. cbn zeta.
  rewrite sumZ_lengths_group.
  rewrite group_by_key_normal, keys_nested, flat_map_map, map_length. cbn [fst snd].
  rewrite filter_map, map_map.
  rewrite (flat_map_ext_In _ (fun k => if keep k then [((pid, k), pre_of rows (pid, k))] else [])).
  - induction (distinct (values_of pid (map fst rows))) as [|k ks IH]; [reflexivity|].
    cbn [flat_map filter snd]. destruct (keep k); cbn [map app]; rewrite IH; reflexivity.
  - intros k _. destruct (keep k); [|reflexivity]. rewrite values_of_nested. do 2 f_equal.
    unfold pre_of. cbn [fst snd]. rewrite !values_of_length. rewrite Ek. reflexivity.
Qed.

Lemma filter_true {A} (l : list A) : filter (fun _ => true) l = l.
Proof. apply filter_all. reflexivity. Qed.

Lemma preaggregate_normal {P K} `{EqDec P} `{EqDec K} (rows : list ((P * K) * Q)) :
  preaggregate (fun _ => true) rows
  = map (fun pr => (snd pr, pre_of rows pr)) (pairs (map fst rows)).
Proof.
  unfold preaggregate. rewrite analysis_rows_normal, filter_true, map_map. reflexivity.
Qed.

(** ** Comparison, histogram by histogram *)

Lemma distinct_partitions_pos {P K} `{EqDec P} `{EqDec K} (col : list (P * K)) pid :
  In pid (distinct (map fst col)) -> (0 < length (distinct (values_of pid col)))%nat.
Proof.
  intros I. apply (proj1 (in_distinct _ _)) in I. apply in_map_iff in I. destruct I as ([p k] & <- & I).
  cbn [fst]. assert (In k (distinct (values_of p col))) as Ik by (apply in_distinct, in_values_of; exact I).
  destruct (distinct (values_of p col)); [destruct Ik | cbn; lia].
Qed.

Lemma map_const_repeat {A B} (c : B) (l : list A) : map (fun _ => c) l = repeat c (length l).
Proof. induction l as [|x l IH]; [reflexivity|]. cbn. rewrite IH. reflexivity. Qed.

Lemma raw_partitions_per_id {P K} `{EqDec P} `{EqDec K} (col : list (P * K)) :
  Permutation (map snd (count_per_element (map fst (distinct col))))
              (map (fun pid => Z.of_nat (length (distinct (values_of pid col)))) (distinct (map fst col))).
Proof.
  rewrite count_per_element_normal, map_map. cbn [snd].
  rewrite (map_ext_in _ (fun pid => Z.of_nat (length (distinct (values_of pid col))))).
  - apply Permutation_map. apply NoDup_Permutation; [apply NoDup_distinct .. |].
    intros p. rewrite !in_distinct, !in_map_iff. split; intros (x & E & I); exists x; (split; [exact E|]);
      apply in_distinct; exact I.
  - intros pid _. f_equal.
    rewrite <- (occ_Permutation pid _ _ (Permutation_map fst (pairs_Permutation col))).
    unfold pairs. rewrite map_flat_map.
    rewrite (flat_map_ext_In _ (fun p => repeat p (length (distinct (values_of p col))))).
    2: { intros p _. rewrite map_map. cbn [fst]. apply map_const_repeat. }
    assert (G : forall ks, NoDup ks ->
      occ pid (flat_map (fun p => repeat p (length (distinct (values_of p col)))) ks)
      = if mem pid ks then length (distinct (values_of pid col)) else 0%nat).
    { induction ks as [|a ks IH]; intros N; [reflexivity|]. inversion N as [|? ? Na N']; subst.
      cbn [flat_map]. rewrite occ_filter_length, filter_app, app_length, <- !occ_filter_length, IH by exact N'.
      assert (Er : forall n, occ pid (repeat a n) = if eqb pid a then n else 0%nat).
      { induction n as [|n IHn]; [destruct (eqb pid a); reflexivity|]. cbn [repeat occ]. rewrite IHn.
        unfold eqb. destruct (eq_dec pid a); lia. }
      rewrite Er. unfold mem. cbn [existsb]. fold (mem pid ks).
      destruct (eqb pid a) eqn:E; [|reflexivity]. apply ListLemmas.eqb_eq in E. subst a. cbn [orb].
      destruct (mem pid ks) eqn:M; [apply mem_true_iff in M; contradiction | lia]. }
    rewrite G by apply NoDup_distinct.
    destruct (mem pid (distinct (map fst col))) eqn:M; [reflexivity|].
    apply mem_false_iff in M. rewrite in_distinct in M.
    destruct (values_of pid col) as [|k ks] eqn:E; [reflexivity|]. exfalso. apply M.
    apply in_map_iff. exists (pid, k). split; [reflexivity|]. apply in_values_of. rewrite E. left. reflexivity.
Qed.

Lemma l0_equal {P K} `{EqDec P} `{EqDec K} (rows : list ((P * K) * Q)) :
  pre_l0 (preaggregate (fun _ => true) rows) = per_privacy_id_histogram (distinct (map fst rows)).
Proof.
  set (col := map fst rows). unfold pre_l0, per_privacy_id_histogram.
  rewrite preaggregate_normal, map_map. cbn [snd]. fold col.
  unfold pairs. rewrite map_flat_map.
  rewrite (flat_map_ext_In _ (fun pid => repeat
     (Z.of_nat (length (distinct (values_of pid col))),
      (1 / inject_Z (Z.of_nat (length (distinct (values_of pid col)))))%Q)
     (length (distinct (values_of pid col))))).
  2: { intros pid _. rewrite map_map. unfold pre_of. cbn [p_partitions fst snd]. fold col.
       apply map_const_repeat. }
  rewrite (weighted_histogram (fun pid => Z.of_nat (length (distinct (values_of pid col))))
             (fun pid => length (distinct (values_of pid col))) (distinct (map fst col))).
  - apply frequency_histogram_Permutation.
    + apply (Permutation_Forall (raw_partitions_per_id col)). apply counts_positive.
    + apply Permutation_sym, raw_partitions_per_id.
  - intros pid I. pose proof (distinct_partitions_pos col pid I). lia.
Qed.

Lemma l1_equal {P K} `{EqDec P} `{EqDec K} (rows : list ((P * K) * Q)) :
  pre_l1 (preaggregate (fun _ => true) rows) = per_privacy_id_histogram (map fst rows).
Proof.
  set (col := map fst rows). unfold pre_l1, per_privacy_id_histogram.
  rewrite preaggregate_normal, map_map. cbn [snd]. fold col.
  unfold pairs. rewrite map_flat_map.
  rewrite (flat_map_ext_In _ (fun pid => repeat
     (Z.of_nat (occ pid (map fst col)),
      (1 / inject_Z (Z.of_nat (length (distinct (values_of pid col)))))%Q)
     (length (distinct (values_of pid col))))).
  2: { intros pid _. rewrite map_map. unfold pre_of. cbn [p_partitions p_contributions fst snd]. fold col.
       apply map_const_repeat. }
  rewrite (weighted_histogram (fun pid => Z.of_nat (occ pid (map fst col)))
             (fun pid => length (distinct (values_of pid col))) (distinct (map fst col))).
  - rewrite count_per_element_normal, map_map. reflexivity.
  - intros pid I. pose proof (distinct_partitions_pos col pid I).
    apply (proj1 (in_distinct _ _)) in I. pose proof (occ_pos pid _ I). lia.
Qed.

Lemma linf_equal {P K} `{EqDec P} `{EqDec K} (rows : list ((P * K) * Q)) :
  pre_linf (preaggregate (fun _ => true) rows) = linf_histogram (map fst rows).
Proof.
  set (col := map fst rows). unfold pre_linf, linf_histogram.
  rewrite preaggregate_normal, map_map. cbn [snd]. fold col. unfold pre_of. cbn [p_count]. fold col.
  symmetry. apply frequency_histogram_Permutation; [apply counts_positive|].
  rewrite count_per_element_normal, map_map. cbn [snd].
  apply Permutation_map, Permutation_sym, pairs_Permutation.
Qed.

Lemma pid_count_equal {P K} `{EqDec P} `{EqDec K} (rows : list ((P * K) * Q)) :
  pre_partition_privacy_id_count (preaggregate (fun _ => true) rows)
  = per_partition_histogram (distinct (map fst rows)).
Proof.
  set (col := map fst rows). unfold pre_partition_privacy_id_count, per_partition_histogram.
  rewrite preaggregate_normal, map_map. cbn [fst]. fold col.
  apply frequency_histogram_Permutation; [apply counts_positive|].
  apply Permutation_map, count_per_element_Permutation, Permutation_map, pairs_Permutation.
Qed.

(** Summing over the pairs of a partition. *)
Lemma values_of_pairs_sum {P K V} `{EqDec P} `{EqDec K} (rows : list ((P * K) * V)) (k : K) :
  Permutation
    (flat_map (fun pr => values_of pr rows) (filter (fun pr => eqb (snd pr) k) (pairs (map fst rows))))
    (values_of k (map (fun r => (snd (fst r), snd r)) rows)).
Proof.
  set (rk := filter (fun r : P * K * V => eqb (snd (fst r)) k) rows).
  replace (values_of k (map (fun r => (snd (fst r), snd r)) rows)) with (map snd rk).
  2: { unfold values_of. rewrite filter_map, map_map. reflexivity. }
  set (ps := filter (fun pr => eqb (snd pr) k) (pairs (map fst rows))).
  assert (N : NoDup ps) by (apply NoDup_filter', NoDup_pairs).
  assert (Cv : forall pr, In pr (map fst rk) -> In pr ps).
  { intros pr I. apply in_map_iff in I. destruct I as (r & <- & I). apply filter_In in I.
    destruct I as [I E]. apply filter_In. split; [|exact E]. apply in_pairs. apply in_map. exact I. }
  pose proof (Permutation_map snd (ungroup_Permutation ps rk N Cv)) as Pm.
  rewrite map_flat_map in Pm. rewrite <- Pm.
  rewrite (flat_map_ext_In _ (fun pr => map snd (map (fun v => (pr, v)) (values_of pr rk)))); [reflexivity|].
  intros pr I. rewrite map_map. cbn [snd]. rewrite map_id.
  unfold values_of, rk. rewrite filter_filter. f_equal. apply filter_ext_In. intros r _.
  destruct (eqb (fst r) pr) eqn:E; [|rewrite ?andb_false_r; reflexivity].
  apply ListLemmas.eqb_eq in E. subst pr. unfold ps in I. apply filter_In in I. destruct I as [_ E].
  rewrite E. reflexivity.
Qed.

Lemma partition_count_equal {P K} `{EqDec P} `{EqDec K} (rows : list ((P * K) * Q)) :
  pre_partition_count (preaggregate (fun _ => true) rows) = per_partition_histogram (map fst rows).
Proof.
  set (col := map fst rows). unfold pre_partition_count, per_partition_histogram.
  rewrite preaggregate_normal. unfold sum_per_key, map_values.
  rewrite !map_map. cbn [fst snd]. fold col. unfold pre_of. cbn [p_count]. fold col.
  rewrite group_by_key_normal, !map_map. cbn [fst snd].
  symmetry. apply frequency_histogram_Permutation; [apply counts_positive|].
  rewrite count_per_element_normal, map_map. cbn [snd].
  rewrite (map_ext_in _ (fun k => sumZ (values_of k (map (fun pr : P * K => (snd pr, Z.of_nat (occ pr col))) (pairs col))))).
  - apply Permutation_map. apply NoDup_Permutation; [apply NoDup_distinct .. |].
    intros k. rewrite !in_distinct, !in_map_iff. split; intros (pr & E & I); exists pr; (split; [exact E|]);
      apply in_pairs; exact I.
  - intros k _.
    pose proof (Permutation_length (values_of_pairs_sum rows k)) as L. fold col in L.
    rewrite values_of_length in L. rewrite map_map in L. cbn [fst] in L.
    change (map (fun x : P * K * Q => snd (fst x)) rows) with (map (fun x : P * K * Q => snd (fst x)) rows) in L.
    replace (map snd col) with (map (fun x : P * K * Q => snd (fst x)) rows) by (unfold col; rewrite map_map; reflexivity).
    rewrite <- L. rewrite length_flat_map.
    unfold values_of at 2. rewrite filter_map, map_map. cbn [fst snd].
    generalize (filter (fun pr : P * K => eqb (snd pr) k) (pairs col)) as ps.
    induction ps as [|pr ps IH]; [reflexivity|]. cbn [map]. rewrite sumZ_cons, <- IH.
    unfold sumN. cbn [map fold_right]. rewrite values_of_length. fold col. lia.
Qed.
