(** C44: summary of public partitions. *)
From Coq Require Import List ZArith Bool Permutation Lia.
From Verif Require Import Base BaseLemmas ListLemmas BackendModel BackendSpec BackendProofs SummaryModel.
Import ListNotations.
Local Open Scope Z_scope.

(** ** Specification *)

(** What a backend may return for group_by_key: every key once, with its values in any
    order. *)
Definition is_grouping {K V} `{EqDec K} (rows : list (K * V)) (groups : list (K * list V)) : Prop :=
  NoDup (map fst groups) /\
  (forall k, In k (map fst groups) <-> In k (map fst rows)) /\
  (forall k vs, In (k, vs) groups -> Permutation vs (map snd (filter (fun r => eqb (fst r) k) rows))).

(** The partitions in [a] and in [b], and in [a] only, each counted once. *)
Definition in_both {K} `{EqDec K} (a b : list K) : list K := filter (fun k => mem k b) (distinct a).
Definition only_first {K} `{EqDec K} (a b : list K) : list K := filter (fun k => negb (mem k b)) (distinct a).
Definition right_summary {K} `{EqDec K} (data public : list K) (s : summary) : Prop :=
  num_dataset_public s = Z.of_nat (length (in_both data public)) /\
  num_dataset_non_public s = Z.of_nat (length (only_first data public)) /\
  num_empty_public s = Z.of_nat (length (only_first public data)).

(** ** Lemmas *)
Lemma occ_filter {A} `{EqDec A} (x : A) l : occ x l = length (filter (eqb x) l).
Proof.
  induction l as [|y l IH]; [reflexivity|]. cbn [occ filter]. unfold eqb at 1. rewrite IH.
  destruct (eq_dec x y); reflexivity.
Qed.
Lemma filter_rows_true {K} `{EqDec K} (b : bool) (l : list K) k :
  map snd (filter (fun r : K * bool => eqb (fst r) k) (map (fun k => (k, b)) l)) = repeat b (occ k l).
Proof.
  induction l as [|x l IH]; [reflexivity|]. cbn [map filter fst]. rewrite occ_filter in *. cbn [filter].
  rewrite (eqb_sym x k) at 1. destruct (eqb k x) eqn:E.
  - cbn [map snd length repeat]. rewrite IH. reflexivity.
  - exact IH.
Qed.

Lemma occ_NoDup {K} `{EqDec K} (l : list K) k : NoDup l -> occ k l = if mem k l then 1%nat else 0%nat.
Proof.
  rewrite occ_filter. induction l as [|x l IH]; intro N; [reflexivity|]. inversion N as [|? ? Nx N']; subst.
  cbn [filter mem existsb]. unfold mem. cbn [existsb]. destruct (eqb k x) eqn:E; cbn [orb length].
  - apply ListLemmas.eqb_eq in E. subst x. rewrite IH by exact N'.
    destruct (mem k l) eqn:M; [exfalso; apply Nx, mem_true_iff; exact M | reflexivity].
  - exact (IH N').
Qed.

Lemma group_type {K} `{EqDec K} (data public : list K) k vs : NoDup public ->
  (In k data \/ In k public) ->
  Permutation vs (map snd (filter (fun r => eqb (fst r) k) (partition_rows data public))) ->
  process_fn vs = if mem k data then (if mem k public then DATASET_PUBLIC else DATASET_NONPUBLIC) else EMPTY_PUBLIC.
Proof.
  intros N I P. unfold partition_rows in P. rewrite filter_app, map_app, !filter_rows_true in P.
  rewrite (occ_NoDup (distinct data)) in P by apply NoDup_distinct. rewrite (occ_NoDup public) in P by exact N.
  rewrite (mem_ext k (distinct data) data) in P by apply in_distinct.
  destruct (mem k data) eqn:D, (mem k public) eqn:U; cbn [repeat app] in P.
  - apply Permutation_length in P. unfold process_fn. rewrite P. reflexivity.
  - apply Permutation_sym, Permutation_length_1_inv in P. subst vs. reflexivity.
  - apply Permutation_sym, Permutation_length_1_inv in P. subst vs. reflexivity.
  - exfalso. apply mem_false_iff in D, U. tauto.
Qed.

(** The counter of a type in the summary. *)
Lemma to_summary_counts (counts : list (Z * Z)) : NoDup (map fst counts) ->
  (forall t, In t (map fst counts) -> t = DATASET_PUBLIC \/ t = EMPTY_PUBLIC \/ t = DATASET_NONPUBLIC) ->
  let get t := match find (fun tc => fst tc =? t) counts with Some tc => snd tc | None => 0 end in
  to_summary counts = Summary (get DATASET_PUBLIC) (get DATASET_NONPUBLIC) (get EMPTY_PUBLIC).
Proof.
  unfold to_summary.
  assert (G : forall s, NoDup (map fst counts) ->
    (forall t, In t (map fst counts) -> t = DATASET_PUBLIC \/ t = EMPTY_PUBLIC \/ t = DATASET_NONPUBLIC) ->
    let get d t := match find (fun tc => fst tc =? t) counts with Some tc => snd tc | None => d end in
    fold_left (fun s tc =>
      if fst tc =? DATASET_PUBLIC then Summary (snd tc) (num_dataset_non_public s) (num_empty_public s)
      else if fst tc =? DATASET_NONPUBLIC then Summary (num_dataset_public s) (snd tc) (num_empty_public s)
      else Summary (num_dataset_public s) (num_dataset_non_public s) (snd tc)) counts s
    = Summary (get (num_dataset_public s) DATASET_PUBLIC) (get (num_dataset_non_public s) DATASET_NONPUBLIC) (get (num_empty_public s) EMPTY_PUBLIC)).
  2:{ intros N T. exact (G (Summary 0 0 0) N T). }
  induction counts as [|[t c] l IH]; intros s N T; [destruct s; reflexivity|].
  cbn [map fst] in N, T. inversion N as [|? ? Nt N']; subst.
  assert (Z : forall t', t' = t -> find (fun tc => fst tc =? t') l = None).
  { intros t' ->. destruct (find (fun tc => fst tc =? t) l) as [[t' c']|] eqn:F; [|reflexivity].
    apply find_some in F. destruct F as [I E]. apply Z.eqb_eq in E. cbn in E. subst t'.
    exfalso. apply Nt. exact (in_map fst _ _ I). }
  cbn [fold_left fst snd find]. rewrite IH; [|exact N' | intros t' I; apply T; right; exact I].
  destruct (T t (or_introl eq_refl)) as [E|[E|E] ]; subst t; cbn; rewrite (Z _ eq_refl); reflexivity.
Qed.

Lemma count_find {A} `{EqDec A} (f : A -> bool) (x : A) (l : list A) counts :
  Permutation counts (count_per_element l) -> (forall y, f y = true <-> y = x) ->
  (match find (fun tc => f (fst tc)) counts with Some tc => snd tc | None => 0 end) = Z.of_nat (occ x l).
Proof.
  intros P F. rewrite count_per_element_normal in P.
  destruct (find (fun tc => f (fst tc)) counts) as [[y c]|] eqn:E.
  - apply find_some in E. destruct E as [I Fy]. apply F in Fy. cbn in Fy. subst y.
    apply (Permutation_in _ P) in I. apply in_map_iff in I. destruct I as [z [Ez _]]. cbn. congruence.
  - destruct (occ x l) eqn:O; [reflexivity|]. exfalso.
    assert (I : In x l).
    { rewrite occ_filter in O. destruct (filter (eqb x) l) as [|y l'] eqn:Fl; [discriminate|].
      assert (I : In y (filter (eqb x) l)) by (rewrite Fl; left; reflexivity).
      apply filter_In in I. destruct I as [I Ey]. apply ListLemmas.eqb_eq in Ey. subst y. exact I. }
    assert (I' : In (x, Z.of_nat (occ x l)) counts).
    { apply (Permutation_in _ (Permutation_sym P)). apply in_map_iff. exists x. split; [reflexivity | apply in_distinct; exact I]. }
    assert (X := find_none _ _ E _ I'). cbn in X. assert (f x = true) by (apply F; reflexivity). congruence.
Qed.

Lemma occ_map_filter {K} (f : K -> Z) (t : Z) (l : list K) :
  occ t (map f l) = length (filter (fun k => eqb t (f k)) l).
Proof. rewrite occ_filter. rewrite filter_map, map_length. reflexivity. Qed.

(** ** Theorems *)

(** Whatever the order of the groups, of the values in a group and of the counted
    types, the summary is right, for distinct public partitions. *)
Theorem C44_summary : forall {K} `{EqDec K} (data public : list K) groups counts,
  NoDup public ->
  is_grouping (partition_rows data public) groups ->
  Permutation counts (count_per_element (types_of_groups groups)) ->
  right_summary data public (to_summary counts).
Proof.
  intros K H data public groups counts N [Gn [Gk Gv]] P.
  assert (Keys : forall k, In k (map fst groups) <-> In k data \/ In k public).
  { intro k. rewrite Gk. unfold partition_rows. rewrite map_app, in_app_iff, !map_map, !map_id, in_distinct. reflexivity. }
  assert (T : types_of_groups groups = map (fun k => if mem k data then (if mem k public then DATASET_PUBLIC else DATASET_NONPUBLIC) else EMPTY_PUBLIC) (map fst groups)).
  { unfold types_of_groups. rewrite map_map. apply map_ext_in. intros [k vs] I. cbn [fst snd].
    apply group_type; [exact N | apply Keys; exact (in_map fst _ _ I) | apply Gv; exact I]. }
  assert (Nc : NoDup (map fst counts)).
  { apply (Permutation_NoDup (Permutation_sym (Permutation_map fst P))). rewrite count_per_element_normal, map_map, map_id. apply NoDup_distinct. }
  assert (Tc : forall t, In t (map fst counts) -> t = DATASET_PUBLIC \/ t = EMPTY_PUBLIC \/ t = DATASET_NONPUBLIC).
  { intros t I. apply (Permutation_in _ (Permutation_map fst P)) in I.
    rewrite count_per_element_normal, map_map, map_id in I. apply (proj1 (in_distinct _ _)) in I. rewrite T in I.
    apply in_map_iff in I. destruct I as [k [<- _]]. destruct (mem k data), (mem k public); tauto. }
  assert (C : forall t, match find (fun tc => fst tc =? t) counts with Some tc => snd tc | None => 0 end = Z.of_nat (occ t (types_of_groups groups))).
  { intro t. apply (count_find (fun y => y =? t)); [exact P|]. intro y. apply Z.eqb_eq. }
  rewrite to_summary_counts by assumption. unfold right_summary. cbn [num_dataset_public num_dataset_non_public num_empty_public].
  rewrite !C, T, !occ_map_filter.
  assert (L : forall (p : K -> bool) (q : list K), NoDup q -> (forall k, In k (map fst groups) /\ p k = true <-> In k q) ->
              length (filter p (map fst groups)) = length q).
  { intros p q Nq E. apply Permutation_length, NoDup_Permutation; [apply NoDup_filter'; exact Gn | exact Nq|].
    intro k. rewrite filter_In. apply E. }
  split; [|split]; f_equal; apply L.
  - apply NoDup_filter', NoDup_distinct.
  - intro k. rewrite Keys. unfold in_both. rewrite filter_In, in_distinct.
    destruct (mem k data) eqn:D, (mem k public) eqn:U; cbn; rewrite ?mem_true_iff, ?mem_false_iff in *; intuition discriminate.
  - apply NoDup_filter', NoDup_distinct.
  - intro k. rewrite Keys. unfold only_first. rewrite filter_In, in_distinct.
    destruct (mem k data) eqn:D, (mem k public) eqn:U; cbn; rewrite ?mem_true_iff, ?mem_false_iff in *; intuition discriminate.
  - apply NoDup_filter', NoDup_distinct.
  - intro k. rewrite Keys. unfold only_first. rewrite filter_In, in_distinct.
    destruct (mem k data) eqn:D, (mem k public) eqn:U; cbn; rewrite ?mem_true_iff, ?mem_false_iff in *; intuition discriminate.
Qed.

(** The local backend. *)
Lemma local_grouping {K V} `{EqDec K} (rows : list (K * V)) : is_grouping rows (group_by_key rows).
Proof.
  split; [|split].
  - rewrite group_by_key_keys. apply NoDup_distinct.
  - intro k. rewrite group_by_key_keys. apply in_distinct.
  - intros k vs I. apply in_group_by_key in I. destruct I as [_ ->]. reflexivity.
Qed.

Theorem C44_local_summary : forall {K} `{EqDec K} (data public : list K),
  NoDup public -> right_summary data public (compute_summary data public).
Proof.
  intros K H data public N. eapply C44_summary; [exact N | apply local_grouping | reflexivity].
Qed.

(** With a repeated public partition the numbers are wrong: a partition that is not in
    the data is counted as present in both, and a partition that is in both as absent
    from the public ones. *)
Theorem C44_repeated_public_partition_refuted :
  exists data public : list Z, ~ right_summary data public (compute_summary data public) /\
    compute_summary data public = Summary 1 1 0 /\
    in_both data public = [1] /\ only_first public data = [2].
Proof.
  exists [1], [1; 1; 2; 2]. split; [|vm_compute; repeat split; reflexivity].
  intros (_ & A & _). vm_compute in A. discriminate.
Qed.

Example C44_hypotheses_met : NoDup [2; 3; 5] /\
  is_grouping (partition_rows [1; 2; 1; 3] [2; 3; 5]) [(5, [false]); (3, [false; true]); (1, [true]); (2, [true; false])] /\
  compute_summary [1; 2; 1; 3] [2; 3; 5] = Summary 2 1 1.
Proof.
  split; [repeat constructor; cbn; intuition congruence|]. split; [|reflexivity].
  split; [repeat constructor; cbn; intuition congruence|]. split.
  - intro k. cbn. intuition.
  - intros k vs I. cbn in I. repeat (destruct I as [E|I]; [injection E as <- <-; vm_compute; try reflexivity; try apply perm_swap|]). destruct I.
Qed.

Print Assumptions C44_summary.
Print Assumptions C44_local_summary.
Print Assumptions C44_repeated_public_partition_refuted.
