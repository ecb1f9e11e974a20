(** Lemmas for C69: bounds enforced by the user. *)
From Coq Require Import List ZArith QArith Qabs Bool Permutation Lia Lqa.
From Verif Require Import Base BaseLemmas BackendModel BackendSpec ListLemmas BackendProofs
  BounderModel BounderSpec BounderProofs ParamsModel SensModel CombinerModel CombinerSpec CombinerProofs
  CombinerProofs2 CombinerProofs3 EngineModel EngineSpec EngineProofs EngineProofs2 EngineProofs3 EngineProofs4 EngineProofs5
  EngineProps EnforcedSpec.
Import ListNotations.
Local Open Scope Q_scope.

(** ** The parameters *)
Lemma enforcing_accepted p : accepted p -> accepted (enforcing p).
Proof.
  intros [r E].
  exists (RawParams (r_metrics r) (r_noise_kind r) (r_max_partitions_contributed r)
    (r_max_contributions_per_partition r) (r_max_contributions r) (r_budget_weight r)
    (r_min_value r) (r_max_value r) (r_min_sum_per_partition r) (r_max_sum_per_partition r)
    (r_custom_combiners r) (r_vector_norm_kind r) (r_vector_max_norm r) (r_vector_size r)
    false (r_public_partitions_already_filtered r)
    (r_partition_selection_strategy r) (r_pre_threshold r) (r_post_aggregation_thresholding r)
    (r_perform_cross_partition_contribution_bounding r)).
  unfold post_init in *. cbn [r_metrics r_noise_kind r_max_partitions_contributed r_max_contributions_per_partition
    r_max_contributions r_budget_weight r_min_value r_max_value r_min_sum_per_partition r_max_sum_per_partition
    r_custom_combiners r_vector_norm_kind r_vector_max_norm r_vector_size r_contribution_bounds_already_enforced
    r_public_partitions_already_filtered r_partition_selection_strategy r_pre_threshold r_post_aggregation_thresholding
    r_perform_cross_partition_contribution_bounding].
  cbv zeta in *.
  repeat (apply raise_if_ok in E; let B := fresh "B" in destruct E as [B E]).
  repeat match goal with B : ?b = false |- context [raise_if ?b _ _] => rewrite B; change (raise_if false ?e ?k) with k end.
  unfold raise_if. cbn [andb].
  repeat match goal with B : ?b = false |- context [if ?b then Err _ else _] => rewrite B end.
  inversion E; subst p. reflexivity.
Qed.

Lemma enforcing_combiners p : create_compound_combiner (enforcing p) = create_compound_combiner p.
Proof. destruct p. reflexivity. Qed.
Lemma enforcing_plan p c : noise_plan (enforcing p) c = noise_plan p c.
Proof. destruct p, c; reflexivity. Qed.
Lemma enforcing_to_bound {U P V} `{EqDec P} p public (rows : list (U * P * V)) : to_bound (enforcing p) public rows = to_bound p public rows.
Proof. reflexivity. Qed.

Lemma filter_length_le {A} (q : A -> bool) l : (length (filter q l) <= length l)%nat.
Proof. induction l as [|a l IH]; cbn; [lia|]. destruct (q a); cbn; lia. Qed.

Lemma within_filter {U P V} `{EqDec U} `{EqDec P} p (q : U * P * V -> bool) (rows : list (U * P * V)) : within_bounds p rows -> within_bounds p (filter q rows).
Proof.
  intros [A [B C]]. split; [|split].
  - intros m E u. specialize (A m E u). unfold rows_of in *. rewrite filter_comm.
    assert (L := filter_length_le q (filter (fun r => eqb (fst (fst r)) u) rows)). lia.
  - intros l0 E u. specialize (B l0 E u).
    assert (L := length_partitions_incl u rows (filter q rows)). specialize (L ltac:(intros r I; apply filter_In in I; tauto)). lia.
  - intros linf E u k. specialize (C linf E u k). unfold values_of in *. rewrite map_length in *. rewrite filter_comm.
    assert (L := filter_length_le q (filter (fun kv => eqb (fst kv) (u, k)) rows)). lia.
Qed.

Lemma within_to_bound {U P V} `{EqDec U} `{EqDec P} p public (rows : list (U * P * V)) : within_bounds p rows -> within_bounds p (to_bound p public rows).
Proof.
  intro W. unfold to_bound. destruct public as [pub|]; [|exact W].
  destruct (public_partitions_already_filtered p); [exact W|]. rewrite drop_partitions_filter. apply within_filter. exact W.
Qed.

(** ** Bounding keeps everything *)
Lemma kept_complete {U P V} `{EqDec U} `{EqDec P} p ex (sm : sampling U P) (rows : list (U * P * V)) kept :
  accepted p -> within_bounds p rows ->
  bound_contributions p ex sm (fun vs => vs) rows = Ok kept -> Permutation (as_rows kept) rows.
Proof.
  intros Ha [A [B C]] E.
  assert (K : NoDup (map fst kept) /\ (forall k a, In (k, a) kept <-> In k (map fst rows) /\ a = values_of k rows)).
  { destruct (accepted_facts p Ha) as [_ [_ [_ Hf]]]. unfold bound_contributions in E.
    destruct (max_contributions p) as [m|].
    - destruct (m =? 0)%Z; [discriminate|]. inversion E; subst kept.
      apply (per_privacy_id_no_loss (ch_pid sm) (Z.to_nat m) (fun vs : list V => vs)). intro u. specialize (A m eq_refl u). lia.
    - destruct Hf as [l0 [linf [E0 [Ei _]]]]. rewrite E0, Ei in E.
      assert (L0 : forall u, (length (partitions_of u rows) <= Z.to_nat l0)%nat) by (intro u; specialize (B l0 E0 u); lia).
      assert (Li : forall k, (length (values_of k rows) <= Z.to_nat linf)%nat) by (intros [u k]; specialize (C linf Ei u k); lia).
      destruct (perform_cross_partition_contribution_bounding p), ex; inversion E; subst kept.
      + apply (cross_and_per_no_loss (ch_pid_pk sm) (ch_pid sm) _ _ (fun vs : list V => vs)); assumption.
      + apply (cross_partition_no_loss (ch_pid sm) _ (fun vs : list V => vs)); assumption.
      + apply (linf_no_loss (ch_pid_pk sm) _ (fun vs : list V => vs)); assumption.
      + apply (noop_exact (fun vs : list V => vs)). }
  destruct K as [N K].
  assert (Pg : Permutation kept (group_by_key rows)).
  { apply NoDup_Permutation.
    - apply NoDup_map_inv in N. exact N.
    - apply (NoDup_map_inv fst). rewrite group_by_key_keys. apply NoDup_distinct.
    - intros [k a]. rewrite K. symmetry. apply in_group_by_key. }
  unfold as_rows. eapply Permutation_trans; [apply flat_map_Permutation; exact Pg|]. apply group_by_key_ungroup.
Qed.

(** ** The accumulators of a trusted run *)
Definition row_pairs {U P} (rows : list (U * P * value)) : list (P * list value) := map (fun r => (snd (fst r), [snd r])) rows.

Lemma raw_trusted {U P} `{EqDec U} `{EqDec P} p cs (sm : sampling U P) public rows :
  contribution_bounds_already_enforced p = true ->
  raw_accumulators p cs sm public rows =
    Ok (combine_per_key (compound_merge cs) (with_accs cs (row_pairs (to_bound p public rows) ++ empties public))).
Proof.
  intro Hb. unfold raw_accumulators, contributions. rewrite Hb. fold (to_bound p public rows). cbn [rmap]. f_equal. f_equal.
  unfold with_accs, row_pairs, map_values. rewrite map_app, !map_map. cbn [fst snd].
  destruct public as [[|k ks]|]; cbn [empties map].
  - rewrite app_nil_r. reflexivity.
  - unfold add_empty_public_partitions. cbn [map fst snd]. rewrite map_map. reflexivity.
  - rewrite app_nil_r. reflexivity.
Qed.

(** What an accumulator says of a quantity is the sum of what its rows say. *)
Definition per_row (f : acc -> Q) (c : combiner) : Prop :=
  forall vs, f (create c vs) == sumQ (map (fun v => f (create c [v])) vs).

Lemma sumQ_single x : sumQ [x] == x.
Proof. cbn. ring. Qed.
Lemma sumQ_ones {A} (l : list A) : inject_Z (Z.of_nat (length l)) == sumQ (map (fun _ => 1) l).
Proof.
  induction l as [|a l IH]; [reflexivity|]. cbn [length map sumQ fold_right]. change (fold_right Qplus 0) with sumQ.
  rewrite <- IH, Nat2Z.inj_succ, <- Z.add_1_r, inject_Z_plus. change (inject_Z 1) with 1. ring.
Qed.

Lemma vector_zero (qt : quantity) size vs : quantity_of qt (create (CVector size) vs) = 0.
Proof.
  assert (K := create_kind (CVector size) vs). destruct (create (CVector size) vs); cbn in K; try tauto; destruct qt; reflexivity.
Qed.

Lemma quantity_per_row qt c : (forall lo hi, c <> CSum true lo hi) -> c <> CPidCount -> c <> CThresh -> per_row (quantity_of qt) c.
Proof.
  intros N1 N2 N3 vs.
  assert (Zr : forall (f : value -> Q), (forall v, f v == 0) -> sumQ (map f vs) == 0) by (intros f Ef; apply sumQ_zero; intros; apply Ef).
  destruct c as [| | |pp lo hi|lo hi n|lo hi n|ps|sz]; try congruence.
  - destruct qt; cbn [create quantity_of count_of sum_of squares_of length]; [|rewrite Zr by (intro; reflexivity); reflexivity..].
    rewrite sumQ_ones. apply sumQ_ext. intros; reflexivity.
  - destruct pp; [exfalso; apply (N1 lo hi); reflexivity|].
    destruct qt; cbn [create quantity_of count_of sum_of squares_of map];
      [rewrite Zr by (intro; reflexivity); reflexivity| |rewrite Zr by (intro; reflexivity); reflexivity].
    apply sumQ_ext. intros v _. rewrite sumQ_single. reflexivity.
  - destruct qt; cbn [create quantity_of count_of sum_of squares_of map length];
      [rewrite sumQ_ones; apply sumQ_ext; intros; reflexivity| |rewrite Zr by (intro; reflexivity); reflexivity].
    apply sumQ_ext. intros v _. rewrite sumQ_single. reflexivity.
  - destruct qt; cbn [create quantity_of count_of sum_of squares_of map length];
      [rewrite sumQ_ones; apply sumQ_ext; intros; reflexivity| |].
    + apply sumQ_ext. intros v _. rewrite sumQ_single. reflexivity.
    + apply sumQ_ext. intros v _. rewrite sumQ_single. reflexivity.
  - rewrite Zr by (intro; destruct qt; reflexivity). destruct qt; reflexivity.
  - rewrite vector_zero. rewrite Zr; [reflexivity|]. intro v. rewrite vector_zero. reflexivity.
Qed.

Lemma sumQ_Permutation {A} (f : A -> Q) l l' : Permutation l l' -> sumQ (map f l) == sumQ (map f l').
Proof.
  induction 1; cbn [map sumQ fold_right]; try change (fold_right Qplus 0) with sumQ; [reflexivity | rewrite IHPermutation; reflexivity | ring |].
  etransitivity; eassumption.
Qed.

Lemma values_of_cons {K V} `{EqDec K} (k k' : K) (v : V) l :
  values_of k ((k', v) :: l) = if eqb k' k then v :: values_of k l else values_of k l.
Proof. unfold values_of. cbn [filter fst]. destruct (eqb k' k); reflexivity. Qed.
Lemma values_of_same {P V W} `{EqDec P} (k k' : P) (f : V -> W) vs :
  values_of k (map (fun v => (k', f v)) vs) = if eqb k' k then map f vs else [].
Proof.
  induction vs as [|v vs IH]; cbn [map]; [destruct (eqb k' k); reflexivity|].
  rewrite values_of_cons, IH. destruct (eqb k' k); reflexivity.
Qed.

Lemma grouped_sum {U P} `{EqDec P} (f : acc -> Q) c k (kept : list ((U * P) * list value)) : per_row f c ->
  sumQ (map (fun g => f (create c g)) (values_of k (map (fun e => (snd (fst e), snd e)) kept))) ==
  sumQ (map (fun g => f (create c g)) (values_of k (row_pairs (as_rows kept)))).
Proof.
  intro Pr. induction kept as [|[[u k'] vs] kept IH]; [reflexivity|].
  change (as_rows (((u, k'), vs) :: kept)) with (map (fun v => ((u, k'), v)) vs ++ as_rows kept).
  unfold row_pairs in *. rewrite map_app, values_of_app, map_app, sumQ_app, <- IH. rewrite map_map. cbn [map fst snd].
  rewrite values_of_cons, (values_of_same k k' (fun v => [v])). destruct (eqb k' k).
  - cbn [map sumQ fold_right]. change (fold_right Qplus 0) with sumQ. rewrite (Pr vs), map_map. reflexivity.
  - cbn [map]. change (sumQ []) with 0. ring.
Qed.

Lemma same_values {U P} `{EqDec U} `{EqDec P} p cs (sm sm' : sampling U P) public rows col col' i c qt k :
  accepted p -> contribution_bounds_already_enforced p = true -> within_bounds p rows ->
  nth_error cs i = Some c -> (forall lo hi, c <> CSum true lo hi) -> c <> CPidCount -> c <> CThresh ->
  raw_accumulators p cs sm public rows = Ok col ->
  raw_accumulators (enforcing p) cs sm' public rows = Ok col' ->
  raw_value (quantity_of qt) i k col == raw_value (quantity_of qt) i k col'.
Proof.
  intros Ha Hb W Hi N1 N2 N3 E E'. rewrite (raw_trusted p cs sm public rows Hb) in E. inversion E; subst col. clear E.
  destruct (raw_accumulators_pairs (enforcing p) cs sm' public rows col' eq_refl E') as [kept [Ek ->]].
  rewrite enforcing_to_bound in Ek.
  assert (Pm := kept_complete (enforcing p) _ sm' (to_bound p public rows) kept (enforcing_accepted p Ha) (within_to_bound p public rows W) Ek).
  assert (Af : additive (quantity_of qt)) by (destruct qt; [exact count_additive | exact sum_additive | exact squares_additive]).
  rewrite !(raw_value_sum (quantity_of qt) cs i c) by assumption.
  unfold pairs_of. rewrite !values_of_app, !map_app, !sumQ_app. apply Qplus_comp; [|reflexivity].
  rewrite (grouped_sum (quantity_of qt) c k kept) by (apply quantity_per_row; assumption).
  apply sumQ_Permutation. apply values_of_Permutation. unfold row_pairs. apply Permutation_map. symmetry. exact Pm.
Qed.

(** ** Trees *)
Lemma fold_trees ps gs l : fold_left (merge (CQuantile ps)) (map (create (CQuantile ps)) gs) (ATree l) = ATree (l ++ flat_map (map num_of) gs).
Proof.
  revert l. induction gs as [|g gs IH]; intro l; cbn [map fold_left flat_map create merge]; [rewrite app_nil_r; reflexivity|].
  rewrite IH, app_assoc. reflexivity.
Qed.

Lemma raw_tree_pairs {P} `{EqDec P} cs i ps (pairs : list (P * list value)) k :
  nth_error cs i = Some (CQuantile ps) ->
  raw_tree i k (combine_per_key (compound_merge cs) (with_accs cs pairs)) = flat_map (map num_of) (values_of k pairs).
Proof.
  intro Hi. unfold raw_tree.
  assert (N : NoDup (map fst (combine_per_key (compound_merge cs) (with_accs cs pairs))))
    by (rewrite combine_per_key_keys; apply NoDup_distinct).
  destruct (values_of k pairs) as [|g gs] eqn:E.
  - rewrite find_none_keys; [reflexivity|]. rewrite combine_per_key_keys, in_distinct.
    unfold with_accs. rewrite map_values_keys. apply values_of_nil_iff. exact E.
  - assert (Hin : In (k, fold_left (compound_merge cs) (map (compound_create cs) gs) (compound_create cs g))
                     (combine_per_key (compound_merge cs) (with_accs cs pairs))).
    { apply in_combine_per_key. unfold with_accs. rewrite values_of_map_values, E. reflexivity. }
    rewrite (find_In_NoDup _ _ N _ Hin). cbn [snd]. unfold compound_create at 2. rewrite compound_fold. cbn [snd].
    rewrite nth_error_map, Hi. cbn [option_map]. cbn [create]. rewrite fold_trees. reflexivity.
Qed.

Lemma flat_row_pairs {U P} `{EqDec P} k (rows : list (U * P * value)) :
  flat_map (map num_of) (values_of k (row_pairs rows)) = map (fun r => num_of (snd r)) (filter (fun r => eqb (snd (fst r)) k) rows).
Proof.
  unfold values_of, row_pairs. rewrite filter_map, map_map. cbn [fst snd].
  induction (filter (fun r : U * P * value => eqb (snd (fst r)) k) rows) as [|r l IH]; [reflexivity|]. cbn. rewrite IH. reflexivity.
Qed.

Lemma flat_pairs_of {U P} `{EqDec P} k (kept : list ((U * P) * list value)) :
  flat_map (map num_of) (values_of k (map (fun e => (snd (fst e), snd e)) kept)) =
  map (fun r => num_of (snd r)) (filter (fun r => eqb (snd (fst r)) k) (as_rows kept)).
Proof.
  induction kept as [|[[u k'] vs] kept IH]; [reflexivity|].
  change (as_rows (((u, k'), vs) :: kept)) with (map (fun v => ((u, k'), v)) vs ++ as_rows kept).
  cbn [map fst snd]. rewrite values_of_cons, filter_app, map_app, <- IH.
  assert (X : map (fun r : U * P * value => num_of (snd r)) (filter (fun r => eqb (snd (fst r)) k) (map (fun v => ((u, k'), v)) vs)) =
              if eqb k' k then map num_of vs else []).
  { clear. induction vs as [|v vs IHv]; cbn [map filter fst snd]; [destruct (eqb k' k); reflexivity|].
    destruct (eqb k' k); cbn [map fst snd]; rewrite IHv; reflexivity. }
  rewrite X. destruct (eqb k' k); reflexivity.
Qed.

Lemma flat_empties {P} `{EqDec P} k (public : option (list P)) : flat_map (map num_of) (values_of k (empties public)) = [].
Proof.
  destruct public as [pub|]; [|reflexivity]. unfold values_of, empties. rewrite filter_map, map_map. cbn [snd].
  induction (filter (fun x => eqb (fst (x, @nil value)) k) pub); [reflexivity | exact IHl].
Qed.

Lemma raw_tree_kept {U P} `{EqDec U} `{EqDec P} p cs (sm : sampling U P) public rows col i ps :
  contribution_bounds_already_enforced p = false -> nth_error cs i = Some (CQuantile ps) ->
  raw_accumulators p cs sm public rows = Ok col ->
  exists kept, bound_contributions p (compound_expects_sampling cs) sm (fun vs => vs) (to_bound p public rows) = Ok kept /\
    forall k, raw_tree i k col = map (fun r => num_of (snd r)) (filter (fun r => eqb (snd (fst r)) k) (as_rows kept)).
Proof.
  intros Hb Hi E. destruct (raw_accumulators_pairs p cs sm public rows col Hb E) as [kept [Ek ->]].
  exists kept. split; [exact Ek|]. intro k. rewrite (raw_tree_pairs cs i ps _ k Hi). unfold pairs_of.
  rewrite values_of_app, flat_map_app, flat_empties, app_nil_r. apply flat_pairs_of.
Qed.

Lemma raw_tree_trusted {U P} `{EqDec U} `{EqDec P} p cs (sm : sampling U P) public rows col i ps k :
  contribution_bounds_already_enforced p = true -> nth_error cs i = Some (CQuantile ps) ->
  raw_accumulators p cs sm public rows = Ok col ->
  raw_tree i k col = map (fun r => num_of (snd r)) (filter (fun r => eqb (snd (fst r)) k) (to_bound p public rows)).
Proof.
  intros Hb Hi E. rewrite (raw_trusted p cs sm public rows Hb) in E. inversion E; subst col.
  rewrite (raw_tree_pairs cs i ps _ k Hi), values_of_app, flat_map_app, flat_empties, app_nil_r. apply flat_row_pairs.
Qed.
