(** Lemmas for C59: the counts that the engine gives to the selection strategy. *)
From Coq Require Import List ZArith QArith Qreals Reals Bool Lia Lra.
From Verif Require Import Base BaseLemmas BackendModel ListLemmas BounderSpec ParamsModel CombinerModel EngineModel EngineSpec
  EngineProofs3 EngineProofs4 EngineProofs5 EngineProps EngineProps2 VectorModel LaplaceSpec LaplaceProofs
  SelectModel SelectSpec SelectProofs SelectProofs2.
Import ListNotations.
Local Open Scope R_scope.

Lemma accepted_pre_threshold p t : accepted p -> pre_threshold p = Some t -> (0 < t)%Z.
Proof.
  intros [r E] Et. unfold post_init in E.
  repeat (apply raise_if_ok in E; let B := fresh "B" in destruct E as [B E]).
  inversion E; subst p. clear E. cbn [pre_threshold] in Et.
  destruct (r_pre_threshold r) as [[z|]|]; cbn in Et; try discriminate. inversion Et; subst.
  repeat match goal with B : is_some _ && _ = false |- _ => cbn in B end.
  match goal with B : (_ <=? 0)%Z = false |- _ => apply Z.leb_gt in B; exact B end.
Qed.

Lemma ids_of_rows {U P V} `{EqDec U} `{EqDec P} (k : P) (rows : list (U * P * V)) :
  (length (ids_of k rows) <= length rows)%nat.
Proof.
  unfold ids_of. eapply Nat.le_trans; [apply NoDup_incl_length; [apply NoDup_distinct|]|].
  - intros x Hx. apply (proj1 (in_distinct _ _)) in Hx. exact Hx.
  - rewrite map_length. induction rows as [|r rows IH]; [cbn; lia|]. cbn [filter]. destruct (eqb (snd (fst r)) k); cbn; lia.
Qed.

(** The sizes given to should_keep. *)
Lemma counts_of_run {U P} `{EqDec U} `{EqDec P} p cs (sm : sampling U P) rows col :
  accepted p -> create_compound_combiner p = Ok cs ->
  post_aggregation_thresholding p = false -> public_partitions_already_filtered p = false ->
  contribution_bounds_already_enforced p = false -> valid_sampling p sm ->
  raw_accumulators p cs sm None rows = Ok col ->
  (forall k, (0 <= row_count k col <= Z.of_nat (length rows))%Z) /\
  forall keep nz out, aggregate p sm keep nz None rows = Ok out ->
    forall k, In k (map fst out) <-> (0 < row_count k col)%Z /\ keep k (row_count k col) = true.
Proof.
  intros Ha Hcs Ht Hf Hb Hv Er. destruct (private_run p cs sm rows Ha Hcs Ht Hf) as [col0 [m [Er0 [Em R]]]].
  assert (col0 = col) by congruence. subst col0.
  unfold max_rows_per_privacy_id in Em. rewrite Hb in Em. inversion Em; subst m.
  assert (B := fun k => row_count_bound p cs sm rows col k Hb Hv Er).
  assert (D : forall k, In k (map fst col) \/ ~ In k (map fst col)).
  { intro k. destruct (in_dec eq_dec k (map fst col)); auto. }
  split.
  - intro k. assert (L := ids_of_rows k rows). destruct (D k) as [X|X]; [specialize (B k X); lia|].
    rewrite (row_count_absent _ _ X). lia.
  - intros keep nz out E k. destruct (R keep nz out E) as [_ K]. rewrite K, divide_by_one. destruct (D k) as [X|X].
    + specialize (B k X). intuition lia.
    + rewrite (row_count_absent _ _ X). intuition lia.
Qed.

(** The random set of partitions released by aggregate. *)
Lemma aggregate_law {U P} `{EqDec U} `{EqDec P} p cs (sm : sampling U P) nz rows col keep keys E :
  accepted p -> create_compound_combiner p = Ok cs -> ~ In VECTOR_SUM (metrics p) ->
  (forall k i l qs, length (n_quantiles (nz k i) l qs) = length qs) ->
  post_aggregation_thresholding p = false -> public_partitions_already_filtered p = false ->
  contribution_bounds_already_enforced p = false -> valid_sampling p sm ->
  raw_accumulators p cs sm None rows = Ok col ->
  NoDup keys -> (forall z, (z <= 0)%Z -> keep z = 0) ->
  aggregate_probability p sm nz keep keys E rows = kept keep (map (fun k => row_count k col) keys) E.
Proof.
  intros Ha Hcs Hvs Hq Ht Hf Hb Hv Er Nk Z0.
  destruct (counts_of_run p cs sm rows col Ha Hcs Ht Hf Hb Hv Er) as [B K].
  unfold aggregate_probability.
  rewrite (expectation_ext _ _ _ (fun heads => indicator (E (map (fun k => (0 <? row_count k col)%Z && answers heads k (row_count k col)) keys)))).
  - apply (run_law keep keys (length rows) (fun k => row_count k col)); auto.
  - intro heads. destruct (C24_aggregation_succeeds p cs sm (answers heads) nz None rows Ha Hcs Hvs Hq) as [out [Eo _]].
    rewrite Eo. f_equal. f_equal. unfold shown. apply map_ext. intro k.
    apply eq_true_iff_eq. rewrite mem_true_iff, (K _ _ _ Eo k), andb_true_iff, Z.ltb_lt. reflexivity.
Qed.
