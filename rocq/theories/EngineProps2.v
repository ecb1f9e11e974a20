(** Properties C24-C27: which partitions are released. *)
From Coq Require Import List ZArith QArith Bool Lia.
From Verif Require Import Base BaseLemmas BackendModel BackendSpec ListLemmas BackendProofs BounderModel BounderSpec
  BounderProofs ParamsModel SensModel CombinerModel CombinerSpec EngineModel EngineSpec
  EngineProofs EngineProofs2 EngineProofs3 EngineProofs4 EngineProofs5 EngineProps.
Import ListNotations.
Local Close Scope Q_scope.

(** ** C24 *)

(** Exactly the public partitions are released, each once, with or without data. *)
Theorem C24_public_partitions {U P} `{EqDec U} `{EqDec P} p (sm : sampling U P) keep nz pub rows out :
  (contribution_bounds_already_enforced p = false -> valid_sampling p sm) ->
  (public_partitions_already_filtered p = true -> forall r, In r rows -> In (snd (fst r)) pub) ->
  post_aggregation_thresholding p = false ->
  aggregate p sm keep nz (Some pub) rows = Ok out ->
  NoDup (map fst out) /\ forall k, In k (map fst out) <-> In k pub.
Proof.
  intros Hv Hf Ht E. destruct (aggregate_split _ _ _ _ _ _ _ E) as [cs [col [out0 [_ [Es [F ->]]]]]]. rewrite Ht.
  destruct (selected_raw _ _ _ _ _ _ _ Es) as [raw [Er [_ [S _]]]]. assert (C := S (selects_public p pub)). subst col. clear S.
  rewrite (forall2_keys (fun row => compound_metrics (nz (fst row)) cs (snd row)) raw out0 F).
  exact (public_keys p cs sm pub rows raw Hv Hf Er).
Qed.
Print Assumptions C24_public_partitions.

(** The run does succeed, and each row has exactly the requested metrics
    (VECTOR_SUM is excluded, see C20_empty_vector_accumulator_refuted). *)
Theorem C24_aggregation_succeeds {U P} `{EqDec U} `{EqDec P} p cs (sm : sampling U P) keep nz public rows :
  accepted p -> create_compound_combiner p = Ok cs -> ~ In VECTOR_SUM (metrics p) ->
  (forall k i l qs, length (n_quantiles (nz k i) l qs) = length qs) ->
  exists out, aggregate p sm keep nz public rows = Ok out /\
    forall k d, In (k, d) out -> NoDup (map fst d) /\ (forall n, In n (map fst d) <-> In n (map name_of (metrics p))).
Proof.
  intros Ha Hcs Hv Hq. eapply aggregate_succeeds; eauto.
  destruct (has VECTOR_SUM (metrics p)) eqn:E; [|reflexivity]. exfalso. apply Hv.
  unfold has in E. apply existsb_exists in E. destruct E as [x [Hx Ex]]. destruct x; try discriminate Ex. exact Hx.
Qed.
Print Assumptions C24_aggregation_succeeds.

Definition thresholding_params : params :=
  Params [PRIVACY_ID_COUNT] LaplaceNoise (Some 2%Z) (Some 2%Z) None 1%Q None None None None false None None None
         false false TruncatedGeometric None true true.
(** No noise; thresholding releases counts of at least [t]. *)
Definition no_noise (t : Z) : noises :=
  Noises (fun q => q) (fun q => q) (fun q => q) (fun z => if (t <=? z)%Z then Some (inject_Z z) else None)
         (fun _ qs => qs) (fun l => l).

(** With post_aggregation_thresholding a public partition can be missing. *)
Theorem C24_thresholding_refuted :
  exists p (sm : sampling Z Z) keep nz pub rows out,
    accepted p /\ valid_sampling p sm /\ contribution_bounds_already_enforced p = false /\
    aggregate p sm keep nz (Some pub) rows = Ok out /\
    exists k, In k pub /\ ~ In k (map fst out).
Proof.
  exists thresholding_params, (first_sampling 2 2), (fun _ _ => true), (fun _ _ => no_noise 2), [10; 20; 40]%Z, demo_rows.
  eexists. split; [exists (raw_of thresholding_params); reflexivity|].
  split; [split; intros x X; inversion X; subst; apply first_n_valid|]. split; [reflexivity|].
  split; [vm_compute; reflexivity|]. exists 40%Z. split; [cbn; auto|]. cbn. intuition discriminate.
Qed.
Print Assumptions C24_thresholding_refuted.

Definition vector_params : params :=
  Params [VECTOR_SUM] LaplaceNoise (Some 2%Z) (Some 2%Z) None 1%Q None None None None false
         (Some Linf) (Some (5#1)%Q) (Some 1%Z) false false TruncatedGeometric None false true.

(** With VECTOR_SUM a public partition absent from the data makes the run fail. *)
Theorem C24_vector_sum_refuted :
  exists p cs (sm : sampling Z Z) keep nz pub rows e,
    accepted p /\ create_compound_combiner p = Ok cs /\ valid_sampling p sm /\
    aggregate p sm keep nz (Some pub) rows = Err e.
Proof.
  exists vector_params, [CVector 1%Z], (first_sampling 2 2), (fun _ _ => true), (fun _ _ => no_noise 0),
    [10; 20]%Z, [(1%Z, 10%Z, Vec [(1#1)%Q])], TypeError.
  split; [exists (raw_of vector_params); reflexivity|]. split; [reflexivity|].
  split; [split; intros x X; inversion X; subst; apply first_n_valid|]. vm_compute. reflexivity.
Qed.
Print Assumptions C24_vector_sum_refuted.

Example C24_hypotheses_met :
  let p := demo_params [COUNT; SUM; PRIVACY_ID_COUNT] None in
  accepted p /\ valid_sampling p (first_sampling 2 2) /\ contribution_bounds_already_enforced p = false /\
  post_aggregation_thresholding p = false /\ public_partitions_already_filtered p = false /\
  exists out, aggregate p (first_sampling 2 2) (fun _ _ => false) (fun _ _ => no_noise 0) (Some [10; 40; 10]%Z) demo_rows = Ok out
              /\ map fst out = [10; 40]%Z.
Proof.
  cbn zeta. split; [exists (raw_of (demo_params [COUNT; SUM; PRIVACY_ID_COUNT] None)); reflexivity|].
  split; [split; intros x X; inversion X; subst; apply first_n_valid|].
  repeat (split; [reflexivity|]). eexists. split; vm_compute; reflexivity.
Qed.

(** ** C25 *)

(** Two datasets with the same rows in the public partitions give the same result. *)
Theorem C25_non_public_rows_ignored {U P} `{EqDec U} `{EqDec P} p (sm : sampling U P) keep nz pub rows rows' :
  public_partitions_already_filtered p = false ->
  filter (fun r => if in_dec eq_dec (snd (fst r)) pub then true else false) rows =
  filter (fun r => if in_dec eq_dec (snd (fst r)) pub then true else false) rows' ->
  aggregate p sm keep nz (Some pub) rows = aggregate p sm keep nz (Some pub) rows'.
Proof.
  intros Hf E. unfold aggregate, selected_accumulators, raw_accumulators, contributions. rewrite Hf, !drop_partitions_filter.
  assert (M : forall l : list (U * P * value), filter (fun r => mem (snd (fst r)) pub) l =
                filter (fun r => if in_dec eq_dec (snd (fst r)) pub then true else false) l).
  { intro l. apply filter_ext. intro r. destruct (mem (snd (fst r)) pub) eqn:X; destruct (in_dec eq_dec (snd (fst r)) pub) as [Y|Y]; auto; exfalso.
    - apply Y. apply mem_true_iff. exact X.
    - apply (proj2 (mem_true_iff _ _)) in Y. congruence. }
  rewrite !M, E. reflexivity.
Qed.
Print Assumptions C25_non_public_rows_ignored.

(** Rows inserted anywhere. *)
Theorem C25_inserted_rows_ignored {U P} `{EqDec U} `{EqDec P} p (sm : sampling U P) keep nz pub before extra after :
  public_partitions_already_filtered p = false ->
  (forall r, In r extra -> ~ In (snd (fst r)) pub) ->
  aggregate p sm keep nz (Some pub) (before ++ extra ++ after) = aggregate p sm keep nz (Some pub) (before ++ after).
Proof.
  intros Hf Hx. apply C25_non_public_rows_ignored; [exact Hf|]. rewrite !filter_app. f_equal.
  rewrite (filter_none _ extra); [reflexivity|]. intros r Hr. destruct (in_dec eq_dec (snd (fst r)) pub) as [Y|Y]; [|reflexivity].
  exfalso. exact (Hx r Hr Y).
Qed.
Print Assumptions C25_inserted_rows_ignored.

(** The inserted rows would have used the contribution budget of privacy id 1. *)
Example C25_hypotheses_met :
  let p := demo_params [COUNT] None in
  let extra := [(1, 50, Num 4); (1, 60, Num 4); (1, 70, Num 4)]%Z in
  let run r := aggregate p (first_sampling 2 2) (fun _ _ => true) (fun _ _ => no_noise 0) (Some [20; 30]%Z) r in
  public_partitions_already_filtered p = false /\
  (forall r, In r extra -> ~ In (snd (fst r)) [20; 30]%Z) /\
  run (extra ++ demo_rows) = run demo_rows /\
  run demo_rows = Ok [(20, [(NCount, RNum (2#1)%Q)]); (30, [(NCount, RNum (3#1)%Q)])]%Z.
Proof.
  cbn zeta. split; [reflexivity|]. split; [cbn; intros r Hr; intuition (subst; cbn in *; lia)|].
  split; vm_compute; reflexivity.
Qed.

(** ** C26 *)

Lemma private_run {U P} `{EqDec U} `{EqDec P} p cs (sm : sampling U P) rows :
  accepted p -> create_compound_combiner p = Ok cs ->
  post_aggregation_thresholding p = false -> public_partitions_already_filtered p = false ->
  exists col m, raw_accumulators p cs sm None rows = Ok col /\ max_rows_per_privacy_id p = Some m /\
    forall keep nz out, aggregate p sm keep nz None rows = Ok out ->
      NoDup (map fst out) /\
      forall k, In k (map fst out) <-> In k (map fst col) /\ keep k (divide_and_round_up (row_count k col) m) = true.
Proof.
  intros Ha Hcs Ht Hf.
  assert (Sp : selects_privately p (@None (list P)) = true) by (unfold selects_privately; rewrite Ht, Hf; reflexivity).
  destruct (selected_ok p cs sm (fun _ _ => true) None rows Ha) as [c1 E1].
  destruct (selected_raw _ _ _ _ _ _ _ E1) as [raw [Er [_ [_ S]]]]. destruct (S Sp) as [m [Em _]]. clear S E1.
  exists raw, m. split; [exact Er|]. split; [exact Em|]. intros keep nz out E.
  destruct (aggregate_split _ _ _ _ _ _ _ E) as [cs' [col [out0 [Hcs' [Es [F ->]]]]]]. rewrite Ht.
  rewrite Hcs in Hcs'. inversion Hcs'; subst cs'.
  rewrite (forall2_keys (fun row => compound_metrics (nz (fst row)) cs (snd row)) col out0 F).
  destruct (selected_raw _ _ _ _ _ _ _ Es) as [raw' [Er' [_ [_ S]]]]. destruct (S Sp) as [m' [Em' ->]].
  rewrite Er in Er'. inversion Er'; subst raw'. rewrite Em in Em'. inversion Em'; subst m'.
  apply select_keys. exact (proj1 (raw_keys p cs sm None rows raw Er)).
Qed.

Lemma row_count_absent {P} `{EqDec P} k (col : list (P * cacc)) : ~ In k (map fst col) -> row_count k col = 0%Z.
Proof.
  intro N. unfold row_count. destruct (find (fun e => eqb (fst e) k) col) as [e|] eqn:E; [|reflexivity].
  exfalso. apply find_some in E. destruct E as [E1 E2]. apply eqb_eq in E2. subst. apply N. apply in_map. exact E1.
Qed.

(** The partition sizes [n] given to the selection strategy do not depend on the
    strategy and never exceed the number of privacy ids in the partition. *)
Theorem C26_private_selection {U P} `{EqDec U} `{EqDec P} p cs (sm : sampling U P) rows :
  accepted p -> create_compound_combiner p = Ok cs ->
  post_aggregation_thresholding p = false -> public_partitions_already_filtered p = false ->
  contribution_bounds_already_enforced p = false -> valid_sampling p sm ->
  exists n : P -> Z,
    (forall k, (0 <= n k <= Z.of_nat (length (ids_of k rows)))%Z) /\
    forall keep nz out, aggregate p sm keep nz None rows = Ok out ->
      NoDup (map fst out) /\
      (forall k, In k (map fst out) <-> (0 < n k)%Z /\ keep k (n k) = true) /\
      incl (map fst out) (map (fun r => snd (fst r)) rows).
Proof.
  intros Ha Hcs Ht Hf Hb Hv. destruct (private_run p cs sm rows Ha Hcs Ht Hf) as [col [m [Er [Em R]]]].
  unfold max_rows_per_privacy_id in Em. rewrite Hb in Em. inversion Em; subst m.
  assert (B := fun k => row_count_bound p cs sm rows col k Hb Hv Er).
  assert (D : forall k, In k (map fst col) \/ ~ In k (map fst col)).
  { intro k. destruct (in_dec eq_dec k (map fst col)); auto. }
  exists (fun k => row_count k col). split.
  - intro k. destruct (D k) as [X|X]; [specialize (B k X); lia|]. rewrite (row_count_absent _ _ X). lia.
  - intros keep nz out E. destruct (R keep nz out E) as [N K].
    assert (K' : forall k, In k (map fst out) <-> (0 < row_count k col)%Z /\ keep k (row_count k col) = true).
    { intro k. rewrite K, divide_by_one. destruct (D k) as [X|X].
      - specialize (B k X). intuition lia.
      - rewrite (row_count_absent _ _ X). intuition lia. }
    split; [exact N|]. split; [exact K'|]. intros k Hk. apply K in Hk. destruct Hk as [Hk _]. specialize (B k Hk).
    destruct (ids_of k rows) as [|u us] eqn:Ei; [cbn in B; lia|].
    assert (Hu : In u (ids_of k rows)) by (rewrite Ei; left; reflexivity). unfold ids_of in Hu.
    apply (proj1 (in_distinct _ _)) in Hu. apply in_map_iff in Hu. destruct Hu as [r [_ Hr]]. apply filter_In in Hr.
    destruct Hr as [Hr Ek]. apply eqb_eq in Ek. subst k. apply in_map_iff. exists r. auto.
Qed.
Print Assumptions C26_private_selection.

(** Removing one privacy id lowers the size of at most [b] partitions, by one. *)
Theorem C26_one_id_influence {U P} `{EqDec U} `{EqDec P} p cs (sm : sampling U P) rows u b :
  accepted p -> create_compound_combiner p = Ok cs ->
  post_aggregation_thresholding p = false -> public_partitions_already_filtered p = false ->
  contribution_bounds_already_enforced p = false -> valid_sampling p sm -> promised p rows ->
  match max_contributions p with Some m => b = m | None => max_partitions_contributed p = Some b end ->
  exists n n' : P -> Z,
    (forall keep nz out, aggregate p sm keep nz None rows = Ok out ->
       forall k, In k (map fst out) <-> (0 < n k)%Z /\ keep k (n k) = true) /\
    (forall keep nz out, aggregate p sm keep nz None (without u rows) = Ok out ->
       forall k, In k (map fst out) <-> (0 < n' k)%Z /\ keep k (n' k) = true) /\
    (forall k, (0 <= n k - n' k <= 1)%Z) /\
    (forall keys, NoDup keys -> (Z.of_nat (length (filter (fun k => negb (n k =? n' k)%Z) keys)) <= b)%Z).
Proof.
  intros Ha Hcs Ht Hf Hb Hv Hp Hm.
  destruct (private_run p cs sm rows Ha Hcs Ht Hf) as [col [m [Er [Em R]]]].
  destruct (private_run p cs sm (without u rows) Ha Hcs Ht Hf) as [col' [m' [Er' [Em' R']]]].
  unfold max_rows_per_privacy_id in Em, Em'. rewrite Hb in Em, Em'. inversion Em; subst m. inversion Em'; subst m'.
  exists (fun k => row_count k col), (fun k => row_count k col').
  assert (G : forall rows' (c : list (P * cacc)), raw_accumulators p cs sm None rows' = Ok c ->
    forall k b', In k (map fst c) /\ b' = true <-> (0 < row_count k c)%Z /\ b' = true).
  { intros rows' c Ec k b'. destruct (in_dec eq_dec k (map fst c)) as [X|X].
    - assert (B := row_count_bound p cs sm rows' c k Hb Hv Ec X). intuition lia.
    - rewrite (row_count_absent _ _ X). intuition lia. }
  split; [|split; [|split]].
  - intros keep nz out E k. destruct (R keep nz out E) as [_ K]. rewrite K, divide_by_one. exact (G _ _ Er k _).
  - intros keep nz out E k. destruct (R' keep nz out E) as [_ K]. rewrite K, divide_by_one. exact (G _ _ Er' k _).
  - destruct (selection_influence p cs sm None rows col col' u [] b Ha Hb Hv Hp (NoDup_nil _) Er Er' Hm) as [D _]. exact D.
  - intros keys Nk. destruct (selection_influence p cs sm None rows col col' u keys b Ha Hb Hv Hp Nk Er Er' Hm) as [_ D]. exact D.
Qed.
Print Assumptions C26_one_id_influence.

(** Privacy ids unknown, bounds promised by the user: at most [m] rows per
    privacy id and partition.  The estimate is still a lower bound. *)
Theorem C26_bounds_already_enforced {U P} `{EqDec U} `{EqDec P} p cs (sm : sampling U P) rows m :
  accepted p -> create_compound_combiner p = Ok cs ->
  post_aggregation_thresholding p = false -> public_partitions_already_filtered p = false ->
  contribution_bounds_already_enforced p = true ->
  match max_contributions p with Some c => m = c | None => max_contributions_per_partition p = Some m end ->
  (forall u k, (Z.of_nat (length (values_of (u, k) rows)) <= m)%Z) ->
  exists n : P -> Z,
    (forall k, In k (map (fun r => snd (fst r)) rows) -> (1 <= n k <= Z.of_nat (length (ids_of k rows)))%Z) /\
    forall keep nz out, aggregate p sm keep nz None rows = Ok out ->
      NoDup (map fst out) /\
      (forall k, In k (map fst out) <-> In k (map (fun r => snd (fst r)) rows) /\ keep k (n k) = true).
Proof.
  intros Ha Hcs Ht Hf Hb Hm Hpr. destruct (private_run p cs sm rows Ha Hcs Ht Hf) as [col [m' [Er [Em R]]]].
  assert (Pm : (0 < m)%Z /\ m' = m).
  { unfold max_rows_per_privacy_id in Em. rewrite Hb in Em. destruct (accepted_facts p Ha) as [_ [_ [_ Hf']]].
    destruct (max_contributions p) as [c|].
    - destruct Hf' as [Pc _]. destruct (Z.eqb_spec c 0); [lia|]. inversion Em; subst. split; [exact Pc | reflexivity].
    - destruct Hf' as [l0 [linf [_ [E2 [_ P2]]]]]. rewrite E2 in *. inversion Hm; inversion Em; subst. split; [exact P2 | reflexivity]. }
  destruct Pm as [Pm ->]. exists (fun k => divide_and_round_up (row_count k col) m). split.
  - intros k Hk. destruct (row_count_enforced p cs sm rows col k Hb Er) as [-> Kc].
    apply ceil_bound; [exact Pm| |].
    + destruct (filter (fun r => eqb (snd (fst r)) k) rows) eqn:Ef; [|cbn [length]; lia].
      exfalso. apply in_map_iff in Hk. destruct Hk as [r [<- Hr]].
      assert (X : In r (filter (fun r0 => eqb (snd (fst r0)) (snd (fst r))) rows)).
      { apply filter_In. split; [exact Hr|]. apply eqb_refl. }
      rewrite Ef in X. destruct X.
    + assert (L : (length (filter (fun r => eqb (snd (fst r)) k) rows) <= Z.to_nat m * length (ids_of k rows))%nat).
      { apply length_by_ids. intro u. specialize (Hpr u k). lia. }
      apply Nat2Z.inj_le in L. rewrite Nat2Z.inj_mul, Z2Nat.id in L by lia. exact L.
  - intros keep nz out E. destruct (R keep nz out E) as [N K]. split; [exact N|]. intro k. rewrite K.
    destruct (row_count_enforced p cs sm rows col k Hb Er) as [_ Kc]. rewrite Kc. reflexivity.
Qed.
Print Assumptions C26_bounds_already_enforced.

(** With post-aggregation thresholding a partition is released only if the
    thresholding mechanism accepted a count of at most the true number of ids,
    and the released count is the one that it returned. *)
Theorem C26_post_aggregation_thresholding {U P} `{EqDec U} `{EqDec P} p (sm : sampling U P) keep nz rows out k d :
  accepted p -> contribution_bounds_already_enforced p = false -> valid_sampling p sm ->
  post_aggregation_thresholding p = true -> In PRIVACY_ID_COUNT (metrics p) -> ~ In VECTOR_SUM (metrics p) ->
  (forall k i l qs, length (n_quantiles (nz k i) l qs) = length qs) ->
  aggregate p sm keep nz None rows = Ok out -> In (k, d) out ->
  exists i z q, n_thresh (nz k i) z = Some q /\ In (NPidCount, RNum q) d /\
                (z <= Z.of_nat (length (ids_of k rows)))%Z.
Proof.
  intros Ha Hb Hsm Hp Hm Hv Hq E Hin. eapply thresholded_row; eauto.
  destruct (has VECTOR_SUM (metrics p)) eqn:X; [|reflexivity]. exfalso. apply Hv.
  unfold has in X. apply existsb_exists in X. destruct X as [x [Hx Ex]]. destruct x; try discriminate Ex. exact Hx.
Qed.
Print Assumptions C26_post_aggregation_thresholding.

Definition filtered_params : params :=
  Params [COUNT] LaplaceNoise (Some 2%Z) (Some 2%Z) None 1%Q None None None None false None None None
         false true TruncatedGeometric None false true.

(** public_partitions_already_filtered without public partitions is accepted and
    switches the selection off: every partition of the data is released. *)
Theorem C26_already_filtered_refuted :
  exists p (sm : sampling Z Z) nz rows out,
    accepted p /\ valid_sampling p sm /\ contribution_bounds_already_enforced p = false /\
    post_aggregation_thresholding p = false /\
    aggregate p sm (fun _ _ => false) nz None rows = Ok out /\ map fst out = [10; 20; 30]%Z.
Proof.
  exists filtered_params, (first_sampling 2 2),
    (fun _ _ => no_noise 0), demo_rows.
  eexists. split; [exists (raw_of filtered_params); reflexivity|].
  split; [split; intros x X; inversion X; subst; apply first_n_valid|].
  repeat (split; [reflexivity|]). split; vm_compute; reflexivity.
Qed.
Print Assumptions C26_already_filtered_refuted.

Example C26_hypotheses_met :
  let p := demo_params [COUNT] None in
  accepted p /\ create_compound_combiner p = Ok [CCount] /\ post_aggregation_thresholding p = false /\
  public_partitions_already_filtered p = false /\ contribution_bounds_already_enforced p = false /\
  valid_sampling p (first_sampling 2 2) /\ promised p demo_rows /\
  exists out, aggregate p (first_sampling 2 2) (fun _ n => (2 <=? n)%Z) (fun _ _ => no_noise 0) None demo_rows = Ok out /\
    map fst out = [20]%Z.
Proof.
  cbn zeta. split; [exists (raw_of (demo_params [COUNT] None)); reflexivity|]. repeat (split; [reflexivity|]).
  split; [split; intros x X; inversion X; subst; apply first_n_valid|]. split; [discriminate|].
  eexists. split; vm_compute; reflexivity.
Qed.

Definition enforced_params : params :=
  Params [COUNT] LaplaceNoise (Some 3%Z) (Some 2%Z) None 1%Q None None None None false None None None
         true false TruncatedGeometric None false true.
Definition enforced_rows : list (Z * Z * value) :=
  [(1, 10, Num 4); (1, 10, Num 2); (1, 20, Num 1); (2, 20, Num 3); (2, 20, Num 3)]%Z.
Example C26_enforced_hypotheses_met :
  accepted enforced_params /\ create_compound_combiner enforced_params = Ok [CCount] /\
  contribution_bounds_already_enforced enforced_params = true /\
  (forall u k, (Z.of_nat (length (values_of (u, k) enforced_rows)) <= 2)%Z) /\
  exists out, aggregate enforced_params (first_sampling 2 2) (fun _ n => (2 <=? n)%Z) (fun _ _ => no_noise 0) None enforced_rows = Ok out /\
    map fst out = [20]%Z.
Proof.
  split; [exists (raw_of enforced_params); reflexivity|]. repeat (split; [reflexivity|]). split.
  - intros u k. unfold values_of, enforced_rows. cbn.
    repeat match goal with |- context [eqb ?x ?y] => destruct (eqb x y) eqn:? end; cbn; try lia;
    repeat match goal with H : eqb _ _ = true |- _ => apply eqb_eq in H; inversion H; clear H end; subst; try discriminate; try lia.
  - eexists. split; vm_compute; reflexivity.
Qed.

Example C26_thresholding_hypotheses_met :
  accepted thresholding_params /\ valid_sampling thresholding_params (first_sampling 2 2) /\
  In PRIVACY_ID_COUNT (metrics thresholding_params) /\
  aggregate thresholding_params (first_sampling 2 2) (fun _ _ => false) (fun _ _ => no_noise 2) None demo_rows
  = Ok [(20%Z, [(NPidCount, RNum (2#1)%Q)])].
Proof.
  split; [exists (raw_of thresholding_params); reflexivity|].
  split; [split; intros x X; inversion X; subst; apply first_n_valid|].
  split; [left; reflexivity|]. vm_compute. reflexivity.
Qed.

(** ** C27 *)

(** [n k] = the size of partition [k] seen by the selection strategy, for the
    full dataset and for the dataset without privacy id [u]. *)
Theorem C27_select_partitions {U P} `{EqDec U} `{EqDec P} l0 (ch : source U) (rows : list (U * P)) u :
  valid_source l0 ch ->
  exists n n' : P -> Z,
    (forall keep, NoDup (select_partitions l0 ch keep rows) /\ incl (select_partitions l0 ch keep rows) (map snd rows) /\
       forall k, In k (select_partitions l0 ch keep rows) <-> (0 < n k)%Z /\ keep k (n k) = true) /\
    (forall keep k, In k (select_partitions l0 ch keep (filter (fun r => negb (eqb (fst r) u)) rows)) <->
                    (0 < n' k)%Z /\ keep k (n' k) = true) /\
    (forall k, (0 <= n k <= Z.of_nat (length (pairs_ids k rows)))%Z) /\
    (forall k, (0 <= n' k)%Z /\ (0 <= n k - n' k <= 1)%Z) /\
    (forall keys, NoDup keys -> (length (filter (fun k => negb (n k =? n' k)%Z) keys) <= l0)%nat).
Proof.
  intro Hv. destruct (sampled_facts l0 ch rows Hv) as [Nd [Ic Lu]].
  assert (Fu := sampled_filter l0 ch (fun x => negb (eqb x u)) rows). cbn beta in Fu.
  assert (G : forall r keep k, In k (select_partitions l0 ch keep r) <->
            (0 < row_count k (partition_counts l0 ch r))%Z /\ keep k (row_count k (partition_counts l0 ch r)) = true).
  { intros r keep k. unfold select_partitions. destruct (partition_counts_keys l0 ch r) as [N K].
    destruct (select_keys 1 keep (partition_counts l0 ch r) N) as [_ S]. rewrite S, divide_by_one.
    assert (X : In k (map fst (partition_counts l0 ch r)) <-> (0 < row_count k (partition_counts l0 ch r))%Z).
    { rewrite K, partition_counts_row. unfold nk. split.
      - intro Hin. apply in_map_iff in Hin. destruct Hin as [x [<- Hx]].
        assert (Y : In x (filter (fun y => eqb (snd y) (snd x)) (sampled_pairs l0 ch r))).
        { apply filter_In. split; [exact Hx | apply eqb_refl]. }
        destruct (filter (fun y => eqb (snd y) (snd x)) (sampled_pairs l0 ch r)); [destruct Y|]. cbn [length]. lia.
      - intro L. destruct (filter (fun y => eqb (snd y) k) (sampled_pairs l0 ch r)) as [|x l] eqn:Ef; [cbn in L; lia|].
        assert (Y : In x (filter (fun y => eqb (snd y) k) (sampled_pairs l0 ch r))) by (rewrite Ef; left; reflexivity).
        apply filter_In in Y. destruct Y as [Y1 Y2]. apply eqb_eq in Y2. subst k. apply in_map. exact Y1. }
    rewrite X. reflexivity. }
  exists (fun k => row_count k (partition_counts l0 ch rows)),
         (fun k => row_count k (partition_counts l0 ch (filter (fun r => negb (eqb (fst r) u)) rows))).
  assert (D : forall k, row_count k (partition_counts l0 ch (filter (fun r => negb (eqb (fst r) u)) rows)) =
                        Z.of_nat (nk k (filter (fun x => negb (eqb (fst x) u)) (sampled_pairs l0 ch rows)))).
  { intro k. rewrite partition_counts_row, Fu. reflexivity. }
  split; [|split; [|split; [|split]]].
  - intro keep. split; [|split; [|apply G]].
    + unfold select_partitions. apply select_keys. apply partition_counts_keys.
    + intros k Hk. unfold select_partitions in Hk. destruct (partition_counts_keys l0 ch rows) as [N K].
      apply (proj2 (select_keys 1 keep _ N)) in Hk. destruct Hk as [Hk _]. apply K in Hk.
      apply in_map_iff in Hk. destruct Hk as [x [<- Hx]]. apply in_map. apply Ic. exact Hx.
  - intros keep k. apply G.
  - intro k. rewrite partition_counts_row. assert (B := nk_ids k _ _ Nd Ic). lia.
  - intro k. rewrite D, partition_counts_row, (nk_without u k (sampled_pairs l0 ch rows)).
    assert (O := nk_one u k _ Nd). lia.
  - intros keys Nk. assert (C := nk_changed u keys (sampled_pairs l0 ch rows) Nk). rewrite Lu in C.
    erewrite filter_ext; [|intro k; rewrite D, partition_counts_row].
    2: { instantiate (1 := fun k => negb (Nat.eqb (nk k (sampled_pairs l0 ch rows)) (nk k (filter (fun x => negb (eqb (fst x) u)) (sampled_pairs l0 ch rows))))).
         cbn beta. f_equal. apply eq_true_iff_eq. rewrite Z.eqb_eq, Nat.eqb_eq. lia. }
    lia.
Qed.
Print Assumptions C27_select_partitions.

(** A privacy id in at most [l0] partitions is counted in each of them. *)
Theorem C27_all_counted {U P} `{EqDec U} `{EqDec P} l0 (ch : source U) (rows : list (U * P)) keep :
  valid_source l0 ch ->
  (forall u, length (pairs_partitions u rows) <= l0) ->
  forall k, In k (select_partitions l0 ch keep rows) <->
            In k (map snd rows) /\ keep k (Z.of_nat (length (pairs_ids k rows))) = true.
Proof.
  intros Hv Hl k. destruct (sampled_facts l0 ch rows Hv) as [Nd [Ic Lu]].
  assert (All : forall x, In x rows -> In x (sampled_pairs l0 ch rows)).
  { intros [u k'] Hx.
    assert (R : incl (pairs_partitions u rows) (map snd (filter (fun x => eqb (fst x) u) (sampled_pairs l0 ch rows)))).
    { apply NoDup_length_incl.
      - apply NoDup_map_inj; [|apply NoDup_filter; exact Nd]. intros [a b] [a' b'] A B E. cbn in E. subst b'.
        apply filter_In in A, B. destruct A as [_ A], B as [_ B]. cbn in A, B. apply eqb_eq in A. apply eqb_eq in B. congruence.
      - rewrite map_length, Lu. specialize (Hl u). lia.
      - intros y Hy. apply in_map_iff in Hy. destruct Hy as [z [<- Hz]]. apply filter_In in Hz. destruct Hz as [Hz Ez].
        apply (proj2 (in_distinct _ _)). apply in_map. apply filter_In. split; [apply Ic; exact Hz | exact Ez]. }
    assert (Hk : In k' (pairs_partitions u rows)).
    { apply (proj2 (in_distinct _ _)). apply in_map_iff. exists (u, k'). split; [reflexivity|]. apply filter_In.
      split; [exact Hx | apply eqb_refl]. }
    apply R in Hk. apply in_map_iff in Hk. destruct Hk as [[a b] [E Hin]]. apply filter_In in Hin. destruct Hin as [Hin Ea].
    cbn in E, Ea. apply eqb_eq in Ea. subst. exact Hin. }
  destruct (partition_counts_keys l0 ch rows) as [N K].
  unfold select_partitions. rewrite (proj2 (select_keys 1 keep _ N)), divide_by_one, K, partition_counts_row.
  assert (Rc : nk k (sampled_pairs l0 ch rows) = length (pairs_ids k rows)).
  { apply Nat.le_antisymm; [apply nk_ids; assumption|]. unfold nk.
    rewrite <- (map_length fst (filter (fun x => eqb (snd x) k) (sampled_pairs l0 ch rows))).
    apply NoDup_incl_length; [apply NoDup_distinct|]. intros u Hu. apply (proj1 (in_distinct _ _)) in Hu.
    apply in_map_iff in Hu. destruct Hu as [x [<- Hx]]. apply filter_In in Hx. destruct Hx as [Hx Ex].
    apply in_map. apply filter_In. split; [apply All; exact Hx | exact Ex]. }
  rewrite Rc. assert (Kk : In k (map snd (sampled_pairs l0 ch rows)) <-> In k (map snd rows)).
  { split; intro Hin; apply in_map_iff in Hin; destruct Hin as [x [<- Hx]]; apply in_map; [apply Ic | apply All]; exact Hx. }
  rewrite Kk. reflexivity.
Qed.
Print Assumptions C27_all_counted.

Example C27_hypotheses_met :
  let rows := [(1, 10); (1, 20); (1, 20); (1, 30); (2, 20); (2, 20); (3, 20)]%Z in
  valid_source 2 (fun _ : Z => first_n 2) /\
  select_partitions 2 (fun _ => first_n 2) (fun _ n => (n =? 3)%Z) rows = [20]%Z /\
  select_partitions 2 (fun _ => first_n 2) (fun _ n => (1 <=? n)%Z) rows = [10; 20]%Z.
Proof. split; [apply first_n_valid|]. split; vm_compute; reflexivity. Qed.

Example C27_all_counted_hypotheses_met :
  let rows := [(1, 10); (1, 20); (1, 20); (2, 20)]%Z in
  (forall u, length (pairs_partitions u rows) <= 2) /\
  select_partitions 2 (fun _ : Z => first_n 2) (fun _ n => (n =? 2)%Z) rows = [20]%Z.
Proof.
  cbn zeta. split; [|vm_compute; reflexivity]. intro u. unfold pairs_partitions.
  destruct (Z.eq_dec u 1) as [->|N1]; [vm_compute; lia|]. destruct (Z.eq_dec u 2) as [->|N2]; [vm_compute; lia|].
  rewrite filter_none; [cbn; lia|]. cbn. intros r Hr. apply eqb_false_iff. intuition (subst; cbn in *; congruence).
Qed.
