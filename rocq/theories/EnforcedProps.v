(** Property C69: contribution_bounds_already_enforced = True is as good as bounding
    by the library when the user keeps the promise, except for per-partition sum bounds. *)
From Coq Require Import List ZArith QArith Qabs Qminmax Bool Lia Lqa.
From Verif Require Import Base BaseLemmas ListLemmas BackendModel BackendSpec BounderModel BounderSpec BounderProofs ParamsModel ParamsProofs SensModel
  CombinerModel CombinerSpec EngineModel EngineSpec EngineProofs EngineProofs2 EngineProofs3 EngineProofs4 EngineProofs5
  EngineProps EngineProps2 CombinerProofs3 EnforcedSpec EnforcedProofs EnforcedProofs2.
Import ListNotations.
Local Close Scope Q_scope.

(** No combiner needs the privacy ids. *)
Lemma no_id_counts p cs c : accepted p -> contribution_bounds_already_enforced p = true ->
  create_compound_combiner p = Ok cs -> In c cs -> c <> CPidCount /\ c <> CThresh.
Proof.
  intros [r Hr] Hb E Hc.
  assert (N : has PRIVACY_ID_COUNT (metrics p) = false).
  { unfold post_init in Hr. repeat (apply raise_if_ok in Hr; destruct Hr as [? Hr]). inversion Hr; subst p. cbn in *.
    rewrite Hb in *. cbn [andb] in *. assumption. }
  assert (F : Forall (fun c => c <> CPidCount /\ c <> CThresh) cs).
  { unfold create_compound_combiner, compound_init in E. destruct (create_combiners p) as [cs'|] eqn:Ec; cbn [rbind] in E; [|discriminate].
    apply raise_if_ok in E. destruct E as [_ E]. inversion E; subst cs'. clear E. unfold create_combiners in Ec.
    rewrite N in Ec.
    assert (H2 : forall l, append_if false (if post_aggregation_thresholding p then new_thresh p else new_pid_count p)
                 (append_if (has VECTOR_SUM (metrics p)) (new_vector p)
                 (append_if (match percentiles (metrics p) with [] => false | _ => true end)
                      (Ok (CQuantile (percentiles (metrics p)))) (Ok []))) = Ok l -> Forall (fun c => c <> CPidCount /\ c <> CThresh) l).
    { intros l El0. apply append_if_split in El0. destruct El0 as [[X _]|[_ El]]; [discriminate|].
      eapply append_if_forall; [exact El| |].
      - intros x Ex. unfold new_vector in Ex. destruct (vector_size p); inversion Ex; split; discriminate.
      - intros l2 El2. eapply append_if_forall; [exact El2| |].
        + intros x Ex. inversion Ex. split; discriminate.
        + intros l3 E3. inversion E3. constructor. }
    destruct (has VARIANCE (metrics p)).
    { eapply append_if_forall; [exact Ec| |exact H2]. intros x Ex. unfold new_variance in Ex.
      destruct (min_value p), (max_value p); inversion Ex; split; discriminate. }
    destruct (has MEAN (metrics p)).
    { eapply append_if_forall; [exact Ec| |exact H2]. intros x Ex. unfold new_mean in Ex.
      destruct (min_value p), (max_value p); try discriminate. destruct (sens_count p); cbn [rbind] in Ex; [|discriminate].
      apply rmap_const_inv in Ex. destruct Ex as [_ ->]. split; discriminate. }
    eapply append_if_forall; [exact Ec| |].
    - intros x Ex. apply rmap_const_inv in Ex. destruct Ex as [_ ->]. split; discriminate.
    - intros l El. eapply append_if_forall; [exact El| |exact H2]. intros x Ex. unfold new_sum in Ex.
      destruct (sens_sum p); cbn [rbind] in Ex; [|discriminate].
      destruct (bounds_per_partition_are_set p);
        [destruct (min_sum_per_partition p), (max_sum_per_partition p) | destruct (min_value p), (max_value p)];
        inversion Ex; split; discriminate. }
  rewrite Forall_forall in F. exact (F c Hc).
Qed.

Lemma trusted_row_wise p cs i c : accepted p -> contribution_bounds_already_enforced p = true ->
  create_compound_combiner p = Ok cs -> nth_error cs i = Some c -> (forall lo hi, c <> CSum true lo hi) -> row_wise c.
Proof.
  intros Ha Hb Hcs Hi N. destruct (no_id_counts p cs c Ha Hb Hcs (nth_error_In _ _ Hi)) as [A B].
  unfold row_wise. destruct c; try exact I; try congruence.
  match goal with |- match ?b with _ => _ end => destruct b end; [eapply N; reflexivity | exact I].
Qed.

(** ** C69 *)

(** The raw results are those of a library that bounds the contributions, whatever it
    samples: nothing is dropped and nothing is clipped differently. *)
Theorem C69_same_raw_values {U P} `{EqDec U} `{EqDec P} p cs (sm sm' : sampling U P) public rows keys col col' i c qt k :
  trusted_run p cs sm public rows keys col ->
  standard_run (enforcing p) cs sm' public rows keys col' ->
  nth_error cs i = Some c -> (forall lo hi, c <> CSum true lo hi) ->
  (raw_value (quantity_of qt) i k col == raw_value (quantity_of qt) i k col')%Q.
Proof.
  intros [Ha [Hcs [Hb [W [Nk E]]]]] [_ [_ [_ [_ [_ [_ E']]]]]] Hi N.
  destruct (no_id_counts p cs c Ha Hb Hcs (nth_error_In _ _ Hi)) as [A B].
  exact (same_values p cs sm sm' public rows col col' i c qt k Ha Hb W Hi N A B E E').
Qed.
Print Assumptions C69_same_raw_values.

(** Noise is calibrated to what one privacy id changes: as C13, C15, C16, C17 and C18. *)
Theorem C69_calibrated {U P} `{EqDec U} `{EqDec P} p cs (sm : sampling U P) public rows keys col u i c qt s :
  trusted_run p cs sm public rows keys col -> nth_error cs i = Some c ->
  (forall lo hi, c <> CSum true lo hi) ->
  (forall lo hi n, c = CVariance lo hi n -> max_contributions p = None) ->
  (forall lo hi n, qt = QSquares -> c = CVariance lo hi n -> squares_covered lo hi) ->
  In (qt, Ok s) (noise_plan p c) ->
  calibrated p cs sm public rows keys col u i c qt s.
Proof.
  intros R Hi N Hvar Hsq Hplan. assert (R' := R). destruct R' as [Ha [Hcs [Hb _]]].
  destruct (trusted_sensitivity p cs sm public rows keys col u i c qt (Ok s) R Hi
              (trusted_row_wise p cs i c Ha Hb Hcs Hi N) Hvar Hplan Hsq) as [col' [s' [E' [Es D]]]].
  inversion Es; subst s'. exists col'. split; [exact E'|]. cbn zeta. split; [exact Hplan|]. split; [exact D|].
  apply respects_covers. exact D.
Qed.
Print Assumptions C69_calibrated.

(** Every noised quantity does have sensitivities: a sum, a count, a mean or a variance
    never fails for lack of them. *)
Theorem C69_sensitivities_exist {U P} `{EqDec U} `{EqDec P} p cs (sm : sampling U P) public rows keys col i c qt rs :
  trusted_run p cs sm public rows keys col -> nth_error cs i = Some c ->
  (forall lo hi, c <> CSum true lo hi) ->
  (forall lo hi n, c = CVariance lo hi n -> max_contributions p = None) ->
  (forall lo hi n, qt = QSquares -> c = CVariance lo hi n -> squares_covered lo hi) ->
  forall u : U, In (qt, rs) (noise_plan p c) -> exists s, rs = Ok s.
Proof.
  intros R Hi N Hvar Hsq u Hplan. assert (R' := R). destruct R' as [Ha [Hcs [Hb _]]].
  destruct (trusted_sensitivity p cs sm public rows keys col u i c qt rs R Hi
              (trusted_row_wise p cs i c Ha Hb Hcs Hi N) Hvar Hplan Hsq) as [col' [s' [E' [Es D]]]]. eauto.
Qed.
Print Assumptions C69_sensitivities_exist.

(** Partition selection: removing one privacy id lowers the estimated number of privacy
    ids of at most [b] partitions, by one, as with bounding by the library (C26). *)
Theorem C69_selection_influence {U P} `{EqDec U} `{EqDec P} p cs (sm : sampling U P) rows u b :
  accepted p -> create_compound_combiner p = Ok cs ->
  post_aggregation_thresholding p = false -> public_partitions_already_filtered p = false ->
  contribution_bounds_already_enforced p = true -> within_bounds p rows ->
  match max_contributions p with Some m => b = m | None => max_partitions_contributed p = Some b end ->
  exists n n' : P -> Z,
    (forall keep nz out, aggregate p sm keep nz None rows = Ok out ->
       forall k, In k (map fst out) <-> (0 < n k)%Z /\ keep k (n k) = true) /\
    (forall keep nz out, aggregate p sm keep nz None (without u rows) = Ok out ->
       forall k, In k (map fst out) <-> (0 < n' k)%Z /\ keep k (n' k) = true) /\
    (forall k, (0 <= n k - n' k <= 1)%Z) /\
    (forall keys, NoDup keys -> (Z.of_nat (length (filter (fun k => negb (n k =? n' k)%Z) keys)) <= b)%Z).
Proof.
  intros Ha Hcs Ht Hf Hb W Hm.
  destruct (private_run p cs sm rows Ha Hcs Ht Hf) as [col [m [Er [Em R]]]].
  destruct (private_run p cs sm (without u rows) Ha Hcs Ht Hf) as [col' [m' [Er' [Em' R']]]].
  rewrite Em in Em'. inversion Em'; subst m'. clear Em'.
  destruct (max_rows_facts p rows b Ha Hb W Hm) as [m0 [Em0 [Pm _]]]. rewrite Em in Em0. inversion Em0; subst m0. clear Em0.
  exists (fun k => estimate p k col), (fun k => estimate p k col').
  assert (G : forall rows' (c : list (P * cacc)), raw_accumulators p cs sm None rows' = Ok c ->
    forall k b', In k (map fst c) /\ b' = true <-> (0 < estimate p k c)%Z /\ b' = true).
  { intros rows' c Ec k b'. unfold estimate. rewrite Em. destruct (row_count_enforced p cs sm rows' c k Hb Ec) as [Rc Kc].
    destruct (in_dec eq_dec k (map fst c)) as [X|X].
    - assert (Y := proj1 Kc X). apply in_map_iff in Y. destruct Y as [r [Er2 Hr]].
      assert (L : (1 <= Z.of_nat (length (filter (fun r => eqb (snd (fst r)) k) rows')))%Z).
      { assert (Z1 : In r (filter (fun r0 => eqb (snd (fst r0)) k) rows')).
        { apply filter_In. split; [exact Hr|]. rewrite Er2. apply ListLemmas.eqb_refl. }
        destruct (filter (fun r0 => eqb (snd (fst r0)) k) rows'); [destruct Z1 | cbn [length]; lia]. }
      assert (B : (1 <= divide_and_round_up (row_count k c) m)%Z).
      { rewrite Rc. unfold divide_and_round_up. apply Z.div_le_lower_bound; lia. }
      intuition lia.
    - rewrite (row_count_absent _ _ X). unfold divide_and_round_up. rewrite Z.div_small by lia. intuition lia. }
  assert (Es : forall c k, divide_and_round_up (row_count k c) m = estimate p k c) by (intros; unfold estimate; rewrite Em; reflexivity).
  split; [|split; [|split]].
  - intros keep nz out E k. destruct (R keep nz out E) as [_ K]. rewrite K, Es. exact (G _ _ Er k _).
  - intros keep nz out E k. destruct (R' keep nz out E) as [_ K]. rewrite K, Es. exact (G _ _ Er' k _).
  - destruct (trusted_influence p cs sm None rows col col' u [] b Ha Hb W (NoDup_nil _) Er Er' Hm) as [D _]. exact D.
  - intros keys Nk. destruct (trusted_influence p cs sm None rows col col' u keys b Ha Hb W Nk Er Er' Hm) as [_ D]. exact D.
Qed.
Print Assumptions C69_selection_influence.

(** ** Per-partition sum bounds *)
Definition partition_sum_params : params :=
  Params [SUM] LaplaceNoise (Some 1%Z) (Some 3%Z) None 1%Q None None (Some 0%Q) (Some 5%Q) false None None None
         true false TruncatedGeometric None false true.
Definition partition_sum_rows : list (Z * Z * value) := [(1, 10, Num 5); (1, 10, Num 5); (1, 10, Num (-5))]%Z.

Lemma partition_sum_within : within_bounds partition_sum_params partition_sum_rows.
Proof.
  split; [discriminate|]. split.
  - intros l0 E u. inversion E; subst. unfold partitions_of, partition_sum_rows. cbn.
    repeat match goal with |- context [eqb ?x ?y] => destruct (eqb x y) eqn:? end; cbn; lia.
  - intros l E u k. inversion E; subst. unfold values_of, partition_sum_rows. cbn.
    repeat match goal with |- context [eqb ?x ?y] => destruct (eqb x y) eqn:? end; cbn; lia.
Qed.

(** SUM with per-partition bounds [0, 5]: the one privacy id has three rows in one partition
    with sum 5, all within the promised bounds.  Each row is clipped on its own, so the
    privacy id changes the sum by 10, although the noise is for a change of 5. *)
Theorem C69_partition_sum_refuted :
  exists p cs (sm : sampling Z Z) rows keys col col' s,
    trusted_run p cs sm None rows keys col /\ raw_accumulators p cs sm None (without 1%Z rows) = Ok col' /\
    cs = [CSum true 0 5] /\ In (QSum, Ok s) (noise_plan p (CSum true 0 5)) /\
    (forall sp, exists m, create_additive_mechanism sp s = Ok m /\
       ~ covers m keys (fun k => raw_value sum_of 0 k col - raw_value sum_of 0 k col')%Q) /\
    (** bounding by the library gives the sum 5, which is covered *)
    exists col2, standard_run (enforcing p) cs (first_sampling 1 3) None rows keys col2 /\
                 raw_value sum_of 0 10%Z col = 10%Q /\ raw_value sum_of 0 10%Z col2 = 5%Q.
Proof.
  exists partition_sum_params, [CSum true 0 5], (first_sampling 3 3), partition_sum_rows, [10%Z].
  do 3 eexists. split.
  { split; [exists (raw_of partition_sum_params); reflexivity|]. split; [reflexivity|]. split; [reflexivity|].
    split; [exact partition_sum_within|]. split; [repeat constructor; intros [] |]. vm_compute. reflexivity. }
  split; [vm_compute; reflexivity|]. split; [reflexivity|]. split; [left; vm_compute; reflexivity|]. split.
  { intro sp. unfold create_additive_mechanism. cbn [s_l1 s_l2sq].
    destruct (ms_kind sp), (ms_std sp); eexists; (split; [reflexivity|]); vm_compute; intro X; apply X; reflexivity. }
  eexists. split; [|split].
  - split; [exists (raw_of (enforcing partition_sum_params)); reflexivity|]. split; [reflexivity|]. split; [reflexivity|].
    split; [|split; [discriminate|]]; [|split; [repeat constructor; intros []|vm_compute; reflexivity]].
    split; intros x X; inversion X; subst; [|apply first_n_valid].
    apply first_n_valid.
  - vm_compute. reflexivity.
  - vm_compute. reflexivity.
Qed.
Print Assumptions C69_partition_sum_refuted.

(** ** The hypotheses are met *)
Definition trusted_params (ms : list metric) : params :=
  Params ms LaplaceNoise (Some 2%Z) (Some 2%Z) None 1%Q (Some (-3)%Q) (Some 5%Q) None None false None None None
         true false TruncatedGeometric None false true.

Example C69_hypotheses_met :
  exists col col', trusted_run (trusted_params [COUNT; SUM]) [CCount; CSum false (-3) 5] (first_sampling 0 0) None enforced_rows [10; 20]%Z col /\
    standard_run (enforcing (trusted_params [COUNT; SUM])) [CCount; CSum false (-3) 5] (first_sampling 2 2) None enforced_rows [10; 20]%Z col' /\
    raw_value count_of 0 20%Z col = 3%Q /\ raw_value sum_of 1 20%Z col = 7%Q /\
    within_bounds (trusted_params [COUNT; SUM]) enforced_rows.
Proof.
  assert (W : within_bounds (trusted_params [COUNT; SUM]) enforced_rows).
  { split; [discriminate|]. split.
    - intros l0 E u. inversion E; subst. unfold partitions_of, enforced_rows. cbn.
      repeat match goal with |- context [eqb ?x ?y] => destruct (eqb x y) eqn:? end; cbn; try lia;
      repeat match goal with H : eqb _ _ = true |- _ => apply eqb_eq in H end; subst; try discriminate; try lia.
    - intros l E u k. inversion E; subst. unfold values_of, enforced_rows. cbn.
      repeat match goal with |- context [eqb ?x ?y] => destruct (eqb x y) eqn:? end; cbn; try lia;
      repeat match goal with H : eqb _ _ = true |- _ => apply eqb_eq in H; inversion H; clear H end; subst; try discriminate; try lia. }
  do 2 eexists. split; [|split; [|split; [|split]]].
  - split; [exists (raw_of (trusted_params [COUNT; SUM])); reflexivity|]. split; [reflexivity|]. split; [reflexivity|].
    split; [exact W|]. split; [repeat constructor; cbn; intuition discriminate|]. vm_compute. reflexivity.
  - split; [exists (raw_of (enforcing (trusted_params [COUNT; SUM]))); reflexivity|]. split; [reflexivity|]. split; [reflexivity|].
    split; [split; intros x X; inversion X; subst; apply first_n_valid|]. split; [discriminate|].
    split; [repeat constructor; cbn; intuition discriminate|]. vm_compute. reflexivity.
  - vm_compute. reflexivity.
  - vm_compute. reflexivity.
  - exact W.
Qed.
