(** Partition keys, partition selection and select_partitions. *)
From Coq Require Import List ZArith QArith Bool Permutation Lia.
From Verif Require Import Base BaseLemmas BackendModel BackendSpec ListLemmas BackendProofs
  BounderModel BounderSpec BounderProofs ParamsModel SensModel CombinerModel EngineModel EngineSpec
  EngineProofs EngineProofs2 EngineProofs3.
Import ListNotations.
Local Close Scope Q_scope.

(** ** Row counts *)
Lemma row_count_pairs {P} `{EqDec P} cs (pairs : list (P * list value)) k :
  row_count k (combine_per_key (compound_merge cs) (with_accs cs pairs)) = Z.of_nat (length (values_of k pairs)).
Proof.
  unfold row_count.
  assert (N : NoDup (map fst (combine_per_key (compound_merge cs) (with_accs cs pairs))))
    by (rewrite combine_per_key_keys; apply NoDup_distinct).
  destruct (values_of k pairs) as [|g gs] eqn:E.
  - rewrite find_none_keys; [reflexivity|]. rewrite combine_per_key_keys, in_distinct.
    unfold with_accs. rewrite map_values_keys. apply values_of_nil_iff. exact E.
  - assert (Hin : In (k, fold_left (compound_merge cs) (map (compound_create cs) gs) (compound_create cs g))
                     (combine_per_key (compound_merge cs) (with_accs cs pairs))).
    { apply in_combine_per_key. unfold with_accs. rewrite values_of_map_values, E. reflexivity. }
    rewrite (find_In_NoDup _ _ N _ Hin). cbn [snd]. unfold compound_create at 2.
    rewrite compound_fold. cbn [fst length]. lia.
Qed.

Definition nk {U P} `{EqDec P} (k : P) (ks : list (U * P)) : nat := length (filter (fun x => eqb (snd x) k) ks).

Lemma values_of_rekey {U P A} `{EqDec P} (k : P) (kept : list ((U * P) * A)) :
  length (values_of k (map (fun e => (snd (fst e), snd e)) kept)) = nk k (map fst kept).
Proof.
  unfold values_of, nk. rewrite !map_length, !filter_map, !map_length. reflexivity.
Qed.

Lemma nk_ids {U P} `{EqDec U} `{EqDec P} (k : P) (ks rows : list (U * P)) :
  NoDup ks -> incl ks rows -> nk k ks <= length (pairs_ids k rows).
Proof.
  intros N I. unfold nk, pairs_ids.
  rewrite <- (map_length fst (filter (fun x => eqb (snd x) k) ks)).
  apply NoDup_incl_length.
  - apply NoDup_map_inj; [|apply NoDup_filter'; exact N].
    intros [u p] [u' p'] A B E. apply filter_In in A, B. destruct A as [_ A], B as [_ B]. cbn [fst snd] in *.
    apply eqb_eq in A, B. congruence.
  - intros u Hu. apply in_map_iff in Hu. destruct Hu as [x [<- Hx]]. apply filter_In in Hx. destruct Hx as [Hx E].
    apply in_distinct. apply in_map. apply filter_In. split; [apply I; exact Hx | exact E].
Qed.

Lemma nk_without {U P} `{EqDec U} `{EqDec P} (u : U) (k : P) (ks : list (U * P)) :
  nk k ks = nk k (filter (fun x => negb (eqb (fst x) u)) ks) + nk k (filter (fun x => eqb (fst x) u) ks).
Proof.
  unfold nk. induction ks as [|x ks IH]; [reflexivity|].
  cbn [filter]. destruct (eqb (fst x) u); cbn [negb filter]; destruct (eqb (snd x) k); cbn [length]; lia.
Qed.

Lemma nk_one {U P} `{EqDec U} `{EqDec P} (u : U) (k : P) (ks : list (U * P)) :
  NoDup ks -> nk k (filter (fun x => eqb (fst x) u) ks) <= 1.
Proof.
  intro N. unfold nk. rewrite filter_filter.
  assert (I : incl (filter (fun x => eqb (fst x) u && eqb (snd x) k) ks) [(u, k)]).
  { intros [a b] Hx. apply filter_In in Hx. destruct Hx as [_ E]. apply andb_true_iff in E. destruct E as [E1 E2].
    apply eqb_eq in E1, E2. cbn [fst snd] in *. subst. left. reflexivity. }
  assert (X := NoDup_incl_length (NoDup_filter' _ _ N) I). cbn [length] in X.
  erewrite filter_ext_In; [exact X|]. intros x _. cbn beta. apply andb_comm || reflexivity.
Qed.

Lemma nk_changed {U P} `{EqDec U} `{EqDec P} (u : U) (keys : list P) (ks : list (U * P)) :
  NoDup keys ->
  length (filter (fun k => negb (Nat.eqb (nk k ks) (nk k (filter (fun x => negb (eqb (fst x) u)) ks)))) keys)
  <= length (filter (fun x => eqb (fst x) u) ks).
Proof.
  intro N. rewrite <- (map_length snd (filter (fun x => eqb (fst x) u) ks)). apply NoDup_incl_length.
  - apply NoDup_filter'. exact N.
  - intros k Hk. apply filter_In in Hk. destruct Hk as [_ E]. apply negb_true_iff, PeanoNat.Nat.eqb_neq in E.
    rewrite (nk_without u k ks) in E.
    assert (X : nk k (filter (fun x => eqb (fst x) u) ks) <> 0) by lia.
    unfold nk in X. destruct (filter (fun x => eqb (snd x) k) (filter (fun x => eqb (fst x) u) ks)) as [|x l] eqn:F; [cbn in X; lia|].
    assert (Hx : In x (x :: l)) by (left; reflexivity). rewrite <- F in Hx. apply filter_In in Hx. destruct Hx as [Hx E'].
    apply eqb_eq in E'. subst k. apply in_map. exact Hx.
Qed.

(** ** Keys kept by contribution bounding *)
Lemma kept_keys {U P V} `{EqDec U} `{EqDec P} p ex (sm : sampling U P) (rows : list (U * P * V)) kept :
  valid_sampling p sm ->
  bound_contributions p ex sm (fun vs => vs) rows = Ok kept ->
  NoDup (map fst kept) /\ incl (map fst kept) (map fst rows).
Proof.
  intros Hv E. unfold bound_contributions, valid_sampling in *.
  destruct (max_contributions p) as [m|] eqn:Em.
  - destruct (m =? 0)%Z; [discriminate|]. inversion E; subst kept. clear E.
    destruct (per_privacy_id_any_bounds _ (fun vs : list V => vs) rows _
              (per_privacy_id_local_any (ch_pid sm) _ _ rows Hv)) as [kept [Pm [N [Ne B]]]].
    rewrite map_values_id in Pm.
    split; [eapply Permutation_NoDup; [symmetry; apply Permutation_map; exact Pm | exact N]|].
    intros [u k] Hk. apply (Permutation_in _ (Permutation_map fst Pm)) in Hk.
    apply keys_in in Hk. destruct Hk as [vs Hk]. assert (Nv := Ne _ _ Hk). destruct vs as [|v vs]; [congruence|].
    destruct (B u) as [S _].
    assert (X : In ((u, k), v) (as_rows (kept_of u kept))).
    { unfold as_rows. apply in_flat_map. exists ((u, k), v :: vs). split.
      - apply filter_In. split; [exact Hk | apply eqb_refl].
      - left. reflexivity. }
    apply (submset_In _ _ _ S) in X. unfold rows_of in X. apply filter_In in X. destruct X as [X _].
    eapply in_keys. exact X.
  - destruct Hv as [V1 V2].
    destruct (perform_cross_partition_contribution_bounding p), ex.
    + destruct (max_partitions_contributed p) as [l0|], (max_contributions_per_partition p) as [linf|]; try discriminate.
      inversion E; subst kept. clear E.
      destruct (cross_and_per_any_bounds (Z.to_nat l0) (Z.to_nat linf) (fun vs : list V => vs) rows _
                  (cross_and_per_local_any _ _ _ _ _ rows (V2 _ eq_refl) (V1 _ eq_refl))) as [N [_ F]].
      split; [exact N|]. intros [u k] Hk. apply keys_in in Hk. destruct Hk as [a Ha]. destruct (F _ _ _ Ha) as [X _]. exact X.
    + destruct (max_partitions_contributed p) as [l0|]; try discriminate. inversion E; subst kept. clear E.
      destruct (cross_partition_local_bounds (ch_pid sm) (Z.to_nat l0) (fun vs : list V => vs) rows (V1 _ eq_refl))
        as [N [_ F]].
      split; [exact N|]. intros [u k] Hk. apply keys_in in Hk. destruct Hk as [a Ha]. destruct (F _ _ _ Ha) as [X _]. exact X.
    + destruct (max_contributions_per_partition p) as [linf|]; try discriminate. inversion E; subst kept. clear E.
      destruct (linf_any_bounds (Z.to_nat linf) (fun vs : list V => vs) rows _
                  (linf_local_any (ch_pid_pk sm) _ _ rows (V2 _ eq_refl))) as [N [F _]].
      split; [exact N|]. intros k Hk. apply F. exact Hk.
    + inversion E; subst kept. clear E. destruct (noop_exact (fun vs : list V => vs) rows) as [N F].
      split; [exact N|]. intros k Hk. apply keys_in in Hk. destruct Hk as [a Ha]. apply F in Ha. tauto.
Qed.

(** ** Keys of the raw accumulators *)
Lemma contributions_keys {U P} `{EqDec U} `{EqDec P} p cs (sm : sampling U P) public rows col :
  (contribution_bounds_already_enforced p = false -> valid_sampling p sm) ->
  contributions p cs sm public rows = Ok col ->
  incl (map fst col) (map (fun r => snd (fst r)) (to_bound p public rows)).
Proof.
  intros Hv E. unfold contributions in E. fold (to_bound p public rows) in E.
  destruct (contribution_bounds_already_enforced p).
  - inversion E; subst. rewrite map_map. cbn [fst]. apply incl_refl.
  - rewrite bound_natural in E.
    destruct (bound_contributions p _ sm (fun vs => vs) (to_bound p public rows)) as [kept|] eqn:Ek;
      cbn [rmap] in E; [|discriminate].
    inversion E; subst. destruct (kept_keys _ _ _ _ _ (Hv eq_refl) Ek) as [_ I].
    unfold map_values. rewrite !map_map. cbn [fst snd]. intros k Hk. apply in_map_iff in Hk. destruct Hk as [e [<- He]].
    assert (X : In (fst e) (map fst (to_bound p public rows))) by (apply I; apply in_map; exact He).
    apply in_map_iff in X. destruct X as [r [Er Hr]]. apply in_map_iff. exists r. rewrite Er. split; [reflexivity | exact Hr].
Qed.

Lemma raw_keys {U P} `{EqDec U} `{EqDec P} p cs (sm : sampling U P) public rows col :
  raw_accumulators p cs sm public rows = Ok col ->
  NoDup (map fst col) /\
  exists c0, contributions p cs sm public rows = Ok c0 /\
    forall k, In k (map fst col) <-> In k (map fst c0) \/ (match public with Some pub => In k pub | None => False end).
Proof.
  unfold raw_accumulators. destruct (contributions p cs sm public rows) as [c0|]; cbn [rmap]; [|discriminate].
  intro E. inversion E; subst. split; [rewrite combine_per_key_keys; apply NoDup_distinct|].
  exists c0. split; [reflexivity|]. intro k. rewrite combine_per_key_keys, in_distinct.
  destruct public as [[|k0 ks]|]; unfold add_empty_public_partitions.
  - cbn [In]. tauto.
  - rewrite map_app, in_app_iff, map_map. cbn [fst]. rewrite map_id. tauto.
  - tauto.
Qed.

Lemma map_result_forall2 {A B} (f : A -> result B) l out :
  map_result f l = Ok out -> Forall2 (fun x y => f x = Ok y) l out.
Proof.
  revert out. induction l as [|x l IH]; intros out E; cbn [map_result] in E.
  - inversion E. constructor.
  - destruct (f x) eqn:Ef; cbn [rbind] in E; [|discriminate].
    destruct (map_result f l) eqn:Em; cbn [rmap] in E; [|discriminate]. inversion E; subst. constructor; auto.
Qed.

Lemma map_result_keys {P A B} (g : P * A -> result B) (col : list (P * A)) out :
  map_result (fun row => rmap (pair (fst row)) (g row)) col = Ok out -> map fst out = map fst col.
Proof.
  intro E. apply map_result_forall2 in E. induction E as [|x y l l' E1 E2 IH]; [reflexivity|].
  cbn [map]. rewrite IH. f_equal. destruct (g x); cbn in E1; [|discriminate]. inversion E1. reflexivity.
Qed.

Lemma public_keys {U P} `{EqDec U} `{EqDec P} p cs (sm : sampling U P) pub rows col :
  (contribution_bounds_already_enforced p = false -> valid_sampling p sm) ->
  (public_partitions_already_filtered p = true -> forall r, In r rows -> In (snd (fst r)) pub) ->
  raw_accumulators p cs sm (Some pub) rows = Ok col ->
  NoDup (map fst col) /\ forall k, In k (map fst col) <-> In k pub.
Proof.
  intros Hv Hf E. destruct (raw_keys _ _ _ _ _ _ E) as [N [c0 [E0 F]]]. split; [exact N|]. intro k.
  rewrite F. split; [|tauto]. intros [Hk|Hk]; [|exact Hk].
  apply (contributions_keys _ _ _ _ _ _ Hv E0) in Hk. apply in_map_iff in Hk. destruct Hk as [r [<- Hr]].
  unfold to_bound in Hr. destruct (public_partitions_already_filtered p); [apply Hf; auto|].
  rewrite drop_partitions_filter in Hr. apply filter_In in Hr. destruct Hr as [_ Hr]. apply mem_true_iff. exact Hr.
Qed.

(** ** Aggregation result from selected accumulators *)
Lemma aggregate_split {U P} `{EqDec U} `{EqDec P} p (sm : sampling U P) keep nz public rows out :
  aggregate p sm keep nz public rows = Ok out ->
  exists cs col out0, create_compound_combiner p = Ok cs /\
    selected_accumulators p cs sm keep public rows = Ok col /\
    Forall2 (fun row res => rmap (pair (fst row)) (compound_metrics (nz (fst row)) cs (snd row)) = Ok res) col out0 /\
    out = (if post_aggregation_thresholding p then filter (fun row => above_threshold (snd row)) out0 else out0).
Proof.
  unfold aggregate. destruct (create_compound_combiner p) as [cs|]; cbn [rbind]; [|discriminate].
  destruct (selected_accumulators p cs sm keep public rows) as [col|] eqn:Es; cbn [rbind]; [|discriminate].
  destruct (map_result _ col) as [out0|] eqn:E; cbn [rmap]; [|discriminate]. intro X. inversion X; subst.
  exists cs, col, out0. split; [reflexivity|]. split; [exact Es|]. split; [|reflexivity].
  apply map_result_forall2 in E. exact E.
Qed.

Lemma forall2_keys {P A B} (g : P * A -> result B) (col : list (P * A)) out :
  Forall2 (fun row res => rmap (pair (fst row)) (g row) = Ok res) col out -> map fst out = map fst col.
Proof.
  induction 1 as [|x y l l' E1 E2 IH]; [reflexivity|].
  cbn [map]. rewrite IH. f_equal. destruct (g x); cbn in E1; [|discriminate]. inversion E1. reflexivity.
Qed.

Lemma selects_public {P} p (pub : list P) : selects_privately p (Some pub) = false.
Proof. reflexivity. Qed.

(** ** Selection *)
Lemma find_row {P A} `{EqDec P} (col : list (P * A)) row :
  NoDup (map fst col) -> In row col -> find (fun e => eqb (fst e) (fst row)) col = Some row.
Proof. intros N Hin. destruct row as [k a]. exact (find_In_NoDup _ _ N _ Hin). Qed.

Lemma divide_by_one n : divide_and_round_up n 1 = n.
Proof. unfold divide_and_round_up. rewrite Z.div_1_r. lia. Qed.

Lemma select_keys {P} `{EqDec P} m keep (col : list (P * cacc)) :
  NoDup (map fst col) ->
  NoDup (map fst (select_private_partitions m keep col)) /\
  forall k, In k (map fst (select_private_partitions m keep col)) <->
            In k (map fst col) /\ keep k (divide_and_round_up (row_count k col) m) = true.
Proof.
  intro N. unfold select_private_partitions. split; [apply NoDup_map_fst_filter; exact N|].
  intro k. split.
  - intro Hk. apply in_map_iff in Hk. destruct Hk as [row [<- Hr]]. apply filter_In in Hr. destruct Hr as [Hr K].
    split; [apply in_map; exact Hr|]. unfold row_count. rewrite (find_row col row N Hr). exact K.
  - intros [Hk K]. apply in_map_iff in Hk. destruct Hk as [row [<- Hr]]. apply in_map. apply filter_In.
    split; [exact Hr|]. unfold row_count in K. rewrite (find_row col row N Hr) in K. exact K.
Qed.

Lemma row_count_bound {U P} `{EqDec U} `{EqDec P} p cs (sm : sampling U P) rows col k :
  contribution_bounds_already_enforced p = false -> valid_sampling p sm ->
  raw_accumulators p cs sm None rows = Ok col -> In k (map fst col) ->
  (1 <= row_count k col <= Z.of_nat (length (ids_of k rows)))%Z.
Proof.
  intros Hb Hv E Hk. assert (E0 := E). destruct (raw_accumulators_pairs _ _ _ _ _ _ Hb E) as [kept [Ek ->]].
  cbn [to_bound] in Ek. destruct (kept_keys _ _ _ _ _ Hv Ek) as [N I].
  rewrite row_count_pairs. unfold pairs_of. cbn [empties]. rewrite app_nil_r, values_of_rekey.
  rewrite combine_per_key_keys, in_distinct in Hk. unfold with_accs in Hk. rewrite map_values_keys in Hk.
  unfold pairs_of in Hk. cbn [empties] in Hk. rewrite app_nil_r in Hk.
  assert (L : 1 <= length (values_of k (map (fun e => (snd (fst e), snd e)) kept))).
  { destruct (values_of k (map (fun e => (snd (fst e), snd e)) kept)) eqn:V; [|cbn; lia].
    apply (proj1 (values_of_nil_iff _ _)) in V. contradiction. }
  rewrite values_of_rekey in L. assert (B := nk_ids k (map fst kept) (map fst rows) N I).
  assert (X : pairs_ids k (map fst rows) = ids_of k rows).
  { unfold pairs_ids, ids_of. rewrite filter_map, map_map. reflexivity. }
  rewrite X in B. lia.
Qed.

Lemma row_count_diff {U P} `{EqDec U} `{EqDec P} p cs (sm : sampling U P) public rows col col' u :
  contribution_bounds_already_enforced p = false ->
  raw_accumulators p cs sm public rows = Ok col ->
  raw_accumulators p cs sm public (without u rows) = Ok col' ->
  exists kept, bound_contributions p (compound_expects_sampling cs) sm (fun vs => vs) (to_bound p public rows) = Ok kept /\
    forall k, exists e : nat,
      row_count k col = Z.of_nat (nk k (map fst kept) + e) /\
      row_count k col' = Z.of_nat (nk k (filter (fun x => negb (eqb (fst x) u)) (map fst kept)) + e).
Proof.
  intros Hb E E'.
  destruct (raw_accumulators_pairs _ _ _ _ _ _ Hb E) as [kept [Ek ->]].
  destruct (raw_accumulators_pairs _ _ _ _ _ _ Hb E') as [kept' [Ek' ->]].
  exists kept. split; [exact Ek|]. intro k.
  unfold without in Ek'. rewrite (to_bound_filter p public (fun x => negb (eqb x u))) in Ek'.
  rewrite (bound_filter (fun x => negb (eqb x u))), Ek in Ek'. cbn [rmap] in Ek'. inversion Ek'; subst kept'. clear Ek'.
  exists (length (values_of k (empties public))).
  rewrite !row_count_pairs. unfold pairs_of. rewrite !values_of_app, !app_length, !values_of_rekey.
  split; [reflexivity|]. rewrite filter_map. reflexivity.
Qed.

Lemma selection_influence {U P} `{EqDec U} `{EqDec P} p cs (sm : sampling U P) public rows col col' u keys b :
  accepted p -> contribution_bounds_already_enforced p = false -> valid_sampling p sm -> promised p rows ->
  NoDup keys ->
  raw_accumulators p cs sm public rows = Ok col ->
  raw_accumulators p cs sm public (without u rows) = Ok col' ->
  match max_contributions p with Some m => b = m | None => max_partitions_contributed p = Some b end ->
  (forall k, 0 <= row_count k col - row_count k col' <= 1)%Z /\
  (Z.of_nat (length (filter (fun k => negb (row_count k col =? row_count k col')%Z) keys)) <= b)%Z.
Proof.
  intros Ha Hb Hv Hp Nk E E' Hm. destruct (accepted_facts p Ha) as [_ [_ [_ Hf]]].
  destruct (row_count_diff p cs sm public rows col col' u Hb E E') as [kept [Ek D]].
  destruct (kept_keys _ _ _ _ _ Hv Ek) as [N _].
  split.
  - intro k. destruct (D k) as [e [-> ->]]. rewrite (nk_without u k (map fst kept)).
    assert (X := nk_one u k (map fst kept) N). lia.
  - assert (L : (Z.of_nat (length (filter (fun x => eqb (fst x) u) (map fst kept))) <= b)%Z).
    { assert (LK : length (filter (fun x => eqb (fst x) u) (map fst kept)) = length (kept_of u kept))
        by (rewrite filter_map, map_length; reflexivity).
      rewrite LK. destruct (max_contributions p) as [m|] eqn:Em.
      - subst b. destruct Hf as [Pm _].
        destruct (kept_facts_total p _ sm _ kept m Em Hv Ek) as [_ [Ne B]].
        assert (X := as_rows_count (kept_of u kept)). specialize (B u).
        assert (forall e, In e (kept_of u kept) -> snd e <> []) by (intros e0 He; apply filter_In in He; apply Ne; tauto).
        specialize (X H1). lia.
      - destruct (kept_facts p _ sm _ rows kept b Em Hm Hv Hp (to_bound_incl p public rows) Ek) as [_ [B _]].
        specialize (B u). destruct Hf as [l0 [linf [El0 [_ [P0 _]]]]]. rewrite Hm in El0. inversion El0; subst. lia. }
    assert (X := nk_changed u keys (map fst kept) Nk).
    erewrite filter_ext_In; [|intros k Hk; instantiate (1 := fun k => negb (Nat.eqb (nk k (map fst kept))
        (nk k (filter (fun x => negb (eqb (fst x) u)) (map fst kept)))))].
    + lia.
    + cbn beta. f_equal. destruct (D k) as [e [-> ->]].
      apply eq_true_iff_eq. rewrite Z.eqb_eq, PeanoNat.Nat.eqb_eq. lia.
Qed.

(** ** Already enforced bounds: row counts to privacy-id counts *)
Lemma length_by_ids {U P V} `{EqDec U} `{EqDec P} (k : P) (rows : list (U * P * V)) m :
  (forall u, length (values_of (u, k) rows) <= m) ->
  length (filter (fun r => eqb (snd (fst r)) k) rows) <= m * length (ids_of k rows).
Proof.
  intro B. unfold ids_of. set (rk := filter (fun r => eqb (snd (fst r)) k) rows).
  assert (G : forall us, NoDup us -> (forall r, In r rk -> In (fst (fst r)) us) ->
    length rk = list_sum (map (fun u => length (filter (fun r => eqb (fst (fst r)) u) rk)) us)).
  { clear B. generalize rk. clear rk. intros rk us Nu. induction rk as [|r rk IH]; intro F.
    - clear. induction us; cbn; [reflexivity|]. exact IHus.
    - cbn [length]. rewrite IH by (intros; apply F; right; assumption).
      assert (Hr : In (fst (fst r)) us) by (apply F; left; reflexivity). clear F IH.
      induction us as [|u us IHu]; [destruct Hr|]. inversion Nu; subst. cbn [map list_sum fold_right filter].
      change (fold_right Nat.add 0) with list_sum.
      destruct (eqb (fst (fst r)) u) eqn:E.
      + apply eqb_eq in E. cbn [length].
        assert (Z : map (fun u0 => length (if eqb (fst (fst r)) u0 then r :: filter (fun r0 => eqb (fst (fst r0)) u0) rk
                     else filter (fun r0 => eqb (fst (fst r0)) u0) rk)) us =
                    map (fun u0 => length (filter (fun r0 => eqb (fst (fst r0)) u0) rk)) us).
        { apply map_ext_in. intros a Ha. destruct (eqb (fst (fst r)) a) eqn:E'; [|reflexivity].
          apply eqb_eq in E'. subst. exfalso. apply H3. congruence. }
        rewrite Z. lia.
      + destruct Hr as [Hr|Hr]; [subst; rewrite eqb_refl in E; discriminate|]. specialize (IHu H4 Hr).
        cbn [filter] in IHu. lia. }
  rewrite (G (distinct (map (fun r => fst (fst r)) rk)) (NoDup_distinct _)).
  2:{ intros r Hr. apply in_distinct. apply (in_map (fun r => fst (fst r))). exact Hr. }
  clear G. induction (distinct (map (fun r => fst (fst r)) rk)) as [|u us IH]; [cbn; lia|].
  cbn [map list_sum fold_right length]. change (fold_right Nat.add 0) with list_sum.
  assert (X : length (filter (fun r => eqb (fst (fst r)) u) rk) = length (values_of (u, k) rows)).
  { unfold values_of, rk. rewrite map_length, filter_filter. f_equal. apply filter_ext_In. intros [[a b] v] _.
    cbn [fst snd]. destruct (eqb (a, b) (u, k)) eqn:E.
    - apply eqb_eq in E. inversion E; subst. rewrite !eqb_refl. reflexivity.
    - apply eqb_neq in E. apply not_true_is_false. intro F. apply andb_true_iff in F. destruct F as [F1 F2].
      apply eqb_eq in F1, F2. apply E. congruence. }
  rewrite X. specialize (B u). nia.
Qed.

Lemma row_count_enforced {U P} `{EqDec U} `{EqDec P} p cs (sm : sampling U P) rows col k :
  contribution_bounds_already_enforced p = true ->
  raw_accumulators p cs sm None rows = Ok col ->
  row_count k col = Z.of_nat (length (filter (fun r => eqb (snd (fst r)) k) rows)) /\
  (In k (map fst col) <-> In k (map (fun r => snd (fst r)) rows)).
Proof.
  intros Hb E. unfold raw_accumulators, contributions in E. rewrite Hb in E. cbn [rmap] in E. inversion E; subst.
  assert (W : map (fun r : U * P * value => (snd (fst r), compound_create cs [snd r])) rows =
              with_accs cs (map (fun r => (snd (fst r), [snd r])) rows)).
  { unfold with_accs, map_values. rewrite map_map. reflexivity. }
  rewrite W, row_count_pairs. split.
  - unfold values_of. rewrite filter_map, !map_length. reflexivity.
  - rewrite combine_per_key_keys, in_distinct. unfold with_accs. rewrite map_values_keys, map_map. reflexivity.
Qed.

Lemma ceil_bound a m n : (0 < m)%Z -> (1 <= a)%Z -> (a <= m * n)%Z -> (1 <= divide_and_round_up a m <= n)%Z.
Proof.
  intros Pm Pa L. unfold divide_and_round_up. split.
  - apply Z.div_le_lower_bound; lia.
  - assert ((a + m - 1) / m < n + 1)%Z by (apply Z.div_lt_upper_bound; lia). lia.
Qed.

(** ** select_partitions *)
Definition sampled_pairs {U P} `{EqDec U} `{EqDec P} (l0 : nat) (ch : source U) (rows : list (U * P)) : list (U * P) :=
  flat_map (fun x => map (fun k => (fst x, k))
                         (choose (ch (fst x) (length (distinct (snd x)))) l0 (distinct (snd x)))) (group_by_key rows).

Lemma choose_NoDup {V} idx n (vs : list V) : (n < length vs -> valid_draw n (length vs) idx) ->
  NoDup vs -> NoDup (choose idx n vs).
Proof.
  intros D N. eapply submset_NoDup; [apply choose_submset|exact N].
  exact D.
Qed.

Lemma sampled_facts {U P} `{EqDec U} `{EqDec P} l0 (ch : source U) (rows : list (U * P)) :
  valid_source l0 ch ->
  NoDup (sampled_pairs l0 ch rows) /\ incl (sampled_pairs l0 ch rows) rows /\
  (forall u, length (filter (fun x => eqb (fst x) u) (sampled_pairs l0 ch rows)) =
             Nat.min l0 (length (pairs_partitions u rows))).
Proof.
  intro Vs.
  assert (Sub : forall u vs, submset (choose (ch u (length (distinct vs))) l0 (distinct vs)) (distinct vs : list P)).
  { intros u vs. apply choose_submset. intro L. apply Vs. exact L. }
  assert (Hg : NoDup (map fst (group_by_key rows))) by (rewrite group_by_key_keys; apply NoDup_distinct).
  split; [|split].
  - unfold sampled_pairs. apply NoDup_flat_map.
    + eapply NoDup_map_inv. exact Hg.
    + intros x _. apply NoDup_map_inj.
      * intros a b _ _ E. inversion E. reflexivity.
      * eapply submset_NoDup; [apply Sub | apply NoDup_distinct].
    + intros x y z Hx Hy Hz Hz'. apply in_map_iff in Hz, Hz'. destruct Hz as [a [<- _]], Hz' as [b [E _]].
      inversion E. destruct x as [ux vx], y as [uy vy]. cbn [fst] in *. subst.
      f_equal. eapply NoDup_keys_functional; [exact Hg | exact Hx | exact Hy].
  - intros z Hz. unfold sampled_pairs in Hz. apply in_flat_map in Hz. destruct Hz as [[u vs] [Hx Hz]].
    apply in_map_iff in Hz. destruct Hz as [k [<- Hk]]. cbn [fst snd] in *.
    apply (submset_In _ _ _ (Sub u vs)) in Hk. apply (proj1 (in_distinct _ _)) in Hk.
    apply (proj1 (in_group_by_key _ _ _)) in Hx. destruct Hx as [_ ->]. unfold values_of in Hk.
    apply in_map_iff in Hk. destruct Hk as [[a b] [<- Hf]]. apply filter_In in Hf. destruct Hf as [Hf E].
    apply eqb_eq in E. cbn [fst snd] in *. subst. exact Hf.
  - intro u. unfold sampled_pairs. rewrite filter_flat_map.
    rewrite (flat_map_ext_In _ (fun x => if eqb (fst x) u then map (fun k => (u, k))
               (choose (ch u (length (distinct (snd x)))) l0 (distinct (snd x))) else [])).
    2:{ intros x _. rewrite filter_map. cbn [fst]. destruct (eqb (fst x) u) eqn:E.
        - apply eqb_eq in E. subst. rewrite filter_all; [reflexivity|]. intros; reflexivity.
        - rewrite filter_none; [reflexivity|]. intros; reflexivity. }
    rewrite length_flat_map.
    assert (X : forall g : list (U * list P), NoDup (map fst g) ->
       list_sum (map (fun x => length (if eqb (fst x) u then map (fun k => (u, k))
               (choose (ch u (length (distinct (snd x)))) l0 (distinct (snd x))) else [])) g) =
       match find (fun x => eqb (fst x) u) g with
       | Some x => length (choose (ch u (length (distinct (snd x)))) l0 (distinct (snd x))) | None => 0 end).
    { induction g as [|x g IH]; intro N; [reflexivity|]. inversion N; subst.
      cbn [map list_sum fold_right find]. change (fold_right Nat.add 0) with list_sum. rewrite IH by assumption.
      destruct (eqb (fst x) u) eqn:E; [|reflexivity]. rewrite map_length. apply eqb_eq in E. subst.
      rewrite find_none_keys by assumption. lia. }
    rewrite X by exact Hg. unfold pairs_partitions.
    destruct (find (fun x => eqb (fst x) u) (group_by_key rows)) as [[u' vs]|] eqn:F.
    + apply find_some in F. destruct F as [F E]. apply eqb_eq in E. cbn [fst snd] in *. subst u'.
      apply (proj1 (in_group_by_key _ _ _)) in F. destruct F as [_ ->].
      rewrite choose_length by (intro L; apply Vs; exact L). unfold values_of. reflexivity.
    + assert (Nil : filter (fun r => eqb (fst r) u) rows = []).
      { apply filter_none. intros r Hr. destruct (eqb (fst r) u) eqn:E; [|reflexivity]. apply eqb_eq in E. subst.
        assert (Hk : In (fst r) (map fst (group_by_key rows)))
          by (rewrite group_by_key_keys; apply in_distinct; apply in_map; exact Hr).
        apply in_map_iff in Hk. destruct Hk as [x [Ex Hx]]. apply (find_none _ _ F) in Hx.
        rewrite Ex, eqb_refl in Hx. discriminate. }
      rewrite Nil. cbn. lia.
Qed.

Lemma sampled_filter {U P} `{EqDec U} `{EqDec P} l0 (ch : source U) (q : U -> bool) (rows : list (U * P)) :
  sampled_pairs l0 ch (filter (fun r => q (fst r)) rows) = filter (fun r => q (fst r)) (sampled_pairs l0 ch rows).
Proof.
  unfold sampled_pairs. rewrite group_by_key_filter_keys, filter_flat_map.
  induction (group_by_key rows) as [|x g IH]; [reflexivity|]. cbn [filter flat_map].
  rewrite filter_map. cbn [fst]. destruct (q (fst x)) eqn:E.
  - cbn [flat_map]. rewrite IH. f_equal. rewrite filter_all by (intros; reflexivity). reflexivity.
  - rewrite (filter_none (fun _ : P => false)) by (intros; reflexivity). exact IH.
Qed.

Lemma partition_counts_pairs {U P} `{EqDec U} `{EqDec P} l0 (ch : source U) (rows : list (U * P)) :
  partition_counts l0 ch rows =
  combine_per_key (compound_merge []) (with_accs [] (map (fun x => (snd x, [])) (sampled_pairs l0 ch rows))).
Proof.
  unfold partition_counts, with_accs, map_values. rewrite map_map. reflexivity.
Qed.

Lemma partition_counts_row {U P} `{EqDec U} `{EqDec P} l0 (ch : source U) (rows : list (U * P)) k :
  row_count k (partition_counts l0 ch rows) = Z.of_nat (nk k (sampled_pairs l0 ch rows)).
Proof.
  rewrite partition_counts_pairs, row_count_pairs. unfold values_of, nk. rewrite filter_map, !map_length. reflexivity.
Qed.

Lemma partition_counts_keys {U P} `{EqDec U} `{EqDec P} l0 (ch : source U) (rows : list (U * P)) :
  NoDup (map fst (partition_counts l0 ch rows)) /\
  forall k, In k (map fst (partition_counts l0 ch rows)) <-> In k (map snd (sampled_pairs l0 ch rows)).
Proof.
  rewrite partition_counts_pairs, combine_per_key_keys. split; [apply NoDup_distinct|]. intro k.
  rewrite in_distinct. unfold with_accs. rewrite map_values_keys, map_map. reflexivity.
Qed.
