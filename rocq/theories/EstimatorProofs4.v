(** Proofs about the error estimator: the whole estimate. *)
From Coq Require Import List ZArith QArith Qreals Reals Bool Lia Lra.
From Verif Require Import Base BaseLemmas ListLemmas ParamsModel SensModel BackendModel BackendSpec BackendProofs
  HistModel HistSpec HistProofs HistProofs2 HistProofs4 HistProps VectorModel VectorProofs2
  EstimatorModel EstimatorSpec EstimatorProofs EstimatorProofs2 EstimatorProofs3.
Import ListNotations.
Local Open Scope R_scope.

Lemma count_list_pos {A B} `{EqDec A} (f : B -> A) (g : list A) (l : list B) : (forall x, In x l -> In (f x) g) ->
  Forall (fun x => (1 <= x)%Z) (map (fun x => Z.of_nat (occ (f x) g)) l).
Proof.
  intros I. apply Forall_forall. intros z Iz. apply in_map_iff in Iz. destruct Iz as (x & <- & Ix).
  pose proof (occ_pos (f x) g (I x Ix)). lia.
Qed.

Lemma distinct_nonempty {A} `{EqDec A} (l : list A) : l <> [] -> distinct l <> [].
Proof.
  intros N E. destruct l as [|a l]; [contradiction|].
  assert (I : In a (distinct (a :: l))) by (apply in_distinct; left; reflexivity). rewrite E in I. destruct I.
Qed.
Lemma map_nonempty {A B} (f : A -> B) l : l <> [] -> map f l <> [].
Proof. destruct l; [contradiction|discriminate]. Qed.

Lemma data_pos {P K} `{EqDec P} `{EqDec K} (col : list (P * K)) :
  Forall (fun x => (1 <= x)%Z) (partitions_per_id col) /\ Forall (fun x => (1 <= x)%Z) (rows_per_pair col) /\
  Forall (fun x => (1 <= x)%Z) (rows_per_partition col) /\ Forall (fun x => (1 <= x)%Z) (ids_per_partition col).
Proof.
  split; [|split; [|split]].
  - apply Forall_forall. intros z Iz. apply in_map_iff in Iz. destruct Iz as (p & <- & Ip).
    apply (proj1 (in_distinct _ _)) in Ip. apply in_map_iff in Ip. destruct Ip as ([p' k] & E & I). cbn in E. subst p'.
    assert (Iv : In k (distinct (values_of p col))) by (apply in_distinct, in_values_of, I).
    destruct (distinct (values_of p col)); [destruct Iv | cbn; lia].
  - apply (count_list_pos (fun x => x)). intros x I. apply (proj1 (in_distinct _ _)) in I. exact I.
  - apply (count_list_pos (fun x => x)). intros x I. apply (proj1 (in_distinct _ _)) in I. exact I.
  - apply (count_list_pos (fun x => x)). intros x I. apply (proj1 (in_distinct _ _)) in I.
    apply in_map_iff in I. destruct I as (pr & <- & I). apply in_map, in_distinct, I.
Qed.

Lemma data_nonempty {P K} `{EqDec P} `{EqDec K} (col : list (P * K)) : col <> [] ->
  partitions_per_id col <> [] /\ rows_per_pair col <> [] /\ rows_per_partition col <> [] /\ ids_per_partition col <> [].
Proof. intros N. repeat split; apply map_nonempty, distinct_nonempty; try apply map_nonempty; exact N. Qed.

Lemma average_mono r s xs f : xs <> [] -> Forall (fun x => rmse r s (IZR x) <= f x) xs ->
  average_rmse r s xs <= sumR (map f xs) / INR (length xs).
Proof.
  intros N F. unfold average_rmse, Rdiv. apply Rmult_le_compat_r.
  - apply Rlt_le, Rinv_0_lt_compat, lt_0_INR. destruct xs; [contradiction | cbn; lia].
  - clear N. unfold sumR. induction F as [|x xs L F IH]; cbn [map fold_right]; lra.
Qed.

(** An over-estimated ratio. *)
Lemma average_over r d q s xs : Forall (fun x => (1 <= x)%Z) xs -> xs <> [] -> 0 <= r <= q -> q <= r + d ->
  average_rmse r s xs <= average_rmse q s xs <= average_rmse r s xs + d * average_size xs.
Proof.
  intros F N B D. assert (Pn : 0 < INR (length xs)) by (apply lt_0_INR; destruct xs; [contradiction | cbn; lia]).
  split.
  - apply average_mono; [exact N|]. eapply Forall_impl; [|exact F]. cbn beta. intros x L.
    apply rmse_mono_ratio; [lra|]. apply IZR_le. lia.
  - apply Rle_trans with (sumR (map (fun x => rmse r s (IZR x) + d * IZR x) xs) / INR (length xs)).
    + apply average_mono; [exact N|]. eapply Forall_impl; [|exact F]. cbn beta. intros x L.
      assert (0 <= IZR x) by (apply IZR_le; lia).
      apply Rle_trans with (rmse (r + d) s (IZR x)); [apply rmse_mono_ratio; lra | apply rmse_lipschitz; lra].
    + unfold average_rmse, average_size. right. rewrite sumZ_R.
      assert (E : sumR (map (fun x => rmse r s (IZR x) + d * IZR x) xs)
                  = sumR (map (fun x => rmse r s (IZR x)) xs) + d * sumR (map IZR xs)).
      { clear. unfold sumR. induction xs as [|x xs IH]; cbn [map fold_right]; [ring|]. rewrite IH. ring. }
      rewrite E. field. lra.
Qed.

Lemma create_ok sigma d eps delta m n e : create_count_estimator sigma d eps delta m n = Ok e ->
  (m = COUNT \/ m = PRIVACY_ID_COUNT) /\ valid_budget eps delta n /\
  exists l0 r0 linf rinf ph, h_l0 d = Ok l0 /\ compute_ratio_dropped l0 = Ok r0 /\
    h_linf d = Ok linf /\ compute_ratio_dropped linf = Ok rinf /\
    (match m with COUNT => h_count_per_partition d | _ => h_privacy_id_per_partition d end) = Ok ph /\
    exists s, base_std sigma eps delta n = Ok s /\
    e = Estimator s m n (ratios_of r0) (ratios_of rinf) (partition_bins ph).
Proof.
  unfold create_count_estimator. intros E.
  assert (M : m = COUNT \/ m = PRIVACY_ID_COUNT) by (destruct m; try discriminate; auto). split; [exact M|].
  assert (E' : rbind (h_l0 d) (fun l0 => rbind (compute_ratio_dropped l0) (fun r0 =>
      rbind (h_linf d) (fun linf => rbind (compute_ratio_dropped linf) (fun rinf =>
      rbind (match m with COUNT => h_count_per_partition d | _ => h_privacy_id_per_partition d end) (fun ph =>
      make_estimator sigma eps delta m n (ratios_of r0) (ratios_of rinf) (partition_bins ph)))))) = Ok e)
    by (destruct M; subst m; exact E). clear E.
  destruct (h_l0 d) as [l0|] eqn:E1; [|discriminate]. cbn [rbind] in E'.
  destruct (compute_ratio_dropped l0) as [r0|] eqn:E2; [|discriminate]. cbn [rbind] in E'.
  destruct (h_linf d) as [linf|] eqn:E3; [|discriminate]. cbn [rbind] in E'.
  destruct (compute_ratio_dropped linf) as [rinf|] eqn:E4; [|discriminate]. cbn [rbind] in E'.
  destruct (match m with COUNT => h_count_per_partition d | _ => h_privacy_id_per_partition d end) as [ph|] eqn:E5; [|discriminate].
  cbn [rbind] in E'. unfold make_estimator in E'. destruct (base_std sigma eps delta n) as [s|] eqn:E6; [|discriminate].
  cbn [rmap] in E'. split.
  - unfold base_std in E6. destruct n, delta; try discriminate.
    + split; [reflexivity|]. intro Z0. apply Qeq_bool_iff in Z0. rewrite Z0 in E6. discriminate.
  - exists l0, r0, linf, rinf, ph. repeat split; auto. exists s. split; [reflexivity|]. congruence.
Qed.

Lemma stddev_value sigma eps delta n s m r0 rinf ph l0 linf : base_std sigma eps delta n = Ok s -> (1 <= l0)%Z ->
  get_stddev (Estimator s m n r0 rinf ph) l0 (inject_Z linf) = Ok (noise_std sigma eps delta n l0 linf).
Proof.
  intros E L. unfold get_stddev, base_std in *. cbn [e_noise e_base_std]. rewrite Q2R_inject. destruct n, delta; try discriminate.
  - destruct (Qeq_bool eps 0) eqn:Z0; [discriminate|]. injection E as <-. unfold noise_std. f_equal. field.
    intro H. apply Qeq_bool_neq in Z0. apply Z0. apply eqR_Qeq. rewrite H. unfold Q2R. cbn. lra.
  - injection E as <-. rewrite (proj2 (Z.ltb_ge _ _)) by lia. reflexivity.
Qed.

Lemma combine_ratios r0 q0 ri qi : (0 <= r0 <= q0)%Q -> (q0 <= 1)%Q -> (q0 <= r0 + (1#100))%Q ->
  (0 <= ri <= qi)%Q -> (qi <= 1)%Q -> (qi <= ri + (1#100))%Q ->
  0 <= Q2R (1 - (1 - r0) * (1 - ri)) <= Q2R (1 - (1 - q0) * (1 - qi)) /\
  Q2R (1 - (1 - q0) * (1 - qi)) <= Q2R (1 - (1 - r0) * (1 - ri)) + 2 / 100.
Proof.
  intros [A1 A2] A3 A4 [B1 B2] B3 B4.
  repeat rewrite ?Q2R_minus, ?Q2R_mult, ?Q2R_plus in *.
  apply Qle_Rle in A1, A2, A3, A4, B1, B2, B3, B4. rewrite Q2R_plus in A4, B4.
  assert (Z0 : Q2R 0 = 0) by (unfold Q2R; cbn; lra). assert (Z1 : Q2R 1 = 1) by (unfold Q2R; cbn; lra).
  assert (Z2 : Q2R (1#100) = 1/100) by (unfold Q2R; cbn; lra). rewrite Z0, Z1, Z2 in *.
  generalize dependent (Q2R r0). generalize dependent (Q2R q0). generalize dependent (Q2R ri). generalize dependent (Q2R qi).
  intros x L1 y L2 L3 L4 u L5 v L6 L7 L8.
  assert (0 <= (1 - v) * (1 - y) <= 1) by (split; nra).
  assert ((1 - u) * (1 - x) <= (1 - v) * (1 - y)) by nra.
  assert ((1 - v) * (1 - y) <= (1 - u) * (1 - x) + 2/100).
  { replace ((1 - v) * (1 - y)) with ((1 - u) * (1 - x) + (u - v) * (1 - x) + (1 - v) * (x - y)) by ring.
    assert ((u - v) * (1 - x) <= 1/100) by nra. assert ((1 - v) * (x - y) <= 1/100) by nra. lra. }
  lra.
Qed.
