(** Every run on the local backend is also a run on Beam and on Spark. *)
From Coq Require Import List ZArith QArith Bool Permutation PeanoNat Lia.
From Verif Require Import Base BaseLemmas BackendModel BackendSpec ListLemmas BackendProofs BackendProofs2 BounderModel BounderSpec BounderProofs
  ParamsModel SensModel CombinerModel CombinerSpec CombinerProofs EngineModel EngineSpec ClusterModel ClusterSpec ClusterProofs ClusterProofs2
  ClusterProofs3 ClusterProofs4.
Import ListNotations.
Local Open Scope nat_scope.

(** ** Sampling on Spark: the elements of the sample first, the others afterwards *)
Lemma pick_seq_app {V} (a b : list V) : pick (seq 0 (length a)) (a ++ b) = a.
Proof.
  assert (G : forall l c : list V, pick (seq (length l) (length c)) (l ++ c ++ b) = c).
  { intros l c. revert l. induction c as [|x c IH]; intro l; [reflexivity|]. cbn [length seq]. unfold pick. cbn [flat_map].
    rewrite nth_error_app2, Nat.sub_diag by lia. cbn [nth_error app]. f_equal.
    specialize (IH (l ++ [x])). rewrite app_length in IH. cbn in IH. rewrite Nat.add_1_r, <- app_assoc in IH. exact IH. }
  exact (G [] a).
Qed.

Definition comb_step {V} (n : nat) (t : stree V) (a : V) : stree V :=
  SNode (seq 0 (Nat.min (length (spark_sample t) + 1) n)) t (SLeaf a).

Lemma seq_draw n m : n <= m -> valid_draw n m (seq 0 n).
Proof. intro L. split; [apply seq_NoDup|split; [apply seq_length|]]. apply Forall_forall. intros i I. apply in_seq in I. lia. Qed.

Lemma comb_valid {V} n (l : list V) : forall t, valid_stree n t -> length (spark_sample t) <= n ->
  valid_stree n (fold_left (comb_step n) l t) /\ sleaves (fold_left (comb_step n) l t) = sleaves t ++ l /\
  spark_sample (fold_left (comb_step n) l t) = firstn n (spark_sample t ++ l).
Proof.
  induction l as [|a l IH]; intros t Vt Lt; cbn [fold_left].
  - rewrite !app_nil_r. rewrite firstn_all2 by exact Lt. auto.
  - assert (Sp : spark_sample (comb_step n t a) = firstn n (spark_sample t ++ [a])).
    { cbn [comb_step spark_sample]. set (s := spark_sample t) in *. destruct (Nat.le_gt_cases (length s + 1) n) as [Le | Gt].
      - rewrite Nat.min_l by exact Le. rewrite firstn_all2 by (rewrite app_length; cbn; lia).
        replace (length s + 1) with (length (s ++ [a])) by (rewrite app_length; reflexivity). apply pick_seq_full.
      - rewrite Nat.min_r by lia. assert (En : n = length s) by lia. rewrite En. rewrite pick_seq_app.
        rewrite firstn_app, Nat.sub_diag, firstn_all. cbn. symmetry. apply app_nil_r. }
    destruct (IH (comb_step n t a)) as [V1 [L1 S1]].
    + cbn [comb_step valid_stree spark_sample length]. split; [exact Vt|split; [exact I|]]. apply seq_draw. lia.
    + rewrite Sp. apply firstn_le_length.
    + split; [exact V1|split].
      * rewrite L1. cbn [comb_step sleaves]. rewrite <- app_assoc. reflexivity.
      * rewrite S1, Sp. set (s := spark_sample t) in *. change (s ++ a :: l) with (s ++ [a] ++ l). rewrite (app_assoc s). set (w := s ++ [a]).
        destruct (Nat.le_gt_cases (length w) n) as [Le | Gt].
        -- rewrite (firstn_all2 w) by exact Le. reflexivity.
        -- rewrite !firstn_app, firstn_firstn, firstn_length, Nat.min_id. rewrite Nat.min_l by lia.
           replace (n - n) with 0 by lia. replace (n - length w) with 0 by lia. reflexivity.
Qed.

Lemma sample_tree {V} n (vs l : list V) : 1 <= n -> l <> [] -> length vs = Nat.min n (length l) -> submset vs l ->
  exists t, valid_stree n t /\ Permutation (sleaves t) l /\ spark_sample t = vs.
Proof.
  intros Ln Nl Lv [rest Pm]. destruct vs as [|x vs]; [destruct l; [congruence | cbn in Lv; lia]|].
  destruct (comb_valid n (vs ++ rest) (SLeaf x) I Ln) as [V1 [L1 S1]].
  exists (fold_left (comb_step n) (vs ++ rest) (SLeaf x)). split; [exact V1|]. cbn [sleaves spark_sample] in L1, S1. split.
  - rewrite L1. symmetry. exact Pm.
  - rewrite S1. change ([x] ++ vs ++ rest) with ((x :: vs) ++ rest).
    pose proof (Permutation_length Pm) as Lp. rewrite app_length in Lp.
    destruct (Nat.le_gt_cases n (length l)) as [Le | Gt].
    + rewrite Nat.min_l in Lv by exact Le. rewrite <- Lv. rewrite firstn_app, Nat.sub_diag, firstn_all. cbn [firstn]. apply app_nil_r.
    + rewrite Nat.min_r in Lv by lia. assert (rest = []) as -> by (destruct rest; [reflexivity | cbn in Lp, Lv; lia]).
      rewrite app_nil_r. apply firstn_all2. cbn in *. lia.
Qed.

Lemma forall_plan {K V T} (f : T -> V) (Pr : K -> T -> Prop) (out : list (K * V)) :
  (forall k v, In (k, v) out -> exists t, Pr k t /\ f t = v) ->
  exists plan, map fst plan = map fst out /\ (forall k t, In (k, t) plan -> Pr k t) /\ out = map (fun kt => (fst kt, f (snd kt))) plan.
Proof.
  induction out as [|[k v] out IH]; intro Hf; [exists []; split; [reflexivity|split; [intros ? ? []|reflexivity]]|].
  destruct (Hf k v (or_introl eq_refl)) as [t [Pt Et]].
  destruct IH as [plan [E1 [E2 E3]]]; [intros k' v' I'; apply Hf; right; exact I'|].
  exists ((k, t) :: plan). split; [cbn; rewrite E1; reflexivity|split].
  - intros k' t' [E | I']; [injection E as <- <-; exact Pt | apply E2; exact I'].
  - cbn. rewrite Et, <- E3. reflexivity.
Qed.

Lemma sampled_any {K V} `{EqDec K} b n (col : list (K * V)) out : 1 <= n -> is_sample n col out -> sampled_on b n col out.
Proof.
  intros Ln Hs. destruct b; [exact Hs|]. destruct Hs as [N [E Hv]].
  destruct (forall_plan (@spark_sample V) (fun k t => valid_stree n t /\ Permutation (sleaves t) (values_of k col)) out) as [plan [E1 [E2 E3]]].
  { intros k vs I. destruct (Hv k vs I) as [L S0]. rewrite key_values_values_of in L, S0.
    destruct (sample_tree n vs (values_of k col) Ln) as [t [V1 [P1 S1]]]; [|exact L|exact S0|].
    - rewrite values_of_nil_iff. intro C. apply C. apply E. apply (in_fst k vs out I).
    - exists t. split; [split; assumption | exact S1]. }
  exists plan. rewrite E1. split; [exact N|split; [exact E|split; [exact E2 | exact E3]]].
Qed.

(** ** Merging *)
Lemma comb_tree {A} (mg : A -> A -> A) (l : list A) : forall t,
  leaves (fold_left (fun t a => Node t (Leaf a)) l t) = leaves t ++ l /\
  reduce_tree mg (fold_left (fun t a => Node t (Leaf a)) l t) = fold_left mg l (reduce_tree mg t).
Proof.
  induction l as [|a l IH]; intro t; cbn [fold_left]; [rewrite app_nil_r; auto|].
  destruct (IH (Node t (Leaf a))) as [E1 E2]. rewrite E1, E2. cbn [leaves reduce_tree]. rewrite <- app_assoc. auto.
Qed.
Lemma beam_all {A} (mg : A -> A -> A) (l : list A) x :
  beam_eval (fun _ => true) mg (BApp (map BElem (x :: l))) = Some (fold_left mg l x).
Proof.
  cbn [beam_eval]. unfold beam_merge. cbn [map fold_left beam_eval]. revert x. induction l as [|a l IH]; intro x; [reflexivity|]. cbn [map fold_left beam_eval]. apply IH.
Qed.
Lemma belems_all {A} (l : list A) : flat_map belems (map BElem l) = l.
Proof. induction l as [|a l IH]; [reflexivity|]. cbn. rewrite IH. reflexivity. Qed.
Lemma belems_ok {A} (l : list A) : fold_right (fun e Q => bexp_ok e /\ Q) True (map BElem l).
Proof. induction l as [|a l IH]; cbn; auto. Qed.

Lemma combined_any {K A} `{EqDec K} b (mg : A -> A -> A) (col : list (K * A)) : combined_on b (fun _ => true) mg col (combine_per_key mg col).
Proof.
  assert (N : NoDup (map fst (combine_per_key mg col))) by (rewrite combine_per_key_keys; apply NoDup_distinct).
  assert (E : forall k, In k (map fst (combine_per_key mg col)) <-> In k (map fst col)) by (intro k; rewrite combine_per_key_keys; apply in_distinct).
  destruct b.
  - destruct (forall_plan (beam_eval (fun _ => true) mg) (fun k e => bexp_ok e /\ Permutation (belems e) (values_of k col))
      (map (fun ka => (fst ka, Some (snd ka))) (combine_per_key mg col))) as [plan [E1 [E2 E3]]].
    { intros k v I. apply in_map_iff in I. destruct I as [[k' a] [Ea I]]. cbn in Ea. injection Ea as -> <-. apply in_combine_per_key in I.
      destruct (values_of k col) as [|x l] eqn:Ev; [discriminate|]. cbn [fold1] in I. injection I as <-.
      exists (BApp (map BElem (x :: l))). split; [split|apply beam_all].
      - cbn [bexp_ok]. split; [discriminate | apply belems_ok].
      - cbn [belems]. rewrite belems_all. reflexivity. }
    rewrite map_map in E1. cbn [fst] in E1. exists plan. split; [|exact E3]. unfold beam_plan. rewrite E1. split; [exact N|split; [exact E | exact E2]].
  - destruct (forall_plan (reduce_tree mg) (fun k t => Permutation (leaves t) (values_of k col)) (combine_per_key mg col)) as [plan [E1 [E2 E3]]].
    { intros k a I. apply in_combine_per_key in I. destruct (values_of k col) as [|x l] eqn:Ev; [discriminate|]. cbn [fold1] in I. injection I as <-.
      destruct (comb_tree mg l (Leaf x)) as [L1 R1]. exists (fold_left (fun t a => Node t (Leaf a)) l (Leaf x)). split; [rewrite L1; reflexivity | exact R1]. }
    exists plan. split; [|exact E3]. unfold reduce_plan. rewrite E1. split; [exact N|split; [exact E | exact E2]].
Qed.

Section Run.
Context {U P : Type} {EU : EqDec U} {EP : EqDec P}.

Lemma bounded_any {V A} b p ex (agg : list V -> A) (sm : sampling U P) (rows : list (U * P * V)) out :
  positive_bounds p -> valid_sampling p sm -> bound_contributions p ex sm agg rows = Ok out -> bounded_on b p ex agg rows out.
Proof.
  intros [Pc [Pl Pn]] Vs. unfold bound_contributions, bounded_on. unfold valid_sampling in Vs.
  destruct (max_contributions p) as [m|].
  - specialize (Pc m eq_refl). rewrite (proj2 (Z.eqb_neq m 0)) by lia. intro E. injection E as <-. split; [lia|].
    exists (sample_fixed_per_key (ch_pid sm) (Z.to_nat m) (key_by_pid rows)). split; [apply sampled_any; [lia | apply sample_is_sample; exact Vs]|].
    apply Permutation_refl.
  - destruct Vs as [Vl Vn]. destruct (perform_cross_partition_contribution_bounding p); destruct ex.
    + destruct (max_partitions_contributed p) as [l0|]; [|discriminate]. destruct (max_contributions_per_partition p) as [linf|]; [|discriminate].
      specialize (Pl l0 eq_refl). specialize (Pn linf eq_refl). intro E. injection E as <-. unfold bound_cross_and_per.
      eexists. eexists. eexists. split; [apply sampled_any; [lia | apply sample_is_sample, Vn; reflexivity]|]. split; [apply Permutation_refl|].
      split; [apply sampled_any; [lia | apply sample_is_sample, Vl; reflexivity]|]. apply Permutation_refl.
    + destruct (max_partitions_contributed p) as [l0|]; [|discriminate]. intro E. injection E as <-. unfold bound_cross_partition.
      eexists. exists (ch_pid sm). split; [apply group_is_grouping|]. split; [apply Vl; reflexivity|]. apply Permutation_refl.
    + destruct (max_contributions_per_partition p) as [linf|]; [|discriminate]. specialize (Pn linf eq_refl). intro E. injection E as <-. unfold bound_linf.
      eexists. split; [apply sampled_any; [lia | apply sample_is_sample, Vn; reflexivity]|]. apply Permutation_refl.
    + intro E. injection E as <-. unfold bound_noop. eexists. split; [apply group_is_grouping|]. apply Permutation_refl.
Qed.

Lemma filtered_any b (s : partition_set P) (col : list (P * (U * P * value))) :
  (b = Spark -> forall l, s = Collection l -> NoDup l) -> filtered_on b s col (filter_by_key col (set_keys s)).
Proof.
  intro Hn. destruct b, s as [l|l]; cbn [filtered_on set_keys]; unfold stage.
  - rewrite (proj1 (in_memory_filters col l)). reflexivity.
  - symmetry. apply beam_filter_join_Permutation.
  - rewrite (proj2 (in_memory_filters col l)). reflexivity.
  - rewrite (spark_filter_rdd_NoDup col l (Hn eq_refl l eq_refl)). reflexivity.
Qed.

Theorem local_aggregate_on b p (sm : sampling U P) sk nz public (rows : list (U * P * value)) out :
  positive_bounds p -> valid_sampling p sm ->
  (b = Spark -> public_partitions_already_filtered p = false -> forall l, public = Some (Collection l) -> NoDup l) ->
  aggregate p sm sk nz (option_map set_keys public) rows = Ok out -> aggregate_on b p sk nz public rows out.
Proof.
  intros Pb Vs Hd. unfold aggregate. destruct (create_compound_combiner p) as [cs|e] eqn:Ec; [|discriminate]. cbn [rbind].
  unfold selected_accumulators, raw_accumulators.
  destruct (contributions p cs sm (option_map set_keys public) rows) as [col|e] eqn:Eco; [|discriminate]. cbn [rmap rbind].
  set (col1 := match option_map set_keys public with Some (k :: ks) => _ | _ => col end).
  set (accs := combine_per_key (compound_merge cs) col1).
  destruct (if selects_privately p (option_map set_keys public) then _ else _) as [sel|e] eqn:Es; [|discriminate]. cbn [rbind].
  match goal with |- context [map_result ?f ?l] => destruct (map_result f l) as [mets|e] eqn:Em; [|discriminate] end. cbn [rmap]. intro Eo. injection Eo as Eo.
  exists cs, (rows_kept p (option_map set_keys public) rows), col, col1, accs, sel. split; [exact Ec|]. split; [|split; [|split; [|split; [|split]]]].
  - unfold prepared_on, rows_kept. destruct public as [s|]; cbn [option_map]; [|reflexivity]. destruct (public_partitions_already_filtered p); [reflexivity|].
    eexists. split; [apply filtered_any; intros Eb l El; apply (Hd Eb eq_refl); rewrite El; reflexivity|]. apply Permutation_refl.
  - unfold contributions in Eco. fold (rows_kept p (option_map set_keys public) rows) in Eco. unfold contributed_on.
    destruct (contribution_bounds_already_enforced p); [injection Eco as <-; apply Permutation_refl|].
    destruct (bound_contributions _ _ _ _ _) as [out0|e] eqn:Eb; [|discriminate]. cbn in Eco. injection Eco as <-.
    exists out0. split; [apply (bounded_any b p _ _ sm); assumption | apply Permutation_refl].
  - unfold with_empty_on, col1. destruct public as [[[|k ks]|[|k ks]]|]; cbn [option_map set_keys is_truthy]; try reflexivity.
    unfold stage. cbn. rewrite app_nil_r. reflexivity.
  - apply combined_any.
  - unfold chosen_on. destruct (selects_privately p (option_map set_keys public)); [|injection Es as <-; reflexivity].
    destruct (max_rows_per_privacy_id p) as [m|]; [|discriminate]. exists m. split; [reflexivity|]. injection Es as <-. apply Permutation_refl.
  - exists mets. split; [exact Em|]. rewrite Eo. apply Permutation_refl.
Qed.

Theorem local_select_on b l0 (ch : source U) sk (rows : list (U * P)) :
  valid_source l0 ch -> select_partitions_on b l0 sk rows (select_partitions l0 ch sk rows).
Proof.
  intro Vc. unfold select_partitions, partition_counts. cbv zeta. match goal with |- context [combine_per_key (compound_merge []) ?c] => set (col := c) end.
  exists (group_by_key rows), (fun u => distinct (values_of u rows)), ch, col, (combine_per_key (compound_merge []) col).
  split; [apply group_is_grouping|]. split; [|split; [exact Vc|split; [|split; [apply combined_any | apply Permutation_refl]]]].
  - intros u pks I. apply in_group_by_key in I. destruct I as [_ ->]. split; [apply NoDup_distinct|]. intro k. apply in_distinct.
  - unfold stage, col. match goal with |- Permutation (map _ ?a) (map _ ?b) => assert (X : a = b); [|rewrite X; reflexivity] end.
    apply flat_map_ext_In. intros [u pks] I. apply in_group_by_key in I. destruct I as [_ ->]. reflexivity.
Qed.
End Run.
