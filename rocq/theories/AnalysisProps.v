(** C41-C43: the per-partition utility analysis. *)
From Coq Require Import List ZArith QArith Qminmax Bool Permutation Lia Lqa.
From Verif Require Import Base BaseLemmas ListLemmas SensModel BackendModel AnalysisModel AnalysisSpec AnalysisProofs AnalysisProofs2.
Import ListNotations.
Local Open Scope Q_scope.

(** ** C42 *)

(** Entry [k] of compute_pmf is the probability that exactly [k] of the contributions
    survive. *)
Theorem C42_probability_of_survivors : forall ps k,
  nth k (compute_pmf ps) 0 == survival_prob ps k.
Proof. intros ps k. rewrite <- dot_indicator, pmf_expectation. apply survival_expectation. Qed.

(** One entry for every number of survivors. *)
Theorem C42_support : forall ps, length (compute_pmf ps) = S (length ps).
Proof. exact pmf_length. Qed.

(** The probabilities sum up to 1 and are non-negative. *)
Theorem C42_sums_to_one : forall ps, sumQ (compute_pmf ps) == 1.
Proof. intro ps. rewrite <- dot_one, pmf_expectation. apply expectation_one. Qed.

Theorem C42_non_negative : forall ps,
  Forall (fun p => 0 <= p /\ p <= 1) ps -> Forall (fun x => 0 <= x) (compute_pmf ps).
Proof.
  intros ps F. apply Forall_forall. intros x I. destruct (In_nth _ _ 0 I) as [k [_ <-]].
  rewrite C42_probability_of_survivors, <- survival_expectation. apply expectation_nonneg; [exact F|].
  intro i. destruct (Nat.eqb i k); lra.
Qed.

(** Keeping the partition with probability [keep k] for [k] survivors: the computed
    number is the expectation over the survivors. *)
Theorem C42_probability_to_keep : forall keep approx p ps,
  exists q, probability_to_keep keep approx (Probs (p :: ps)) = Ok q /\
            q == survivors_expectation (p :: ps) (fun k => keep (Z.of_nat k)).
Proof.
  intros keep approx p ps. eexists. split; [reflexivity|]. rewrite expected_keep_dot, pmf_expectation.
  apply expectation_ext. intro k. rewrite Z.add_0_l. reflexivity.
Qed.

(** The moments that replace long lists of probabilities are the mean, the variance and
    the third central moment of the number of survivors. *)
Theorem C42_moments_of_survivors : forall ps, moments_eq (to_moments (Probs ps)) (survivor_moments ps).
Proof. exact survivor_moments_spec. Qed.

Example C42_example : map Qred (compute_pmf [1 # 2; 1 # 4; 1]) = [0; 3 # 8; 1 # 2; 1 # 8] /\
  Qred (survival_prob [1 # 2; 1 # 4; 1] 2) = 1 # 2.
Proof. vm_compute. split; reflexivity. Qed.
Example C42_hypotheses_met : Forall (fun p => 0 <= p /\ p <= 1) [1 # 2; 1 # 4; 1].
Proof. repeat constructor; discriminate. Qed.

(** ** C41 *)

(** Whatever the order and the nesting in which the runner merges the accumulators,
    sparse or dense, exact or moments, the metrics are the specified functions of the
    data of the partition. *)
Theorem C41_metrics_of_the_data : forall keeps approx cs t,
  numeric approx -> Forall (shape_ok (leaves t)) cs ->
  exists ms, analyse keeps approx cs t = Ok ms /\ length ms = length cs /\
    forall j c, nth_error cs j = Some c ->
      exists m, nth_error ms j = Some m /\ metric_spec (keeps j) approx c (given (leaves t)) m.
Proof.
  intros keeps approx cs t Nu F. destruct (analyse_spec keeps approx cs t Nu F) as [ms [E S]].
  exists ms. split; [exact E|]. exact (metrics_spec_nth _ _ _ _ _ _ S).
Qed.

(** Two runs over the same data, with any number of empty accumulators, report equal
    metrics. *)
Theorem C41_merge_order_irrelevant : forall keeps approx cs t t',
  numeric approx -> Permutation (given (leaves t)) (given (leaves t')) ->
  Forall (shape_ok (leaves t)) cs -> Forall (shape_ok (leaves t')) cs ->
  exists ms ms', analyse keeps approx cs t = Ok ms /\ analyse keeps approx cs t' = Ok ms' /\ Forall2 metric_eq ms ms'.
Proof.
  intros keeps approx cs t t' Nu P F F'. destruct (analyse_spec keeps approx cs t Nu F) as [ms [E S]].
  destruct (analyse_spec keeps approx cs t' Nu F') as [ms' [E' S']]. exists ms, ms'. split; [exact E|]. split; [exact E'|].
  exact (metrics_spec_unique _ _ _ _ _ _ _ _ Nu P S S').
Qed.

(** Without the exclusion of empty accumulators for multi-column sums the claim is
    false: the same data, merged in different orders, gives metrics or IndexError. *)
Definition col (n : Z) : option pre := Some (1%Z, Cols [inject_Z n; 1], 1%Z).
Definition sums2 : list acombiner := [ASum 0 2 1 (Some 0%nat)].
Definition empty_last : tree (option pre) := Node (Node (Node (Leaf (col 1)) (Leaf (col 2))) (Leaf (col 3))) (Leaf None).
Definition empty_first : tree (option pre) := Node (Node (Node (Leaf None) (Leaf (col 1))) (Leaf (col 2))) (Leaf (col 3)).
Theorem C41_empty_accumulator_with_columns_refuted : exists keeps approx cs t t' ms,
  Permutation (leaves t) (leaves t') /\
  analyse keeps approx cs t = Err IndexError /\ analyse keeps approx cs t' = Ok ms.
Proof.
  exists (fun _ _ => 1), (fun _ => (0%Z, [1])), sums2, empty_last, empty_first. eexists.
  split; [|split; vm_compute; reflexivity].
  cbn [leaves empty_last empty_first app].
  apply Permutation_sym, (Permutation_cons_append [col 1; col 2; col 3] None).
Qed.

(** *** Hypotheses *)
Definition demo_rows : list (option pre) :=
  [Some (1%Z, Scalar 5, 1%Z); None; Some (3%Z, Scalar (-1), 2%Z); Some (2%Z, Scalar 1, 4%Z); Some (1%Z, Scalar 2, 3%Z)].
Fixpoint left_tree (acc : tree (option pre)) (l : list (option pre)) : tree (option pre) :=
  match l with [] => acc | d :: l' => left_tree (Node acc (Leaf d)) l' end.
Definition demo_tree : tree (option pre) := left_tree (Leaf None) demo_rows.
Definition demo_tree' : tree (option pre) :=
  Node (Node (Leaf (nth 4 demo_rows None)) (Leaf (nth 2 demo_rows None))) (Node (Leaf (nth 0 demo_rows None)) (Leaf (nth 3 demo_rows None))).
Definition demo_combiners : list acombiner := [ARaw; ASelect 2; ASum 0 2 2 None; ACount 2 2; APid 2].
Example C41_hypotheses_met :
  numeric (fun m => (m_count m, [1])) /\
  Forall (shape_ok (leaves demo_tree)) demo_combiners /\ Forall (shape_ok (leaves demo_tree')) demo_combiners /\
  Permutation (given (leaves demo_tree)) (given (leaves demo_tree')) /\
  exists ms ms', analyse (fun _ n => if (n <? 2)%Z then 0 else 1) (fun m => (m_count m, [1])) demo_combiners demo_tree = Ok ms /\
    analyse (fun _ n => if (n <? 2)%Z then 0 else 1) (fun m => (m_count m, [1])) demo_combiners demo_tree' = Ok ms' /\
    Forall2 metric_eq ms ms' /\ ms <> ms'.
Proof.
  split; [|split; [|split; [|split]]].
  - intros m m' (A & B & C & D). split; [exact A | repeat constructor].
  - repeat constructor; cbn; try discriminate; try congruence.
    intros d I. repeat (destruct I as [<-|I]; [discriminate|]). destruct I.
  - repeat constructor; cbn; try discriminate; try congruence.
    intros d I. repeat (destruct I as [<-|I]; [discriminate|]). destruct I.
  - cbn. set (a := (_, Scalar 5, _)). set (b := (_, Scalar (-1), _)). set (c := (_, Scalar 1, _)). set (d := (_, Scalar 2, _)).
    change (Permutation ([a; b; c; d]) ([d; b] ++ [a; c])).
    rewrite Permutation_app_comm. cbn. constructor. rewrite (perm_swap c b). constructor. apply perm_swap.
  - do 2 eexists. split; [vm_compute; reflexivity|]. split; [vm_compute; reflexivity|].
    split; [repeat constructor | discriminate].
Qed.

(** More than one hundred privacy ids: the moments are used. *)
Example C41_moments_met : exists m,
  analyse (fun _ n => inject_Z n) (fun m => (m_count m, [m_exp m])) [ASelect 2]
    (left_tree (Leaf None) (repeat (Some (1%Z, Scalar 5, 4%Z)) 101)) = Ok [m] /\
  metric_eq m (MKeep (10201 # 2)).
Proof. eexists. split; [vm_compute; reflexivity | reflexivity]. Qed.

(** ** C43 *)

(** For every combiner working with sums: the raw sum plus the two clipping errors
    plus the expected l0 error is the expectation of the sum over the contributions
    after uniform sampling of at most [L0] partitions per privacy id and clipping; and
    the reported variance is the variance of that sum. *)
Theorem C43_expected_bounded_sum : forall keeps approx combs t j comb L0 lo hi cs,
  numeric approx -> Forall (shape_ok (leaves t)) combs ->
  nth_error combs j = Some comb -> sum_bounds comb = Some (lo, hi, Z.of_nat L0) -> lo <= hi ->
  Forall2 (describes comb) cs (given (leaves t)) ->
  exists ms s, analyse keeps approx combs t = Ok ms /\ nth_error ms j = Some (MSum s) /\
    expectation (sum_dist (map (bounded L0 lo hi) cs)) == a_sum s + a_min s + a_max s + a_l0 s /\
    variance (sum_dist (map (bounded L0 lo hi) cs)) == a_var s.
Proof.
  intros keeps approx combs t j comb L0 lo hi cs Nu F N B Hlh D.
  destruct (C41_metrics_of_the_data keeps approx combs t Nu F) as (ms & E & _ & M).
  destruct (M j comb N) as (m & Nm & Sm).
  destruct (metric_expectation _ _ _ _ _ _ _ _ _ B Hlh D Sm) as (s & -> & X & Y).
  exists ms, s. repeat split; assumption.
Qed.

(** The raw sum is the sum of the values, whatever the bounds. *)
Theorem C43_raw_sum : forall keeps approx combs t j comb L0 lo hi cs,
  numeric approx -> Forall (shape_ok (leaves t)) combs ->
  nth_error combs j = Some comb -> sum_bounds comb = Some (lo, hi, L0) ->
  Forall2 (describes comb) cs (given (leaves t)) ->
  exists ms s, analyse keeps approx combs t = Ok ms /\ nth_error ms j = Some (MSum s) /\
    a_sum s == sumQ (map c_value cs).
Proof.
  intros keeps approx combs t j comb L0 lo hi cs Nu F N B D.
  destruct (C41_metrics_of_the_data keeps approx combs t Nu F) as (ms & E & _ & M).
  destruct (M j comb N) as (m & Nm & Sm).
  destruct (described_values _ _ _ D) as [EV _].
  assert (EV' : map c_value cs = map (fun d => match combiner_value comb d with Some v => v | None => 0 end) (given (leaves t))).
  { apply (f_equal (map fst)) in EV. rewrite !map_map in EV. exact EV. }
  assert (G : exists s, m = MSum s /\ a_sum s == sumQ (map c_value cs)).
  { rewrite EV'. destruct comb; cbn [sum_bounds] in B; try discriminate; cbn [metric_spec combiner_value] in *.
    - destruct Sm as [vs [Vs S]]. apply values_unique in Vs. subst vs. rewrite combine_map in S.
      destruct m as [| |s]; cbn [metric_eq] in S; try contradiction. exists s. split; [reflexivity|].
      destruct S as [S _]. rewrite S. unfold sum_metrics. cbn [a_sum]. rewrite map_map. reflexivity.
    - rewrite map_map, combine_map in Sm. destruct m as [| |s]; cbn [metric_eq] in Sm; try contradiction. exists s. split; [reflexivity|].
      destruct Sm as [S _]. rewrite S. unfold sum_metrics. cbn [a_sum]. rewrite map_map. reflexivity.
    - rewrite map_map, combine_map in Sm. destruct m as [| |s]; cbn [metric_eq] in Sm; try contradiction. exists s. split; [reflexivity|].
      destruct Sm as [S _]. rewrite S. unfold sum_metrics. cbn [a_sum]. rewrite map_map. reflexivity. }
  destruct G as (s & -> & G). exists ms, s. repeat split; assumption.
Qed.

Example C43_hypotheses_met :
  nth_error demo_combiners 2 = Some (ASum 0 2 2 None) /\
  Forall2 (describes (ASum 0 2 2 None))
    [Contribution 5 1 0; Contribution (-1) 2 1; Contribution 1 4 3; Contribution 2 3 1] (given (leaves demo_tree)) /\
  Qred (expectation (sum_dist (map (bounded 2 0 2)
    [Contribution 5 1 0; Contribution (-1) 2 1; Contribution 1 4 3; Contribution 2 3 1]))) = 23 # 6 /\
  Qred (variance (sum_dist (map (bounded 2 0 2)
    [Contribution 5 1 0; Contribution (-1) 2 1; Contribution 1 4 3; Contribution 2 3 1]))) = 41 # 36.
Proof.
  split; [reflexivity|]. split; [|split; vm_compute; reflexivity].
  repeat constructor; unfold valid_contribution; cbn; lia.
Qed.

Print Assumptions C42_probability_of_survivors.
Print Assumptions C42_non_negative.
Print Assumptions C42_probability_to_keep.
Print Assumptions C42_moments_of_survivors.
Print Assumptions C41_metrics_of_the_data.
Print Assumptions C41_merge_order_irrelevant.
Print Assumptions C41_empty_accumulator_with_columns_refuted.
Print Assumptions C43_expected_bounded_sum.
Print Assumptions C43_raw_sum.
