(** C82: what the explain-computation reports say about budgets, noise and bounds. *)
From Coq Require Import String List ZArith QArith Bool Permutation Lia Lqa.
From Verif Require Import Base BaseLemmas BackendModel BackendSpec BackendProps ListLemmas ParamsModel SensModel BudgetModel BudgetSpec BudgetProofs CombinerModel
  SelectModel DpModel WrapperModel EngineModel EngineSpec EngineProofs3 LaplaceProofs LateModel LateSpec LateProps ReportModel ExplainModel ExplainSpec ExplainProofs.
Import ListNotations.

(** *** C82 *)

(** The reports of all calls of one accountant, read after compute_budgets, list the budgets of all
    mechanisms of the accountant, each exactly once. *)
Theorem C82_budgets_are_listed {P} e d num ws s0 ops s2 (calls : list (explained P)) :
  new_accountant e d num ws = Ok s0 -> Forall op_pos ops ->
  BudgetSpec.granted ops (outs s0 ops) <> [] ->
  map req_type (BudgetSpec.granted ops (outs s0 ops)) = flat_map types_requested calls ->
  Forall explainable calls ->
  step (run s0 ops) Compute = (s2, Ok OutUnit) ->
  exists reports listed, explain_all calls (mechs s2) = Ok reports /\
    Permutation (flat_map shown (concat reports)) listed /\ Forall2 budget_of_mechanism listed (mechs s2).
Proof.
  intros Hn Hp Hne Ht V Hc. apply explain_calls; [exact V|]. rewrite <- Ht. exact (all_served e d num ws s0 ops s2 Hn Hp Hne Hc).
Qed.
Print Assumptions C82_budgets_are_listed.

Lemma sumQ_permutation l l' : Permutation l l' -> sumQ l == sumQ l'.
Proof.
  induction 1 as [|x l l' _ IH|x y l|l l1 l2 _ IH1 _ IH2]; cbn.
  - reflexivity.
  - unfold sumQ in *. cbn [fold_right]. rewrite IH. reflexivity.
  - unfold sumQ. cbn [fold_right]. ring.
  - rewrite IH1. exact IH2.
Qed.

(** So the epsilons in the reports add up to the total epsilon, and the deltas to the total delta if
    any mechanism uses delta. *)
Theorem C82_listed_budgets_add_up {P} e d num ws s0 ops s2 (calls : list (explained P)) :
  new_accountant e d num ws = Ok s0 -> Forall op_pos ops ->
  BudgetSpec.granted ops (outs s0 ops) <> [] ->
  Forall (fun r => req_count r = 1%Z) (BudgetSpec.granted ops (outs s0 ops)) ->
  map req_type (BudgetSpec.granted ops (outs s0 ops)) = flat_map types_requested calls ->
  Forall explainable calls ->
  step (run s0 ops) Compute = (s2, Ok OutUnit) ->
  exists reports, explain_all calls (mechs s2) = Ok reports /\
    let listed := flat_map shown (concat reports) in
    sumQ (map fst listed) == e /\
    sumQ (map shown_delta listed) == (if existsb uses_delta (flat_map types_requested calls) then d else 0) /\
    Forall (fun x => 0 < fst x <= e) listed.
Proof.
  intros Hn Hp Hne One Ht V Hc. destruct (C82_budgets_are_listed e d num ws s0 ops s2 calls Hn Hp Hne Ht V Hc) as (rs & l & Er & Pm & F).
  exists rs. split; [exact Er|]. cbv zeta.
  destruct (c01_lemma e d num ws s0 ops s2 Hn Hp Hc Hne) as (es & Re & Le & We & Fe).
  destruct (c02_lemma e d num ws s0 ops s2 Hn Hp Hc) as (ds & Rd & Ld & Wd & Fd).
  assert (O : Forall (fun c => c = 1%Z) (map req_count (BudgetSpec.granted ops (outs s0 ops)))) by (apply Forall_map; exact One).
  rewrite weighted_sum_ones in We by (try exact O; rewrite map_length; exact Le).
  rewrite weighted_sum_ones in Wd by (try exact O; rewrite map_length; exact Ld).
  assert (E1 : map fst l = es).
  { clear -F Re. unfold read_eps in Re. revert es Re. induction F as [|x m l ms [Ex _] F IH]; intros es Re; inversion Re; subst; [reflexivity|].
    cbn. f_equal; [|apply IH; assumption]. unfold get_eps in *. rewrite Ex in *. congruence. }
  assert (T2 := all_served e d num ws s0 ops s2 Hn Hp Hne Hc).
  assert (E2 : sumQ (map shown_delta l) == sumQ ds).
  { clear -F Rd Fd T2. unfold read_delta in Rd. revert ds Rd Fd T2. generalize (map req_type (BudgetSpec.granted ops (outs s0 ops))).
    induction F as [|x m l ms [_ Ex] F IH]; intros ts ds Rd Fd T2; inversion Rd; subst; [reflexivity|]. inversion Fd; subst. inversion T2; subst.
    cbn [map]. unfold sumQ in *. cbn [fold_right]. erewrite IH by eassumption. apply Qplus_comp; [|reflexivity]. unfold shown_delta.
    unfold get_delta in *. destruct (snd x) as [dx|].
    - rewrite Ex in *. assert (dx = y) by congruence. subst. reflexivity.
    - match goal with H : served _ m |- _ => destruct H as [Tm _] end. rewrite Ex in Tm.
      match goal with H : 0 <= y /\ _ |- _ => destruct H as (_ & _ & Z0) end. symmetry. apply Z0. symmetry. exact Tm. }
  split; [|split].
  - rewrite (sumQ_permutation _ _ (Permutation_map fst Pm)), E1. exact We.
  - rewrite (sumQ_permutation _ _ (Permutation_map shown_delta Pm)), E2, Wd, Ht. reflexivity.
  - rewrite <- E1 in Fe. rewrite Forall_map in Fe. apply (Permutation_Forall (Permutation_sym Pm)). exact Fe.
Qed.
Print Assumptions C82_listed_budgets_add_up.

Lemma described_noise ty e d s m : additive_for ty e d s m -> positive_noise m -> true_of_noise m (describe_mechanism m).
Proof.
  destruct 1; cbn [positive_noise describe_mechanism]; intro Pe.
  - constructor. field. intro E0. rewrite E0 in Pe. exact (Qlt_irrefl 0 Pe).
  - destruct (Qle_bool e 0) eqn:Q0; [apply Qle_bool_iff in Q0; exfalso; lra|]. constructor.
Qed.

(** The line of a combiner in a report that is read anywhere and at any time is true of the mechanism
    that any copy of the combiner uses in any process at any time. *)
Theorem C82_lines_are_true : forall eps delta num ws a0 p0 h n1 n2 j1 j2 cr1 cr2 b1 b2 c p is,
  new_accountant eps delta num ws = Ok a0 ->
  let t := trace (World a0 p0 []) h in
  happened t n1 (GetMechanism j1) (OMech cr1 (Ok b1)) -> comes_from p0 t j1 c p is ->
  happened t n2 (GetMechanism j2) (OMech cr2 (Ok b2)) -> comes_from p0 t j2 c p is ->
  positive_budget b2 -> true_of b2 (describe b1).
Proof.
  intros until is. intros Hn t H1 C1 H2 C2 Pb.
  assert (E := C62_copies_agree eps delta num ws a0 p0 h n1 n2 j1 j2 cr1 cr2 b1 b2 c p is Hn H1 H2 C1 C2). subst b1.
  assert (Rm := C62_every_use_has_the_granted_budget eps delta num ws a0 p0 h n2 j2 cr2 b2 c p is Hn H2 C2).
  destruct Rm as [c p i ty e d s m K G Ad|p i ty st e d s K G Es|p i1 i2 ty1 ty2 e1 d1 e2 d2 lo hi sc ss m1 m2 G1 G2 E1 E2 E3 E4 A1 A2|p i ty e d G];
    cbn [positive_budget describe] in *.
  - constructor. apply (described_noise ty e d s); assumption.
  - rewrite strategy_roundtrip. constructor. tauto.
  - constructor; [apply (described_noise ty1 e1 d1 sc) | apply (described_noise ty2 e2 d2 ss)]; tauto.
  - constructor.
Qed.
Print Assumptions C82_lines_are_true.

(** The text of the parameters determines the noise, the budget weight and all bounds that are printed
    (a finding below shows what it does not determine). *)
Theorem C82_parameters_shown p p' a b : readable p a = readable p' b ->
  a = b /\ metrics p = metrics p' /\ noise_kind p = noise_kind p' /\ budget_weight p = budget_weight p' /\
  sens_count p = sens_count p' /\ sens_privacy_id_count p = sens_privacy_id_count p' /\
  sens_sum p = sens_sum p' /\ sens_normalized_sum p = sens_normalized_sum p'.
Proof.
  unfold readable. intro E. injection E as E1 E2 E3 E4 E5 E6 E7 E8 E9 E10 E11 E12 E13 E14 E15.
  unfold sens_count, sens_privacy_id_count, sens_sum, sens_normalized_sum.
  rewrite E4, E5, E6, E7, E8, E9, E10. repeat split; assumption.
Qed.
Print Assumptions C82_parameters_shown.

(** ** Where the reports are wrong *)

(** "for each privacy_id and each partition, randomly select max(actual_contributions_per_partition, n)
    contributions" (contribution_bounders.py:83-86, and 100-103, 223-226): the number that is selected is the
    announced one only for a key with exactly n elements. *)
Definition announced_number (actual n : nat) : nat := Nat.max actual n.
Theorem C82_announced_numbers {K V} `{EqDec K} (ch : source K) (n : nat) (col : list (K * V)) k vs :
  valid_source n ch -> In (k, vs) (sample_fixed_per_key ch n col) ->
  (length vs = announced_number (length (values_of k col)) n <-> length (values_of k col) = n).
Proof.
  intros Hv I. destruct (C12_local_sampling ch n col Hv) as (_ & _ & S). destruct (S k vs I) as [L _]. rewrite L. unfold announced_number. lia.
Qed.
Print Assumptions C82_announced_numbers.

Theorem C82_announced_numbers_refuted : exists (ch : source (Z * Z)) n (col : list (Z * Z * Z)) k vs,
  valid_source n ch /\ In (k, vs) (sample_fixed_per_key ch n col) /\
  length vs <> announced_number (length (values_of k col)) n.
Proof.
  exists (fun _ _ => [0%nat]), 1%nat, [((1, 10), 5); ((1, 10), 6)]%Z, (1, 10)%Z, [5%Z].
  split; [|split; [left; reflexivity | vm_compute; discriminate]].
  intros k m Lm. split; [repeat constructor; intros []|]. split; [reflexivity | repeat constructor; lia].
Qed.
Print Assumptions C82_announced_numbers_refuted.

(** VECTOR_SUM: its line reads "None" (see C50), so its budget is in no report: here half of the
    total epsilon. *)
Definition vector_params : params :=
  Params [COUNT; VECTOR_SUM] LaplaceNoise (Some 1%Z) (Some 2%Z) None 1 None None None None false (Some L1) (Some 1%Q) (Some 2%Z)
         false false TruncatedGeometric None false true.
Definition vector_ops : list op := [Request LAPLACE 1 1 None; Request LAPLACE 1 1 None].
Theorem C82_vector_sum_refuted : exists e d s0 s2 reports,
  accepted vector_params /\ create_compound_combiner vector_params = Ok [CCount; CVector 2] /\
  new_accountant e d None None = Ok s0 /\
  map req_type (BudgetSpec.granted vector_ops (outs s0 vector_ops)) =
    flat_map types_requested [EAggregate vector_params (Some [10%Z]) [CCount; CVector 2]] /\
  step (run s0 vector_ops) Compute = (s2, Ok OutUnit) /\
  explain_all [EAggregate vector_params (Some [10%Z]) [CCount; CVector 2]] (mechs s2) = Ok reports /\
  sumQ (map fst (flat_map shown (concat reports))) == (1 # 2) * e.
Proof.
  exists 1%Q, 0%Q, (Acct 1 0 None None [] [] [] false). do 2 eexists.
  split; [eexists (RawParams [COUNT; VECTOR_SUM] LaplaceNoise (Some (PInt 1)) (Some (PInt 2)) None 1 None None None None false (Some L1) (Some 1%Q) (Some 2%Z)
         false false TruncatedGeometric None false true); reflexivity|].
  split; [reflexivity|]. split; [reflexivity|]. split; [reflexivity|]. split; [reflexivity|]. split; [vm_compute; reflexivity|]. vm_compute. reflexivity.
Qed.
Print Assumptions C82_vector_sum_refuted.

(** Two aggregations with the same report, whatever the budgets, of which one bounds the number of
    partitions of each privacy id and the other one does not: perform_cross_partition_contribution_bounding is not
    printed, and the bounders that are used when no combiner samples per partition add no stage.  On the data of
    one privacy id that contributes to two partitions, with max_partitions_contributed = 1, the
    results without noise differ. *)
Definition bounded_params (cross : bool) : params :=
  Params [PRIVACY_ID_COUNT] LaplaceNoise (Some 1%Z) (Some 1%Z) None 1 None None None None false None None None
         false false TruncatedGeometric None false cross.
Theorem C82_same_report_refuted : exists (cs : list combiner) (public : list Z) (rows : list (Z * Z * value)) (sm : sampling Z Z),
  let p := bounded_params true in let p' := bounded_params false in
  accepted p /\ accepted p' /\ create_compound_combiner p = Ok cs /\ create_compound_combiner p' = Ok cs /\
  readable p true = readable p' true /\
  (forall ms, explain (EAggregate p (Some public) cs) ms = explain (EAggregate p' (Some public) cs) ms) /\
  valid_sampling p sm /\
  let result p := aggregate p sm (fun _ _ => true) (fun _ _ => Noises (fun x => x) (fun x => x) (fun x => x) (fun _ => None) (fun _ _ => []) (fun v => v))
                    (Some public) rows in
  result p = Ok [(10%Z, [(NPidCount, RNum 1)]); (20%Z, [(NPidCount, RNum 0)])] /\
  result p' = Ok [(10%Z, [(NPidCount, RNum 1)]); (20%Z, [(NPidCount, RNum 1)])].
Proof.
  exists [CPidCount], [10; 20]%Z, [(1, 10, Num 3); (1, 20, Num 4)]%Z, (Sampling Z Z (fun _ _ => [0%nat]) (fun _ _ => [0%nat])).
  cbv zeta.
  split; [eexists (RawParams [PRIVACY_ID_COUNT] LaplaceNoise (Some (PInt 1)) (Some (PInt 1)) None 1 None None None None false None None None false false TruncatedGeometric None false true); reflexivity|].
  split; [eexists (RawParams [PRIVACY_ID_COUNT] LaplaceNoise (Some (PInt 1)) (Some (PInt 1)) None 1 None None None None false None None None false false TruncatedGeometric None false false); reflexivity|].
  split; [reflexivity|]. split; [reflexivity|]. split; [reflexivity|]. split; [reflexivity|].
  split; [|split; vm_compute; reflexivity].
  assert (W : forall G, valid_source 1 (fun (_ : G) (_ : nat) => [0%nat])).
  { intros G g m Lm. split; [repeat constructor; intros []|]. split; [reflexivity | repeat constructor; lia]. }
  unfold valid_sampling. cbn -[Z.to_nat]. split; intros x Ex; inversion Ex; subst; apply W.
Qed.
Print Assumptions C82_same_report_refuted.

(** ** The hypotheses are met *)
Definition explained_calls : list (explained Z) :=
  let p ms nk := Params ms nk (Some 2%Z) (Some 2%Z) None 1 (Some 0%Q) (Some 5%Q) None None false None None None false false TruncatedGeometric None false true in
  [EAggregate (p [COUNT; MEAN] LaplaceNoise) None [CMean 0 5 [NMean; NCount]];
   EAggregate (p [SUM; PRIVACY_ID_COUNT] GaussianNoise) (Some [10; 20]%Z) [CSum false 0 5; CPidCount];
   ESelect LaplaceThresholding (Some 3%Z)].
Definition explained_ops : list op :=
  [Request LAPLACE 1 1 None; Request LAPLACE 1 1 None; Request GENERIC 1 1 None; Request GAUSSIAN 1 1 None; Request GAUSSIAN 2 1 None; Request GENERIC 1 1 None].
Example C82_hypotheses_met : exists s0 s2 reports,
  new_accountant 1 (1 # 10) None None = Ok s0 /\ Forall op_pos explained_ops /\
  Forall (fun r => req_count r = 1%Z) (BudgetSpec.granted explained_ops (outs s0 explained_ops)) /\
  map req_type (BudgetSpec.granted explained_ops (outs s0 explained_ops)) = flat_map types_requested explained_calls /\
  Forall explainable explained_calls /\ step (run s0 explained_ops) Compute = (s2, Ok OutUnit) /\
  explain_all explained_calls (mechs s2) = Ok reports /\
  map (fun x => (Qred (fst x), option_map Qred (snd x))) (flat_map shown (concat reports)) =
    [(1 # 7, Some (1 # 50)); (1 # 7, None); (1 # 7, None); (1 # 7, Some (1 # 50)); (2 # 7, Some (1 # 25)); (1 # 7, Some (1 # 50))]%Q.
Proof.
  exists (Acct 1 (1 # 10) None None [] [] [] false). do 2 eexists.
  split; [reflexivity|]. split; [repeat constructor; vm_compute; reflexivity|]. split; [vm_compute; repeat constructor|]. split; [vm_compute; reflexivity|].
  split.
  { unfold explained_calls. cbv zeta. apply Forall_cons; [|apply Forall_cons; [|apply Forall_cons; [exact I | apply Forall_nil]]].
    - split; [exists (RawParams [COUNT; MEAN] LaplaceNoise (Some (PInt 2)) (Some (PInt 2)) None 1 (Some (Fin 0)) (Some (Fin 5)) None None false None None None false false TruncatedGeometric None false true); reflexivity|].
      split; [vm_compute; reflexivity | cbn; intuition discriminate].
    - split; [exists (RawParams [SUM; PRIVACY_ID_COUNT] GaussianNoise (Some (PInt 2)) (Some (PInt 2)) None 1 (Some (Fin 0)) (Some (Fin 5)) None None false None None None false false TruncatedGeometric None false true); reflexivity|].
      split; [vm_compute; reflexivity | cbn; intuition discriminate]. }
  split; [vm_compute; reflexivity|]. split; [vm_compute; reflexivity|]. vm_compute. reflexivity.
Qed.
(** The copies of C62: the report on a copy of a copy, the mechanism of the first combiner. *)
Example C82_lines_hypotheses_met :
  let t := trace (World late_accountant (late_params 2) []) late_history in
  exists j1 j2, j1 <> j2 /\
  happened t 15 (GetMechanism j1) (OMech true (Ok (BAdditive (Laplace (2 # 4) 6)))) /\ comes_from (late_params 2) t j1 KCount (late_params 2) [0%nat] /\
  happened t 9 (GetMechanism j2) (OMech true (Ok (BAdditive (Laplace (2 # 4) 6)))) /\ comes_from (late_params 2) t j2 KCount (late_params 2) [0%nat] /\
  positive_budget (BAdditive (Laplace (2 # 4) 6)) /\
  exists b, describe (BAdditive (Laplace (2 # 4) 6)) = SayLaplace b (2 # 4) 6 /\ b == 12.
Proof.
  exists 4%nat, 0%nat. split; [discriminate|]. split; [reflexivity|]. split; [exact (proj1 C62_origin_met)|]. split; [reflexivity|].
  split; [exact (constructed (late_params 2) (trace (World late_accountant (late_params 2) []) late_history) 2 0 KCount [0%nat] eq_refl)|].
  split; [reflexivity|]. eexists. split; reflexivity.
Qed.
