(** Lemmas for C64: the probability to keep a partition, and uniform sampling. *)
From Coq Require Import List ZArith QArith Qreals Reals Bool Permutation Lia Lqa Lra.
From Verif Require Import Base BaseLemmas BackendModel BackendSpec ListLemmas BackendProofs BounderModel BounderSpec BounderProofs
  ParamsModel SensModel CombinerModel CombinerSpec EngineModel EngineSpec EngineProofs EngineProofs2 EngineProofs3 EngineProofs4 EngineProofs5
  VectorModel LaplaceSpec LaplaceProofs SelectModel SelectSpec SelectProofs3 DistSpec DistProofs
  AnalysisModel AnalysisSpec AnalysisProofs AnalysisProofs2 ExpMechProofs EstimatorProofs3 HistProofs4
  AnalyzeModel AnalyzeSpec AnalyzeProofs AnalyzeProofs2 AnalyzeProofs3 AnalyzeProofs4 AnalyzeProofs5.
Import ListNotations.
Local Open Scope R_scope.

(** ** A number of survivors *)
Lemma Q2R_one : Q2R 1 = 1.
Proof. unfold Q2R. cbn. field. Qed.
Lemma Q2R_zero : Q2R 0 = 0.
Proof. unfold Q2R. cbn. field. Qed.

Lemma expect_choice L0 n j G : (j < n)%nat ->
  let p := Q2R (survival_probability (Z.of_nat L0) (Z.of_nat n)) in
  expect (choice_law L0 n j 1) G = (1 - p) * G 0 + p * G 1.
Proof.
  intros L p.
  assert (E : expect (choice_law L0 n j 1) G = expect (choice_law L0 n j 1) (fun x => x * G 1 + (1 - x) * G 0)).
  { unfold expect, choice_law. rewrite !map_map. f_equal. apply map_ext. intro s. cbn [fst snd]. f_equal.
    destruct (mem j s); rewrite ?Q2R_one, ?Q2R_zero; ring. }
  rewrite E. clear E.
  assert (V : valid_contribution (Contribution 1 n j)) by exact L.
  assert (M0 := bounded_moment L0 1 1 _ (fun _ => 1%Q) V). assert (M1 := bounded_moment L0 1 1 _ (fun x => x) V).
  rewrite law_bounded in M0, M1. cbn [c_partitions c_position c_value] in M0, M1.
  change (clip 1 1 1) with 1%Q in M0, M1. unfold moment in M0, M1.
  assert (X : expect (choice_law L0 n j 1) (fun x => x * G 1 + (1 - x) * G 0) =
     Q2R (sumQ (map (fun vp => fst vp * snd vp) (choice_law L0 n j 1)))%Q * (G 1 - G 0) +
     Q2R (sumQ (map (fun vp => 1 * snd vp) (choice_law L0 n j 1)))%Q * G 0).
  { clear. unfold expect. rewrite !Q2R_sumQ, !map_map. induction (choice_law L0 n j 1) as [|[v w] l IH]; [cbn; ring|].
    cbn [map fst snd]. rewrite !sumR_cons, IH, !Q2R_mult, Q2R_one. ring. }
  rewrite X, (Qeq_eqR _ _ M1), (Qeq_eqR _ _ M0). rewrite !Q2R_plus, !Q2R_mult, !Q2R_minus, Q2R_one, Q2R_zero. unfold p. ring.
Qed.

Lemma expect_survivors {U} L0 (n pos : U -> nat) ids : forall (h : nat -> Q) G,
  (forall u, In u ids -> (pos u < n u)%nat) -> (forall i, G (INR i) = Q2R (h i)) ->
  expect (sum_dist (map (fun u => choice_law L0 (n u) (pos u) 1) ids)) G =
  Q2R (survivors_expectation (map (fun u => survival_probability (Z.of_nat L0) (Z.of_nat (n u))) ids) h).
Proof.
  induction ids as [|u ids IH]; intros h G V E.
  - cbn [map]. rewrite (Qeq_eqR _ _ (expectation_nil h)). unfold expect. cbn. rewrite Q2R_one, Q2R_zero, <- E. cbn. ring.
  - cbn [map]. rewrite expect_cons, (expect_choice _ _ _ (fun x => expect _ (fun y => G (x + y)))) by (apply V; left; reflexivity).
    rewrite (Qeq_eqR _ _ (expectation_cons _ _ h)). rewrite Q2R_plus, !Q2R_mult, Q2R_minus, Q2R_one.
    rewrite <- (IH h (fun y => G (0 + y))), <- (IH (fun i => h (S i)) (fun y => G (1 + y))); auto.
    + intros; apply V; right; assumption.
    + intro i. rewrite <- E, S_INR. f_equal. ring.
    + intros; apply V; right; assumption.
    + intro i. rewrite <- E. f_equal. ring.
Qed.

Section Keep.
Context {U P : Type} `{EqDec U} `{EqDec P}.
Implicit Types rows : list (U * P * value).

Lemma kept_one keep n : kept keep [n] (hd false) = keep n.
Proof. unfold kept. cbn. unfold SelectSpec.law, coin, LaplaceSpec.prodR, indicator. cbn. ring. Qed.

Lemma keep_law p rows cs l0 D (keep : Z -> Q) nz k ids (cross := perform_cross_partition_contribution_bounding p) :
  accepted p -> create_compound_combiner p = Ok cs -> ~ In VECTOR_SUM (metrics p) ->
  (forall k i l qs, length (n_quantiles (nz k i) l qs) = length qs) ->
  post_aggregation_thresholding p = false -> public_partitions_already_filtered p = false ->
  contribution_bounds_already_enforced p = false -> max_partitions_contributed p = Some l0 ->
  uniform_sampling p rows D -> (forall z, (z <= 0)%Z -> keep z == 0)%Q -> Permutation ids (ids_of k rows) ->
  mixture D (fun sm => aggregate_probability p sm nz (fun z => Q2R (keep z)) [k] (hd false) rows) =
  Q2R (survivors_expectation (map (fun u => survival_probability l0 (Z.of_nat (n_choices cross u rows))) ids) (fun i => keep (Z.of_nat i))).
Proof.
  intros Ha Hcs Hvs Hq Ht Hf Hb E0 Un K0 Pi.
  assert (Fa := accepted_facts p Ha). destruct Fa as (_ & _ & _ & Fa).
  assert (Mc : max_contributions p = None) by (destruct (max_contributions p); [destruct Fa as (_ & X & _); congruence | reflexivity]).
  rewrite Mc in Fa. destruct Fa as (l0' & linf & X0 & Xl & P0 & Pl).
  assert (l0' = l0) by congruence. subst l0'.
  assert (Dv := proj1 (proj2 Un)).
  rewrite (mixture_ext_in _ _ (fun sm => (fun x => Q2R (keep (Int_part x)))
     (Q2R (sumQ (map (fun u => if mem k (kept_partitions p sm rows u) then (fun _ => 1%Q) u else 0%Q) (id_list rows)))))).
  - etransitivity; [apply (kept_law p rows k (fun _ => 1%Q) l0 D Mc P0 E0 Un (fun x => Q2R (keep (Int_part x))))|]. fold cross.
    rewrite (expect_survivors (Z.to_nat l0) (fun u => n_choices cross u rows) (fun u => if cross then position k (partitions_of u rows) else 0%nat)
      _ (fun i => keep (Z.of_nat i))).
    + rewrite Z2Nat.id by lia. apply Qeq_eqR. apply expectation_Permutation. apply Permutation_map.
      eapply perm_trans; [apply filter_ids | apply Permutation_sym, Pi].
    + intros u I. apply valid_position. apply filter_In in I. apply mem_true_iff. apply I.
    + intro i. rewrite Int_part_INR. reflexivity.
  - intros w sm I. right. specialize (Dv w sm I).
    assert (R : exists col, raw_accumulators p cs sm None rows = Ok col).
    { unfold raw_accumulators, contributions. rewrite Hb. fold (to_bound p None rows).
      destruct (bound_ok p (compound_expects_sampling cs) sm (compound_create cs) (to_bound p None rows) Ha) as [x ->]. eexists; reflexivity. }
    destruct R as [col Ec].
    rewrite (aggregate_law p cs sm nz rows col (fun z => Q2R (keep z)) [k] (hd false)); auto.
    + cbn [map]. rewrite kept_one. f_equal. f_equal.
      destruct (raw_accumulators_pairs _ _ _ _ _ _ Hb Ec) as (kept & Ek & ->). rewrite row_count_pairs.
      unfold pairs_of. cbn [empties to_bound] in *. rewrite app_nil_r.
      assert (Pk := kept_form p _ sm rows kept Mc Ek).
      rewrite (Permutation_length (values_of_Permutation k _ _ (Permutation_map (fun e => (snd (fst e), snd e)) Pk))).
      rewrite values_of_entries by (intros u _; apply kept_partitions_NoDup; assumption). clear.
      assert (E : Q2R (sumQ (map (fun u => if mem k (kept_partitions p sm rows u) then 1%Q else 0%Q) (id_list rows))) =
        INR (length (flat_map (fun u => if mem k (kept_partitions p sm rows u) then [kept_values p (compound_expects_sampling cs) sm rows u k] else []) (id_list rows)))).
      { induction (id_list rows) as [|u l IH]; [cbn; apply Q2R_zero|]. cbn [map flat_map]. rewrite app_length, plus_INR, <- IH.
        change (sumQ (?x :: ?l)) with (x + sumQ l)%Q. rewrite Q2R_plus. destruct (mem k (kept_partitions p sm rows u)); cbn [length INR]; rewrite ?Q2R_one, ?Q2R_zero; reflexivity. }
      rewrite E, Int_part_INR. reflexivity.
    + constructor; [intros []|constructor].
    + intros z Lz. rewrite (Qeq_eqR _ _ (K0 z Lz)). apply Q2R_zero.
Qed.
End Keep.

(** ** A uniform sampler exists *)
Lemma subset_filter {A} `{EqDec A} k (l s : list A) : NoDup l -> In s (subsets k l) -> filter (fun x => mem x s) l = s.
Proof.
  revert k s. induction l as [|x l IH]; intros [|k] s N I; cbn in I.
  - destruct I as [<-|[]]. reflexivity.
  - destruct I.
  - destruct I as [<-|[]]. apply filter_none. reflexivity.
  - inversion N as [|? ? Nx Nl]; subst. apply in_app_or in I. destruct I as [I|I].
    + apply in_map_iff in I. destruct I as (s' & <- & I). cbn [filter]. replace (mem x (x :: s')) with true by (symmetry; apply mem_true_iff; left; reflexivity).
      f_equal. transitivity (filter (fun y => mem y s') l); [|apply (IH k); assumption]. apply filter_ext_In. intros y Iy. unfold mem. cbn [existsb].
      destruct (eqb y x) eqn:E; [apply ListLemmas.eqb_eq in E; subst; contradiction|]. reflexivity.
    + cbn [filter]. destruct (mem x s) eqn:M; [|apply (IH (S k)); assumption].
      exfalso. apply Nx. apply (subsets_incl _ _ _ I). apply mem_true_iff. exact M.
Qed.
Lemma subset_size {A} k (l s : list A) : In s (subsets k l) -> length s = k.
Proof.
  revert k s. induction l as [|x l IH]; intros [|k] s I; cbn in I; try (destruct I as [<-|[]]; reflexivity); [destruct I|].
  apply in_app_or in I. destruct I as [I|I]; [|apply IH; exact I].
  apply in_map_iff in I. destruct I as (s' & <- & I). cbn. f_equal. apply IH. exact I.
Qed.
Lemma subset_NoDup {A} `{EqDec A} k (l s : list A) : NoDup l -> In s (subsets k l) -> NoDup s.
Proof. intros N I. rewrite <- (subset_filter k l s N I). apply NoDup_filter. exact N. Qed.

Lemma random_support {A B} `{EqDec A} (f : A -> DistSpec.dist B) b xs w g : In (w, g) (random_function f b xs) ->
  forall x, In x xs -> exists w', In (w', g x) (f x).
Proof.
  revert w g. induction xs as [|y xs IH]; intros w g I x Ix; [destruct Ix|].
  cbn [random_function] in I. unfold dbind at 1 in I. apply in_flat_map in I. destruct I as ((w1 & v) & I1 & I).
  apply in_map_iff in I. destruct I as ((w2 & g') & E & I). cbn [fst snd] in *. injection E as _ <-.
  unfold dbind in I. apply in_flat_map in I. destruct I as ((w3 & g2) & I3 & I). apply in_map_iff in I.
  destruct I as ((w4 & g3) & E & I). cbn [fst snd] in *. injection E as _ <-. cbn in I. destruct I as [E|[]]. injection E as _ <-.
  destruct (eqb y x) eqn:Ey.
  - apply ListLemmas.eqb_eq in Ey. subst y. exists w1. exact I1.
  - destruct Ix as [->|Ix]; [rewrite eqb_refl in Ey; discriminate|]. exact (IH w3 g2 I3 x Ix).
Qed.

Lemma mixture_relabel {A B} (h : A -> B) (d : DistSpec.dist A) F :
  mixture (map (fun wa => (fst wa, h (snd wa))) d) F = mixture d (fun a => F (h a)).
Proof. unfold mixture. rewrite map_map. reflexivity. Qed.

Lemma seq_valid n m : (n < m)%nat -> valid_draw n m (seq 0 n).
Proof.
  intro L. split; [apply seq_NoDup|]. split; [apply seq_length|]. apply Forall_forall. intros i I. apply in_seq in I. lia.
Qed.

Section Sampler.
Context {U P V : Type} `{EqDec U} `{EqDec P}.
Variables (l0 linf : nat) (rows : list (U * P * V)).

Definition sampler_of (g : U -> list nat) : sampling U P :=
  Sampling U P (fun _ _ => seq 0 linf)
    (fun u m => if Nat.eqb m (length (partitions_of u rows)) then (if mem u (id_list rows) then g u else seq 0 l0) else seq 0 l0).
Definition uniform_sampler : DistSpec.dist (sampling U P) :=
  map (fun wa => (fst wa, sampler_of (snd wa)))
    (random_function (fun u => uniform (subsets (Nat.min l0 (length (partitions_of u rows))) (seq 0 (length (partitions_of u rows)))))
       (seq 0 l0) (id_list rows)).

Lemma sampler_positions g u : In u (id_list rows) ->
  let n := length (partitions_of u rows) in
  In (g u) (subsets (Nat.min l0 n) (seq 0 n)) -> kept_positions (sampler_of g) l0 u n = g u.
Proof.
  intros I n Ig. unfold kept_positions, sampler_of. cbn [ch_pid]. fold n. rewrite Nat.eqb_refl.
  replace (mem u (id_list rows)) with true by (symmetry; apply mem_true_iff; exact I).
  transitivity (filter (fun j => mem j (g u)) (seq 0 n)); [|apply (subset_filter (Nat.min l0 n)); [apply seq_NoDup | exact Ig]]. apply filter_ext_In. intros j Ij.
  unfold choose. rewrite seq_length. destruct (Nat.ltb_spec l0 n) as [L|L].
  - f_equal. assert (S1 := subsets_incl _ _ _ Ig). unfold pick. clear -S1.
    induction (g u) as [|i s IH]; [reflexivity|]. cbn [flat_map].
    assert (Ii : In i (seq 0 n)) by (apply S1; left; reflexivity). apply in_seq in Ii.
    rewrite (nth_error_nth' (seq 0 n) 0%nat) by (rewrite seq_length; lia). rewrite seq_nth by lia. cbn [app]. f_equal.
    apply IH. intros x Ix. apply S1. right. exact Ix.
  - replace (mem j (seq 0 n)) with true by (symmetry; apply mem_true_iff; exact Ij).
    symmetry. apply mem_true_iff. assert (E := subset_filter _ _ _ (seq_NoDup n 0) Ig).
    assert (S1 := subset_size _ _ _ Ig).
    assert (L' : length (filter (fun x => mem x (g u)) (seq 0 n)) = length (seq 0 n)) by (rewrite E, seq_length; lia).
    destruct (mem j (g u)) eqn:M; [apply mem_true_iff; exact M|exfalso].
    assert (X : forall l : list nat, In j l -> (length (filter (fun x => mem x (g u)) l) < length l)%nat).
    { clear -M. induction l as [|y l IH]; intro I; [destruct I|]. cbn [filter]. destruct I as [->|I].
      - rewrite M. cbn. assert (Y := filter_length_le (fun x => mem x (g u)) l). lia.
      - specialize (IH I). destruct (mem y (g u)); cbn; lia. }
    specialize (X (seq 0 n) Ij). lia.
Qed.

Lemma sampler_is_uniform p : max_contributions p = None -> max_partitions_contributed p = Some (Z.of_nat l0) ->
  max_contributions_per_partition p = Some (Z.of_nat linf) -> uniform_sampling p rows uniform_sampler.
Proof.
  intros Mc E0 El.
  assert (Df : forall u, In u (id_list rows) -> is_dist ((fun u => uniform (subsets (Nat.min l0 (length (partitions_of u rows)))
      (seq 0 (length (partitions_of u rows))))) u)) by (intros; apply samples_dist).
  split; [|split].
  - assert (X := is_dist_random_function _ (seq 0 l0) _ Df). unfold uniform_sampler. destruct X as [X1 X2]. split.
    + apply Forall_forall. intros wa I. apply in_map_iff in I. destruct I as (x & <- & I). cbn. rewrite Forall_forall in X1. apply X1. exact I.
    + rewrite map_map. exact X2.
  - intros w sm I. unfold uniform_sampler in I. apply in_map_iff in I. destruct I as ((w' & g) & E & I). cbn [fst snd] in E.
    injection E as _ <-. unfold valid_sampling. rewrite Mc. split.
    + intros l E. assert (l = Z.of_nat l0) by congruence. subst l. rewrite Nat2Z.id. intros u m L. cbn [sampler_of ch_pid].
      destruct (Nat.eqb_spec m (length (partitions_of u rows))) as [->|_]; [|apply seq_valid; exact L].
      destruct (mem u (id_list rows)) eqn:Mu; [|apply seq_valid; exact L]. apply mem_true_iff in Mu.
      destruct (random_support _ _ _ _ _ I u Mu) as [w2 I2].
      unfold uniform in I2. apply in_map_iff in I2. destruct I2 as (s & E2 & I2). injection E2 as _ ->.
      split; [eapply subset_NoDup; [apply seq_NoDup | exact I2]|]. split; [rewrite (subset_size _ _ _ I2); lia|].
      apply Forall_forall. intros i Ii. apply (subsets_incl _ _ _ I2) in Ii. apply in_seq in Ii. lia.
    + intros l E. assert (l = Z.of_nat linf) by congruence. subst l. rewrite Nat2Z.id. intros uk m L. cbn [sampler_of ch_pid_pk]. apply seq_valid. exact L.
  - intros l E. assert (l = Z.of_nat l0) by congruence. subst l. cbn zeta. rewrite Nat2Z.id. intro F. fold (id_list rows).
    unfold uniform_sampler. rewrite mixture_relabel.
    rewrite <- (random_values _ (seq 0 l0) (id_list rows) (id_list rows) F (NoDup_distinct _) (fun x I => I) Df).
    apply mixture_ext_in. intros w g I. right. f_equal. apply map_ext_in. intros u Iu. apply sampler_positions; [exact Iu|].
    destruct (random_support _ _ _ _ _ I u Iu) as [w2 I2].
    unfold uniform in I2. apply in_map_iff in I2. destruct I2 as (s & E2 & I2). injection E2 as _ ->. exact I2.
Qed.
End Sampler.
