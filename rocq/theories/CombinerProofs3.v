(** Lemmas about the set of released metrics. *)
From Coq Require Import List ZArith QArith Qabs Qminmax Qreduction Bool Permutation Lia.
From Verif Require Import Base BaseLemmas BackendModel BackendSpec ListLemmas BackendProofs
  ParamsModel SensModel CombinerModel CombinerSpec CombinerProofs.
Import ListNotations.

Definition shape (c : combiner) (a : acc) : Prop :=
  match c, a with
  | (CCount | CPidCount | CThresh), AInt _ => True
  | CSum _ _ _, AFloat _ => True
  | CMean _ _ _, AMean _ _ => True
  | CVariance _ _ _, AVar _ _ _ => True
  | CQuantile _, ATree _ => True
  | CVector _, AVec _ => True
  | _, _ => False
  end.

Lemma shape_total c a gs : acc_eq a (total c gs) -> shape c a.
Proof.
  destruct c; cbn [total]; try destruct per_partition; intro E; inversion E; exact I.
Qed.

(** The names given to Mean/VarianceCombiner by create_compound_combiner. *)
Definition well_named (c : combiner) : Prop :=
  match c with
  | CMean _ _ names => exists b1 b2, names = [NMean] ++ when b1 NCount ++ when b2 NSum
  | CVariance _ _ names =>
      exists b0 b1 b2, names = [NVariance] ++ when b0 NMean ++ when b1 NCount ++ when b2 NSum
  | _ => True
  end.

Definition quantiles_ok (nz : noises) : Prop :=
  forall l qs, length (n_quantiles nz l qs) = length qs.

Lemma map_fst_combine {A B} (l : list A) (l' : list B) : length l = length l' -> map fst (combine l l') = l.
Proof. revert l'. induction l as [|x l IH]; intros [|y l'] E; cbn in *; try discriminate; auto. f_equal. apply IH. lia. Qed.

Lemma compute_names nz c a :
  shape c a -> well_named c -> quantiles_ok nz ->
  exists d, compute_metrics nz c a = Ok d /\ Permutation (map fst d) (names_of c).
Proof.
  intros S W Hq. destruct c, a; try contradiction; cbn [compute_metrics names_of].
  1-4: eexists; split; [reflexivity|]; cbn; reflexivity.
  - destruct W as [b1 [b2 ->]]. unfold compute_mean. eexists. split; [reflexivity|].
    destruct b1, b2; cbn; reflexivity.
  - destruct W as [b0 [b1 [b2 ->]]]. unfold compute_dp_var. eexists. split; [reflexivity|].
    destruct b0, b1, b2; cbn; try reflexivity; apply perm_skip.
    + apply perm_trans with [NCount; NMean; NSum]; [apply perm_skip; apply perm_swap | apply perm_swap].
    + apply perm_swap.
    + apply perm_swap.
  - eexists. split; [reflexivity|]. rewrite map_fst_combine; [reflexivity|].
    rewrite !map_length, Hq, map_length. reflexivity.
  - eexists. split; [reflexivity|]. reflexivity.
Qed.

Lemma combine_metrics_ok nzs cs : forall i accs sofar,
  Forall2 shape cs accs -> Forall well_named cs -> (forall j, quantiles_ok (nzs j)) ->
  NoDup (map fst sofar ++ flat_map names_of cs) ->
  exists d, combine_metrics nzs i cs accs sofar = Ok (sofar ++ d) /\
    Permutation (map fst d) (flat_map names_of cs) /\
    (forall n v, In (n, v) d ->
       exists j c a dj, nth_error cs j = Some c /\ nth_error accs j = Some a /\
         compute_metrics (nzs (i + j)%nat) c a = Ok dj /\ In (n, v) dj).
Proof.
  induction cs as [|c cs IH]; intros i accs sofar F W Hq N.
  - inversion F; subst. exists []. cbn. rewrite app_nil_r. split; [reflexivity|]. split; [constructor|].
    intros n v [].
  - inversion F as [|? a ? accs' Sa F']; subst. inversion W as [|? ? Wc W']; subst.
    destruct (compute_names (nzs i) c a Sa Wc (Hq i)) as [d [Ed Pd]].
    cbn [combine_metrics]. rewrite Ed. cbn [rbind].
    cbn [flat_map] in N.
    assert (D : existsb (fun kv => existsb (eqb (fst kv)) (map fst sofar)) d = false).
    { apply not_true_is_false. intro T. apply existsb_exists in T. destruct T as [kv [Hkv T]].
      apply existsb_exists in T. destruct T as [x [Hx T]]. apply eqb_eq in T. subst x.
      apply (NoDup_app_iff (map fst sofar)) in N. destruct N as [_ [_ N]]. apply (N _ Hx).
      apply in_or_app. left. eapply Permutation_in; [exact Pd|]. apply in_map. exact Hkv. }
    rewrite D.
    destruct (IH (S i) accs' (sofar ++ d) F' W' Hq) as [d' [E' [P' O']]].
    { rewrite map_app, <- app_assoc. eapply Permutation_NoDup; [|exact N].
      apply Permutation_app_head. apply Permutation_app_tail. symmetry. exact Pd. }
    exists (d ++ d'). rewrite E'. split; [rewrite app_assoc; reflexivity|]. split.
    + rewrite map_app. cbn [flat_map]. apply Permutation_app; assumption.
    + intros n v Hin. apply in_app_or in Hin. destruct Hin as [Hin|Hin].
      * exists 0%nat, c, a, d. rewrite Nat.add_0_r. auto.
      * destruct (O' n v Hin) as [j [c' [a' [dj [E1 [E2 [E3 E4]]]]]]].
        exists (S j), c', a', dj. rewrite Nat.add_succ_r. auto.
Qed.

Lemma append_if_ok b mk k l : append_if b mk k = Ok l ->
  if b then exists c l', mk = Ok c /\ k = Ok l' /\ l = c :: l' else k = Ok l.
Proof.
  unfold append_if. destruct b; [|auto]. destruct mk as [c|]; cbn; [|discriminate].
  destruct k as [l'|]; cbn; [|discriminate]. intro E. inversion E; subst. eauto.
Qed.

Lemma has_In m ms : (match m with PERCENTILE _ => False | _ => True end) ->
  has m ms = true <-> In m ms.
Proof.
  intro Np. unfold has. rewrite existsb_exists. split.
  - intros [x [Hx E]]. destruct m, x; cbn in E; try discriminate; try contradiction; exact Hx.
  - intro Hin. exists m. split; [exact Hin|]. destruct m; try reflexivity. contradiction.
Qed.

Lemma in_percentiles ms p : In p (percentiles ms) <-> In (PERCENTILE p) ms.
Proof.
  unfold percentiles. rewrite in_flat_map. split.
  - intros [m [Hm Hp]]. destruct m; try contradiction. destruct Hp as [<-|[]]. exact Hm.
  - intro H. exists (PERCENTILE p). split; [exact H | left; reflexivity].
Qed.

(** Which names a list of metrics stands for. *)
Lemma requested_names ms n :
  In n (map name_of ms) <->
  match n with
  | NCount => has COUNT ms = true
  | NPidCount => has PRIVACY_ID_COUNT ms = true
  | NSum => has SUM ms = true
  | NMean => has MEAN ms = true
  | NVariance => has VARIANCE ms = true
  | NVectorSum => has VECTOR_SUM ms = true
  | NPercentile _ => exists p, n = NPercentile (Qred p) /\ In p (percentiles ms)
  end.
Proof.
  rewrite in_map_iff. split.
  - intros [m [<- Hm]]. destruct m; cbn [name_of]; try (apply has_In; [exact I | exact Hm]).
    exists p. split; [reflexivity | apply in_percentiles; exact Hm].
  - destruct n; intro H.
    7:{ destruct H as [q [E H]]. exists (PERCENTILE q). split; [symmetry; exact E | apply in_percentiles; exact H]. }
    all: apply has_In in H; [|exact I]; eexists; split; [|exact H]; reflexivity.
Qed.

Lemma in_when b x n : In n (when b x) <-> b = true /\ n = x.
Proof. destruct b; cbn; intuition congruence. Qed.

Lemma k4_names ms l :
  append_if (match percentiles ms with [] => false | _ => true end)
            (Ok (CQuantile (percentiles ms))) (Ok []) = Ok l ->
  Forall well_named l /\
  forall n, In n (flat_map names_of l) <-> exists p, n = NPercentile (Qred p) /\ In p (percentiles ms).
Proof.
  intro E. apply append_if_ok in E. destruct (percentiles ms) as [|p0 ps] eqn:Ep.
  - inversion E; subst. split; [constructor|]. intro n. cbn. split; [tauto|]. intros [p [_ []]].
  - destruct E as [c [l' [E1 [E2 ->]]]]. inversion E1; inversion E2; subst. split; [repeat constructor|].
    intro n. cbn [flat_map]. rewrite app_nil_r. cbn [names_of]. rewrite in_map_iff.
    split; intros [p [H1 H2]]; exists p; split; auto.
Qed.

Lemma step_names b mk k l (name : mname) (names : mname -> Prop) :
  append_if b mk k = Ok l ->
  (forall c, b = true -> mk = Ok c -> well_named c /\ names_of c = [name]) ->
  (forall l', k = Ok l' -> Forall well_named l' /\ forall n, In n (flat_map names_of l') <-> names n) ->
  Forall well_named l /\ forall n, In n (flat_map names_of l) <-> (b = true /\ n = name) \/ names n.
Proof.
  intros E Hc Hk. apply append_if_ok in E. destruct b.
  - destruct E as [c [l' [E1 [E2 ->]]]]. destruct (Hc c eq_refl E1) as [W N]. destruct (Hk l' E2) as [W' N'].
    split; [constructor; assumption|]. intro n. cbn [flat_map]. rewrite in_app_iff, N, N'. cbn. intuition congruence.
  - destruct (Hk l E) as [W' N']. split; [exact W'|]. intro n. rewrite N'. intuition congruence.
Qed.

Lemma rmap_const_ok {A B} (r : result A) (b c : B) : rmap (fun _ => b) r = Ok c -> c = b.
Proof. destruct r; cbn; congruence. Qed.

Lemma create_combiners_names p cs :
  create_combiners p = Ok cs ->
  Forall well_named cs /\ forall n, In n (flat_map names_of cs) <-> In n (map name_of (metrics p)).
Proof.
  intro E. unfold create_combiners in E.
  set (k4 := append_if (match percentiles (metrics p) with [] => false | _ => true end)
               (Ok (CQuantile (percentiles (metrics p)))) (Ok [])) in *.
  set (k3 := append_if (has VECTOR_SUM (metrics p)) (new_vector p) k4) in *.
  set (k2 := append_if (has PRIVACY_ID_COUNT (metrics p))
               (if post_aggregation_thresholding p then new_thresh p else new_pid_count p) k3) in *.
  assert (H4 := k4_names (metrics p)). fold k4 in H4.
  assert (H3 : forall l, k3 = Ok l -> Forall well_named l /\ forall n, In n (flat_map names_of l) <->
            (has VECTOR_SUM (metrics p) = true /\ n = NVectorSum) \/
            exists q, n = NPercentile (Qred q) /\ In q (percentiles (metrics p))).
  { intros l El. eapply step_names; [exact El| |exact H4].
    intros c _ Ec. unfold new_vector in Ec. inversion Ec; subst. split; [exact I | reflexivity]. }
  assert (H2 : forall l, k2 = Ok l -> Forall well_named l /\ forall n, In n (flat_map names_of l) <->
            (has PRIVACY_ID_COUNT (metrics p) = true /\ n = NPidCount) \/
            (has VECTOR_SUM (metrics p) = true /\ n = NVectorSum) \/
            exists q, n = NPercentile (Qred q) /\ In q (percentiles (metrics p))).
  { intros l El. eapply step_names; [exact El| |exact H3].
    intros c _ Ec. destruct (post_aggregation_thresholding p); apply rmap_const_ok in Ec; subst; split; try exact I; reflexivity. }
  assert (Fin : forall (W : list combiner) (Q0 : mname -> Prop),
     (forall n, Q0 n <-> match n with
                | NCount => has COUNT (metrics p) = true
                | NSum => has SUM (metrics p) = true
                | NMean => has MEAN (metrics p) = true
                | NVariance => has VARIANCE (metrics p) = true
                | _ => False end) ->
     forall n, (Q0 n \/ (has PRIVACY_ID_COUNT (metrics p) = true /\ n = NPidCount) \/
            (has VECTOR_SUM (metrics p) = true /\ n = NVectorSum) \/
            exists q, n = NPercentile (Qred q) /\ In q (percentiles (metrics p))) <->
            In n (map name_of (metrics p))).
  { intros _ Q0 HQ n. rewrite requested_names, HQ. clear. destruct n; split; intro H;
      repeat match goal with
             | H : _ \/ _ |- _ => destruct H
             | H : _ /\ _ |- _ => destruct H
             | H : exists q, _ |- _ => destruct H
             end; try discriminate; try contradiction; auto; eauto 8. }
  destruct (has VARIANCE (metrics p)) eqn:Hv.
  - apply append_if_ok in E. destruct E as [c [l [Ec [El ->]]]]. destruct (H2 l El) as [W N].
    unfold new_variance in Ec. destruct (min_value p); [|discriminate]. destruct (max_value p); [|discriminate].
    inversion Ec; subst c; clear Ec. split.
    + constructor; [|exact W]. exists (has MEAN (metrics p)), (has COUNT (metrics p)), (has SUM (metrics p)). reflexivity.
    + intro n. cbn [flat_map]. rewrite in_app_iff, N.
      match goal with |- (In n ?L \/ _) <-> _ => apply (Fin [] (fun m => In m L)) end.
      intro m. cbn [names_of app In]. rewrite !in_app_iff, !in_when. destruct m; intuition congruence.
  - destruct (has MEAN (metrics p)) eqn:Hm.
    + apply append_if_ok in E. destruct E as [c [l [Ec [El ->]]]]. destruct (H2 l El) as [W N].
      unfold new_mean in Ec. destruct (min_value p); [|discriminate]. destruct (max_value p); [|discriminate].
      destruct (sens_count p); cbn in Ec; [|discriminate]. apply rmap_const_ok in Ec. subst c. split.
      * constructor; [|exact W]. exists (has COUNT (metrics p)), (has SUM (metrics p)). reflexivity.
      * intro n. cbn [flat_map]. rewrite in_app_iff, N.
        match goal with |- (In n ?L \/ _) <-> _ => apply (Fin [] (fun m => In m L)) end.
        intro m. cbn [names_of app In]. rewrite !in_app_iff, !in_when. destruct m; intuition congruence.
    + assert (G : Forall well_named cs /\ forall n, In n (flat_map names_of cs) <->
         (has COUNT (metrics p) = true /\ n = NCount) \/ (has SUM (metrics p) = true /\ n = NSum) \/
         (has PRIVACY_ID_COUNT (metrics p) = true /\ n = NPidCount) \/
            (has VECTOR_SUM (metrics p) = true /\ n = NVectorSum) \/
            exists q, n = NPercentile (Qred q) /\ In q (percentiles (metrics p))).
      { eapply step_names; [exact E| |].
        - intros c _ Ec. apply rmap_const_ok in Ec. subst. split; [exact I | reflexivity].
        - intros l El. eapply step_names; [exact El| |exact H2].
          intros c _ Ec. unfold new_sum in Ec. destruct (sens_sum p); cbn [rbind] in Ec; [|discriminate].
          destruct (bounds_per_partition_are_set p).
          + destruct (min_sum_per_partition p); [|discriminate]. destruct (max_sum_per_partition p); [|discriminate].
            inversion Ec; split; [exact I|reflexivity].
          + destruct (min_value p); [|discriminate]. destruct (max_value p); [|discriminate].
            inversion Ec; split; [exact I|reflexivity]. }
      destruct G as [W N]. split; [exact W|]. intro n. rewrite N.
      rewrite <- (Fin [] (fun n => (has COUNT (metrics p) = true /\ n = NCount) \/ (has SUM (metrics p) = true /\ n = NSum))).
      * tauto.
      * intro m. destruct m; intuition congruence.
Qed.

Lemma no_duplicates_NoDup {A} `{EqDec A} (l : list A) : has_duplicates l = false <-> NoDup l.
Proof.
  unfold has_duplicates. rewrite negb_false_iff, Nat.eqb_eq. split; intro E.
  - assert (I : incl (distinct l) l) by (intros x Hx; apply (proj1 (in_distinct _ _)) in Hx; exact Hx).
    assert (I' : incl l (distinct l)) by (intros x Hx; apply in_distinct; exact Hx).
    apply (@NoDup_incl_NoDup A (distinct l) l); [apply NoDup_distinct | lia | exact I].
  - rewrite distinct_NoDup_id; [reflexivity | exact E].
Qed.

Lemma Forall2_nth {A B} (R : A -> B -> Prop) l l' : Forall2 R l l' -> forall j x y,
  nth_error l j = Some x -> nth_error l' j = Some y -> R x y.
Proof.
  induction 1; intros [|j] a b Ea Eb; cbn in *; try discriminate; [congruence | eauto].
Qed.

(** Everything about the released dictionary. *)
Lemma released_metrics p cs gs t nzs :
  create_compound_combiner p = Ok cs ->
  Permutation (leaves t) (map (compound_create cs) gs) -> gs <> [] ->
  (forall c, In c cs -> Forall (fits c) gs) ->
  (forall i, quantiles_ok (nzs i)) ->
  exists d, compound_metrics nzs cs (reduce_tree (compound_merge cs) t) = Ok d /\
    NoDup (map fst d) /\
    (forall n, In n (map fst d) <-> In n (map name_of (metrics p))) /\
    (forall n v, In (n, v) d -> exists i c a di,
       nth_error cs i = Some c /\ In n (names_of c) /\
       nth_error (snd (reduce_tree (compound_merge cs) t)) i = Some a /\ acc_eq a (total c gs) /\
       compute_metrics (nzs i) c a = Ok di /\ In (n, v) di).
Proof.
  intros E Pm Ne F Hq. unfold create_compound_combiner in E.
  destruct (create_combiners p) as [cs'|] eqn:Ec; cbn [rbind] in E; [|discriminate].
  unfold compound_init, raise_if in E. destruct (has_duplicates (flat_map names_of cs')) eqn:D; [discriminate|].
  inversion E; subst cs'. apply no_duplicates_NoDup in D.
  destruct (create_combiners_names p cs Ec) as [W N].
  destruct (compound_tree cs t gs Pm Ne F) as [_ A]. cbn [snd] in A.
  set (r := reduce_tree (compound_merge cs) t) in *.
  assert (S : Forall2 shape cs (snd r)).
  { clear -A. revert A. generalize (snd r). induction cs as [|c cs IH]; intros l A; inversion A; subst; constructor; auto.
    eapply shape_total; eassumption. }
  destruct (combine_metrics_ok nzs cs 0 (snd r) [] S W Hq D) as [d [Ed [Pd Od]]].
  cbn [app] in Ed. exists d. split; [exact Ed|]. split.
  { eapply Permutation_NoDup; [symmetry; exact Pd | exact D]. }
  split.
  { intro n. rewrite <- N. split; apply Permutation_in; [exact Pd | symmetry; exact Pd]. }
  intros n v Hin. destruct (Od n v Hin) as [j [c [a [dj [E1 [E2 [E3 E4]]]]]]].
  exists j, c, a, dj. assert (Sc : shape c a /\ acc_eq a (total c gs) /\ well_named c).
  { split; [exact (Forall2_nth _ _ _ S _ _ _ E1 E2)|]. split.
    - apply (proj1 (Forall2_map_r _ _ _ _)) in A. exact (Forall2_nth _ _ _ A _ _ _ E2 E1).
    - rewrite Forall_forall in W. apply W. eapply nth_error_In. exact E1. }
  destruct Sc as [Sc [Ac Wc]]. repeat split; auto.
  destruct (compute_names (nzs j) c a Sc Wc (Hq j)) as [d2 [X Px]].
  cbn [plus] in E3. rewrite X in E3. inversion E3; subst.
  eapply Permutation_in; [exact Px|]. change n with (fst (n, v)). apply in_map. exact E4.
Qed.

Definition not_percentile (n : mname) : Prop := match n with NPercentile _ => False | _ => True end.

Lemma append_if_split b mk k l :
  append_if b mk k = Ok l ->
  (b = true /\ exists c l', mk = Ok c /\ k = Ok l' /\ l = c :: l') \/ (b = false /\ k = Ok l).
Proof.
  unfold append_if. destruct b; [|auto]. intro E. left. split; [reflexivity|].
  destruct mk as [c|]; cbn in E; [|discriminate]. destruct k as [l'|]; cbn in E; [|discriminate].
  inversion E; subst. eauto.
Qed.

Lemma new_sum_shape p c : new_sum p = Ok c -> names_of c = [NSum].
Proof.
  unfold new_sum. destruct (sens_sum p); cbn [rbind]; [|discriminate].
  destruct (bounds_per_partition_are_set p).
  - destruct (min_sum_per_partition p), (max_sum_per_partition p); try discriminate; intro E; inversion E; reflexivity.
  - destruct (min_value p), (max_value p); try discriminate; intro E; inversion E; reflexivity.
Qed.

Lemma names_split p cs :
  create_combiners p = Ok cs ->
  exists pre, flat_map names_of cs = pre ++ map (fun q => NPercentile (Qred q)) (percentiles (metrics p))
    /\ NoDup pre /\ Forall not_percentile pre.
Proof.
  intro E. unfold create_combiners in E.
  assert (H4 : forall l, append_if (match percentiles (metrics p) with [] => false | _ => true end)
               (Ok (CQuantile (percentiles (metrics p)))) (Ok []) = Ok l ->
               flat_map names_of l = map (fun q => NPercentile (Qred q)) (percentiles (metrics p))).
  { intros l El. apply append_if_split in El. destruct El as [[_ [c [l' [E1 [E2 ->]]]]]|[Hb El]].
    - inversion E1; inversion E2; subst. cbn. rewrite app_nil_r. reflexivity.
    - inversion El; subst. destruct (percentiles (metrics p)); [reflexivity | discriminate]. }
  set (k4 := append_if (match percentiles (metrics p) with [] => false | _ => true end)
               (Ok (CQuantile (percentiles (metrics p)))) (Ok [])) in *.
  set (tail := map (fun q => NPercentile (Qred q)) (percentiles (metrics p))) in *.
  assert (H2 : forall l, append_if (has PRIVACY_ID_COUNT (metrics p))
               (if post_aggregation_thresholding p then new_thresh p else new_pid_count p)
               (append_if (has VECTOR_SUM (metrics p)) (new_vector p) k4) = Ok l ->
     exists b1 b2, flat_map names_of l = when b1 NPidCount ++ when b2 NVectorSum ++ tail).
  { intros l El. exists (has PRIVACY_ID_COUNT (metrics p)), (has VECTOR_SUM (metrics p)).
    apply append_if_split in El. destruct El as [[-> [c [l' [E1 [E2 ->]]]]]|[-> E2]];
      apply append_if_split in E2.
    - assert (N : names_of c = [NPidCount])
        by (destruct (post_aggregation_thresholding p); apply rmap_const_ok in E1; subst; reflexivity).
      cbn [flat_map]. rewrite N. cbn [when app]. f_equal.
      destruct E2 as [[-> [c2 [l2 [E3 [E4 ->]]]]]|[-> E2]].
      + inversion E3; subst. cbn. f_equal. auto.
      + cbn. auto.
    - destruct E2 as [[-> [c2 [l2 [E3 [E4 ->]]]]]|[-> E2]].
      + inversion E3; subst. cbn. f_equal. auto.
      + cbn. auto. }
  set (k2 := append_if (has PRIVACY_ID_COUNT (metrics p))
               (if post_aggregation_thresholding p then new_thresh p else new_pid_count p)
               (append_if (has VECTOR_SUM (metrics p)) (new_vector p) k4)) in *.
  assert (Fin : forall l pre b1 b2, flat_map names_of l = pre ++ when b1 NPidCount ++ when b2 NVectorSum ++ tail ->
     (exists a b c d, pre = when a NVariance ++ when b NMean ++ when c NCount ++ when d NSum) ->
     exists pre, flat_map names_of l = pre ++ tail /\ NoDup pre /\ Forall not_percentile pre).
  { intros l pre b1 b2 El [a [b [c [d ->]]]].
    exists ((when a NVariance ++ when b NMean ++ when c NCount ++ when d NSum) ++ when b1 NPidCount ++ when b2 NVectorSum).
    split; [rewrite El, <- !app_assoc; reflexivity|].
    split; destruct a, b, c, d, b1, b2; cbn; repeat constructor; cbn; intuition discriminate. }
  destruct (has VARIANCE (metrics p)).
  { apply append_if_split in E. destruct E as [[_ [c [l [Ec [El ->]]]]]|[? _]]; [|discriminate].
    destruct (H2 l El) as [b1 [b2 Hl]]. unfold new_variance in Ec.
    destruct (min_value p), (max_value p); try discriminate. inversion Ec; subst.
    eapply Fin; [cbn [flat_map names_of]; rewrite Hl; reflexivity|].
    exists true. do 3 eexists. reflexivity. }
  destruct (has MEAN (metrics p)).
  { apply append_if_split in E. destruct E as [[_ [c [l [Ec [El ->]]]]]|[? _]]; [|discriminate].
    destruct (H2 l El) as [b1 [b2 Hl]]. unfold new_mean in Ec.
    destruct (min_value p), (max_value p); try discriminate.
    destruct (sens_count p); cbn [rbind] in Ec; [|discriminate]. apply rmap_const_ok in Ec. subst.
    eapply Fin; [cbn [flat_map names_of]; rewrite Hl; reflexivity|].
    exists false, true. do 2 eexists. reflexivity. }
  apply append_if_split in E. destruct E as [[_ [c [l [Ec [El ->]]]]]|[_ El]];
    apply append_if_split in El.
  - apply rmap_const_ok in Ec. subst. destruct El as [[_ [c2 [l2 [E3 [E4 ->]]]]]|[_ El]].
    + destruct (H2 l2 E4) as [b1 [b2 Hl]]. apply new_sum_shape in E3.
      eapply Fin; [cbn [flat_map names_of]; rewrite E3, Hl; rewrite app_assoc; reflexivity|].
      exists false, false, true, true. reflexivity.
    + destruct (H2 l El) as [b1 [b2 Hl]].
      eapply Fin; [cbn [flat_map names_of]; rewrite Hl; reflexivity|].
      exists false, false, true, false. reflexivity.
  - destruct El as [[_ [c2 [l2 [E3 [E4 ->]]]]]|[_ El]].
    + destruct (H2 l2 E4) as [b1 [b2 Hl]]. apply new_sum_shape in E3.
      eapply Fin; [cbn [flat_map names_of]; rewrite E3, Hl; reflexivity|].
      exists false, false, false, true. reflexivity.
    + destruct (H2 cs El) as [b1 [b2 Hl]].
      eapply (Fin cs []); [cbn [app]; rewrite Hl; reflexivity|].
      exists false, false, false, false. reflexivity.
Qed.

Lemma NoDup_app_intro {A} (l l' : list A) :
  NoDup l -> NoDup l' -> (forall x, In x l -> In x l' -> False) -> NoDup (l ++ l').
Proof.
  induction l as [|a l IH]; intros N N' D; [exact N'|]. inversion N; subst. cbn. constructor.
  - rewrite in_app_iff. intros [X|X]; [auto | exact (D a (or_introl eq_refl) X)].
  - apply IH; auto. intros x X Y. exact (D x (or_intror X) Y).
Qed.

Lemma names_nodup p cs :
  create_combiners p = Ok cs ->
  (NoDup (flat_map names_of cs) <-> NoDup (map Qred (percentiles (metrics p)))).
Proof.
  intro E. destruct (names_split p cs E) as [pre [-> [Np Fp]]].
  rewrite <- (map_map Qred NPercentile). split; intro N.
  - assert (X : NoDup (map NPercentile (map Qred (percentiles (metrics p))))).
    { clear -N. induction pre; [exact N|]. inversion N; subst. auto. }
    apply NoDup_map_inv in X. exact X.
  - apply NoDup_app_intro; [exact Np| |].
    + apply FinFun.Injective_map_NoDup; [intros a b Hab; inversion Hab; reflexivity | exact N].
    + intros x Hx Hy. rewrite Forall_forall in Fp. apply Fp in Hx. apply in_map_iff in Hy.
      destruct Hy as [q [<- _]]. exact Hx.
Qed.
