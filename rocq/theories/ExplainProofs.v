(** Lemmas for C82. *)
From Coq Require Import String List ZArith QArith Bool Permutation Lia Lqa.
From Verif Require Import Base BaseLemmas BackendModel ListLemmas ParamsModel SensModel BudgetModel BudgetSpec BudgetProofs CombinerModel CombinerProofs3
  SelectModel DpModel WrapperModel EngineModel EngineSpec EngineProofs3 LateModel ReportModel ExplainModel ExplainSpec.
Import ListNotations.

(** ** Sensitivities are complete *)
Definition complete (s : sens) : Prop := exists l1 l2, s_l1 s = Some l1 /\ s_l2sq s = Some l2.
Lemma mk_sens_l0linf z q s : mk_sens (Some z) (Some q) None None = Ok s -> complete s.
Proof.
  unfold mk_sens. intro E. repeat (apply raise_if_ok in E; destruct E as [_ E]). injection E as <-. do 2 eexists. split; reflexivity.
Qed.
Lemma mk_sens_given a b s : mk_sens None None (Some a) (Some b) = Ok s -> complete s.
Proof.
  unfold mk_sens. intro E. repeat (apply raise_if_ok in E; destruct E as [_ E]). injection E as <-. do 2 eexists. split; reflexivity.
Qed.

Lemma sens_count_complete p s : accepted p -> sens_count p = Ok s -> complete s.
Proof.
  intros A E. destruct (accepted_facts p A) as (_ & _ & _ & M). unfold sens_count in E. destruct (max_contributions p).
  - exact (mk_sens_given _ _ _ E).
  - destruct M as (l0 & linf & E0 & E1 & _). rewrite E0, E1 in E. exact (mk_sens_l0linf _ _ _ E).
Qed.
Lemma sens_pid_complete p s : accepted p -> sens_privacy_id_count p = Ok s -> complete s.
Proof.
  intros A E. destruct (accepted_facts p A) as (_ & _ & _ & M). unfold sens_privacy_id_count in E. destruct (max_contributions p).
  - exact (mk_sens_given _ _ _ E).
  - destruct M as (l0 & linf & E0 & E1 & _). rewrite E0 in E. exact (mk_sens_l0linf _ _ _ E).
Qed.
Lemma sens_sum_complete p s : accepted p -> sens_sum p = Ok s -> complete s.
Proof.
  intros A E. destruct (accepted_facts p A) as (_ & _ & _ & M). unfold sens_sum in E.
  assert (B : forall lo hi, match min_sum_per_partition p, max_sum_per_partition p with
              | Some lo, Some hi => mk_sens (max_partitions_contributed p) (Some (max_abs lo hi)) None None
              | _, _ => Err TypeError end = Ok s -> min_sum_per_partition p = Some lo -> max_sum_per_partition p = Some hi -> complete s).
  { intros lo hi E' E1 E2. rewrite E1, E2 in E'. destruct (max_partitions_contributed p) as [z|]; [exact (mk_sens_l0linf _ _ _ E')|].
    exfalso. clear -E'. unfold mk_sens in E'. repeat (apply raise_if_ok in E'; destruct E' as [_ E']). discriminate. }
  destruct (min_value p) as [lo|], (max_value p) as [hi|];
    try (destruct (min_sum_per_partition p) as [a|] eqn:E1, (max_sum_per_partition p) as [b|] eqn:E2; try discriminate;
         apply (B a b E); reflexivity).
  destruct (max_contributions p) as [m|].
  - destruct (m =? 0)%Z; [discriminate|]. exact (mk_sens_given _ _ _ E).
  - destruct M as (l0 & linf & E0 & E1 & _). rewrite E0, E1 in E. exact (mk_sens_l0linf _ _ _ E).
Qed.
Lemma sens_norm_complete p s : accepted p -> sens_normalized_sum p = Ok s -> complete s.
Proof.
  intros A E. destruct (accepted_facts p A) as (_ & _ & _ & M). unfold sens_normalized_sum in E.
  destruct (min_value p) as [lo|], (max_value p) as [hi|]; try discriminate. cbv zeta in E.
  destruct (max_contributions p) as [m|].
  - destruct (m =? 0)%Z; [discriminate|]. exact (mk_sens_given _ _ _ E).
  - destruct M as (l0 & linf & E0 & E1 & _). rewrite E0, E1 in E. exact (mk_sens_l0linf _ _ _ E).
Qed.

(** ** One combiner *)
Definition served (t : mech_type) (m : mech) : Prop :=
  m_type m = t /\ exists e d, m_eps m = Some e /\ m_delta m = Some d /\ 0 < e.

Lemma describe_additive k m s : served (mech_of k) m -> complete s ->
  exists mm, create_additive m s = Ok mm /\ Forall2 budget_of_mechanism (shown (describe_mechanism mm)) [m].
Proof.
  intros (T & e & d & Ee & Ed & Pe) (l1 & l2 & E1 & E2). unfold create_additive, get_eps, get_delta. rewrite T, Ee, Ed. destruct k; cbn [mech_of to_noise_kind rbind].
  - rewrite E1. cbn [rbind]. unfold create_additive_mechanism. cbn [ms_kind ms_std ms_eps]. rewrite E1. eexists. split; [reflexivity|].
    cbn. repeat constructor; cbn; assumption.
  - rewrite E2. cbn [rbind]. unfold create_additive_mechanism. cbn [ms_kind ms_std ms_eps ms_delta]. rewrite E2. eexists. split; [reflexivity|].
    cbn. destruct (Qle_bool e 0) eqn:Q0; [apply Qle_bool_iff in Q0; exfalso; lra|]. cbn. repeat constructor; cbn; assumption.
Qed.

Lemma thresholding_strategy k : exists st, to_partition_selection_strategy (noise_to_thresholding k) = Ok st /\
  (st = LaplaceThresholding \/ st = GaussianThresholding).
Proof. destruct k; eexists; (split; [reflexivity|]); tauto. Qed.
Lemma strategy_roundtrip st e d l0 pre : strategy_of_name (create_partition_selection_strategy st e d l0 pre) = st.
Proof. destruct st; reflexivity. Qed.

Lemma explain_one p c ms : accepted p -> constructed p c -> (forall n, c <> CVector n) -> length ms = requests c ->
  Forall (served (request_type p c)) ms ->
  exists x, explain_combiner p c ms = Ok x /\ Forall2 budget_of_mechanism (shown x) ms.
Proof.
  intros A C Nv L F.
  destruct c as [| | |pp lo hi|lo hi ns|lo hi ns|ps|n]; cbn [requests] in L;
    try (exfalso; exact (Nv n eq_refl)).
  all: try (destruct ms as [|m [|]]; [discriminate | | discriminate]; apply Forall_cons_iff in F; destruct F as [S1 _]; cbn [request_type] in S1).
  - cbn [explain_combiner class_of construct]. unfold constructed, new_count in C. destruct (sens_count p) as [s|] eqn:Es; [|discriminate].
    cbn [rmap rbind create_mechanism]. destruct (describe_additive _ m s S1 (sens_count_complete p s A Es)) as (mm & -> & H). cbn. eauto.
  - cbn [explain_combiner class_of construct]. unfold constructed, new_pid_count in C. destruct (sens_privacy_id_count p) as [s|] eqn:Es; [|discriminate].
    cbn [rmap rbind create_mechanism]. destruct (describe_additive _ m s S1 (sens_pid_complete p s A Es)) as (mm & -> & H). cbn. eauto.
  - cbn [explain_combiner class_of construct]. unfold constructed, new_thresh in C. destruct (sens_privacy_id_count p) as [s|] eqn:Es; [|discriminate].
    cbn [rmap rbind create_mechanism]. destruct S1 as (T & e & d & Ee & Ed & Pe). unfold get_eps, get_delta. rewrite T, Ee, Ed.
    destruct (thresholding_strategy (noise_kind p)) as (st & Et & _). unfold create_thresholding_mechanism. rewrite Et. cbn [rbind rmap].
    eexists. split; [reflexivity|]. cbn [describe shown]. repeat constructor; cbn; assumption.
  - cbn [explain_combiner class_of construct]. unfold constructed, new_sum in C. destruct (sens_sum p) as [s|] eqn:Es; [|discriminate].
    cbn [rmap rbind create_mechanism]. destruct (describe_additive _ m s S1 (sens_sum_complete p s A Es)) as (mm & -> & H). cbn. eauto.
  - destruct ms as [|m1 [|m2 [|]]]; try discriminate. apply Forall_cons_iff in F. destruct F as [S1 F]. apply Forall_cons_iff in F. destruct F as [S2 _].
    cbn [request_type] in S1, S2. cbn [explain_combiner class_of construct]. unfold constructed, new_mean in C.
    destruct (min_value p) as [l|]; [|discriminate]. destruct (max_value p) as [h|]; [|discriminate].
    destruct (sens_count p) as [sc|] eqn:Ec; [|discriminate]. cbn [rbind] in C. destruct (sens_normalized_sum p) as [sn|] eqn:En; [|discriminate].
    cbn [rbind rmap create_mechanism].
    destruct (describe_additive _ m1 sc S1 (sens_count_complete p sc A Ec)) as (mm1 & -> & H1).
    destruct (describe_additive _ m2 sn S2 (sens_norm_complete p sn A En)) as (mm2 & -> & H2). cbn [rbind rmap describe].
    eexists. split; [reflexivity|]. cbn [shown]. change [m1; m2] with ([m1] ++ [m2]). apply Forall2_app; assumption.
  - cbn [explain_combiner class_of construct rbind create_mechanism]. destruct S1 as (T & e & d & Ee & Ed & Pe). unfold get_eps, get_delta. rewrite Ee, Ed.
    eexists. split; [reflexivity|]. cbn. repeat constructor; cbn; assumption.
  - cbn [explain_combiner class_of construct rbind create_mechanism]. destruct S1 as (T & e & d & Ee & Ed & Pe). unfold get_eps, get_delta. rewrite Ee, Ed.
    eexists. split; [reflexivity|]. cbn. repeat constructor; cbn; assumption.
Qed.

(** ** The stages of an aggregation *)
Definition plain (k : stage_kind) : Prop := match k with Metric _ | PrivateSelection _ _ => False | _ => True end.

Lemma plain_stages p l l' ms sel xs : Forall plain l -> explain_stages p l' ms sel = Ok xs ->
  exists ys, explain_stages p (l ++ l') ms sel = Ok ys /\ flat_map shown ys = flat_map shown xs.
Proof.
  intros F E. induction F as [|k l Pk F IH]; [exists xs; split; [exact E | reflexivity]|].
  destruct IH as (ys & Ey & Es). exists (SayStage k :: ys). cbn [app]. destruct k; try contradiction; cbn [explain_stages]; rewrite Ey; (split; [reflexivity | exact Es]).
Qed.

Lemma metric_lines p cs l' ms sel : accepted p -> Forall (constructed p) cs -> (forall n, ~ In (CVector n) cs) ->
  length ms = list_sum (map requests cs) ->
  Forall2 served (flat_map (fun c => repeat (request_type p c) (requests c)) cs) ms -> Forall plain l' ->
  exists xs, explain_stages p (map Metric cs ++ l') ms sel = Ok xs /\ Forall2 budget_of_mechanism (flat_map shown xs) ms.
Proof.
  intros A C Nv. revert ms. induction C as [|c cs Cc C IH]; intros ms L F Pl.
  - inversion F; subst. cbn [map app]. destruct (plain_stages p l' [] [] sel [] Pl eq_refl) as (ys & Ey & Es).
    rewrite app_nil_r in Ey. exists ys. split; [exact Ey|]. rewrite Es. constructor.
  - cbn [map list_sum fold_right flat_map] in L, F.
    apply Forall2_app_inv_l in F. destruct F as (m1 & m2 & F1 & F2 & ->). assert (L1 := Forall2_len _ _ _ F1). rewrite repeat_length in L1.
    assert (L2 : length m2 = list_sum (map requests cs)) by (rewrite app_length in L; unfold list_sum in *; lia).
    cbn [map app explain_stages].
    rewrite L1, firstn_app, Nat.sub_diag, firstn_all, firstn_O, app_nil_r, skipn_app, Nat.sub_diag, skipn_all, skipn_O. cbn [app].
    destruct (explain_one p c m1 A Cc) as (x & Ex & Sx).
    { intros n ->. apply (Nv n). left. reflexivity. }
    { symmetry. exact L1. }
    { clear -F1. remember (requests c) as k. clear Heqk. revert k F1. induction m1 as [|m m1 IH]; intros k F1; [constructor|].
      destruct k; inversion F1; subst. constructor; [assumption|]. apply (IH k). assumption. }
    rewrite Ex. cbn [rbind]. destruct (IH (fun n I => Nv n (or_intror I)) m2 L2 F2 Pl) as (xs & Exs & Sxs). rewrite Exs. cbn [rmap].
    eexists. split; [reflexivity|]. cbn [flat_map]. apply Forall2_app; assumption.
Qed.

Lemma no_vector p cs : create_compound_combiner p = Ok cs -> ~ In VECTOR_SUM (metrics p) -> forall n, ~ In (CVector n) cs.
Proof.
  intros E Nv n I. assert (F : Forall (fun c => c <> CVector n) cs).
  { unfold create_compound_combiner, compound_init in E. destruct (create_combiners p) as [cs'|] eqn:Ec; cbn [rbind] in E; [|discriminate].
    apply raise_if_ok in E. destruct E as [_ E]. injection E as <-. unfold create_combiners in Ec.
    assert (Hv : has VECTOR_SUM (metrics p) = false).
    { destruct (has VECTOR_SUM (metrics p)) eqn:Hv; [|reflexivity]. exfalso. apply Nv. unfold has in Hv. apply existsb_exists in Hv.
      destruct Hv as (m & Im & Em). destruct m; try discriminate Em. exact Im. }
    rewrite Hv in Ec.
    assert (H2 : forall l, append_if (has PRIVACY_ID_COUNT (metrics p))
               (if post_aggregation_thresholding p then new_thresh p else new_pid_count p)
               (append_if false (new_vector p)
                 (append_if (match percentiles (metrics p) with [] => false | _ => true end)
                      (Ok (CQuantile (percentiles (metrics p)))) (Ok []))) = Ok l -> Forall (fun c => c <> CVector n) l).
    { intros l El. eapply append_if_forall; [exact El| |].
      - intros c Ec'. destruct (post_aggregation_thresholding p); apply rmap_const_inv in Ec'; destruct Ec' as [_ ->]; discriminate.
      - cbn [append_if]. intros l' El'. eapply append_if_forall; [exact El'| |].
        + intros c Ec'. injection Ec' as <-. discriminate.
        + intros l2 E2. injection E2 as <-. constructor. }
    destruct (has VARIANCE (metrics p)).
    { eapply append_if_forall; [exact Ec| |exact H2]. intros c Ec'. unfold new_variance in Ec'.
      destruct (min_value p), (max_value p); try discriminate. injection Ec' as <-. discriminate. }
    destruct (has MEAN (metrics p)).
    { eapply append_if_forall; [exact Ec| |exact H2]. intros c Ec'. unfold new_mean in Ec'.
      destruct (min_value p), (max_value p); try discriminate. destruct (sens_count p); cbn [rbind] in Ec'; [|discriminate].
      apply rmap_const_inv in Ec'. destruct Ec' as [_ ->]. discriminate. }
    eapply append_if_forall; [exact Ec| |].
    - intros c Ec'. apply rmap_const_inv in Ec'. destruct Ec' as [_ ->]. discriminate.
    - intros l El. eapply append_if_forall; [exact El| |exact H2]. intros c Ec' ->. unfold new_sum in Ec'. destruct (sens_sum p); cbn [rbind] in Ec'; [|discriminate].
      destruct (bounds_per_partition_are_set p).
      + destruct (min_sum_per_partition p), (max_sum_per_partition p); discriminate.
      + destruct (min_value p), (max_value p); discriminate. }
  rewrite Forall_forall in F. exact (F _ I eq_refl).
Qed.

Lemma bounding_plain p b : Forall plain (bounding_stages p b).
Proof.
  unfold bounding_stages. destruct (max_contributions p); [repeat constructor|].
  destruct (perform_cross_partition_contribution_bounding p), b; repeat constructor.
Qed.

Lemma explain_selected s pre m : served GENERIC m ->
  exists x, explain_selection s pre (Some m) = Ok x /\ Forall2 budget_of_mechanism (shown x) [m].
Proof.
  intros (T & e & d & Ee & Ed & _). unfold explain_selection, get_eps, get_delta. rewrite Ee, Ed. cbn. eexists. split; [reflexivity|].
  cbn. repeat constructor; cbn; assumption.
Qed.

Lemma explain_call {P} (c : explained P) ms : explainable c -> Forall2 served (types_requested c) ms ->
  exists r listed, explain c ms = Ok r /\ Permutation (flat_map shown r) listed /\ Forall2 budget_of_mechanism listed ms.
Proof.
  destruct c as [p public cs|s pre|k l0 linf]; cbn [explainable types_requested explain]; [|intros _ F|tauto].
  - intros (A & E & Nv) F. assert (C := all_constructed p cs E). assert (Nc := no_vector p cs E Nv).
    apply Forall2_app_inv_l in F. destruct F as (m1 & m2 & F1 & F2 & ->). assert (L1 := Forall2_len _ _ _ F1).
    assert (Ln : length m1 = list_sum (map requests cs)).
    { rewrite <- L1. clear. induction cs as [|c cs IH]; [reflexivity|]. cbn [flat_map map list_sum fold_right]. rewrite app_length, repeat_length, IH. reflexivity. }
    rewrite <- Ln. rewrite firstn_app, Nat.sub_diag, firstn_all, firstn_O, app_nil_r.
    rewrite nth_error_app2, Nat.sub_diag by lia.
    set (pub := option_map nonempty public).
    assert (Sp : selects_privately p public = (negb (is_some pub) && negb (post_aggregation_thresholding p) && negb (public_partitions_already_filtered p))).
    { unfold selects_privately, pub. destruct public; reflexivity. }
    unfold aggregate_stages. rewrite <- Sp.
    set (last := if post_aggregation_thresholding p then [DroppedUnderThreshold] else []).
    assert (Pl : Forall plain last) by (unfold last; destruct (post_aggregation_thresholding p); repeat constructor).
    destruct (metric_lines p cs last m1 (nth_error m2 0) A C Nc Ln F1 Pl) as (xs & Exs & Sxs).
    assert (K : exists ys l2, explain_stages p ((if selects_privately p public then [PrivateSelection (partition_selection_strategy p) (pre_threshold p)] else [])
                 ++ map Metric cs ++ last) m1 (nth_error m2 0) = Ok ys /\ flat_map shown ys = l2 ++ flat_map shown xs /\ Forall2 budget_of_mechanism l2 m2).
    { destruct (selects_privately p public).
      - inversion F2 as [|t m ts m2' S1 F2' E1 E2]; subst. inversion F2'; subst. cbn [nth_error] in *.
        destruct (explain_selected (partition_selection_strategy p) (pre_threshold p) m S1) as (x & Ex & Sx).
        cbn [app explain_stages]. rewrite Ex. cbn [rbind]. rewrite Exs. cbn [rmap]. exists (x :: xs), (shown x). split; [reflexivity|]. split; [reflexivity | exact Sx].
      - inversion F2; subst. exists xs, []. cbn [app]. split; [exact Exs|]. split; [reflexivity | constructor]. }
    destruct K as (ys & l2 & Eys & Sys & F3).
    set (front := (if is_some pub && negb (public_partitions_already_filtered p) then [DroppedNonPublic] else [])
       ++ (if contribution_bounds_already_enforced p then [] else bounding_stages p (existsb expects_sampling cs))
       ++ match pub with Some true => [AddedEmptyPartitions] | _ => [] end).
    assert (Pf : Forall plain front).
    { unfold front. apply Forall_app. split; [destruct (is_some pub && negb (public_partitions_already_filtered p)); repeat constructor|]. apply Forall_app.
      split; [destruct (contribution_bounds_already_enforced p); [constructor | apply bounding_plain]|]. destruct pub as [[]|]; repeat constructor. }
    destruct (plain_stages p front _ _ _ ys Pf Eys) as (zs & Ezs & Szs).
    exists zs, (flat_map shown xs ++ l2). split; [|split].
    + rewrite <- Ezs. unfold front. rewrite <- !app_assoc. reflexivity.
    + rewrite Szs, Sys. apply Permutation_app_comm.
    + apply Forall2_app; assumption.
  - inversion F as [|t m ts ms' S1 F' E1 E2]; subst. inversion F'; subst. cbn [nth_error].
    destruct (explain_selected s pre m S1) as (x & Ex & Sx). rewrite Ex. cbn [rmap]. exists [x], (shown x). split; [reflexivity|].
    split; [cbn; rewrite app_nil_r; apply Permutation_refl | exact Sx].
Qed.

Lemma explain_calls {P} (cs : list (explained P)) ms : Forall explainable cs -> Forall2 served (flat_map types_requested cs) ms ->
  exists rs listed, explain_all cs ms = Ok rs /\ Permutation (flat_map shown (concat rs)) listed /\ Forall2 budget_of_mechanism listed ms.
Proof.
  intro V. revert ms. induction V as [|c cs Vc V IH]; intros ms F.
  - inversion F; subst. exists [], []. repeat split; constructor.
  - cbn [flat_map] in F. apply Forall2_app_inv_l in F. destruct F as (m1 & m2 & F1 & F2 & ->). assert (L1 := Forall2_len _ _ _ F1).
    cbn [explain_all]. rewrite L1, firstn_app, Nat.sub_diag, firstn_all, firstn_O, app_nil_r, skipn_app, Nat.sub_diag, skipn_all, skipn_O. cbn [app].
    destruct (explain_call c m1 Vc F1) as (r & l1 & Er & P1 & B1). destruct (IH m2 F2) as (rs & l2 & Ers & P2 & B2).
    rewrite Er. cbn [rbind]. rewrite Ers. cbn [rmap]. exists (r :: rs), (l1 ++ l2). split; [reflexivity|]. split.
    + cbn [concat]. rewrite flat_map_app. apply Permutation_app; assumption.
    + apply Forall2_app; assumption.
Qed.

(** ** The accountant *)
Lemma all_served e d num ws s0 ops s2 : new_accountant e d num ws = Ok s0 -> Forall op_pos ops ->
  granted ops (outs s0 ops) <> [] -> step (run s0 ops) Compute = (s2, Ok OutUnit) ->
  Forall2 served (map req_type (granted ops (outs s0 ops))) (mechs s2).
Proof.
  intros Hn Hp Hne Hc. destruct (c01_lemma e d num ws s0 ops s2 Hn Hp Hc Hne) as (es & Re & _ & _ & Pe).
  destruct (c02_lemma e d num ws s0 ops s2 Hn Hp Hc) as (ds & Rd & _).
  destruct (granted_counts _ _ _ _ _ ops Hn) as [_ Ty]. rewrite <- Ty.
  assert (T2 : map m_type (mechs s2) = map m_type (mechs (run s0 ops))).
  { apply compute_ok in Hc. destruct Hc as (_ & _ & [[Em ->]|(_ & _ & ->)]); [reflexivity|]. cbn [mechs set_mechs]. rewrite map_map.
    apply map_ext. intro m. reflexivity. }
  rewrite <- T2. clear -Re Rd Pe. unfold read_eps, read_delta in *. revert es ds Re Rd Pe. induction (mechs s2) as [|m l IH]; intros es ds Re Rd Pe; [constructor|].
  inversion Re; subst. inversion Rd; subst. apply Forall_cons_iff in Pe. destruct Pe as [[P1 _] Pe]. cbn [map]. constructor; [|eapply IH; eassumption].
  split; [reflexivity|]. unfold get_eps in *. unfold get_delta in *.
  destruct (m_eps m) as [x|]; [|discriminate]. destruct (m_delta m) as [z|]; [|discriminate].
  exists x, z. repeat split. congruence.
Qed.
