(** Proofs about the error estimator: the ratio of lost data. *)
From Coq Require Import List ZArith QArith Bool Sorted Lia Lqa.
From Verif Require Import Base BaseLemmas ListLemmas HistModel HistSpec HistProofs HistProofs2 HistProofs3 HistProps
  EstimatorModel EstimatorSpec EstimatorProofs.
Import ListNotations.
Local Open Scope Z_scope.

Lemma inject_inj a b : (inject_Z a == inject_Z b)%Q -> a = b.
Proof. apply inject_Z_injective. Qed.

Lemma sumZ_pos xs : Forall (fun x => 1 <= x) xs -> xs <> [] -> 0 < sumZ xs.
Proof.
  intros F N. destruct F as [|x xs P F]; [contradiction|]. rewrite sumZ_cons. clear N.
  assert (0 <= sumZ xs); [|lia]. induction F as [|y ys Py F IH]; [cbn; lia|]. rewrite sumZ_cons. lia.
Qed.

Lemma in_ratios_of x y rs : In (x, y) (ratios_of rs) <-> exists t, x = inject_Z t /\ In (t, y) rs.
Proof.
  unfold ratios_of. rewrite in_map_iff. split.
  - intros ([t r] & E & I). cbn [fst snd] in E. injection E as <- <-. exists t. auto.
  - intros (t & -> & I). exists (t, y). auto.
Qed.

Lemma ratio_lost_zero_after m b xs : maximum m xs -> m <= b -> (ratio_lost b xs == 0)%Q.
Proof.
  intros M L. unfold ratio_lost. assert (E : excess b xs = 0).
  { destruct M as [_ F]. clear - F L. induction F as [|x xs Lx F IH]; [reflexivity|]. rewrite excess_cons, IH. lia. }
  rewrite E. change (inject_Z 0) with 0%Q. unfold Qdiv. ring.
Qed.

Lemma Q_div_le a b c : 0 < c -> a <= b -> (inject_Z a / inject_Z c <= inject_Z b / inject_Z c)%Q.
Proof.
  intros P L. unfold Qdiv. apply Qmult_le_compat_r; [rewrite <- Zle_Qle; exact L|].
  apply Qlt_le_weak, Qinv_lt_0_compat. change 0%Q with (inject_Z 0). rewrite <- Zlt_Qlt. exact P.
Qed.

Lemma ratio_lost_bounds b xs : 0 <= b -> Forall (fun x => 1 <= x) xs -> xs <> [] -> (0 <= ratio_lost b xs <= 1)%Q.
Proof.
  intros B F N. pose proof (sumZ_pos xs F N) as P. destruct (excess_bounds b xs B F) as [L U].
  unfold ratio_lost. split.
  - apply Qle_trans with (inject_Z 0 / inject_Z (sumZ xs))%Q; [|apply Q_div_le; assumption].
    change (inject_Z 0) with 0%Q. unfold Qdiv. rewrite Qmult_0_l. apply Qle_refl.
  - apply Qle_trans with (inject_Z (sumZ xs) / inject_Z (sumZ xs))%Q; [apply Q_div_le; assumption|].
    assert (~ inject_Z (sumZ xs) == 0)%Q.
    { intros E. change 0%Q with (inject_Z 0) in E. apply inject_inj in E. lia. }
    unfold Qdiv. rewrite Qmult_inv_r by assumption. apply Qle_refl.
Qed.

(** The chord as a rational. *)
Lemma chord_ratio l1 l2 b e1 e2 S : l1 < l2 -> 0 < S ->
  (((inject_Z e1 / inject_Z S) * (inject_Z l2 - inject_Z b) + (inject_Z e2 / inject_Z S) * (inject_Z b - inject_Z l1))
     / (inject_Z l2 - inject_Z l1)
   == inject_Z (e1 * (l2 - b) + e2 * (b - l1)) / inject_Z (S * (l2 - l1)))%Q.
Proof.
  intros L P. rewrite inject_Z_plus, !inject_Z_mult. unfold Zminus. rewrite !inject_Z_plus, !inject_Z_opp.
  field. split.
  - intros E. change 0%Q with (inject_Z 0) in E. rewrite <- inject_Z_opp, <- inject_Z_plus in E.
    apply inject_inj in E. lia.
  - intros E. change 0%Q with (inject_Z 0) in E. apply inject_inj in E. lia.
Qed.

Lemma Q_div_eq_scale a c d : 0 < c -> 0 < d -> (inject_Z a / inject_Z c == inject_Z (a * d) / inject_Z (c * d))%Q.
Proof.
  intros Pc Pd. rewrite !inject_Z_mult. field. split; intros E; change 0%Q with (inject_Z 0) in E;
    apply inject_inj in E; lia.
Qed.

Lemma ratio_estimate xs h b : Forall (fun x => 1 <= x) xs -> xs <> [] -> histogram_of xs h -> 1 <= b ->
  exists rs q, compute_ratio_dropped h = Ok rs /\ get_ratio_dropped (ratios_of rs) (inject_Z b) = Ok q /\
    (ratio_lost b xs <= q <= ratio_lost b xs + (1 # 100))%Q /\ (q <= 1)%Q /\
    (In b (map b_lower h) \/ Forall (fun x => x < 1000) xs -> (q == ratio_lost b xs)%Q).
Proof.
  intros F N H B. destruct (C33_ratio_dropped xs h F N H) as (rs & m & E & M & Ex & K & Ss & Hd & pre & r & Er & R0).
  exists rs. pose proof (sumZ_pos xs F N) as P. pose proof (ratio_lost_bounds b xs ltac:(lia) F N) as Rb.
  assert (PQ : forall t y, In (t, y) rs -> (y == ratio_lost t xs)%Q /\ 0 <= t).
  { intros t y I. rewrite Forall_forall in Ex. split; [exact (Ex _ I)|].
    assert (It : In t (map fst rs)) by (apply in_map_iff; exists (t, y); auto).
    apply K in It. destruct It as [->|[It| ->]]; [lia| |].
    - apply in_map_iff in It. destruct It as (c & <- & Ic). destruct H as (_ & Fd & _).
      rewrite Forall_forall in Fd. destruct (Fd c Ic) as (L & _). pose proof (leading_bin_pos _ _ L). lia.
    - destruct M as [Im _]. rewrite Forall_forall in F. specialize (F m Im). cbn in F. lia. }
  destruct (Z.leb_spec b m) as [Lm|Lm].
  - destruct (get_ratio_spec (ratios_of rs) (inject_Z m, r) (inject_Z b)) as [(x & y & I & Eq & G)|(pr & p & q & po & Es & Bt & G)].
    + apply ratios_of_sorted. exact Ss.
    + apply Forall_forall. intros [x y] I. apply in_ratios_of in I. destruct I as (t & _ & I). destruct (PQ t y I) as [Ey Pt].
      cbn [snd]. rewrite Ey. apply ratio_lost_bounds; assumption.
    + exists 1%Q. destruct rs as [|a rs]; [discriminate|]. cbn in Hd. injection Hd as ->. reflexivity.
    + exists (ratios_of pre). rewrite Er. unfold ratios_of. rewrite map_app. reflexivity.
    + change 0%Q with (inject_Z 0). rewrite <- Zlt_Qlt. lia.
    + cbn [fst]. rewrite <- Zle_Qle. exact Lm.
    + apply in_ratios_of in I. destruct I as (t & -> & I). apply inject_inj in Eq. subst t.
      destruct (PQ b y I) as [Ey _]. exists y. split; [exact E|]. split; [exact G|].
      split; [split; rewrite Ey; lra|]. split; [rewrite Ey; lra|]. intros _. exact Ey.
    + eexists. split; [exact E|]. split; [exact G|].
      assert (Es' : exists pr' p' q' po', rs = pr' ++ p' :: q' :: po' /\ p = (inject_Z (fst p'), snd p') /\ q = (inject_Z (fst q'), snd q')).
      { unfold ratios_of in Es. apply map_eq_app in Es. destruct Es as (l1 & l2 & E1 & _ & E2).
        destruct l2 as [|p' [|q' l2]]; try discriminate. cbn [map] in E2. injection E2 as Ep Eq _.
        exists l1, p', q', l2. auto. }
      destruct Es' as (pr' & [l1 y1] & [l2 y2] & po' & Ers & -> & ->). cbn [fst snd] in *.
      destruct Bt as [B1 B2]. rewrite <- Zlt_Qlt in B1, B2.
      destruct (PQ l1 y1 ltac:(rewrite Ers; apply in_or_app; right; left; reflexivity)) as [Y1 P1].
      destruct (PQ l2 y2 ltac:(rewrite Ers; apply in_or_app; right; right; left; reflexivity)) as [Y2 P2].
      assert (Bw : forall x, In x xs -> l1 < x < l2 -> exists c, In c h /\ b_lower c = l1 /\ x < b_upper c).
      { intros x I D. exact (neighbours_bin xs h m rs pr' (l1, y1) (l2, y2) po' x F H M (sorted_fst_only rs Ss) K Ers I D). }
      assert (W : 0 <= 100 * between l1 l2 xs <= sumZ xs).
      { apply between_bound; [exact F|]. intros x I D. destruct (Bw x I D) as (c & Ic & Ec & Lc).
        destruct H as (_ & Fd & _). rewrite Forall_forall in Fd. destruct (Fd c Ic) as (Lb & _).
        destruct (leading_bin_width _ _ Lb); lia. }
      pose proof (chord l1 l2 b xs ltac:(lia)) as C.
      destruct (excess_bounds l1 xs P1 F) as [_ U1]. destruct (excess_bounds l2 xs P2 F) as [_ U2].
      rewrite Y1, Y2. unfold ratio_lost. rewrite chord_ratio by lia.
      rewrite (Q_div_eq_scale (excess b xs) (sumZ xs) (l2 - l1)) by lia.
      assert (PD : 0 < sumZ xs * (l2 - l1)) by nia.
      split; [split|split].
      * apply Q_div_le; lia.
      * apply Qle_trans with (inject_Z (excess b xs * (l2 - l1) + (l2 - l1) * between l1 l2 xs) / inject_Z (sumZ xs * (l2 - l1)))%Q.
        { apply Q_div_le; lia. }
        assert (E2 : (1 # 100 == inject_Z (sumZ xs * (l2 - l1)) / inject_Z (100 * (sumZ xs * (l2 - l1))))%Q).
        { rewrite (inject_Z_mult 100). change (inject_Z 100) with 100%Q. field.
          intros E2. change 0%Q with (inject_Z 0) in E2. apply inject_inj in E2. lia. }
        rewrite E2. rewrite (Q_div_eq_scale (excess b xs * (l2 - l1) + _) _ 100) by lia.
        rewrite (Q_div_eq_scale (excess b xs * (l2 - l1)) _ 100) by lia.
        rewrite (Z.mul_comm 100 (sumZ xs * (l2 - l1))).
        assert (E3 : forall a c d, (inject_Z a / inject_Z d + inject_Z c / inject_Z d == inject_Z (a + c) / inject_Z d)%Q).
        { intros a c d. rewrite inject_Z_plus. unfold Qdiv. ring. }
        rewrite E3. apply Q_div_le; nia.
      * apply Qle_trans with (inject_Z (sumZ xs * (l2 - l1)) / inject_Z (sumZ xs * (l2 - l1)))%Q; [apply Q_div_le; nia|].
        unfold Qdiv. rewrite Qmult_inv_r; [apply Qle_refl|].
        intros E2. change 0%Q with (inject_Z 0) in E2. apply inject_inj in E2. lia.
      * intros Hex. assert (Z0 : between l1 l2 xs = 0).
        { apply between_none. intros x I D. destruct (Bw x I D) as (c & Ic & Ec & Lc).
          destruct Hex as [Hex|Hex].
          - assert (Ib : In b (map fst rs)) by (apply K; auto).
            apply in_map_iff in Ib. destruct Ib as (t & Et & It). rewrite Ers in It.
            pose proof (sorted_fst_only rs Ss) as Ss'. rewrite Ers in Ss'.
            pose proof (sorted_neighbours fst pr' (l1, y1) (l2, y2) po' Ss' t It) as D2. cbn [fst] in D2. lia.
          - destruct H as (_ & Fd & _). rewrite Forall_forall in Fd. destruct (Fd c Ic) as (Lb & _).
            rewrite Forall_forall in Hex. specialize (Hex x I). cbn in Hex.
            pose proof (leading_bin_small _ _ x Lb ltac:(lia) Hex). lia. }
        rewrite Z0, Z.mul_0_r, Z.add_0_r in C.
        replace (excess l1 xs * (l2 - b) + excess l2 xs * (b - l1)) with (excess b xs * (l2 - l1)) by lia. reflexivity.
  - exists 0%Q. split; [exact E|]. split.
    + unfold get_ratio_dropped.
      assert (E1 : Qle_bool (inject_Z b) 0 = false).
      { destruct (Qle_bool (inject_Z b) 0) eqn:E1; [|reflexivity]. apply Qle_bool_iff in E1.
        change 0%Q with (inject_Z 0) in E1. rewrite <- Zle_Qle in E1. lia. }
      rewrite E1. assert (Er2 : rev (ratios_of rs) = (inject_Z m, r) :: rev (ratios_of pre)).
      { rewrite Er. unfold ratios_of. rewrite map_app, rev_app_distr. reflexivity. }
      rewrite Er2. cbn [fst].
      assert (E2 : Qle_bool (inject_Z b) (inject_Z m) = false).
      { destruct (Qle_bool (inject_Z b) (inject_Z m)) eqn:E2; [|reflexivity]. apply Qle_bool_iff in E2.
        rewrite <- Zle_Qle in E2. lia. }
      rewrite E2. reflexivity.
    + pose proof (ratio_lost_zero_after m b xs M ltac:(lia)) as Z0. rewrite Z0.
      split; [lra|]. split; [lra|]. intros _. reflexivity.
Qed.

(** ** Larger bounds lose less *)
Local Open Scope Q_scope.

Lemma sorted_before {A} (R : A -> A -> Prop) l1 a l2 b l3 : StronglySorted R (l1 ++ a :: l2 ++ b :: l3) -> R a b.
Proof.
  induction l1 as [|c l1 IH]; cbn [app]; intros Ss; inversion Ss as [|? ? Ss' F]; subst; [|auto].
  rewrite Forall_forall in F. apply F, in_or_app. right. left. reflexivity.
Qed.

Definition falling (a b : Q * Q) : Prop := fst a < fst b /\ snd b < snd a.

Lemma falling_entries rs : StronglySorted falling rs -> forall a b, In a rs -> In b rs ->
  (fst a <= fst b -> snd b <= snd a) /\ (fst a == fst b -> snd a == snd b).
Proof.
  induction 1 as [|c rs Ss IH F]; intros a b Ia Ib; [destruct Ia|].
  rewrite Forall_forall in F. destruct Ia as [<-|Ia], Ib as [<-|Ib].
  - split; intros; lra.
  - destruct (F b Ib). split; intros; lra.
  - destruct (F a Ia). split; intros; lra.
  - apply IH; assumption.
Qed.

Lemma falling_neighbours pre p q post : StronglySorted falling (pre ++ p :: q :: post) ->
  forall r, In r (pre ++ p :: q :: post) -> fst r <= fst p \/ fst q <= fst r.
Proof.
  induction pre as [|a pre IH]; cbn [app]; intros Ss r I; inversion Ss as [|? ? Ss' F]; subst.
  - inversion Ss' as [|? ? _ F']; subst. rewrite Forall_forall in F'.
    destruct I as [<-|[<-|I]]; [lra|lra|]. destruct (F' r I). lra.
  - destruct I as [<-|I]; [|exact (IH Ss' r I)].
    left. rewrite Forall_forall in F. destruct (F p); [apply in_or_app; right; left; reflexivity|]. lra.
Qed.

Lemma falling_sorted rs : StronglySorted falling rs -> StronglySorted (fun p q => fst p < fst q) rs.
Proof. induction 1 as [|c rs Ss IH F]; constructor; [exact IH|]. eapply Forall_impl; [|exact F]. unfold falling. tauto. Qed.

Lemma div_between a b c d p q : 0 < d -> p * d <= a * b + c -> a * b + c <= q * d -> p <= (a * b + c) / d <= q.
Proof.
  intros D L U. split.
  - apply Qle_shift_div_l; assumption.
  - apply Qle_shift_div_r; assumption.
Qed.

Lemma interpolation_between p q b : fst p < b < fst q -> snd q <= snd p ->
  snd q <= (snd p * (fst q - b) + snd q * (b - fst p)) / (fst q - fst p) <= snd p.
Proof.
  intros [L1 L2] L. apply div_between; [lra | |].
  - assert (0 <= (snd p - snd q) * (fst q - b)) by (apply Qmult_le_0_compat; lra). lra.
  - assert (0 <= (snd p - snd q) * (b - fst p)) by (apply Qmult_le_0_compat; lra). lra.
Qed.

Lemma get_ratio_antitone rs m b b' y y' : StronglySorted falling rs -> Forall (fun p => 0 <= snd p <= 1) rs ->
  (exists v, hd_error rs = Some (0, v)) -> (exists pre, rs = pre ++ [m]) -> b <= b' ->
  get_ratio_dropped rs b = Ok y -> get_ratio_dropped rs b' = Ok y' -> y' <= y.
Proof.
  intros Ss N Hd Lst L G G'.
  assert (Ss' := falling_sorted rs Ss).
  assert (N' : Forall (fun p => 0 <= snd p) rs) by (eapply Forall_impl; [|exact N]; cbn; tauto).
  assert (Low : forall c z, get_ratio_dropped rs c = Ok z -> c <= 0 -> z = 1).
  { intros c z E C. unfold get_ratio_dropped in E. rewrite (proj2 (Qle_bool_iff _ _) C) in E. congruence. }
  assert (High : forall c z, get_ratio_dropped rs c = Ok z -> 0 < c -> fst m < c -> z = 0).
  { intros c z E C C'. unfold get_ratio_dropped in E.
    assert (Qle_bool c 0 = false) as E1 by (destruct (Qle_bool c 0) eqn:E1; [apply Qle_bool_iff in E1; lra | reflexivity]).
    rewrite E1 in E. destruct Lst as [pre ->]. rewrite rev_app_distr in E. cbn [app rev] in E.
    assert (Qle_bool c (fst m) = false) as E2 by (destruct (Qle_bool c (fst m)) eqn:E2; [apply Qle_bool_iff in E2; lra | reflexivity]).
    rewrite E2 in E. cbn [negb] in E. congruence. }
  assert (Sq : forall c z, get_ratio_dropped rs c = Ok z -> 0 < c -> c <= fst m ->
            0 <= z <= 1 /\ forall r, In r rs -> (fst r <= c -> z <= snd r) /\ (c <= fst r -> snd r <= z)).
  { intros c z E C C'. destruct (get_ratio_spec rs m c Ss' N' Hd Lst C C') as [(x & v & I & Ex & E2)|(pre & p & q & post & Er & B & E2)].
    - assert (z = v) by congruence. subst z. rewrite Forall_forall in N. split; [exact (N _ I)|].
      intros r Ir. split; intros Lr.
      + apply (proj1 (falling_entries rs Ss r (x, v) Ir I)). cbn [fst]. lra.
      + apply (proj1 (falling_entries rs Ss (x, v) r I Ir)). cbn [fst]. lra.
    - assert (Ip : In p rs) by (rewrite Er; apply in_or_app; right; left; reflexivity).
      assert (Iq : In q rs) by (rewrite Er; apply in_or_app; right; right; left; reflexivity).
      assert (D : snd q <= snd p) by (apply (proj1 (falling_entries rs Ss p q Ip Iq)); lra).
      pose proof (interpolation_between p q c B D) as Bt. rewrite E2 in E. injection E as <-.
      rewrite Forall_forall in N. pose proof (N p Ip). pose proof (N q Iq). cbn beta in *.
      split; [lra|]. intros r Ir. assert (Ir' := Ir). rewrite Er in Ir'. rewrite Er in Ss.
      pose proof (falling_neighbours pre p q post Ss r Ir') as Nb. rewrite <- Er in Ss. split; intros Lr.
      + assert (snd p <= snd r) by (apply (proj1 (falling_entries rs Ss r p Ir Ip)); lra). lra.
      + assert (snd r <= snd q) by (apply (proj1 (falling_entries rs Ss q r Iq Ir)); lra). lra. }
  destruct (Qlt_le_dec 0 b') as [Pb'|Pb'].
  2:{ rewrite (Low b y G), (Low b' y' G') by lra. lra. }
  destruct (Qlt_le_dec (fst m) b') as [Mb'|Mb'].
  { rewrite (High b' y' G' Pb' Mb'). destruct (Qlt_le_dec 0 b) as [Pb|Pb]; [|rewrite (Low b y G Pb); lra].
    destruct (Qlt_le_dec (fst m) b) as [Mb|Mb]; [rewrite (High b y G Pb Mb); lra|].
    destruct (Sq b y G Pb Mb). lra. }
  destruct (Sq b' y' G' Pb' Mb') as [B1 B2].
  destruct (Qlt_le_dec 0 b) as [Pb|Pb]; [|rewrite (Low b y G Pb); lra].
  destruct (Sq b y G Pb ltac:(lra)) as [A1 A2].
  destruct (get_ratio_spec rs m b Ss' N' Hd Lst Pb ltac:(lra)) as [(x & v & I & Ex & E2)|(pre & p & q & post & Er & B & E2)].
  - assert (y = v) by congruence. subst y. apply (B2 _ I). cbn [fst]. lra.
  - assert (Iq : In q rs) by (rewrite Er; apply in_or_app; right; right; left; reflexivity).
    destruct (Qlt_le_dec b' (fst q)) as [Lq|Lq].
    2:{ destruct (B2 q Iq) as [B3 _]. specialize (B3 Lq). destruct (A2 q Iq) as [_ A3].
        assert (snd q <= y) by (apply A3; lra). lra. }
    destruct (get_ratio_spec rs m b' Ss' N' Hd Lst Pb' Mb') as [(x & v & I & Ex & E3)|(pre2 & p2 & q2 & post2 & Er2 & Bb & E3)].
    + exfalso. rewrite Er in Ss. assert (I' := I). rewrite Er in I'.
      destruct (falling_neighbours pre p q post Ss _ I') as [X|X]; cbn [fst] in X; lra.
    + assert (Ip2 : In p2 rs) by (rewrite Er2; apply in_or_app; right; left; reflexivity).
      assert (Iq2 : In q2 rs) by (rewrite Er2; apply in_or_app; right; right; left; reflexivity).
      assert (Ip : In p rs) by (rewrite Er; apply in_or_app; right; left; reflexivity).
      assert (Ep : fst p == fst p2 /\ fst q == fst q2).
      { assert (H1 := Ip). assert (H2 := Iq). assert (H3 := Ip2). assert (H4 := Iq2).
        rewrite Er2 in H1, H2. rewrite Er in H3, H4.
        assert (Sa := Ss). rewrite Er in Sa. assert (Sb := Ss). rewrite Er2 in Sb.
        pose proof (falling_neighbours _ _ _ _ Sb _ H1). pose proof (falling_neighbours _ _ _ _ Sb _ H2).
        pose proof (falling_neighbours _ _ _ _ Sa _ H3). pose proof (falling_neighbours _ _ _ _ Sa _ H4). lra. }
      destruct Ep as [Ep Eq].
      pose proof (proj2 (falling_entries rs Ss p p2 Ip Ip2) Ep) as Vp.
      pose proof (proj2 (falling_entries rs Ss q q2 Iq Iq2) Eq) as Vq.
      rewrite E2 in G. rewrite E3 in G'. injection G as <-. injection G' as <-. rewrite <- Ep, <- Eq, <- Vp, <- Vq.
      apply Qmult_le_compat_r; [|apply Qlt_le_weak, Qinv_lt_0_compat; lra].
      assert (D : snd q <= snd p) by (apply (proj1 (falling_entries rs Ss p q Ip Iq)); lra).
      assert (0 <= (snd p - snd q) * (b' - b)) by (apply Qmult_le_0_compat; lra). lra.
Qed.

Lemma ratios_of_falling rs : StronglySorted (fun a b => (fst a < fst b)%Z /\ snd b < snd a) rs -> StronglySorted falling (ratios_of rs).
Proof.
  unfold ratios_of. induction 1 as [|a l Ss IH Fa]; cbn [map]; constructor; [exact IH|].
  apply Forall_forall. intros c I. apply in_map_iff in I. destruct I as (d & <- & Id).
  rewrite Forall_forall in Fa. destruct (Fa d Id). split; cbn [fst snd]; [rewrite <- Zlt_Qlt|]; assumption.
Qed.

Lemma ratio_estimate_antitone xs h b b' rs q q' : Forall (fun x => (1 <= x)%Z) xs -> xs <> [] -> histogram_of xs h ->
  (b <= b')%Z -> compute_ratio_dropped h = Ok rs ->
  get_ratio_dropped (ratios_of rs) (inject_Z b) = Ok q -> get_ratio_dropped (ratios_of rs) (inject_Z b') = Ok q' -> q' <= q.
Proof.
  intros F N H L E G G'. destruct (C33_ratio_dropped xs h F N H) as (rs' & m & E' & M & Ex & K & Ss & Hd & pre & r & Er & R0).
  rewrite E in E'. injection E' as <-.
  apply (get_ratio_antitone (ratios_of rs) (inject_Z m, r) (inject_Z b) (inject_Z b') q q'); auto.
  - apply ratios_of_falling. exact Ss.
  - apply Forall_forall. intros [x y] I. apply in_ratios_of in I. destruct I as (t & _ & I). cbn [snd].
    rewrite Forall_forall in Ex. pose proof (Ex _ I) as Ey. cbn [fst snd] in Ey.
    assert (Pt : (0 <= t)%Z).
    { assert (It : In t (map fst rs)) by (apply in_map_iff; exists (t, y); auto).
      apply K in It. destruct It as [->|[It| ->]]; [lia| |].
      - apply in_map_iff in It. destruct It as (c & <- & Ic). destruct H as (_ & Fd & _).
        rewrite Forall_forall in Fd. destruct (Fd c Ic) as (Lb & _). pose proof (leading_bin_pos _ _ Lb). lia.
      - destruct M as [Im _]. rewrite Forall_forall in F. specialize (F m Im). cbn in F. lia. }
    pose proof (ratio_lost_bounds t xs Pt F N) as B. unfold ratio_lost in B. rewrite Ey. exact B.
  - exists 1. destruct rs as [|a rs]; [discriminate|]. cbn in Hd. injection Hd as ->. reflexivity.
  - exists (ratios_of pre). rewrite Er. unfold ratios_of. rewrite map_app. reflexivity.
  - rewrite <- Zle_Qle. exact L.
Qed.
