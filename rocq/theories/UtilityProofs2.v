(** Lemmas for the utility analysis of several configurations: grouping the reports. *)
From Coq Require Import List ZArith QArith Bool Lia Permutation Sorted.
From Verif Require Import Base BaseLemmas ListLemmas BudgetModel ParamsModel BackendModel BackendSpec BackendProofs BounderModel
  BounderProofs AnalysisModel CrossModel CrossSpec CrossProofs TuningModel HistModel HistProofs2 HistProofs4 MultiProcProofs
  UtilityModel UtilitySpec UtilityProofs.
Import ListNotations.
Local Open Scope Z_scope.

(** ** The collection reduced per configuration and bucket *)
Definition unnest_from (size : Z) (s : nat) (ms : list partition_metrics) : list ((nat * option Z) * partition_metrics) :=
  flat_map (fun im => [((fst im, None), snd im); ((fst im, Some (lower_bound size)), snd im)])
           (combine (seq s (length ms)) ms).
Definition at_from (s c : nat) (ms : list partition_metrics) : list partition_metrics :=
  if (c <? s)%nat then [] else match nth_error ms (c - s) with Some m => [m] | None => [] end.

Lemma values_unnest_from size c b ms : forall s,
  values_of (c, b) (unnest_from size s ms) =
  match b with
  | None => at_from s c ms
  | Some b => if lower_bound size =? b then at_from s c ms else []
  end.
Proof.
  induction ms as [|m ms IH]; intro s.
  - assert (E : at_from s c [] = []) by (unfold at_from; destruct (c <? s)%nat, (c - s)%nat; reflexivity).
    rewrite E. cbn. destruct b as [b|]; [destruct (lower_bound size =? b)|]; reflexivity.
  - unfold unnest_from in *. cbn [length seq combine flat_map app]. rewrite !values_of_cons, IH. cbn [fst snd].
    assert (A : at_from s c (m :: ms) = if Nat.eqb c s then [m] else at_from (S s) c ms).
    { unfold at_from. destruct (Nat.eqb_spec c s) as [->|N].
      - rewrite Nat.ltb_irrefl, Nat.sub_diag. reflexivity.
      - destruct (Nat.ltb_spec c s), (Nat.ltb_spec c (S s)); try lia; try reflexivity.
        replace (c - s)%nat with (S (c - S s)) by lia. reflexivity. }
    assert (Zs : c = s -> at_from (S s) c ms = []).
    { intros ->. unfold at_from. destruct (Nat.ltb_spec s (S s)); [reflexivity|lia]. }
    rewrite A. destruct (Nat.eqb_spec c s) as [E|N].
    + rewrite (Zs E). subst s. destruct b as [b|].
      * assert (X : eqb (c, @None Z) (c, Some b) = false) by (apply eqb_false_iff; congruence). rewrite X.
        destruct (Z.eqb_spec (lower_bound size) b) as [->|Nb].
        -- rewrite eqb_refl. reflexivity.
        -- assert (Y : eqb (c, Some (lower_bound size)) (c, Some b) = false) by (apply eqb_false_iff; congruence). rewrite Y. reflexivity.
      * rewrite eqb_refl. assert (Y : eqb (c, Some (lower_bound size)) (c, @None Z) = false) by (apply eqb_false_iff; congruence).
        rewrite Y. reflexivity.
    + assert (X : eqb (s, @None Z) (c, b) = false) by (apply eqb_false_iff; congruence).
      assert (Y : eqb (s, Some (lower_bound size)) (c, b) = false) by (apply eqb_false_iff; congruence).
      rewrite X, Y. reflexivity.
Qed.
Lemma unnest_eq ms : UtilityModel.unnest ms = unnest_from (match ms with [] => 0 | m0 :: _ => pm_ids m0 end) 0 ms.
Proof. reflexivity. Qed.

(** One row per partition: [nc] configurations with [k] errors each, all about the same
    number of privacy ids. *)
Definition metrics_ok (nc k : nat) (ms : list partition_metrics) : Prop :=
  length ms = nc /\ (forall m, In m ms -> length (pm_errors m) = k) /\
  exists ids, 0 <= ids /\ forall m, In m ms -> pm_ids m = ids.

Lemma values_none {K} nc k c (pk : list (K * list partition_metrics)) :
  Forall (fun kv => metrics_ok nc k (snd kv)) pk -> values_of (c, None) (unnested pk) = config_metrics c pk.
Proof.
  intro F. unfold unnested, config_metrics. rewrite values_of_flat_map. apply flat_map_ext_In. intros kv _.
  rewrite unnest_eq, values_unnest_from. unfold at_from. rewrite Nat.sub_0_r. reflexivity.
Qed.
Lemma values_some {K} nc k c b (pk : list (K * list partition_metrics)) :
  Forall (fun kv => metrics_ok nc k (snd kv)) pk ->
  values_of (c, Some b) (unnested pk) = filter (fun m => lower_bound (pm_ids m) =? b) (config_metrics c pk).
Proof.
  intro F. unfold unnested, config_metrics. rewrite values_of_flat_map, filter_flat_map. apply flat_map_ext_In. intros kv Hkv.
  rewrite Forall_forall in F. destruct (F kv Hkv) as (_ & _ & ids & _ & I).
  rewrite unnest_eq, values_unnest_from. unfold at_from. rewrite Nat.sub_0_r. cbn [Nat.ltb Nat.leb].
  destruct (nth_error (snd kv) c) as [m|] eqn:E.
  - cbn [filter]. rewrite (I m) by exact (nth_error_In _ _ E).
    destruct (snd kv) as [|m0 ms]; [destruct c; discriminate|]. rewrite (I m0) by (left; reflexivity).
    destruct (lower_bound ids =? b); reflexivity.
  - destruct (_ =? b); reflexivity.
Qed.
Lemma config_metrics_nonempty {K} nc k c (pk : list (K * list partition_metrics)) :
  Forall (fun kv => metrics_ok nc k (snd kv)) pk -> pk <> [] -> ((c < nc)%nat <-> config_metrics c pk <> []).
Proof.
  intros F N. destruct pk as [|kv pk]; [congruence|]. rewrite Forall_forall in F. split.
  - intros L. destruct (F kv (or_introl eq_refl)) as [X _]. cbn.
    destruct (nth_error (snd kv) c) eqn:E; [discriminate|]. apply nth_error_None in E. lia.
  - intros H. destruct (config_metrics c (kv :: pk)) as [|m l] eqn:E; [congruence|].
    assert (I : In m (config_metrics c (kv :: pk))) by (rewrite E; left; reflexivity).
    unfold config_metrics in I. apply in_flat_map in I. destruct I as [kv' [I1 I2]].
    destruct (F kv' I1) as [X _]. destruct (nth_error (snd kv') c) eqn:E2; [|destruct I2].
    assert (nth_error (snd kv') c <> None) by congruence. apply nth_error_Some in H0. lia.
Qed.
Lemma in_config_metrics {K} nc k c m (pk : list (K * list partition_metrics)) :
  Forall (fun kv => metrics_ok nc k (snd kv)) pk -> In m (config_metrics c pk) ->
  length (pm_errors m) = k /\ 0 <= pm_ids m.
Proof.
  intros F I. unfold config_metrics in I. apply in_flat_map in I. destruct I as [kv [I1 I2]]. rewrite Forall_forall in F.
  destruct (F kv I1) as (_ & X & ids & Y & Zi). destruct (nth_error (snd kv) c) eqn:E; [|destruct I2].
  destruct I2 as [<-|[]]. assert (J := nth_error_In _ _ E). split; [apply X, J|rewrite (Zi _ J); exact Y].
Qed.

Lemma in_keys_values {K V} `{EqDec K} (k : K) (col : list (K * V)) : In k (map fst col) <-> values_of k col <> [].
Proof.
  split.
  - intros I E. apply in_map_iff in I. destruct I as [[k' v] [<- I]]. cbn in *.
    assert (J : In v (values_of k' col)) by (apply in_values_of; exact I). rewrite E in J. destruct J.
  - intro N. destruct (values_of k col) as [|v l] eqn:E; [congruence|].
    assert (J : In v (values_of k col)) by (rewrite E; left; reflexivity). apply in_values_of in J.
    apply in_map_iff. exists (k, v). auto.
Qed.

(** ** Grouping the reports of one configuration *)
Definition bounded_reports (i : nat) (reports : list (option Z * report)) : list (Z * report) :=
  flat_map (fun br => match fst br with Some b => [(b, with_index i (snd br))] | None => [] end) reports.
Lemma group_loop_snd i reports : snd (group_loop i reports) = bounded_reports i reports.
Proof.
  unfold group_loop, bounded_reports. induction reports as [|br rs IH] using rev_ind; [reflexivity|].
  rewrite fold_left_app, flat_map_app. cbn [fold_left flat_map]. rewrite app_nil_r.
  destruct (fst br) as [b|]; cbn [fst snd]; rewrite IH; [reflexivity|]. rewrite app_nil_r. reflexivity.
Qed.
Lemma group_loop_fst i reports r : NoDup (map fst reports) -> In (None, r) reports ->
  fst (group_loop i reports) = Some (with_index i r).
Proof.
  unfold group_loop. induction reports as [|br rs IH] using rev_ind; intros N I; [destruct I|].
  rewrite map_app in N. apply NoDup_app_iff in N. destruct N as (N1 & _ & N3). rewrite fold_left_app. cbn [fold_left].
  apply in_app_iff in I. destruct I as [I|[->|[]]]; [|reflexivity].
  destruct br as [[b|] x]; cbn [fst snd]; [apply IH; assumption|].
  exfalso. apply (N3 None); [apply in_map_iff; exists (None, r); auto|left; reflexivity].
Qed.

Lemma cross_ok root n k public t :
  (forall p, In p (leaves t) -> length (pm_errors p) = k) -> (n <= k)%nat ->
  exists r, cross_report root n public equal_weight t = Ok r /\ r_index r = -1 /\ pi_strategy (r_partitions r) = None.
Proof.
  intros H L. destruct (tree_inv root n k public pm_keep t H L) as [[[sums r] w] [E I]].
  unfold cross_report. change equal_weight with (fun p => Ok (pm_keep p)). rewrite E. cbn [rmap cross_compute].
  destruct I as (_ & _ & _ & I4 & (_ & I5 & _) & I6). destruct (r_errors r); eexists; split; try reflexivity; cbn; auto.
Qed.

Lemma strictly_sorted_from (l : list (Z * report)) :
  NoDup (map fst l) -> StronglySorted (fun a b => fst a < fst b) (sort_by (fun a b => fst a <=? fst b) l).
Proof.
  intro N. assert (P := sort_by_Permutation (fun a b : Z * report => fst a <=? fst b) l).
  assert (S := sort_by_sorted (fun a b : Z * report => fst a <=? fst b) l).
  assert (S' : StronglySorted (fun a b : Z * report => (fst a <=? fst b) = true) (sort_by (fun a b => fst a <=? fst b) l)).
  { apply S; intros *; rewrite ?Z.leb_le; lia. }
  clear S. assert (N' : NoDup (map fst (sort_by (fun a b : Z * report => fst a <=? fst b) l))).
  { apply (Permutation_NoDup (Permutation_sym (Permutation_map fst P))). exact N. }
  revert N' S'. generalize (sort_by (fun a b : Z * report => fst a <=? fst b) l). clear. intros l N S.
  induction S as [|a l S IH F]; constructor.
  - apply IH. inversion N; assumption.
  - apply Forall_forall. intros b Hb. rewrite Forall_forall in F. assert (X := F b Hb). apply Z.leb_le in X.
    inversion N as [|? ? N1 N2]; subst. assert (fst a <> fst b) by (intro E; apply N1; rewrite E; apply in_map, Hb). lia.
Qed.

(** ** All reports *)
Lemma reports_lemma {K} root n k nc public ss grouper (pk : list (K * list partition_metrics)) plan :
  (n <= k)%nat -> pk <> [] -> Forall (fun kv => metrics_ok nc k (snd kv)) pk ->
  (public = false -> length ss = nc) -> (forall l, is_grouping l (grouper l)) ->
  reduce_plan (unnested pk) plan ->
  exists us, reports_of root n public ss grouper plan = Ok (map Some us) /\
    Permutation (map (fun u => r_index (ur_report u)) us) (map Z.of_nat (seq 0 nc)) /\
    forall u, In u us -> exists c, (c < nc)%nat /\ r_index (ur_report u) = Z.of_nat c /\ report_ok root n public ss pk c u.
Proof.
  intros Hn Hne Hpk Hss Hg (P1 & P2 & P3).
  (* the accumulators *)
  assert (Hleaf : forall c b t p, In ((c, b), t) plan -> In p (leaves t) -> length (pm_errors p) = k).
  { intros c b t p It Ip. apply (Permutation_in _ (P3 _ _ It)) in Ip.
    destruct b as [b|].
    - rewrite (values_some nc k) in Ip by exact Hpk. apply filter_In in Ip. exact (proj1 (in_config_metrics _ _ _ _ _ Hpk (proj1 Ip))).
    - rewrite (values_none nc k) in Ip by exact Hpk. exact (proj1 (in_config_metrics _ _ _ _ _ Hpk Ip)). }
  assert (Hseq : exists rs, sequence (map (fun kt => rmap (fun r => (fst (fst kt), (snd (fst kt), r)))
                                       (cross_report root n public equal_weight (snd kt))) plan) = Ok rs /\
     Forall2 (fun kt x => exists r, cross_report root n public equal_weight (snd kt) = Ok r /\ pi_strategy (r_partitions r) = None /\
                                    x = (fst (fst kt), (snd (fst kt), r))) plan rs).
  { clear P1 P2 P3. induction plan as [|[[c b] t] plan IH]; [exists []; split; [reflexivity|constructor]|].
    destruct IH as [rs [E F]]. { intros c' b' t' p I. apply (Hleaf c' b'). right. exact I. }
    destruct (cross_ok root n k public t) as [r [Er [_ Es]]]; [intros p Ip; apply (Hleaf c b t p); [left; reflexivity|exact Ip]|exact Hn|].
    exists ((c, (b, r)) :: rs). cbn [map fst snd sequence]. rewrite Er. cbn [rmap rbind]. rewrite E. split; [reflexivity|].
    constructor; [exists r; auto|exact F]. }
  destruct Hseq as [rs [Eseq Frs]]. unfold reports_of. rewrite Eseq. cbn [rbind].
  (* keys of the reports *)
  assert (Hkeys : map (fun x => (fst x, fst (snd x))) rs = map fst plan).
  { clear -Frs. induction Frs as [|kt x plan rs [r [_ [_ ->]]] F IH]; [reflexivity|]. cbn. rewrite IH. destruct kt as [[c b] t]. reflexivity. }
  assert (Hin : forall c b r, In (c, (b, r)) rs -> exists t, In ((c, b), t) plan /\
             cross_report root n public equal_weight t = Ok r /\ pi_strategy (r_partitions r) = None).
  { clear - Frs. intros c b r I. induction Frs as [|[[c' b'] t] x plan rs [r' [E [S ->]]] F IH]; [destruct I|].
    destruct I as [I|I].
    - inversion I; subst. exists t. split; [left; reflexivity|]. auto.
    - destruct (IH I) as [t' [A B]]. exists t'. split; [right; exact A|exact B]. }
  assert (Hex : forall c b, In (c, b) (map fst plan) -> exists r, In (c, (b, r)) rs).
  { intros c b I. rewrite <- Hkeys in I. apply in_map_iff in I. destruct I as [[c' [b' r]] [E I]]. inversion E; subst. exists r. exact I. }
  assert (Hconf : forall c, In c (map fst rs) <-> (c < nc)%nat).
  { intro c. rewrite (config_metrics_nonempty nc k c pk Hpk Hne), <- (values_none nc k c pk Hpk), <- in_keys_values, <- P2, <- Hkeys. split.
    - intro I. apply in_map_iff in I. destruct I as [[c' [b r]] [E I]]. cbn in E. subst c'.
      destruct (Hin _ _ _ I) as [t [It _]].
      assert (Ic : In (c, b) (map fst (unnested pk))) by (apply P2; apply in_map_iff; exists ((c, b), t); auto).
      rewrite Hkeys. apply P2. apply in_keys_values. apply in_keys_values in Ic.
      rewrite (values_none nc k) by exact Hpk. destruct b as [b|].
      + rewrite (values_some nc k) in Ic by exact Hpk. intro Z. rewrite Z in Ic. apply Ic. reflexivity.
      + rewrite (values_none nc k) in Ic by exact Hpk. exact Ic.
    - intro I. rewrite Hkeys in I. destruct (Hex _ _ I) as [r J]. apply in_map_iff. exists (c, (None, r)). auto. }
  (* groups *)
  destruct (Hg rs) as (G1 & G2 & G3).
  assert (Hgroup : forall c vs, In (c, vs) (grouper rs) -> exists u,
            (if public then Ok (group_reports c vs) else add_strategy ss (group_reports c vs)) = Ok (Some u) /\
            r_index (ur_report u) = Z.of_nat c /\ report_ok root n public ss pk c u).
  { intros c vs I. assert (Pv := G3 _ _ I). rewrite key_values_values_of in Pv.
    assert (Lc : (c < nc)%nat) by (apply Hconf, G2; apply in_map_iff; exists (c, vs); auto).
    assert (Nv : NoDup (map fst vs)).
    { apply (Permutation_NoDup (Permutation_sym (Permutation_map fst Pv))). unfold values_of.
      apply (NoDup_map_inv (fun b => (c, b))).
      assert (X : map (fun b => (c, b)) (map fst (map snd (filter (fun kv => eqb (fst kv) c) rs))) =
                  filter (fun kb => eqb (fst kb) c) (map (fun x => (fst x, fst (snd x))) rs)).
      { clear. induction rs as [|[c' [b r]] rs IH]; [reflexivity|]. cbn. unfold eqb in *. destruct (eq_dec c' c) as [->|N]; cbn; rewrite IH; reflexivity. }
      rewrite X. apply NoDup_filter'. rewrite Hkeys. exact P1. }
    assert (Hv : forall b r, In (b, r) vs <-> In (c, (b, r)) rs).
    { intros b r. split; intro J.
      - apply (Permutation_in _ Pv) in J. apply (proj1 (in_values_of c (b, r) rs)) in J. exact J.
      - apply (Permutation_in _ (Permutation_sym Pv)). apply (proj2 (in_values_of c (b, r) rs)). exact J. }
    (* every report *)
    assert (Hsum : forall b r, In (b, r) vs ->
              pi_strategy (r_partitions r) = None /\
              exists t, Permutation (leaves t) (values_of (c, b) (unnested pk)) /\ cross_report root n public equal_weight t = Ok r).
    { intros b r J. apply Hv in J. destruct (Hin _ _ _ J) as [t [It [Et Es]]]. split; [exact Es|]. exists t. split; [exact (P3 _ _ It)|exact Et]. }
    assert (Kn : In (c, None) (map fst plan)).
    { apply P2, in_keys_values. rewrite (values_none nc k) by exact Hpk. apply (config_metrics_nonempty nc k c pk Hpk Hne). exact Lc. }
    destruct (Hex _ _ Kn) as [g Ig]. apply Hv in Ig.
    assert (Gf := group_loop_fst c vs g Nv Ig). assert (Gs := group_loop_snd c vs).
    (* at least one bucket *)
    assert (Hmem : forall m, In m (config_metrics c pk) -> exists r, In (Some (lower_bound (pm_ids m)), r) vs).
    { intros m Im. assert (Kb : In (c, Some (lower_bound (pm_ids m))) (map fst plan)).
      { apply P2, in_keys_values. rewrite (values_some nc k) by exact Hpk. intro Z.
        assert (J : In m (filter (fun m' => lower_bound (pm_ids m') =? lower_bound (pm_ids m)) (config_metrics c pk))) by
          (apply filter_In; split; [exact Im|apply Z.eqb_refl]). rewrite Z in J. destruct J. }
      destruct (Hex _ _ Kb) as [r Ir]. exists r. apply Hv. exact Ir. }
    set (hs := sort_by (fun a b => fst a <=? fst b) (bounded_reports c vs)).
    assert (Ph : Permutation hs (bounded_reports c vs)) by apply sort_by_Permutation.
    assert (Hh : forall b r, In (b, r) hs <-> exists r0, In (Some b, r0) vs /\ r = with_index c r0).
    { intros b r. split; intro J.
      - apply (Permutation_in _ Ph) in J. unfold bounded_reports in J. apply in_flat_map in J. destruct J as [[[b'|] r0] [J1 J2]]; [|destruct J2].
        destruct J2 as [J2|[]]. cbn in J2. inversion J2; subst. exists r0. auto.
      - destruct J as [r0 [J1 ->]]. apply (Permutation_in _ (Permutation_sym Ph)). unfold bounded_reports. apply in_flat_map.
        exists (Some b, r0). split; [exact J1|left; reflexivity]. }
    assert (Sh : StronglySorted (fun a b => fst a < fst b) hs).
    { apply strictly_sorted_from. clear -Nv. unfold bounded_reports. induction vs as [|[[b|] r] vs IH]; [constructor| |].
      - cbn. cbn in Nv. inversion Nv as [|? ? N1 N2]; subst. constructor; [|apply IH; exact N2].
        intro J. apply N1. apply in_map_iff in J. destruct J as [[b' r'] [E J]]. cbn in E. subst b'.
        apply in_flat_map in J. destruct J as [[[b'|] r0] [J1 J2]]; [|destruct J2]. destruct J2 as [J2|[]]. inversion J2; subst.
        apply in_map_iff. exists (Some b, r0). auto.
      - cbn. cbn in Nv. inversion Nv; subst. apply IH. assumption. }
    (* every bin's bound is the bucket of some partition *)
    assert (Hbound : forall b r0, In (Some b, r0) vs -> exists m, In m (config_metrics c pk) /\ lower_bound (pm_ids m) = b).
    { intros b r0 J. destruct (Hsum _ _ J) as [_ [t [Pt _]]]. rewrite (values_some nc k) in Pt by exact Hpk.
      assert (NE : leaves t <> []) by (clear; induction t; cbn; [discriminate|]; intro X; apply app_eq_nil in X; tauto).
      destruct (leaves t) as [|m l]; [congruence|]. assert (Jm : In m (m :: l)) by (left; reflexivity).
      apply (Permutation_in _ Pt) in Jm. apply filter_In in Jm. exists m. split; [tauto|]. apply Z.eqb_eq. tauto. }
    assert (Sb : forall f : report -> report, StronglySorted (fun a b => 0 < br_to a <= br_from b)
                   (map (fun br => BinReport (fst br) (upper_bound (fst br)) (f (snd br))) hs)).
    { intro f. assert (H : forall x, In x hs -> exists m, In m (config_metrics c pk) /\ lower_bound (pm_ids m) = fst x).
      { intros [b r] J. apply Hh in J. destruct J as [r0 [J _]]. exact (Hbound _ _ J). }
      clear -Sh H Hpk. induction Sh as [|a l S IH F]; cbn [map]; constructor.
      - apply IH. intros x Ix. apply H. right. exact Ix.
      - apply Forall_forall. intros y Iy. apply in_map_iff in Iy. destruct Iy as [x [<- Ix]]. cbn [br_to br_from].
        destruct (H a (or_introl eq_refl)) as [ma [Ia Ea]]. destruct (H x (or_intror Ix)) as [mx [Imx Ex]].
        rewrite Forall_forall in F. assert (L := F x Ix). rewrite <- Ex, <- Ea.
        apply bucket_disjoint; [exact (proj2 (in_config_metrics _ _ _ _ _ Hpk Ia))|exact (proj2 (in_config_metrics _ _ _ _ _ Hpk Imx))|]. lia. }
    assert (Hcut : forall b r0, In (Some b, r0) vs ->
              filter (fun m => in_range b (upper_bound b) (pm_ids m)) (config_metrics c pk) =
              values_of (c, Some b) (unnested pk)).
    { intros b r0 J. rewrite (values_some nc k) by exact Hpk. apply filter_ext_In. intros m Im.
      destruct (Hbound _ _ J) as [m0 [Im0 <-]].
      apply bucket_iff; [exact (proj2 (in_config_metrics _ _ _ _ _ Hpk Im))|exact (proj2 (in_config_metrics _ _ _ _ _ Hpk Im0))]. }
    assert (NEh : hs <> []).
    { destruct (config_metrics c pk) as [|m l] eqn:E; [exfalso; apply (proj1 (config_metrics_nonempty nc k c pk Hpk Hne) Lc); exact E|].
      destruct (Hmem m (or_introl eq_refl)) as [r Ir]. assert (J : In (lower_bound (pm_ids m), with_index c r) hs) by (apply Hh; exists r; auto).
      intro Z. rewrite Z in J. destruct J. }
    assert (EG : group_reports c vs = Some (UtilityReport (with_index c g)
               (Some (map (fun br => BinReport (fst br) (upper_bound (fst br)) (snd br)) hs)))).
    { unfold group_reports. destruct (group_loop c vs) as [og hs0] eqn:E. cbn in Gf, Gs. subst og hs0.
      destruct (bounded_reports c vs) as [|x l] eqn:Eb; [|reflexivity]. exfalso. apply NEh. unfold hs. rewrite ?Eb. reflexivity. }
    destruct (Hsum _ _ Ig) as [Sg [tg [Ptg Etg]]]. rewrite (values_none nc k) in Ptg by exact Hpk.
    destruct public.
    - rewrite EG. eexists. split; [reflexivity|]. split; [reflexivity|]. unfold report_ok, strategy_of. cbn [ur_report ur_histogram].
      split; [exists tg, g; repeat split; auto|]. eexists. split; [reflexivity|]. split; [apply (Sb (fun r => r))|]. split.
      + intros b Ib. apply in_map_iff in Ib. destruct Ib as [[b0 r] [<- Ib]]. cbn [br_from br_to br_report fst snd].
        apply Hh in Ib. destruct Ib as [r0 [J ->]]. cbv zeta. rewrite (Hcut _ _ J). destruct (Hsum _ _ J) as [Sr [t [Pt Et]]].
        split; [|exists t, r0; repeat split; auto]. apply in_keys_values, P2. destruct (Hin _ _ _ (proj1 (Hv _ _) J)) as [t' [It' _]].
        apply in_map_iff. exists ((c, Some b0), t'). auto.
      + intros m Im. destruct (Hmem m Im) as [r Ir]. eexists. split.
        * apply in_map_iff. exists (lower_bound (pm_ids m), with_index c r). split; [reflexivity|]. apply Hh. exists r. auto.
        * cbn [br_from br_to fst]. assert (P := proj2 (in_config_metrics _ _ _ _ _ Hpk Im)). rewrite bucket_iff by exact P. apply Z.eqb_refl.
    - rewrite EG. unfold add_strategy. cbn [ur_report ur_histogram with_index r_index]. rewrite Nat2Z.id.
      destruct (nth_error ss c) as [s|] eqn:Es; [|apply nth_error_None in Es; rewrite (Hss eq_refl) in Es; lia].
      eexists. split; [reflexivity|]. split; [reflexivity|]. unfold report_ok, strategy_of. cbn [ur_report ur_histogram]. rewrite Es.
      split; [exists tg, g; repeat split; auto|]. eexists. split; [reflexivity|]. rewrite map_map. cbn [br_from br_to br_report fst snd].
      split; [apply (Sb (with_strategy s))|]. split.
      + intros b Ib. apply in_map_iff in Ib. destruct Ib as [[b0 r] [<- Ib]]. cbn [br_from br_to br_report fst snd].
        apply Hh in Ib. destruct Ib as [r0 [J ->]]. cbv zeta. rewrite (Hcut _ _ J). destruct (Hsum _ _ J) as [Sr [t [Pt Et]]].
        split; [|exists t, r0; repeat split; auto]. apply in_keys_values, P2. destruct (Hin _ _ _ (proj1 (Hv _ _) J)) as [t' [It' _]].
        apply in_map_iff. exists ((c, Some b0), t'). auto.
      + intros m Im. destruct (Hmem m Im) as [r Ir]. eexists. split.
        * apply in_map_iff. exists (lower_bound (pm_ids m), with_index c r). split; [reflexivity|]. apply Hh. exists r. auto.
        * cbn [br_from br_to fst]. assert (P := proj2 (in_config_metrics _ _ _ _ _ Hpk Im)). rewrite bucket_iff by exact P. apply Z.eqb_refl. }
  (* all groups *)
  assert (All : forall gs, (forall c vs, In (c, vs) gs -> In (c, vs) (grouper rs)) -> exists us,
            (if public then Ok (map (fun kv => group_reports (fst kv) (snd kv)) gs)
             else sequence (map (add_strategy ss) (map (fun kv => group_reports (fst kv) (snd kv)) gs))) = Ok (map Some us) /\
            map (fun u => r_index (ur_report u)) us = map (fun kv => Z.of_nat (fst kv)) gs /\
            forall u, In u us -> exists c, In c (map fst gs) /\ r_index (ur_report u) = Z.of_nat c /\ report_ok root n public ss pk c u).
  { induction gs as [|[c vs] gs IH]; intro Sub.
    - exists []. destruct public; cbn; repeat split; intros u [].
    - destruct IH as [us [E1 [E2 E3]]]; [intros c' vs' I; apply Sub; right; exact I|].
      destruct (Hgroup c vs (Sub _ _ (or_introl eq_refl))) as [u [U1 [U2 U3]]]. exists (u :: us). cbn [map fst snd].
      destruct public.
      + inversion U1 as [U1']. inversion E1 as [E1']. rewrite E1'. split; [rewrite U1'; reflexivity|]. rewrite E2, U2. split; [reflexivity|].
        intros v [<-|Iv]; [exists c; split; [left; reflexivity|auto]|]. destruct (E3 v Iv) as [c' [A B]]. exists c'. split; [right; exact A|exact B].
      + cbn [sequence]. rewrite U1. cbn [rbind]. rewrite E1. cbn [rmap]. split; [reflexivity|]. rewrite E2, U2. split; [reflexivity|].
        intros v [<-|Iv]; [exists c; split; [left; reflexivity|auto]|]. destruct (E3 v Iv) as [c' [A B]]. exists c'. split; [right; exact A|exact B]. }
  destruct (All (grouper rs) (fun _ _ I => I)) as [us [E1 [E2 E3]]]. exists us. split; [exact E1|]. split.
  - rewrite E2. rewrite <- map_map with (g := Z.of_nat) (f := fst). apply Permutation_map. apply NoDup_Permutation; [exact G1|apply seq_NoDup|].
    intro c. rewrite G2, Hconf, in_seq. lia.
  - intros u Iu. destruct (E3 u Iu) as [c [A B]]. exists c. split; [apply Hconf, G2, A|exact B].
Qed.
