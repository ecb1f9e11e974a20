(** Lemmas for the cross-partition utility analysis. *)
From Coq Require Import List ZArith QArith Qabs Bool Lia Lqa Permutation Setoid.
From Verif Require Import Base BaseLemmas ListLemmas ParamsModel BackendModel CrossModel CrossSpec.
Import ListNotations.
Local Open Scope Q_scope.

Lemma get_add f a b : get f (value_errors_add a b) == get f a + get f b.
Proof. destruct f; reflexivity. Qed.
Lemma get_mul f c a : get f (value_errors_mul c a) == get f a * c.
Proof. destruct f; reflexivity. Qed.
Lemma get_value_error root m keep w f : get f (value_error root m keep w) == w * error root keep m f.
Proof.
  unfold value_error. cbv zeta. destruct (Qeq_bool w 1) eqn:E.
  - apply Qeq_bool_iff in E. rewrite E. destruct f; cbn; unfold bias, spread; ring.
  - rewrite get_mul. destruct f; cbn; unfold bias, spread; ring.
Qed.
Lemma get_relative e v f :
  get f (to_relative e v) ==
  if Qeq_bool v 0 then 0 else get f e / match f with L0Variance | Variance => v * v | _ => v end.
Proof. unfold to_relative. destruct (Qeq_bool v 0); destruct f; cbn; reflexivity. Qed.
Lemma get_rel_value_error root m keep w f :
  get f (to_relative (value_error root m keep w) (sm_sum m)) == w * relative_error root keep m f.
Proof.
  rewrite get_relative. unfold relative_error. destruct (Qeq_bool (sm_sum m) 0) eqn:E; cbv iota; [ring|].
  assert (N : ~ sm_sum m == 0) by (intro X; apply Qeq_bool_iff in X; congruence).
  rewrite get_value_error. destruct f; cbn; field; exact N.
Qed.

(** What an accumulator holds for the partitions [ps]. *)
Definition utility_inv (root : Q -> Q) (public : bool) (w : partition_metrics -> Q) (ps : list partition_metrics)
    (j : nat) (u : metric_utility) : Prop :=
  (forall f, get f (mu_absolute u) == sumQ (map (fun p => w p * error root (keep_of public p) (metric_of j p) f) ps)) /\
  (forall f, get f (mu_relative u) == sumQ (map (fun p => w p * relative_error root (keep_of public p) (metric_of j p) f) ps)) /\
  di_l0 (mu_dropped u) == sumQ (map (fun p => - sm_l0_error (metric_of j p)) ps) /\
  di_linf (mu_dropped u) == sumQ (map (fun p => sm_min_error (metric_of j p) - sm_max_error (metric_of j p)) ps) /\
  di_selection (mu_dropped u) == sumQ (map (fun p => di_selection (data_dropped (metric_of j p) (keep_of public p))) ps) /\
  exists p, hd_error ps = Some p /\ mu_metric u = sm_aggregation (metric_of j p) /\
    mu_noise_std u = sm_noise_std (metric_of j p) /\ mu_noise_kind u = sm_noise_kind (metric_of j p).
Definition info_inv (public : bool) (ps : list partition_metrics) (i : partitions_info) : Prop :=
  pi_public i = public /\ pi_strategy i = None /\
  if public then
    pi_dataset i = Z.of_nat (length (filter (fun p => negb (Z.eqb (pm_count p) 0)) ps)) /\
    pi_empty i = Some (Z.of_nat (length (filter (fun p => Z.eqb (pm_count p) 0) ps))) /\
    pi_non_public i = Some 0%Z /\ pi_kept i = None
  else
    pi_dataset i = Z.of_nat (length ps) /\ pi_empty i = None /\ pi_non_public i = None /\
    exists mv, pi_kept i = Some mv /\ mv_mean mv == sumQ (map pm_keep ps) /\
      mv_var mv == sumQ (map (fun p => pm_keep p * (1 - pm_keep p)) ps).
Definition acc_inv (root : Q -> Q) (n k : nat) (public : bool) (w : partition_metrics -> Q) (ps : list partition_metrics)
    (a : cross_acc) : Prop :=
  let '(sums, r, tw) := a in
  length sums = k /\ (forall j, (j < k)%nat -> nth j sums 0 == sumQ (map (fun p => sm_sum (metric_of j p)) ps)) /\
  tw == sumQ (map w ps) /\ r_index r = (-1)%Z /\ info_inv public ps (r_partitions r) /\
  match n with
  | O => r_errors r = None
  | _ => exists us, r_errors r = Some us /\ length us = k /\
           forall j u, nth_error us j = Some u -> utility_inv root public w ps j u
  end.

Lemma utility_merge root public w ps qs j a b :
  utility_inv root public w ps j a -> utility_inv root public w qs j b ->
  utility_inv root public w (ps ++ qs) j (merge_utility a b).
Proof.
  intros (A1 & A2 & A3 & A4 & A5 & pa & A6 & A7 & A8 & A9) (B1 & B2 & B3 & B4 & B5 & _).
  unfold utility_inv, merge_utility. cbn [mu_absolute mu_relative mu_dropped mu_metric mu_noise_std mu_noise_kind drop_add di_l0 di_linf di_selection].
  split; [|split; [|split; [|split; [|split]]]].
  - intro f. rewrite get_add, A1, B1, map_app, sumQ_app. reflexivity.
  - intro f. rewrite get_add, A2, B2, map_app, sumQ_app. reflexivity.
  - rewrite A3, B3, map_app, sumQ_app. reflexivity.
  - rewrite A4, B4, map_app, sumQ_app. reflexivity.
  - rewrite A5, B5, map_app, sumQ_app. reflexivity.
  - exists pa. destruct ps as [|p ps]; [discriminate|]. cbn in *. auto.
Qed.

Lemma info_merge public ps qs a b :
  info_inv public ps a -> info_inv public qs b ->
  exists c, merge_info a b = Ok c /\ info_inv public (ps ++ qs) c.
Proof.
  intros (A1 & A2 & A3) (B1 & B2 & B3). unfold merge_info. destruct public.
  - destruct A3 as (A3 & A4 & A5 & A6), B3 as (B3 & B4 & B5 & B6). rewrite A5, B5, A4, B4, A6, B6. cbn [add_optional rbind].
    eexists. split; [reflexivity|]. unfold info_inv. cbn. rewrite !filter_app, !app_length, A3, B3.
    repeat split; try assumption; try reflexivity; try f_equal; lia.
  - destruct A3 as (A3 & A4 & A5 & ma & A6 & A7 & A8), B3 as (B3 & B4 & B5 & mb & B6 & B7 & B8).
    rewrite A5, B5, A4, B4, A6, B6. cbn [add_optional rbind].
    eexists. split; [reflexivity|]. unfold info_inv. cbn. rewrite app_length, A3, B3.
    repeat split; try assumption; try reflexivity; try lia.
    eexists. split; [reflexivity|]. cbn. rewrite !map_app, !sumQ_app, A7, A8, B7, B8. split; reflexivity.
Qed.

Lemma nth_combine_add (a b : list Q) j : length a = length b ->
  nth j (map (fun xy => fst xy + snd xy) (combine a b)) 0 == nth j a 0 + nth j b 0.
Proof.
  revert b j. induction a as [|x a IH]; intros [|y b] j L; try discriminate; destruct j; cbn; try reflexivity.
  apply IH. cbn in L. congruence.
Qed.
Lemma nth_error_combine_map {A B C} (f : A * B -> C) (a : list A) (b : list B) j c :
  nth_error (map f (combine a b)) j = Some c ->
  exists x y, nth_error a j = Some x /\ nth_error b j = Some y /\ c = f (x, y).
Proof.
  revert b j. induction a as [|x a IH]; intros [|y b] [|j] E; cbn in E; try discriminate.
  - inversion E. exists x, y. auto.
  - exact (IH b j E).
Qed.

Lemma acc_merge root n k public w ps qs a b :
  acc_inv root n k public w ps a -> acc_inv root n k public w qs b ->
  exists c, cross_merge a b = Ok c /\ acc_inv root n k public w (ps ++ qs) c.
Proof.
  destruct a as [[sa ra] wa], b as [[sb rb] wb].
  intros (A1 & A2 & A3 & A4 & A5 & A6) (B1 & B2 & B3 & B4 & B5 & B6).
  destruct (info_merge _ _ _ _ _ A5 B5) as [i [Ei Hi]]. unfold cross_merge, merge_reports. rewrite Ei. cbn [rbind].
  assert (G : forall r, r_index r = (-1)%Z -> r_partitions r = i ->
     match n with O => r_errors r = None | _ => exists us, r_errors r = Some us /\ length us = k /\
           forall j u, nth_error us j = Some u -> utility_inv root public w (ps ++ qs) j u end ->
     acc_inv root n k public w (ps ++ qs) (map (fun xy => fst xy + snd xy) (combine sa sb), r, wa + wb)).
  { intros r R1 R2 R3. repeat split.
    - rewrite map_length, combine_length. lia.
    - intros j Lj. rewrite nth_combine_add by congruence. rewrite A2, B2 by exact Lj. rewrite map_app, sumQ_app. reflexivity.
    - rewrite A3, B3, map_app, sumQ_app. reflexivity.
    - exact R1.
    - rewrite R2. exact (proj1 Hi).
    - rewrite R2. exact (proj1 (proj2 Hi)).
    - rewrite R2. exact (proj2 (proj2 Hi)).
    - exact R3. }
  destruct n as [|n].
  - rewrite A6. cbn [rmap]. eexists. split; [reflexivity|]. apply G; auto.
  - destruct A6 as (ua & A6 & A7 & A8), B6 as (ub & B6 & B7 & B8). rewrite A6, B6, A7, B7, Nat.eqb_refl. cbn [negb rmap].
    eexists. split; [reflexivity|]. apply G; auto. cbn [r_errors]. eexists. split; [reflexivity|]. split.
    + rewrite map_length, combine_length. lia.
    + intros j u X. apply nth_error_combine_map in X. destruct X as (x & y & X1 & X2 & ->). cbn [fst snd].
      apply utility_merge; auto.
Qed.

Lemma leaf_inv root n k public w p :
  length (pm_errors p) = k -> (n <= k)%nat ->
  exists a, cross_create root n public (fun p => Ok (w p)) p = Ok a /\ acc_inv root n k public w [p] a.
Proof.
  intros Lk Ln. unfold cross_create. cbn [rbind]. unfold to_report.
  assert (I0 : info_inv public [p] (if public then public_info (Z.eqb (pm_count p) 0) else private_info (pm_keep p))).
  { destruct public; unfold info_inv; [cbn [filter]; destruct (Z.eqb (pm_count p) 0)|]; cbn; repeat split.
    - eexists. split; [reflexivity|]. cbn. split; ring. }
  assert (G : forall r, r_index r = (-1)%Z ->
     r_partitions r = (if public then public_info (Z.eqb (pm_count p) 0) else private_info (pm_keep p)) ->
     match n with O => r_errors r = None | _ => exists us, r_errors r = Some us /\ length us = k /\
           forall j u, nth_error us j = Some u -> utility_inv root public w [p] j u end ->
     acc_inv root n k public w [p] (map sm_sum (pm_errors p), r, w p)).
  { intros r R1 R2 R3. repeat split.
    - rewrite map_length. exact Lk.
    - intros j Lj. cbn. unfold metric_of. rewrite (nth_indep _ 0 (sm_sum no_metric)) by (rewrite map_length; lia). rewrite map_nth. ring.
    - cbn. ring.
    - exact R1.
    - rewrite R2. exact (proj1 I0).
    - rewrite R2. exact (proj1 (proj2 I0)).
    - rewrite R2. exact (proj2 (proj2 I0)).
    - exact R3. }
  destruct n as [|n].
  - cbn [rmap]. eexists. split; [reflexivity|]. apply G; reflexivity.
  - destruct (Nat.ltb_spec (length (pm_errors p)) (S n)) as [X|X]; [lia|]. cbn [rmap]. eexists. split; [reflexivity|].
    apply G; try reflexivity. cbn [r_errors]. eexists. split; [reflexivity|]. split; [rewrite map_length; exact Lk|].
    intros j u Y. rewrite nth_error_map in Y. destruct (nth_error (pm_errors p) j) as [m|] eqn:Em; [|discriminate].
    cbn in Y. inversion Y; subst u. clear Y. assert (Mj : metric_of j p = m) by (apply nth_error_nth; exact Em).
    unfold utility_inv, to_metric_utility.
    cbn [mu_absolute mu_relative mu_dropped mu_metric mu_noise_std mu_noise_kind map sumQ fold_right]. rewrite Mj.
    split; [|split; [|split; [|split; [|split]]]].
    + intro f. rewrite get_value_error. unfold keep_of. ring.
    + intro f. rewrite get_rel_value_error. unfold keep_of. ring.
    + cbn. ring.
    + cbn. ring.
    + unfold keep_of. ring.
    + exists p. rewrite Mj. auto.
Qed.

Lemma tree_inv root n k public w t :
  (forall p, In p (leaves t) -> length (pm_errors p) = k) -> (n <= k)%nat ->
  exists a, cross_tree root n public (fun p => Ok (w p)) t = Ok a /\ acc_inv root n k public w (leaves t) a.
Proof.
  intros Hl Hn. induction t as [p|l IHl r IHr].
  - cbn. apply leaf_inv; [apply Hl; left; reflexivity|exact Hn].
  - destruct IHl as [a [Ea Ia]]; [intros p Hp; apply Hl; cbn; apply in_app_iff; auto|].
    destruct IHr as [b [Eb Ib]]; [intros p Hp; apply Hl; cbn; apply in_app_iff; auto|].
    cbn. rewrite Ea, Eb. cbn [rbind]. apply (acc_merge _ _ _ _ _ _ _ _ _ Ia Ib).
Qed.

Lemma nth_error_average tw sums us j u :
  length sums = length us -> nth_error (average_all tw sums us) j = Some u ->
  exists u0, nth_error us j = Some u0 /\ u = average_utility tw (nth j sums 0) u0.
Proof.
  revert us j. induction sums as [|s sums IH]; intros [|x us] [|j] L E; try discriminate.
  - cbn in E. inversion E. exists x. auto.
  - cbn in E. exact (IH us j ltac:(cbn in L; congruence) E).
Qed.
Lemma length_average tw sums us : length (average_all tw sums us) = length us.
Proof. revert us. induction sums as [|s sums IH]; intros [|x us]; cbn; auto. Qed.

(** Permuting the partitions. *)
Lemma average_perm {A} (w g : A -> Q) l l' : Permutation l l' -> average w g l == average w g l'.
Proof.
  intro P. unfold average. assert (X := sumQ_Permutation _ _ (Permutation_map w P)).
  assert (Y := sumQ_Permutation _ _ (Permutation_map (fun a => w a * g a) P)).
  destruct (Qeq_bool (sumQ (map w l)) 0) eqn:E1, (Qeq_bool (sumQ (map w l')) 0) eqn:E2; try reflexivity.
  - apply Qeq_bool_iff in E1. rewrite X in E1. apply Qeq_bool_iff in E1. congruence.
  - apply Qeq_bool_iff in E2. rewrite <- X in E2. apply Qeq_bool_iff in E2. congruence.
  - rewrite X, Y. reflexivity.
Qed.
#[export] Instance ratio_compat : Proper (Qeq ==> Qeq ==> Qeq) ratio.
Proof.
  intros a a' Ha b b' Hb. unfold ratio. destruct (Qeq_bool b 0) eqn:E1, (Qeq_bool b' 0) eqn:E2.
  - exact Ha.
  - apply Qeq_bool_iff in E1. rewrite Hb in E1. apply Qeq_bool_iff in E1. congruence.
  - apply Qeq_bool_iff in E2. rewrite <- Hb in E2. apply Qeq_bool_iff in E2. congruence.
  - rewrite Ha, Hb. reflexivity.
Qed.
