(** C56, continued: the two ways of weighting partitions. *)
From Coq Require Import List ZArith QArith Qabs Bool Permutation Lia Lqa.
From Verif Require Import Base BaseLemmas BackendModel ParamsModel CrossModel CrossSpec CrossProofs CrossProps.
Import ListNotations.
Local Open Scope Q_scope.

Lemma sumQ_ext {A} (f g : A -> Q) l : (forall a, In a l -> f a == g a) -> sumQ (map f l) == sumQ (map g l).
Proof.
  induction l as [|a l IH]; intro E; [reflexivity|]. cbn [map]. change (sumQ (?x :: ?r)) with (x + sumQ r).
  rewrite (E a (or_introl eq_refl)), IH by (intros; apply E; right; assumption). reflexivity.
Qed.
Lemma sumQ_ones {A} (f : A -> Q) l : (forall a, In a l -> f a == 1) -> sumQ (map f l) == inject_Z (Z.of_nat (length l)).
Proof.
  induction l as [|a l IH]; intro E; [reflexivity|]. cbn [map]. change (sumQ (?x :: ?r)) with (x + sumQ r).
  rewrite (E a (or_introl eq_refl)), IH by (intros; apply E; right; assumption).
  change (length (a :: l)) with (S (length l)). rewrite Nat2Z.inj_succ, <- Z.add_1_l, inject_Z_plus. reflexivity.
Qed.
Lemma cross_tree_ext root n public w w' t : (forall p, In p (leaves t) -> w p = w' p) -> cross_tree root n public w t = cross_tree root n public w' t.
Proof.
  induction t as [p|l IHl r IHr]; cbn [cross_tree leaves]; intro E.
  - unfold cross_create. rewrite (E p (or_introl eq_refl)). reflexivity.
  - rewrite IHl, IHr; [reflexivity | |]; intros p Ip; apply E, in_or_app; [right | left]; exact Ip.
Qed.
Lemma leaves_not_empty {A} (t : tree A) : leaves t <> [].
Proof. induction t as [a|l IHl r _]; cbn [leaves]; [discriminate|]. intro E. apply app_eq_nil in E. apply IHl, E. Qed.

(** Private partitions with equal_weight_fn: errors are weighted with the probabilities
    that the partitions are kept and divided by the expected number of kept partitions
    that the report shows. *)
Theorem C56_kept_partitions_weighted :
  forall root n k t,
  (1 <= n <= k)%nat -> (forall p, In p (leaves t) -> length (pm_errors p) = k) ->
  exists r us mv,
    cross_report root n false equal_weight t = Ok r /\ r_errors r = Some us /\ length us = k /\
    pi_kept (r_partitions r) = Some mv /\
    (~ mv_mean mv == 0 -> forall j u, nth_error us j = Some u -> forall f,
      get f (mu_absolute u) == sumQ (map (fun p => pm_keep p * error root (pm_keep p) (metric_of j p) f) (leaves t)) / mv_mean mv /\
      get f (mu_relative u) == sumQ (map (fun p => pm_keep p * relative_error root (pm_keep p) (metric_of j p) f) (leaves t)) / mv_mean mv).
Proof.
  intros root n k t Hn Hl.
  destruct (C56_errors_averaged root n k false pm_keep t Hn Hl) as (r & us & Er & Hr & Lu & Av).
  destruct (C56_private_partitions root n k pm_keep t ltac:(lia) Hl) as (r' & mv & Er' & _ & _ & _ & _ & Hk & Hm & _).
  rewrite Er in Er'. injection Er' as <-. exists r, us, mv.
  split; [exact Er|]. split; [exact Hr|]. split; [exact Lu|]. split; [exact Hk|].
  intros Nz j u Hu f. destruct (Av j u Hu f) as [A1 A2]. rewrite A1, A2. unfold average. cbn [keep_of].
  destruct (Qeq_bool _ 0) eqn:Ez; [exfalso; apply Qeq_bool_iff in Ez; apply Nz; rewrite Hm; exact Ez|].
  rewrite <- Hm. split; reflexivity.
Qed.
Print Assumptions C56_kept_partitions_weighted.

(** Public partitions, which are all kept, with equal_weight_fn: the plain average over all
    of them, also over the empty ones. *)
Theorem C56_public_partitions_averaged :
  forall root n k t,
  (1 <= n <= k)%nat -> (forall p, In p (leaves t) -> length (pm_errors p) = k) ->
  (forall p, In p (leaves t) -> pm_keep p == 1) ->
  exists r us,
    cross_report root n true equal_weight t = Ok r /\ r_errors r = Some us /\ length us = k /\
    forall j u, nth_error us j = Some u -> forall f,
      get f (mu_absolute u) == sumQ (map (fun p => error root 1 (metric_of j p) f) (leaves t)) / inject_Z (Z.of_nat (length (leaves t))) /\
      get f (mu_relative u) == sumQ (map (fun p => relative_error root 1 (metric_of j p) f) (leaves t)) / inject_Z (Z.of_nat (length (leaves t))).
Proof.
  intros root n k t Hn Hl H1.
  destruct (C56_errors_averaged root n k true pm_keep t Hn Hl) as (r & us & Er & Hr & Lu & Av).
  exists r, us. split; [exact Er|]. split; [exact Hr|]. split; [exact Lu|].
  intros j u Hu f. destruct (Av j u Hu f) as [A1 A2]. rewrite A1, A2. unfold average. cbn [keep_of].
  assert (W := sumQ_ones pm_keep (leaves t) H1).
  destruct (Qeq_bool _ 0) eqn:Ez.
  - exfalso. apply Qeq_bool_iff in Ez. rewrite W in Ez. unfold Qeq in Ez. cbn [Qnum Qden inject_Z] in Ez.
    apply (leaves_not_empty t), length_zero_iff_nil. lia.
  - rewrite W. split; (apply Qmult_comp; [|reflexivity]); apply sumQ_ext; intros p Ip; rewrite (H1 p Ip); ring.
Qed.
Print Assumptions C56_public_partitions_averaged.

(** partition_size_weight_fn: every metric is weighted with the raw value of the first one. *)
Theorem C56_large_partitions_weigh_more :
  forall root n k public t,
  (1 <= n <= k)%nat -> (forall p, In p (leaves t) -> length (pm_errors p) = k) ->
  exists r us,
    cross_report root n public partition_size_weight t = Ok r /\ r_errors r = Some us /\ length us = k /\
    forall j u, nth_error us j = Some u -> forall f,
      get f (mu_absolute u) == average (fun p => sm_sum (metric_of 0 p)) (fun p => error root (keep_of public p) (metric_of j p) f) (leaves t) /\
      get f (mu_relative u) == average (fun p => sm_sum (metric_of 0 p)) (fun p => relative_error root (keep_of public p) (metric_of j p) f) (leaves t).
Proof.
  intros root n k public t Hn Hl.
  destruct (C56_errors_averaged root n k public (fun p => sm_sum (metric_of 0 p)) t Hn Hl) as (r & us & Er & Hr & Lu & Av).
  exists r, us. split; [|split; [exact Hr|]; split; [exact Lu | exact Av]].
  unfold cross_report in *. rewrite <- Er. f_equal. apply cross_tree_ext. intros p Ip. specialize (Hl p Ip).
  unfold partition_size_weight, metric_of. destruct (pm_errors p); [cbn in Hl; lia | reflexivity].
Qed.
Print Assumptions C56_large_partitions_weigh_more.

(** Cases: the bias of COUNT with weights 1/2 and 1, with weights 1 and 1, and with the
    counts 12 and 150 as weights. *)
Definition bias_of_count (r : result report) : option Q :=
  match r with
  | Ok r => match r_errors r with Some (u :: _) => Some (Qred (get Bias (mu_absolute u))) | _ => None end
  | Err _ => None
  end.
Example C56_weights_hypotheses_met :
  (forall p, In p (leaves (Node (Leaf ex_empty) (Leaf ex_big))) -> pm_keep p == 1 /\ length (pm_errors p) = 2%nat) /\
  bias_of_count (cross_report (fun x => x) 2 false equal_weight (Node (Leaf ex_small) (Leaf ex_big))) = Some (- (103 # 3))%Q /\
  bias_of_count (cross_report (fun x => x) 2 true equal_weight (Node (Leaf ex_empty) (Leaf ex_big))) = Some (-25)%Q /\
  bias_of_count (cross_report (fun x => x) 2 false partition_size_weight (Node (Leaf ex_small) (Leaf ex_big))) = Some (- (1256 # 27))%Q.
Proof. split; [intros p [<- | [<- | []]]; split; reflexivity|]. vm_compute. repeat split. Qed.
