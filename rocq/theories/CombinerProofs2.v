(** Lemmas about released metrics. *)
From Coq Require Import List ZArith QArith Qabs Qminmax Qreduction Bool Permutation Lia Lqa Qfield.
From Verif Require Import Base BaseLemmas BackendModel BackendSpec ListLemmas BackendProofs
  ParamsModel SensModel CombinerModel CombinerSpec CombinerProofs.
Import ListNotations.
Local Open Scope Q_scope.

(** ** Clipping *)
Lemma clip_range lo hi x : lo <= hi -> lo <= clip lo hi x /\ clip lo hi x <= hi.
Proof.
  intro H. unfold clip. split; [|apply Q.le_min_r].
  apply Q.min_glb; [apply Q.le_max_r | exact H].
Qed.
Lemma clip_id lo hi x : lo <= x -> x <= hi -> clip lo hi x == x.
Proof.
  intros H1 H2. unfold clip. rewrite (Q.max_l x lo) by assumption. apply Q.min_l. assumption.
Qed.

(** ** Means and variances *)
Lemma sumQ_sq_shift (a : Q) l :
  sumQ (map (fun x => (x - a) ^ 2) l) ==
  sumQ (map (fun x => x ^ 2) l) - 2 * a * sumQ l + inject_Z (Z.of_nat (length l)) * a ^ 2.
Proof.
  induction l as [|x l IH]; [cbn; ring|].
  cbn [map length]. cbn [sumQ fold_right]. change (fold_right Qplus 0) with sumQ. rewrite IH.
  rewrite Nat2Z.inj_succ. unfold Z.succ. rewrite inject_Z_plus. change (inject_Z 1) with 1. ring.
Qed.

Lemma length_pos_Q {A} (l : list A) : l <> [] -> 0 < inject_Z (Z.of_nat (length l)).
Proof.
  intro N. change 0 with (inject_Z 0). rewrite <- Zlt_Qlt. destruct l; [congruence|]. cbn. lia.
Qed.
Lemma length_ge1_Q {A} (l : list A) : l <> [] -> 1 <= inject_Z (Z.of_nat (length l)).
Proof.
  intro N. change 1 with (inject_Z 1). rewrite <- Zle_Qle. destruct l; [congruence|]. cbn -[Z.of_nat]. lia.
Qed.

Lemma variance_shift a l : l <> [] ->
  varianceQ l == sumQ (map (fun x => (x - a) ^ 2) l) / inject_Z (Z.of_nat (length l))
                 - ((sumQ l - inject_Z (Z.of_nat (length l)) * a) / inject_Z (Z.of_nat (length l))) ^ 2.
Proof.
  intro N. pose proof (length_pos_Q l N) as Hp. unfold varianceQ. rewrite !sumQ_sq_shift. unfold meanQ.
  set (n := inject_Z (Z.of_nat (length l))) in *. field. lra.
Qed.

Lemma Qmax_1_l x : 1 <= x -> Qmax 1 x == x.
Proof. intro H. apply Q.max_r. exact H. Qed.

Lemma mean_released nz lo hi names gs a :
  no_noise nz -> concat gs <> [] -> acc_eq a (total (CMean lo hi names) gs) ->
  exists d, compute_metrics nz (CMean lo hi names) a = Ok d /\
    let kept := map (fun v => clip lo hi (num_of v)) (concat gs) in
    released_as NMean (meanQ kept) d /\
    (In NCount names -> released_as NCount (inject_Z (Z.of_nat (length (concat gs)))) d) /\
    (In NSum names -> released_as NSum (sumQ kept) d).
Proof.
  intros [Hc [Hs _]] Ne E. cbn [total] in E. inversion E as [| |n s s' Es E1| | | | |]; subst.
  cbn [compute_metrics]. unfold compute_mean. eexists. split; [reflexivity|]. cbn zeta.
  set (kept := map (fun v => clip lo hi (num_of v)) (concat gs)) in *.
  assert (Lk : length kept = length (concat gs)) by apply map_length.
  pose proof (length_ge1_Q _ Ne) as Hge.
  assert (Hmean : middle lo hi + n_sum nz s / Qmax 1 (n_count nz (inject_Z (Z.of_nat (length (concat gs)))))
                  == meanQ kept).
  { unfold meanQ. rewrite Lk, Hs, Hc, Es, Qmax_1_l by exact Hge. field. lra. }
  split; [|split].
  - eexists. split; [left; reflexivity | exact Hmean].
  - intro Hin. eexists. split.
    + apply in_or_app. right. apply in_or_app. left.
      assert (B : existsb (eqb NCount) names = true) by (apply existsb_exists; exists NCount; split; [exact Hin | apply eqb_refl]).
      rewrite B. left. reflexivity.
    + apply Hc.
  - intro Hin. eexists. split.
    + apply in_or_app. right. apply in_or_app. right.
      assert (B : existsb (eqb NSum) names = true) by (apply existsb_exists; exists NSum; split; [exact Hin | apply eqb_refl]).
      rewrite B. left. reflexivity.
    + rewrite Hmean, Hc. unfold meanQ. rewrite Lk. field. lra.
Qed.

Lemma squares_interval_eq lo hi : lo <= hi ->
  fst (squares_interval lo hi) == snd (squares_interval lo hi) <-> lo == hi.
Proof.
  intro H. unfold squares_interval. destruct (Qle_bool 0 lo) eqn:E1; cbn [negb andb].
  - cbn [fst snd]. apply Qle_bool_iff in E1. split; [intro E|intro E; rewrite E; reflexivity].
    apply Qle_antisym; [exact H|]. apply Qnot_lt_le. intro L. nra.
  - apply Qle_bool_false in E1. destruct (Qle_bool hi 0) eqn:E2; cbn [negb fst snd].
    + apply Qle_bool_iff in E2. split; [intro E|intro E; rewrite E; reflexivity].
      apply Qle_antisym; [exact H|]. apply Qnot_lt_le. intro L. nra.
    + apply Qle_bool_false in E2. split; intro E; [|lra].
      assert (0 < hi * hi) by nra. pose proof (Q.le_max_r (lo*lo) (hi*hi)). lra.
Qed.

Lemma clip_const lo hi x : lo == hi -> clip lo hi x == lo.
Proof.
  intro E. destruct (clip_range lo hi x) as [A B]; lra.
Qed.

Lemma sumQ_const {A} (f : A -> Q) a l :
  (forall x, f x == a) -> sumQ (map f l) == inject_Z (Z.of_nat (length l)) * a.
Proof.
  intro E. induction l as [|x l IH]; [cbn; ring|].
  cbn [map length]. cbn [sumQ fold_right]. change (fold_right Qplus 0) with sumQ. rewrite IH, E.
  rewrite Nat2Z.inj_succ. unfold Z.succ. rewrite inject_Z_plus. change (inject_Z 1) with 1. ring.
Qed.

Lemma variance_released nz lo hi names gs a :
  lo <= hi -> no_noise nz -> concat gs <> [] -> acc_eq a (total (CVariance lo hi names) gs) ->
  exists d, compute_metrics nz (CVariance lo hi names) a = Ok d /\
    let kept := map (fun v => clip lo hi (num_of v)) (concat gs) in
    released_as NVariance (varianceQ kept) d /\
    (In NMean names -> released_as NMean (meanQ kept) d) /\
    (In NCount names -> released_as NCount (inject_Z (Z.of_nat (length (concat gs)))) d) /\
    (In NSum names -> released_as NSum (sumQ kept) d).
Proof.
  intros Hle [Hc [Hs Hq]] Ne E. cbn [total] in E. inversion E as [| | |n s s' q q' Es Eq E1| | | |]; subst.
  cbn [compute_metrics]. unfold compute_dp_var. eexists. split; [reflexivity|]. cbn zeta.
  set (kept := map (fun v => clip lo hi (num_of v)) (concat gs)) in *.
  assert (Lk : length kept = length (concat gs)) by apply map_length.
  pose proof (length_ge1_Q _ Ne) as Hge.
  assert (Ek : sumQ (map (fun v => (clip lo hi (num_of v) - middle lo hi) ^ 2) (concat gs))
               == sumQ (map (fun x => (x - middle lo hi) ^ 2) kept)).
  { unfold kept. rewrite map_map. reflexivity. }
  rewrite Ek in Eq.
  set (cnt := inject_Z (Z.of_nat (length (concat gs)))) in *.
  set (dpm := mean_for_normalized_sum (n_sum nz) (n_count nz cnt) s lo hi).
  set (dpm' := if negb (Qeq_bool lo hi) then dpm + middle lo hi else dpm).
  assert (Hmean : dpm' == meanQ kept).
  { subst dpm' dpm. unfold mean_for_normalized_sum, meanQ. rewrite Lk. fold cnt.
    destruct (Qeq_bool lo hi) eqn:B; cbn [negb].
    - apply Qeq_bool_iff in B. unfold kept. rewrite (sumQ_const _ lo) by (intro; apply clip_const; exact B).
      fold cnt. field. lra.
    - rewrite Hs, Hc, Es, Qmax_1_l by exact Hge. field. lra. }
  assert (Hk : kept <> []) by (intro K; apply Ne; rewrite K in Lk; cbn in Lk; destruct (concat gs); [reflexivity|discriminate]).
  split; [|split; [|split]].
  - eexists. split; [left; reflexivity|].
    unfold mean_for_normalized_sum at 1. fold dpm.
    destruct (Qeq_bool (fst (squares_interval lo hi)) (snd (squares_interval lo hi))) eqn:B.
    + apply Qeq_bool_iff in B. pose proof (proj1 (squares_interval_eq lo hi Hle) B) as B'.
      assert (D : dpm == lo).
      { subst dpm. unfold mean_for_normalized_sum. apply Qeq_bool_iff in B'. rewrite B'. reflexivity. }
      rewrite D. assert (V : varianceQ kept == 0).
      { unfold varianceQ. assert (M : meanQ kept == lo).
        { unfold meanQ. unfold kept at 1. rewrite (sumQ_const _ lo) by (intro; apply clip_const; exact B').
          rewrite Lk. fold cnt. field. lra. }
        rewrite (sumQ_ext _ (fun _ => 0)).
        - rewrite (sumQ_const _ 0) by reflexivity. rewrite Lk. fold cnt. field. lra.
        - intros x Hx. unfold kept in Hx. apply in_map_iff in Hx. destruct Hx as [v [<- _]].
          rewrite M, (clip_const lo hi _ B'). ring. }
      rewrite V. unfold squares_interval.
      assert (T : negb (Qle_bool 0 lo) && negb (Qle_bool hi 0) = false).
      { destruct (Qle_bool 0 lo) eqn:T1; [reflexivity|]. cbn. apply Qle_bool_false in T1.
        destruct (Qle_bool hi 0) eqn:T2; [reflexivity|]. apply Qle_bool_false in T2. lra. }
      rewrite T. cbn [fst]. ring.
    + assert (NE : Qeq_bool lo hi = false).
      { apply Qeq_bool_false. intro K. apply Qeq_bool_false in B. apply B. apply (proj2 (squares_interval_eq lo hi Hle)); assumption. }
      subst dpm. unfold mean_for_normalized_sum. rewrite NE.
      rewrite (variance_shift (middle lo hi) kept Hk), Lk. fold cnt.
      rewrite Hs, Hq, Hc, Es, Eq, Qmax_1_l by exact Hge. ring.
  - intro Hin. eexists. split; [|exact Hmean].
    assert (B : existsb (eqb NMean) names = true) by (apply existsb_exists; exists NMean; split; [exact Hin | apply eqb_refl]).
    rewrite B, !in_app_iff. right. right. right. left. reflexivity.
  - intro Hin. eexists. split; [|apply Hc].
    assert (B : existsb (eqb NCount) names = true) by (apply existsb_exists; exists NCount; split; [exact Hin | apply eqb_refl]).
    rewrite B, !in_app_iff. right. left. left. reflexivity.
  - intro Hin. eexists. split.
    + assert (B : existsb (eqb NSum) names = true) by (apply existsb_exists; exists NSum; split; [exact Hin | apply eqb_refl]).
      rewrite B, !in_app_iff. right. right. left. left. reflexivity.
    + fold dpm'. rewrite Hmean, Hc. unfold meanQ. rewrite Lk. fold cnt. field. lra.
Qed.
