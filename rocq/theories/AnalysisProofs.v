(** Lemmas on the Poisson-binomial distribution and on uniform sampling. *)
From Coq Require Import List ZArith QArith Qminmax Bool Permutation Lia Lqa Setoid.
From Verif Require Import Base BaseLemmas ListLemmas SensModel BackendModel AnalysisModel AnalysisSpec.
Import ListNotations.
Local Open Scope Q_scope.

(** ** Poisson-binomial distribution *)

(** sum over i of l[i] * h(i) *)
Fixpoint dot (l : list Q) (h : nat -> Q) : Q :=
  match l with [] => 0 | x :: l' => x * h O + dot l' (fun i => h (S i)) end.

Lemma dot_ext l h h' : (forall i, h i == h' i) -> dot l h == dot l h'.
Proof.
  revert h h'. induction l as [|x l IH]; intros h h' E; cbn [dot]; [reflexivity|].
  rewrite (E O), (IH (fun i => h (S i)) (fun i => h' (S i))); [reflexivity | intro i; apply E].
Qed.

Lemma dot_zero_cons l h : dot (0 :: l) h == dot l (fun i => h (S i)).
Proof. cbn [dot]. ring. Qed.

Lemma vadd_cons x a y b : vadd (x :: a) (y :: b) = (x + y) :: vadd a b.
Proof. reflexivity. Qed.

Lemma dot_vadd a b h : length a = length b -> dot (vadd a b) h == dot a h + dot b h.
Proof.
  revert b h. induction a as [|x a IH]; intros [|y b] h L; try discriminate; [cbn; ring|].
  rewrite vadd_cons. cbn [dot]. rewrite IH by (cbn in L; lia). ring.
Qed.

Lemma dot_map_scale c l h : dot (map (fun x => x * c) l) h == c * dot l h.
Proof. revert h. induction l as [|x l IH]; intro h; cbn [map dot]; [ring|]. rewrite IH. ring. Qed.

Lemma dot_snoc_zero l h : dot (l ++ [0]) h == dot l h.
Proof. revert h. induction l as [|x l IH]; intro h; cbn [app dot]; [ring|]. rewrite IH. ring. Qed.

Lemma dot_add l f g : dot l (fun i => f i + g i) == dot l f + dot l g.
Proof. revert f g. induction l as [|x l IH]; intros f g; cbn [dot]; [ring|]. rewrite (IH (fun i => f (S i)) (fun i => g (S i))). ring. Qed.
Lemma dot_mult l c f : dot l (fun i => c * f i) == c * dot l f.
Proof. revert f. induction l as [|x l IH]; intros f; cbn [dot]; [ring|]. rewrite (IH (fun i => f (S i))). ring. Qed.

Lemma dot_step l p h : dot (pmf_step l p) h == dot l (fun i => (1 - p) * h i + p * h (S i)).
Proof.
  unfold pmf_step. rewrite dot_vadd by (rewrite app_length; cbn; rewrite !map_length; lia).
  rewrite dot_snoc_zero, dot_zero_cons, !dot_map_scale, dot_add, !dot_mult. reflexivity.
Qed.

Lemma sumQ_map_scale {A} c (f : A -> Q) l : sumQ (map (fun x => c * f x) l) == c * sumQ (map f l).
Proof. apply sumQ_scale. Qed.

Lemma survivors_cons b bs : survivors (b :: bs) = ((if b then 1 else 0) + survivors bs)%nat.
Proof. destruct b; reflexivity. Qed.

Lemma expectation_nil h : survivors_expectation [] h == h O.
Proof. unfold survivors_expectation. cbn. ring. Qed.

Lemma expectation_cons p ps h :
  survivors_expectation (p :: ps) h ==
  (1 - p) * survivors_expectation ps h + p * survivors_expectation ps (fun k => h (S k)).
Proof.
  unfold survivors_expectation. cbn [length outcomes]. rewrite map_app, sumQ_app, !map_map.
  rewrite <- !sumQ_map_scale. apply Qplus_comp; apply sumQ_ext; intros bs _; rewrite survivors_cons; cbn [outcome_prob]; cbn; ring.
Qed.

Lemma expectation_ext ps h h' : (forall k, h k == h' k) -> survivors_expectation ps h == survivors_expectation ps h'.
Proof. intro E. apply sumQ_ext. intros bs _. rewrite E. reflexivity. Qed.

Lemma pmf_fold ps l h :
  dot (fold_left pmf_step ps l) h == dot l (fun i => survivors_expectation ps (fun k => h (i + k)%nat)).
Proof.
  revert l. induction ps as [|p ps IH]; intro l; cbn [fold_left].
  - apply dot_ext. intro i. rewrite expectation_nil, Nat.add_0_r. reflexivity.
  - rewrite IH, dot_step. apply dot_ext. intro i. rewrite expectation_cons.
    apply Qplus_comp; [reflexivity|]. apply Qmult_comp; [reflexivity|].
    apply expectation_ext. intro k. rewrite Nat.add_succ_r. reflexivity.
Qed.

Lemma pmf_expectation ps h : dot (compute_pmf ps) h == survivors_expectation ps h.
Proof. unfold compute_pmf. rewrite pmf_fold. cbn [dot Nat.add]. change (fun k : nat => h k) with h. ring. Qed.

Lemma pmf_step_length l p : length (pmf_step l p) = S (length l).
Proof. unfold pmf_step, vadd. rewrite map_length, combine_length, app_length. cbn. rewrite !map_length. lia. Qed.

Lemma pmf_length ps : length (compute_pmf ps) = S (length ps).
Proof.
  unfold compute_pmf. assert (G : forall l, length (fold_left pmf_step ps l) = (length ps + length l)%nat).
  { induction ps as [|p ps IH]; intro l; [reflexivity|]. cbn [fold_left]. rewrite IH, pmf_step_length. cbn. lia. }
  rewrite G. cbn. lia.
Qed.

Lemma dot_indicator l k : dot l (fun i => if Nat.eqb i k then 1 else 0) == nth k l 0.
Proof.
  revert k. induction l as [|x l IH]; intro k; cbn [dot]; [destruct k; reflexivity|].
  destruct k as [|k]; cbn [Nat.eqb nth].
  - assert (Z : dot l (fun _ => 0) == 0).
    { clear. induction l as [|x l IH]; cbn [dot]; [reflexivity|]. rewrite IH. ring. }
    rewrite Z. ring.
  - rewrite IH. ring.
Qed.

Lemma dot_one l : dot l (fun _ => 1) == sumQ l.
Proof. induction l as [|x l IH]; cbn [dot]; [reflexivity|]. rewrite IH. unfold sumQ. cbn [fold_right]. ring. Qed.

Lemma survival_expectation ps k : survivors_expectation ps (fun i => if Nat.eqb i k then 1 else 0) == survival_prob ps k.
Proof.
  unfold survivors_expectation, survival_prob. induction (outcomes (length ps)) as [|bs l IH]; [reflexivity|].
  cbn [map filter]. unfold sumQ in *. cbn [fold_right]. rewrite IH.
  destruct (Nat.eqb (survivors bs) k); cbn [map fold_right]; ring.
Qed.

Lemma expectation_one ps : survivors_expectation ps (fun _ => 1) == 1.
Proof.
  induction ps as [|p ps IH]; [rewrite expectation_nil; reflexivity|]. rewrite expectation_cons, IH. ring.
Qed.

Lemma expectation_nonneg ps h : Forall (fun p => 0 <= p /\ p <= 1) ps -> (forall k, 0 <= h k) ->
  0 <= survivors_expectation ps h.
Proof.
  revert h. induction ps as [|p ps IH]; intros h F N.
  - rewrite expectation_nil. apply N.
  - inversion F as [|? ? [A B] F']; subst. rewrite expectation_cons.
    assert (X := IH h F' N). assert (Y := IH (fun k => h (S k)) F' (fun k => N (S k))).
    assert (0 <= (1 - p) * survivors_expectation ps h) by (apply Qmult_le_0_compat; lra).
    assert (0 <= p * survivors_expectation ps (fun k => h (S k))) by (apply Qmult_le_0_compat; lra).
    lra.
Qed.

Lemma expectation_Permutation ps ps' h : Permutation ps ps' -> survivors_expectation ps h == survivors_expectation ps' h.
Proof.
  intro P. revert h. induction P; intro h.
  - reflexivity.
  - rewrite !expectation_cons, (IHP h), (IHP (fun k => h (S k))). reflexivity.
  - rewrite !expectation_cons. ring.
  - rewrite IHP1. apply IHP2.
Qed.

(** ** Uniform sampling *)
Fixpoint binom (n k : nat) : Z :=
  match k, n with
  | O, _ => 1%Z
  | S _, O => 0%Z
  | S k', S n' => (binom n' k' + binom n' k)%Z
  end.

Lemma subsets_length {A} k (l : list A) : Z.of_nat (length (subsets k l)) = binom (length l) k.
Proof.
  revert k. induction l as [|x l IH]; intros [|k]; try reflexivity.
  cbn [subsets length binom]. rewrite app_length, map_length, Nat2Z.inj_add, !IH. reflexivity.
Qed.

Lemma binom_zero n k : (n < k)%nat -> binom n k = 0%Z.
Proof.
  revert k. induction n as [|n IH]; intros [|k] L; try lia; [reflexivity|].
  cbn [binom]. rewrite !IH by lia. reflexivity.
Qed.
Lemma binom_0 n : binom n 0 = 1%Z.
Proof. destruct n; reflexivity. Qed.
Lemma binom_S n k : binom (S n) (S k) = (binom n k + binom n (S k))%Z.
Proof. reflexivity. Qed.
Lemma binom_absorption n k : (Z.of_nat (S k) * binom (S n) (S k) = Z.of_nat (S n) * binom n k)%Z.
Proof.
  revert k. induction n as [|n IH]; intro k.
  - cbn [binom]. destruct k; cbn [binom]; lia.
  - rewrite (binom_S (S n) k). destruct k as [|k].
    + specialize (IH O). rewrite !binom_0 in *. lia.
    + assert (A := IH k). assert (B := IH (S k)). rewrite (binom_S n k) in *. rewrite (binom_S n (S k)) in *.
      rewrite !Nat2Z.inj_succ in *. unfold Z.succ in *.
      clear IH. set (a := binom n k) in *. set (b := binom n (S k)) in *. set (c := binom n (S (S k))) in *.
      set (n' := Z.of_nat n) in *. set (k' := Z.of_nat k) in *.
      replace ((k' + 1 + 1) * (a + b + (b + c)))%Z with ((k' + 1) * (a + b) + (a + b) + (k' + 1 + 1) * (b + c))%Z by ring.
      rewrite A, B. ring.
Qed.
Lemma binom_pos n k : (k <= n)%nat -> (0 < binom n k)%Z.
Proof.
  revert k. induction n as [|n IH]; intros [|k] L; try lia; [cbn; lia | cbn; lia |].
  cbn [binom]. assert (0 < binom n k)%Z by (apply IH; lia).
  destruct (Nat.leb_spec (S k) n); [assert (0 < binom n (S k))%Z by (apply IH; lia); lia|].
  rewrite (binom_zero n (S k)) by lia. lia.
Qed.

(** The number of choices of [k] elements containing [x]. *)
Definition containing {A} `{EqDec A} (x : A) (k : nat) (l : list A) : list (list A) := filter (mem x) (subsets k l).

Lemma subsets_incl {A} k (l : list A) s : In s (subsets k l) -> incl s l.
Proof.
  revert k s. induction l as [|x l IH]; intros [|k] s I; cbn in I.
  - destruct I as [<-|[]]. intros y [].
  - destruct I.
  - destruct I as [<-|[]]. intros y [].
  - apply in_app_iff in I. destruct I as [I|I].
    + apply in_map_iff in I. destruct I as [s' [<- I]]. apply IH in I. intros y [->|Iy]; [left; reflexivity | right; apply I; exact Iy].
    + apply IH in I. intros y Iy. right. apply I. exact Iy.
Qed.

Lemma containing_length {A} `{EqDec A} (x : A) k l : NoDup l -> In x l ->
  Z.of_nat (length (containing x (S k) l)) = binom (length l - 1) k.
Proof.
  unfold containing. revert k. induction l as [|y l IH]; intros k N I; [destruct I|].
  inversion N as [|? ? Ny N']; subst.
  cbn [subsets length]. rewrite filter_app, app_length, filter_map, map_length, Nat2Z.inj_add.
  replace (S (length l) - 1)%nat with (length l) by lia.
  destruct (eq_dec x y) as [->|D].
  - rewrite (filter_all (fun s => mem y (y :: s))) by (intros s _; apply mem_true_iff; left; reflexivity).
    rewrite (filter_none (mem y)).
    + rewrite subsets_length. cbn. lia.
    + intros s Is. apply mem_false_iff. intro Iy. apply Ny. exact (subsets_incl _ _ _ Is y Iy).
  - assert (Il : In x l) by (destruct I as [E|I]; [congruence | exact I]).
    rewrite (IH k N' Il).
    rewrite (filter_ext_In (fun s => mem x (y :: s)) (mem x)).
    2:{ intros s _. apply mem_ext. split; [intros [E|E]; [congruence | exact E] | intro E; right; exact E]. }
    destruct k as [|k].
    + cbn [subsets]. destruct l as [|z l]; [destruct Il|]. cbn. replace (length l - 0)%nat with (length l) by lia. cbn. destruct (length l); reflexivity.
    + rewrite (IH k N' Il). destruct l as [|z l]; [destruct Il|]. cbn [length].
      replace (S (length l) - 1)%nat with (length l) by lia. reflexivity.
Qed.

(** A given one of [n] elements is chosen with probability k / n. *)
Lemma inclusion_probability (n k j : nat) : (j < n)%nat -> (k <= n)%nat ->
  inject_Z (Z.of_nat (length (containing j k (seq 0 n)))) / inject_Z (Z.of_nat (length (subsets k (seq 0 n))))
  == inject_Z (Z.of_nat k) / inject_Z (Z.of_nat n).
Proof.
  intros Hj Hk. rewrite subsets_length, seq_length.
  assert (B := binom_pos n k Hk).
  destruct k as [|k].
  - replace (containing j 0 (seq 0 n)) with (@nil (list nat)) by (unfold containing; destruct (seq 0 n); reflexivity).
    unfold Qdiv. cbn [length Z.of_nat]. change (inject_Z 0) with 0. rewrite !Qmult_0_l. reflexivity.
  - rewrite containing_length; [|apply seq_NoDup | apply in_seq; lia].
    rewrite seq_length. destruct n as [|n]; [lia|].
    replace (S n - 1)%nat with n by lia.
    assert (E := binom_absorption n k).
    assert (PB : 0 < inject_Z (binom (S n) (S k))) by (change 0 with (inject_Z 0); rewrite <- Zlt_Qlt; exact B).
    assert (PN : 0 < inject_Z (Z.of_nat (S n))) by (change 0 with (inject_Z 0); rewrite <- Zlt_Qlt; lia).
    assert (NB : ~ inject_Z (binom (S n) (S k)) == 0) by (intro X; rewrite X in PB; discriminate).
    assert (NN : ~ inject_Z (Z.of_nat (S n)) == 0) by (intro X; rewrite X in PN; discriminate).
    apply (Qmult_inj_r _ _ (inject_Z (binom (S n) (S k)) * inject_Z (Z.of_nat (S n)))).
    { assert (P := Qmult_lt_0_compat _ _ PB PN). intro X. rewrite X in P. discriminate. }
    transitivity (inject_Z (Z.of_nat (S n)) * inject_Z (binom n k)); [field; exact NB|].
    transitivity (inject_Z (Z.of_nat (S k)) * inject_Z (binom (S n) (S k))); [|field; exact NN].
    rewrite <- !inject_Z_mult. rewrite E. reflexivity.
Qed.
