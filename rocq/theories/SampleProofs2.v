(** Lemmas for C77: sequential reduction and balanced trees. *)
From Coq Require Import List ZArith QArith Bool Lia Permutation PeanoNat Setoid.
From Coq Require Import Lqa.
From Verif Require Import Base BaseLemmas ListLemmas BackendModel BackendSpec SampleModel SampleSpec SampleProofs.
Import ListNotations.
Local Open Scope Q_scope.

Lemma held_min {A} n (t : tree A) : (0 < n)%nat -> held n t = Nat.min n (length (leaves t)).
Proof.
  intro P. induction t as [a|l IHl r IHr]; cbn [held leaves length]; [lia|]. rewrite app_length. lia.
Qed.
Lemma leaves_pos {A} (t : tree A) : (0 < length (leaves t))%nat.
Proof. induction t; cbn; [lia|]. rewrite app_length. lia. Qed.

(** ** One after the other *)
Lemma one_by_one_snoc {A} (a : A) rest b : one_by_one a (rest ++ [b]) = Node (one_by_one a rest) (Leaf b).
Proof. unfold one_by_one. rewrite fold_left_app. reflexivity. Qed.
Lemma one_by_one_leaves {A} (a : A) rest : leaves (one_by_one a rest) = a :: rest.
Proof.
  induction rest as [|b rest IH] using rev_ind; [reflexivity|]. rewrite one_by_one_snoc. cbn [leaves]. rewrite IH. reflexivity.
Qed.
Lemma nth_map_mult q l i d : nth i (map (Qmult q) l) (q * d) = q * nth i l d.
Proof. apply (map_nth (Qmult q)). Qed.

Lemma one_by_one_chance {A} n (a : A) rest i : (0 < n)%nat -> (i <= length rest)%nat ->
  nth i (spark_chances n (one_by_one a rest)) 0 ==
  pow (num n / num (S n)) (S (length rest) - Nat.max n i).
Proof.
  intro P. revert i. induction rest as [|b rest IH] using rev_ind; intros i Li.
  - cbn in Li. assert (i = 0)%nat by lia. subst. replace (S (length (@nil A)) - Nat.max n 0)%nat with 0%nat by (cbn [length]; lia). reflexivity.
  - rewrite one_by_one_snoc. rewrite app_length in *. cbn [length] in *. cbn [spark_chances].
    set (q := num (held n (Node (one_by_one a rest) (Leaf b))) / num (held n (one_by_one a rest) + held n (Leaf b))).
    assert (Eq : q == if (S (length rest) <? n)%nat then 1 else num n / num (S n)).
    { unfold q. cbn [held]. rewrite (held_min n _ P), one_by_one_leaves. cbn [length].
      destruct (Nat.ltb_spec (S (length rest)) n) as [L|L].
      - rewrite Nat.min_l by lia. field. apply num_neq. lia.
      - replace (Nat.min n (S (length rest)) + 1)%nat with (S n) by lia. rewrite Nat.min_r by lia. reflexivity. }
    assert (N0 : nth i (map (Qmult q) (spark_chances n (one_by_one a rest) ++ spark_chances n (Leaf b))) 0 ==
                 q * nth i (spark_chances n (one_by_one a rest) ++ spark_chances n (Leaf b)) 0).
    { rewrite <- nth_map_mult. rewrite (nth_indep _ 0 (q * 0)); [reflexivity|].
      rewrite map_length, app_length, !chances_length, one_by_one_leaves. cbn. lia. }
    rewrite N0, Eq. destruct (Nat.eq_dec i (S (length rest))) as [->|Ne].
    + rewrite app_nth2; rewrite chances_length, one_by_one_leaves; cbn [length]; [|lia].
      rewrite Nat.sub_diag. cbn [spark_chances nth].
      destruct (Nat.ltb_spec (S (length rest)) n).
      * replace (S (length rest + 1) - Nat.max n (S (length rest)))%nat with 0%nat by lia. cbn. ring.
      * replace (S (length rest + 1) - Nat.max n (S (length rest)))%nat with 1%nat by lia. cbn [pow]. ring.
    + rewrite app_nth1 by (rewrite chances_length, one_by_one_leaves; cbn; lia). rewrite IH by lia.
      destruct (Nat.ltb_spec (S (length rest)) n).
      * replace (S (length rest + 1) - Nat.max n i)%nat with 0%nat by lia.
        replace (S (length rest) - Nat.max n i)%nat with 0%nat by lia. cbn. ring.
      * replace (S (length rest + 1) - Nat.max n i)%nat with (S (S (length rest) - Nat.max n i)) by lia. reflexivity.
Qed.

(** ** The bias is unbounded *)
Lemma pow_nonneg q k : 0 <= q -> 0 <= pow q k.
Proof. intro P. induction k; cbn [pow]; [lra|]. apply Qmult_le_0_compat; assumption. Qed.
Lemma pow_small n k : (0 < n)%nat -> pow (num n / num (S n)) k * (1 + num k / num n) <= 1.
Proof.
  intro P. pose proof (num_pos n P) as Pn. pose proof (num_pos (S n) ltac:(lia)) as PS.
  induction k as [|k IH]; cbn [pow].
  - unfold num at 2. cbn [Z.of_nat]. setoid_replace (inject_Z 0 / num n) with 0 by (field; lra). lra.
  - eapply Qle_trans; [|exact IH].
    assert (Q0 : 0 <= pow (num n / num (S n)) k).
    { apply pow_nonneg. apply Qle_shift_div_l; [exact PS|]. lra. }
    setoid_replace (num n / num (S n) * pow (num n / num (S n)) k * (1 + num (S k) / num n))
      with (pow (num n / num (S n)) k * ((num n + num (S k)) / num (S n))) by (field; lra).
    rewrite !(Qmult_comm (pow _ k)). apply Qmult_le_compat_r; [|exact Q0].
    apply Qle_shift_div_r; [exact PS|].
    setoid_replace ((1 + num k / num n) * num (S n)) with (num (S n) + num k * (num (S n) / num n)) by (field; lra).
    rewrite !num_S. pose proof (num_nonneg k) as Pk.
    assert (1 <= (1 + num n) / num n) by (apply Qle_shift_div_l; [exact Pn|lra]).
    assert (num k * 1 <= num k * ((1 + num n) / num n)).
    { rewrite !(Qmult_comm (num k)). apply Qmult_le_compat_r; assumption. }
    lra.
Qed.

(** ** Balanced trees *)
Definition all_equal (c : Q) (l : list Q) : Prop := Forall (fun x => x == c) l.

Lemma all_equal_app c l l' : all_equal c (l ++ l') <-> all_equal c l /\ all_equal c l'.
Proof. apply Forall_app. Qed.
Lemma all_equal_sum c l : all_equal c l -> sumQ l == num (length l) * c.
Proof.
  induction 1 as [|x l E F IH]; [reflexivity|]. unfold sumQ in *. cbn [fold_right length]. rewrite IH, E, num_S. ring.
Qed.
Lemma sum_chances {A} n (t : tree A) : (0 < n)%nat -> sumQ (spark_chances n t) == num (held n t).
Proof.
  intro P. induction t as [a|l IHl r IHr]; [reflexivity|]. cbn [spark_chances].
  rewrite (sumQ_scale (fun x => x) _ _), map_id, sumQ_app, IHl, IHr, <- num_plus. field. apply num_neq.
  rewrite !held_min by exact P. pose proof (leaves_pos l). lia.
Qed.
Lemma held_pos {A} n (t : tree A) : (0 < n)%nat -> (0 < held n t)%nat.
Proof. intro P. rewrite held_min by exact P. pose proof (leaves_pos t). lia. Qed.
Lemma fair_value n m : (0 < n)%nat -> (0 < m)%nat -> chance n m == num (Nat.min n m) / num m.
Proof.
  intros P Pm. unfold chance. destruct (Nat.ltb_spec n m).
  - rewrite Nat.min_l by lia. reflexivity.
  - rewrite Nat.min_r by lia. field. apply num_neq, Pm.
Qed.
Lemma equal_chance_value {A} n c (t : tree A) : (0 < n)%nat -> all_equal c (spark_chances n t) ->
  c == chance n (length (leaves t)).
Proof.
  intros P E. pose proof (leaves_pos t) as Lp. pose proof (all_equal_sum _ _ E) as X. rewrite sum_chances, chances_length in X by exact P.
  rewrite (fair_value n _ P Lp), <- held_min, X by exact P. field. apply num_neq, Lp.
Qed.

Lemma min_ratio n a b : (0 < n)%nat -> (0 < a)%nat -> (0 < b)%nat ->
  chance n a == chance n b -> a = b \/ (a <= n /\ b <= n)%nat.
Proof.
  intros P Pa Pb. unfold chance. pose proof (num_pos n P). pose proof (num_pos a Pa). pose proof (num_pos b Pb).
  assert (LT : forall m, (n < m)%nat -> num n / num m < 1).
  { intros m L. apply Qlt_shift_div_r; [apply num_pos; lia|]. apply num_lt in L. lra. }
  destruct (Nat.ltb_spec n a) as [La|La], (Nat.ltb_spec n b) as [Lb|Lb]; intro E.
  - left. apply num_inj. apply (Qmult_inj_l _ _ (num n)); [lra|].
    transitivity (num n / num b * num b * num a); [field; lra|]. rewrite <- E. field. lra.
  - specialize (LT a La). lra.
  - specialize (LT b Lb). lra.
  - right. lia.
Qed.

Lemma fair_iff_balanced {A} n (t : tree A) : (0 < n)%nat ->
  (all_equal (chance n (length (leaves t))) (spark_chances n t) <-> balanced n t).
Proof.
  intro P. induction t as [a|l IHl r IHr].
  - cbn [leaves length spark_chances balanced]. split; [auto|]. intros _. constructor; [|constructor]. unfold chance.
    destruct (Nat.ltb_spec n 1); [lia|reflexivity].
  - cbn [spark_chances balanced leaves]. rewrite app_length.
    pose proof (leaves_pos l) as Pl. pose proof (leaves_pos r) as Pr. pose proof (held_pos n l P) as Hl. pose proof (held_pos n r P) as Hr.
    set (q := num (held n (Node l r)) / num (held n l + held n r)).
    assert (Pq : ~ q == 0).
    { unfold q. intro X. apply (num_neq (held n (Node l r))); [apply held_pos, P|].
      transitivity (num (held n (Node l r)) / num (held n l + held n r) * num (held n l + held n r)); [field; apply num_neq; lia|]. rewrite X. ring. }
    assert (Scale : forall c cs, all_equal c (map (Qmult q) cs) <-> all_equal (c / q) cs).
    { intros c cs. unfold all_equal. rewrite Forall_map. split; apply Forall_impl; intros x E.
      - rewrite <- E. field. exact Pq.
      - rewrite E. field. exact Pq. }
    rewrite Scale, all_equal_app. set (c := chance n (length (leaves l) + length (leaves r))).
    split.
    + intros [El Er]. pose proof (equal_chance_value _ _ _ P El) as Vl. pose proof (equal_chance_value _ _ _ P Er) as Vr.
      split; [apply IHl; revert El; apply Forall_impl; intros x ->; exact Vl|].
      split; [apply IHr; revert Er; apply Forall_impl; intros x ->; exact Vr|].
      apply (min_ratio n); try assumption. rewrite <- Vl, <- Vr. reflexivity.
    + intros (Bl & Br & D). apply IHl in Bl. apply IHr in Br.
      assert (X : chance n (length (leaves l)) == chance n (length (leaves r)) /\ c == q * chance n (length (leaves l))).
      { unfold c, q. cbn [held]. rewrite !held_min by exact P. rewrite !fair_value by (assumption || lia). destruct D as [D|[D1 D2]].
        - rewrite <- D. split; [reflexivity|]. rewrite !num_plus.
          destruct (Nat.le_gt_cases n (length (leaves l))) as [L|L].
          + rewrite (Nat.min_l n (length (leaves l))) by lia. rewrite (Nat.min_r (n + n) n), (Nat.min_l n) by lia.
            pose proof (num_pos _ P). pose proof (num_pos _ Pl). field. lra.
          + rewrite (Nat.min_r n (length (leaves l))) by lia. rewrite (Nat.min_comm n).
            pose proof (num_pos _ P). pose proof (num_pos _ Pl). field. lra.
        - rewrite (Nat.min_r n (length (leaves l))), (Nat.min_r n (length (leaves r))) by lia.
          pose proof (num_pos _ P). pose proof (num_pos _ Pl). pose proof (num_pos _ Pr). rewrite (Nat.min_comm n), !num_plus.
          split; [field; lra|]. field. lra. }
      destruct X as [X1 X2]. split.
      * revert Bl. apply Forall_impl. intros x ->. rewrite X2. field. exact Pq.
      * revert Br. apply Forall_impl. intros x ->. rewrite X2, X1. field. exact Pq.
Qed.
