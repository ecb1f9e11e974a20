(** Lemmas for C59: independent coins. *)
From Coq Require Import List ZArith QArith Qreals Reals Bool Lia Lra.
From Verif Require Import Base BaseLemmas BackendModel ListLemmas ParamsModel VectorModel ExpMechProofs LaplaceSpec LaplaceProofs
  SelectModel SelectSpec.
Import ListNotations.
Local Open Scope R_scope.

(** ** Sums over outcomes *)
Lemma outcomes_ext m : forall F G, (forall bs, length bs = m -> F bs = G bs) -> outcomes m F = outcomes m G.
Proof.
  induction m as [|m IH]; intros F G E; [apply E; reflexivity|].
  cbn [outcomes]. f_equal; apply IH; intros bs L; apply E; cbn; lia.
Qed.
Lemma outcomes_le m : forall F G, (forall bs, length bs = m -> F bs <= G bs) -> outcomes m F <= outcomes m G.
Proof.
  induction m as [|m IH]; intros F G E; [apply E; reflexivity|].
  cbn [outcomes]. apply Rplus_le_compat; apply IH; intros bs L; apply E; cbn; lia.
Qed.
Lemma outcomes_add m : forall F G, outcomes m (fun bs => F bs + G bs) = outcomes m F + outcomes m G.
Proof. induction m as [|m IH]; intros F G; [reflexivity|]. cbn [outcomes]. rewrite !IH. ring. Qed.
Lemma outcomes_scale m : forall c F, outcomes m (fun bs => c * F bs) = c * outcomes m F.
Proof. induction m as [|m IH]; intros c F; [reflexivity|]. cbn [outcomes]. rewrite !IH. ring. Qed.
Lemma outcomes_zero m : outcomes m (fun _ => 0) = 0.
Proof. induction m as [|m IH]; [reflexivity|]. cbn [outcomes]. rewrite IH. ring. Qed.
Lemma outcomes_nonneg m F : (forall bs, length bs = m -> 0 <= F bs) -> 0 <= outcomes m F.
Proof. intro E. rewrite <- (outcomes_zero m). apply outcomes_le. exact E. Qed.

(** ** Products of independent weights *)
Definition weights (hs : list (bool -> R)) (bs : list bool) : R :=
  prodR (map (fun hb => fst hb (snd hb)) (combine hs bs)).
Lemma weights_cons h hs b bs : weights (h :: hs) (b :: bs) = h b * weights hs bs.
Proof. reflexivity. Qed.
Lemma weights_mass hs : outcomes (length hs) (weights hs) = prodR (map (fun h => h true + h false) hs).
Proof.
  induction hs as [|h hs IH]; [reflexivity|]. cbn [length outcomes map]. rewrite prodR_cons, <- IH.
  rewrite (outcomes_ext _ (fun bs => weights (h :: hs) (true :: bs)) (fun bs => h true * weights hs bs)) by reflexivity.
  rewrite (outcomes_ext _ (fun bs => weights (h :: hs) (false :: bs)) (fun bs => h false * weights hs bs)) by reflexivity.
  rewrite !outcomes_scale. ring.
Qed.
Lemma weights_nonneg hs bs : Forall (fun h => forall b, 0 <= h b) hs -> 0 <= weights hs bs.
Proof.
  intro F. revert bs. induction F as [|h hs Hh F IH]; intros [|b bs]; cbn; try lra.
  apply Rmult_le_pos; [apply Hh | apply IH].
Qed.
Lemma weights_le hs ks bs : Forall2 (fun h k => forall b, 0 <= h b <= k b) hs ks -> weights hs bs <= weights ks bs.
Proof.
  intro F. revert bs. induction F as [|h k hs ks Hh F IH]; intros [|b bs]; cbn; try lra.
  destruct (Hh b). apply Rmult_le_compat; [assumption | | assumption | apply IH].
  apply weights_nonneg. clear -F. induction F; constructor; [intro b; apply H | assumption].
Qed.
Lemma law_weights ps bs : law ps bs = weights (map coin ps) bs.
Proof.
  unfold law, weights. f_equal. revert bs. induction ps as [|p ps IH]; intros [|b bs]; try reflexivity.
  cbn. f_equal. apply IH.
Qed.
Lemma law_cons p ps b bs : law (p :: ps) (b :: bs) = coin p b * law ps bs.
Proof. reflexivity. Qed.
Lemma law_nonneg ps bs : Forall (fun p => 0 <= p <= 1) ps -> 0 <= law ps bs.
Proof.
  intro F. rewrite law_weights. apply weights_nonneg. apply Forall_map. eapply Forall_impl; [|exact F].
  intros p Hp [|]; cbn; lra.
Qed.
Lemma law_mass ps : outcomes (length ps) (law ps) = 1.
Proof.
  rewrite (outcomes_ext _ _ (weights (map coin ps))) by (intros; apply law_weights).
  rewrite <- (map_length coin ps), weights_mass, map_map.
  induction ps as [|p ps IH]; [reflexivity|]. cbn [map]. rewrite prodR_cons, IH. cbn. ring.
Qed.

(** ** Domination: weights [f], minus mass [delta], are within exp(eps) of [g] *)
Definition dominated (m : nat) (eps delta : R) (f g : list bool -> R) : Prop :=
  exists h, (forall bs, length bs = m -> 0 <= h bs /\ h bs <= f bs /\ h bs <= exp eps * g bs) /\
            outcomes m f - outcomes m h <= delta.

Lemma dominated_event m eps delta f g E :
  dominated m eps delta f g ->
  outcomes m (fun bs => f bs * indicator (E bs)) <= exp eps * outcomes m (fun bs => g bs * indicator (E bs)) + delta.
Proof.
  intros [h [B M]]. rewrite <- outcomes_scale.
  assert (S : outcomes m (fun bs => f bs * indicator (E bs)) <=
              outcomes m (fun bs => exp eps * (g bs * indicator (E bs)) + (f bs + - 1 * h bs))).
  { apply outcomes_le. intros bs L. destruct (B bs L) as [H0 [H1 H2]]. unfold indicator. destruct (E bs); lra. }
  rewrite outcomes_add, (outcomes_add m f (fun bs => - 1 * h bs)), outcomes_scale in S. rewrite outcomes_scale in *. lra.
Qed.

(** The standard definition, on events, gives domination. *)
Lemma events_dominated m eps delta f g :
  (forall bs, length bs = m -> 0 <= f bs) -> (forall bs, length bs = m -> 0 <= g bs) ->
  (forall E, outcomes m (fun bs => f bs * indicator (E bs)) <= exp eps * outcomes m (fun bs => g bs * indicator (E bs)) + delta) ->
  dominated m eps delta f g.
Proof.
  intros Pf Pg D. exists (fun bs => Rmin (f bs) (exp eps * g bs)). split.
  - intros bs L. split; [|split; [apply Rmin_l | apply Rmin_r]].
    apply Rmin_glb; [apply Pf; exact L | apply Rmult_le_pos; [apply Rlt_le, exp_pos | apply Pg; exact L]].
  - specialize (D (fun bs => if Rlt_dec (exp eps * g bs) (f bs) then true else false)).
    rewrite <- outcomes_scale in D.
    assert (X : outcomes m f - outcomes m (fun bs => Rmin (f bs) (exp eps * g bs)) =
      outcomes m (fun bs => f bs * indicator (if Rlt_dec (exp eps * g bs) (f bs) then true else false)) -
      outcomes m (fun bs => exp eps * (g bs * indicator (if Rlt_dec (exp eps * g bs) (f bs) then true else false)))).
    { assert (Q : forall F G, outcomes m F - outcomes m G = outcomes m (fun bs => F bs + - 1 * G bs)).
      { intros F G. rewrite outcomes_add, outcomes_scale. ring. }
      rewrite !Q. apply outcomes_ext. intros bs _. unfold indicator.
      destruct (Rlt_dec (exp eps * g bs) (f bs)); unfold Rmin; destruct (Rle_dec (f bs) (exp eps * g bs)); lra. }
    rewrite X. lra.
Qed.

(** ** One coin *)
Definition coin_close (eps delta p q : R) : Prop :=
  p <= exp eps * q + delta /\ 1 - p <= exp eps * (1 - q) + delta.

Definition capped (eps p q : R) (b : bool) : R := Rmin (coin p b) (exp eps * coin q b).
Lemma capped_facts eps p q b : 0 <= p <= 1 -> 0 <= q <= 1 ->
  0 <= capped eps p q b <= coin p b /\ capped eps p q b <= exp eps * coin q b.
Proof.
  intros Hp Hq. unfold capped. split; [split; [|apply Rmin_l] | apply Rmin_r].
  apply Rmin_glb; [destruct b; cbn; lra|]. apply Rmult_le_pos; [apply Rlt_le, exp_pos | destruct b; cbn; lra].
Qed.
Lemma capped_mass eps delta p q : 0 <= eps -> 0 <= delta -> coin_close eps delta p q ->
  1 - delta <= capped eps p q true + capped eps p q false.
Proof.
  intros He Hd [A B]. unfold capped, coin.
  assert (1 <= exp eps) by (rewrite <- exp_0; apply exp_le; exact He).
  unfold Rmin. destruct (Rle_dec p (exp eps * q)), (Rle_dec (1 - p) (exp eps * (1 - q))); lra.
Qed.

Lemma prodR_nonneg l : Forall (fun x => 0 <= x) l -> 0 <= prodR l.
Proof. induction 1; cbn; [lra|]. apply Rmult_le_pos; assumption. Qed.

(** ** Many coins: at most [k] of them differ, each by ([eps], [delta]) *)
Lemma coins_dominated eps delta ps qs : 0 <= eps -> 0 <= delta <= 1 ->
  forall k, Forall2 (fun p q => 0 <= p <= 1 /\ 0 <= q <= 1 /\ (p = q \/ coin_close eps delta p q)) ps qs ->
  (exists ch : list bool, length ch = length ps /\ (length (filter (fun c => c) ch) <= k)%nat /\
     Forall2 (fun c pq => c = false -> fst pq = snd pq) ch (combine ps qs)) ->
  dominated (length ps) (INR k * eps) (1 - (1 - delta) ^ k) (law ps) (law qs).
Proof.
  intros He Hd k F [ch [Lc [Ck Fc]]].
  assert (Main : exists hs, length hs = length ps /\
    Forall2 (fun h p => forall b, 0 <= h b <= coin p b) hs ps /\
    (forall bs, length bs = length ps -> weights hs bs <= exp (INR (length (filter (fun c => c) ch)) * eps) * law qs bs) /\
    (1 - delta) ^ (length (filter (fun c => c) ch)) <= prodR (map (fun h => h true + h false) hs)).
  { clear Ck. revert ch Lc Fc. induction F as [|p q ps qs [Hp [Hq Hc]] F IH]; intros ch Lc Fc.
    - destruct ch; [|discriminate]. exists []. split; [reflexivity|]. split; [constructor|]. split.
      + intros [|b bs] L; [|discriminate]. cbn. rewrite Rmult_0_l, exp_0. lra.
      + cbn. lra.
    - destruct ch as [|c ch]; [discriminate|]. cbn [combine] in Fc. inversion Fc; subst.
      destruct (IH ch) as [hs [Lh [Fh [Bh Mh]]]]; [cbn in Lc; lia | assumption|].
      destruct c.
      + exists (capped eps p q :: hs). split; [cbn; lia|]. cbn [filter length].
        assert (Cc : coin_close eps delta p q).
        { destruct Hc as [->|Hc]; [|exact Hc]. unfold coin_close.
          assert (1 <= exp eps) by (rewrite <- exp_0; apply exp_le; exact He).
          split; [assert (1 * q <= exp eps * q) by (apply Rmult_le_compat_r; lra); lra|].
          assert (1 * (1 - q) <= exp eps * (1 - q)) by (apply Rmult_le_compat_r; lra); lra. }
        split; [constructor; [intro b; apply capped_facts; assumption | exact Fh]|]. split.
        * intros [|b bs] L; [discriminate|]. rewrite weights_cons, law_cons, S_INR.
          replace ((INR (length (filter (fun c => c) ch)) + 1) * eps) with (eps + INR (length (filter (fun c => c) ch)) * eps) by ring.
          rewrite exp_plus.
          match goal with |- _ <= ?a * ?b0 * (?c * ?d) => replace (a * b0 * (c * d)) with ((a * c) * (b0 * d)) by ring end.
          destruct (capped_facts eps p q b Hp Hq) as [[C0 C1] C2].
          apply Rmult_le_compat; [exact C0 | | exact C2 | apply Bh; cbn in L; lia].
          apply weights_nonneg. clear -Fh. induction Fh; constructor; [intro b; apply H | assumption].
        * cbn [map]. rewrite prodR_cons. cbn [pow].
          apply Rmult_le_compat; [lra | apply pow_le; lra | apply capped_mass; [lra | lra | exact Cc] | exact Mh].
      + exists (coin p :: hs). split; [cbn; lia|]. cbn [filter].
        split; [constructor; [intro b; destruct b; cbn; lra | exact Fh]|]. split.
        * intros [|b bs] L; [discriminate|]. rewrite weights_cons, law_cons.
          match goal with X : false = false -> _ |- _ => specialize (X eq_refl); cbn in X; subst q end.
          match goal with |- _ <= ?a * (?c * ?d) => replace (a * (c * d)) with (c * (a * d)) by ring end.
          apply Rmult_le_compat_l; [destruct b; cbn; lra | apply Bh; cbn in L; lia].
        * cbn [map]. rewrite prodR_cons. cbn [coin]. replace (p + (1 - p)) with 1 by ring. rewrite Rmult_1_l. exact Mh. }
  destruct Main as [hs [Lh [Fh [Bh Mh]]]].
  assert (Pq : forall bs, 0 <= law qs bs).
  { intro bs. apply law_nonneg. clear -F. induction F; constructor; [tauto | assumption]. }
  exists (weights hs). split.
  - intros bs L. split; [|split].
    + apply weights_nonneg. clear -Fh. induction Fh; constructor; [intro b; apply H | assumption].
    + rewrite law_weights. apply weights_le. clear -Fh. induction Fh; constructor; assumption.
    + eapply Rle_trans; [apply Bh; exact L|]. apply Rmult_le_compat_r; [apply Pq|]. apply exp_le.
      apply Rmult_le_compat_r; [exact He|]. apply le_INR. exact Ck.
  - rewrite law_mass, <- Lh, weights_mass.
    assert ((1 - delta) ^ k <= (1 - delta) ^ (length (filter (fun c => c) ch))).
    { clear -Ck Hd. revert Ck. generalize (length (filter (fun c : bool => c) ch)) as c. intros c Ck.
      assert (Kc : k = (c + (k - c))%nat) by lia. rewrite Kc, pow_add.
      assert (X : (1 - delta) ^ (k - c) <= 1) by (apply Rle_trans with (1 ^ (k - c)); [apply pow_incr; lra | rewrite pow1; lra]).
      assert (Y : 0 <= (1 - delta) ^ c) by (apply pow_le; lra).
      assert (Z := Rmult_le_compat_l _ _ _ Y X). lra. }
    lra.
Qed.

(** ** From one partition to many *)
Lemma strategy_of_one_partition keep l0 eps delta1 delta : (0 < l0)%Z -> 0 <= eps -> 0 <= delta1 <= 1 ->
  1 - (1 - delta1) ^ (Z.to_nat l0) <= delta ->
  one_partition_private keep (eps / IZR l0) delta1 ->
  private_strategy keep l0 eps delta.
Proof.
  intros Hl He Hd Hm [B [Z0 C]]. split; [exact B|]. split; [exact Z0|].
  assert (Hl' : 0 < IZR l0) by (apply IZR_lt; exact Hl).
  assert (He' : 0 <= eps / IZR l0) by (apply Rmult_le_pos; [exact He | apply Rlt_le, Rinv_0_lt_compat; exact Hl']).
  assert (Ek : INR (Z.to_nat l0) * (eps / IZR l0) = eps).
  { rewrite INR_IZR_INZ, Z2Nat.id by lia. field. lra. }
  intros ns ns' E [F L].
  assert (Ln : length ns = length ns') by (clear -F; induction F; cbn; lia).
  assert (Dom : forall a b : list Z, length a = length b ->
    Forall2 (fun n n' => (0 <= n)%Z /\ (0 <= n')%Z /\ (n - n' <= 1)%Z /\ (n' - n <= 1)%Z) a b ->
    (Z.of_nat (length (filter (fun nn => negb (fst nn =? snd nn)%Z) (combine a b))) <= l0)%Z ->
    kept keep a E <= exp eps * kept keep b E + delta).
  { intros a b Lab Fab Lc. unfold kept. rewrite <- Lab.
    assert (D : dominated (length a) eps delta (law (map keep a)) (law (map keep b))).
    { assert (D : dominated (length (map keep a)) (INR (Z.to_nat l0) * (eps / IZR l0)) (1 - (1 - delta1) ^ (Z.to_nat l0))
                    (law (map keep a)) (law (map keep b))).
      { apply coins_dominated; [exact He' | exact Hd | |].
        - clear Lc Lab. induction Fab as [|n n' a b Hn Fab IH]; constructor; [|exact IH].
          split; [apply B|]. split; [apply B|].
          destruct (Z.eq_dec n n') as [->|N]; [left; reflexivity|]. right. unfold coin_close.
          destruct (Z.eq_dec n (n' + 1)) as [->|N'].
          + destruct (C n') as [[C1 C2] [C3 C4]]; [lia|]. split; assumption.
          + replace n' with (n + 1)%Z by lia. destruct (C n) as [[C1 C2] [C3 C4]]; [lia|]. split; assumption.
        - exists (map (fun nn => negb (fst nn =? snd nn)%Z) (combine a b)). split; [rewrite !map_length, combine_length; lia|]. split.
          + apply Nat2Z.inj_le. rewrite Z2Nat.id by lia. eapply Z.le_trans; [|exact Lc].
            apply Nat2Z.inj_le. clear. induction (combine a b) as [|x l IH]; [cbn; lia|].
            cbn [map filter]. destruct (negb (fst x =? snd x)%Z); cbn; lia.
          + clear. revert b. induction a as [|n a IH]; intros [|n' b]; try constructor.
            * cbn. intro X. apply negb_false_iff in X. apply Z.eqb_eq in X. subst. reflexivity.
            * apply IH. }
      rewrite map_length, Ek in D. destruct D as [h [D1 D2]]. exists h. split; [exact D1 | lra]. }
    exact (dominated_event _ _ _ _ _ E D). }
  split.
  - apply Dom; [exact Ln | | exact L]. clear -F. induction F; constructor; [lia | assumption].
  - apply Dom; [lia | |].
    + clear -F. induction F; constructor; [lia | assumption].
    + assert (S : forall a b : list Z, length (filter (fun nn => negb (fst nn =? snd nn)%Z) (combine a b)) =
                       length (filter (fun nn => negb (fst nn =? snd nn)%Z) (combine b a))).
      { clear. induction a as [|x a IH]; intros [|y b]; try reflexivity. cbn [combine filter fst snd].
        rewrite (Z.eqb_sym x y). destruct (negb (y =? x)%Z); cbn [length]; rewrite IH; reflexivity. }
      rewrite S. exact L.
Qed.

(** ** The two algorithms *)
Lemma one_partition_of_nat keep eps delta pre :
  (forall t, pre = Some t -> (0 < t)%Z) ->
  (forall n, 0 <= keep n <= 1) -> keep O = 0 ->
  (forall n, indistinguishable eps delta (keep n) (keep (S n)) /\ indistinguishable eps delta (1 - keep n) (1 - keep (S n))) ->
  0 <= eps -> 0 <= delta ->
  one_partition_private (pre_thresholded pre keep) eps delta.
Proof.
  intros Ht B Z0 C He Hd.
  assert (Step : forall n m, (m = n \/ m = S n)%nat ->
    indistinguishable eps delta (keep n) (keep m) /\ indistinguishable eps delta (1 - keep n) (1 - keep m)).
  { intros n m [->| ->]; [|apply C]. assert (1 <= exp eps) by (rewrite <- exp_0; apply exp_le; exact He).
    specialize (B n). unfold indistinguishable.
    assert (1 * keep n <= exp eps * keep n) by (apply Rmult_le_compat_r; lra).
    assert (1 * (1 - keep n) <= exp eps * (1 - keep n)) by (apply Rmult_le_compat_r; lra). lra. }
  split; [|split].
  - intro n. destruct pre; cbn; apply B.
  - intros n Hn. destruct pre as [t|]; cbn.
    + specialize (Ht t eq_refl). replace (Z.to_nat (n - (t - 1))) with O by lia. exact Z0.
    + replace (Z.to_nat n) with O by lia. exact Z0.
  - intros n Hn. destruct pre as [t|]; cbn; apply Step; lia.
Qed.

Lemma geometric_facts eps delta : 0 <= eps -> 0 <= delta ->
  forall n, 0 <= geometric_keep eps delta n <= 1 /\ geometric_keep eps delta n <= geometric_keep eps delta (S n) /\
    geometric_keep eps delta (S n) <= exp eps * geometric_keep eps delta n + delta /\
    exp (- eps) * (1 - geometric_keep eps delta n - delta) <= 1 - geometric_keep eps delta (S n).
Proof.
  intros He Hd.
  assert (E1 : 1 <= exp eps) by (rewrite <- exp_0; apply exp_le; exact He).
  assert (E2 : 0 < exp (- eps) <= 1) by (split; [apply exp_pos | rewrite <- exp_0; apply exp_le; lra]).
  assert (B : forall n, 0 <= geometric_keep eps delta n <= 1).
  { induction n as [|n IH]; [cbn; lra|]. cbn [geometric_keep]. cbv zeta. set (p := geometric_keep eps delta n) in *.
    split; [|apply Rmin_r]. apply Rmin_glb; [apply Rmin_glb|lra].
    - assert (0 <= exp eps * p) by (apply Rmult_le_pos; lra). lra.
    - assert (exp (- eps) * (1 - p - delta) <= exp (- eps) * 1) by (apply Rmult_le_compat_l; lra). lra. }
  intro n. split; [apply B|]. specialize (B n). cbn [geometric_keep]. cbv zeta. set (p := geometric_keep eps delta n) in *.
  split; [|split].
  - apply Rmin_glb; [apply Rmin_glb|lra].
    + assert (1 * p <= exp eps * p) by (apply Rmult_le_compat_r; lra). lra.
    + destruct (Rle_dec 0 (1 - p - delta)) as [X|X].
      * assert (exp (- eps) * (1 - p - delta) <= 1 * (1 - p - delta)) by (apply Rmult_le_compat_r; lra). lra.
      * assert (exp (- eps) * (1 - p - delta) <= exp (- eps) * 0) by (apply Rmult_le_compat_l; lra). lra.
  - eapply Rle_trans; [apply Rmin_l | apply Rmin_l].
  - assert (X : Rmin (Rmin (exp eps * p + delta) (1 - exp (- eps) * (1 - p - delta))) 1 <= 1 - exp (- eps) * (1 - p - delta))
      by (eapply Rle_trans; [apply Rmin_l | apply Rmin_r]). lra.
Qed.

Lemma exp_inverse x y eps : exp (- eps) * x <= y -> x <= exp eps * y.
Proof.
  intro L. assert (P := exp_pos eps). replace x with (exp eps * (exp (- eps) * x)).
  - apply Rmult_le_compat_l; lra.
  - rewrite <- Rmult_assoc, <- exp_plus. replace (eps + - eps) with 0 by ring. rewrite exp_0. ring.
Qed.

Lemma geometric_one_partition eps delta pre : 0 <= eps -> 0 <= delta -> (forall t, pre = Some t -> (0 < t)%Z) ->
  one_partition_private (pre_thresholded pre (geometric_keep eps delta)) eps delta.
Proof.
  intros He Hd Ht. assert (F := geometric_facts eps delta He Hd).
  apply one_partition_of_nat; [exact Ht | intro n; apply F | reflexivity | | exact He | exact Hd].
  intro n. destruct (F n) as [B [M [U D]]]. destruct (F (S n)) as [B' _].
  assert (E1 : 1 <= exp eps) by (rewrite <- exp_0; apply exp_le; exact He).
  apply exp_inverse in D.
  set (p := geometric_keep eps delta n) in *. set (q := geometric_keep eps delta (S n)) in *.
  assert (1 * q <= exp eps * q) by (apply Rmult_le_compat_r; lra).
  assert (1 * (1 - p) <= exp eps * (1 - p)) by (apply Rmult_le_compat_r; lra).
  unfold indistinguishable. lra.
Qed.

(** The Laplace tail: for every shift by at most 1 the probabilities of both answers
    change by at most exp(eps). *)
Lemma laplace_tail_range eps x : 0 <= eps -> 0 <= laplace_tail eps x <= 1.
Proof.
  intro He. unfold laplace_tail. destruct (Rle_dec 0 x) as [X|X].
  - assert (0 < exp (- (eps * x)) <= 1).
    { split; [apply exp_pos|]. rewrite <- exp_0. apply exp_le. assert (0 <= eps * x) by (apply Rmult_le_pos; lra). lra. } lra.
  - assert (0 < exp (eps * x) <= 1).
    { split; [apply exp_pos|]. rewrite <- exp_0. apply exp_le.
      assert (0 <= eps * - x) by (apply Rmult_le_pos; lra). lra. } lra.
Qed.
Lemma laplace_tail_opp eps x : laplace_tail eps (- x) = 1 - laplace_tail eps x \/ x = 0.
Proof.
  destruct (Req_dec x 0) as [|N]; [right; assumption|left]. unfold laplace_tail.
  destruct (Rle_dec 0 x), (Rle_dec 0 (- x)); try lra.
  - replace (eps * - x) with (- (eps * x)) by ring. lra.
  - replace (- (eps * - x)) with (eps * x) by ring. lra.
Qed.
Lemma laplace_tail_zero eps : laplace_tail eps 0 = / 2.
Proof. unfold laplace_tail. destruct (Rle_dec 0 0); [|lra]. rewrite Rmult_0_r, Ropp_0, exp_0. lra. Qed.
Lemma laplace_tail_compl eps x : 1 - laplace_tail eps x = laplace_tail eps (- x).
Proof.
  destruct (laplace_tail_opp eps x) as [->| ->]; [reflexivity|]. rewrite Ropp_0, laplace_tail_zero. lra.
Qed.
Lemma laplace_tail_mono eps x y : 0 <= eps -> x <= y -> laplace_tail eps y <= laplace_tail eps x.
Proof.
  intros He L. unfold laplace_tail. destruct (Rle_dec 0 x) as [X|X], (Rle_dec 0 y) as [Y|Y]; try lra.
  - apply Rmult_le_compat_r; [lra|]. apply exp_le. assert (eps * x <= eps * y) by (apply Rmult_le_compat_l; lra). lra.
  - assert (0 <= eps * y) by (apply Rmult_le_pos; lra). assert (0 <= eps * - x) by (apply Rmult_le_pos; lra).
    assert (exp (- (eps * y)) <= 1) by (rewrite <- exp_0; apply exp_le; lra).
    assert (exp (eps * x) <= 1) by (rewrite <- exp_0; apply exp_le; lra). lra.
  - assert (eps * x <= eps * y) by (apply Rmult_le_compat_l; lra).
    assert (exp (eps * x) <= exp (eps * y)) by (apply exp_le; assumption). lra.
Qed.
(** Shifting the argument down by [d] in [0, 1]. *)
Lemma laplace_tail_shift eps x d : 0 <= eps -> 0 <= d <= 1 ->
  laplace_tail eps (x - d) <= exp eps * laplace_tail eps x.
Proof.
  intros He Hd.
  assert (Ed : exp (eps * d) <= exp eps).
  { apply exp_le. assert (eps * d <= eps * 1) by (apply Rmult_le_compat_l; lra). lra. }
  assert (E1 : 1 <= exp (eps * d)).
  { rewrite <- exp_0. apply exp_le. apply Rmult_le_pos; lra. }
  assert (R := laplace_tail_range eps x He).
  apply Rle_trans with (exp (eps * d) * laplace_tail eps x); [|apply Rmult_le_compat_r; lra].
  unfold laplace_tail. destruct (Rle_dec 0 (x - d)) as [X|X], (Rle_dec 0 x) as [Y|Y]; try lra.
  - replace (exp (eps * d) * (exp (- (eps * x)) / 2)) with ((exp (eps * d) * exp (- (eps * x))) / 2) by field.
    rewrite <- exp_plus. replace (eps * d + - (eps * x)) with (- (eps * (x - d))) by ring. lra.
  - (* x - d < 0 <= x: with a = exp(eps (x-d)) <= 1, the claim is 1 - a/2 <= 1/(2a) *)
    replace (exp (eps * d) * (exp (- (eps * x)) / 2)) with ((exp (eps * d) * exp (- (eps * x))) / 2) by field.
    rewrite <- exp_plus. replace (eps * d + - (eps * x)) with (- (eps * (x - d))) by ring.
    set (a := exp (eps * (x - d))). assert (Pa : 0 < a) by apply exp_pos. rewrite exp_Ropp. fold a.
    assert (T : 0 <= (1 - a) * (1 - a) * / a).
    { apply Rmult_le_pos; [|apply Rlt_le, Rinv_0_lt_compat; exact Pa]. apply Rle_0_sqr. }
    replace ((1 - a) * (1 - a) * / a) with (/ a - 2 + a) in T by (field; lra). lra.
  - (* x < 0: 1 - e^{-eps d} a /2 <= e^{eps d} (1 - a/2) with a = exp(eps x) <= 1 *)
    replace (eps * (x - d)) with (eps * x + - (eps * d)) by ring. rewrite exp_plus, exp_Ropp.
    set (a := exp (eps * x)). set (c := exp (eps * d)) in *.
    assert (Pa : 0 < a) by apply exp_pos.
    assert (A1 : a <= 1).
    { unfold a. rewrite <- exp_0. apply exp_le. assert (0 <= eps * - x) by (apply Rmult_le_pos; lra). lra. }
    assert (Pc : 0 < c) by lra.
    (* c - 1 - (a/2)(c - 1/c) >= c - 1 - (c - 1/c)/2 = (c - 2 + 1/c)/2 >= 0 *)
    assert (I : / c <= 1) by (rewrite <- Rinv_1; apply Rinv_le_contravar; lra).
    assert (T : 0 <= (c - 1) * (c - 1) * / c).
    { apply Rmult_le_pos; [|apply Rlt_le, Rinv_0_lt_compat; exact Pc]. apply Rle_0_sqr. }
    replace ((c - 1) * (c - 1) * / c) with (c - 2 + / c) in T by (field; lra).
    assert (a * (c - / c) <= 1 * (c - / c)) by (apply Rmult_le_compat_r; lra).
    lra.
Qed.

Lemma threshold_one_partition eps delta threshold pre : 0 <= eps -> 0 <= delta ->
  laplace_tail eps (threshold - 1) <= delta -> (forall t, pre = Some t -> (0 < t)%Z) ->
  one_partition_private (pre_thresholded pre (threshold_keep eps threshold)) eps delta.
Proof.
  intros He Hd Hth Ht.
  assert (E1 : 1 <= exp eps) by (rewrite <- exp_0; apply exp_le; exact He).
  assert (B : forall n, 0 <= threshold_keep eps threshold n <= 1).
  { intros [|n]; [cbn; lra | apply laplace_tail_range; exact He]. }
  apply one_partition_of_nat; [exact Ht | exact B | reflexivity | | exact He | exact Hd].
  intros [|n].
  - assert (X : threshold_keep eps threshold 1 <= delta) by (cbn; exact Hth).
    assert (B1 := B 1%nat). cbn [threshold_keep] in *. set (q := laplace_tail eps (threshold - INR 1)) in *.
    unfold indistinguishable.
    assert (0 <= exp eps * q) by (apply Rmult_le_pos; lra).
    assert (1 * (1 - q) <= exp eps * (1 - q)) by (apply Rmult_le_compat_r; lra). lra.
  - assert (B1 := B (S n)). assert (B2 := B (S (S n))). unfold threshold_keep in *.
    assert (Es : threshold - INR (S (S n)) = (threshold - INR (S n)) - 1) by (rewrite (S_INR (S n)); ring).
    rewrite Es in *. set (x := threshold - INR (S n)) in *.
    assert (D1 := laplace_tail_shift eps x 1 He ltac:(lra)).
    assert (M := laplace_tail_mono eps (x - 1) x He ltac:(lra)).
    assert (D2 := laplace_tail_shift eps (- x + 1) 1 He ltac:(lra)).
    replace (- x + 1 - 1) with (- x) in D2 by ring. replace (- x + 1) with (- (x - 1)) in D2 by ring.
    rewrite <- !laplace_tail_compl in D2.
    set (p := laplace_tail eps x) in *. set (q := laplace_tail eps (x - 1)) in *.
    assert (1 * q <= exp eps * q) by (apply Rmult_le_compat_r; lra).
    assert (1 * (1 - p) <= exp eps * (1 - p)) by (apply Rmult_le_compat_r; lra).
    unfold indistinguishable. lra.
Qed.
