(** Lemmas for C59: the coins of the engine. *)
From Coq Require Import List ZArith QArith Qreals Reals Bool Lia Lra.
From Verif Require Import Base BaseLemmas BackendModel ListLemmas ParamsModel VectorModel LaplaceSpec LaplaceProofs
  SelectModel SelectSpec SelectProofs.
Import ListNotations.
Local Open Scope R_scope.

Lemma expectation_ext {C} (cs : list C) prob : forall F G, (forall heads, F heads = G heads) ->
  expectation cs prob F = expectation cs prob G.
Proof.
  induction cs as [|c cs IH]; intros F G E; [apply E|]. cbn [expectation].
  rewrite (IH F G E), (IH (fun heads => F (c :: heads)) (fun heads => G (c :: heads))); [reflexivity|].
  intro heads. apply E.
Qed.

(** Coins that [F] does not look at do not matter. *)
Lemma expectation_used {C} (used : C -> bool) (cs : list C) prob : forall F,
  (forall heads, F heads = F (filter used heads)) ->
  expectation cs prob F = expectation (filter used cs) prob F.
Proof.
  induction cs as [|c cs IH]; intros F E; [reflexivity|]. cbn [expectation filter].
  destruct (used c) eqn:Uc.
  - cbn [expectation]. rewrite <- (IH F E), <- (IH (fun heads => F (c :: heads))); [reflexivity|].
    intro heads. rewrite (E (c :: heads)), (E (c :: filter used heads)). cbn [filter]. rewrite Uc.
    f_equal. f_equal. clear. induction heads as [|h heads IH]; [reflexivity|]. cbn [filter].
    destruct (used h) eqn:Uh; cbn [filter]; [rewrite Uh; f_equal|]; exact IH.
  - rewrite (expectation_ext cs prob (fun heads => F (c :: heads)) F).
    + rewrite (IH F E). ring.
    + intro heads. rewrite (E (c :: heads)), (E heads). cbn [filter]. rewrite Uc. reflexivity.
Qed.

(** As a sum over outcomes. *)
Definition picked {C} (cs : list C) (bs : list bool) : list C := map fst (filter snd (combine cs bs)).
Lemma picked_cons {C} (c : C) cs b bs : picked (c :: cs) (b :: bs) = if b then c :: picked cs bs else picked cs bs.
Proof. unfold picked. cbn. destruct b; reflexivity. Qed.
Lemma expectation_outcomes {C} (cs : list C) prob : forall F,
  expectation cs prob F = outcomes (length cs) (fun bs => law (map prob cs) bs * F (picked cs bs)).
Proof.
  induction cs as [|c cs IH]; intro F.
  - cbn. ring.
  - cbn [expectation length outcomes map].
    rewrite (outcomes_ext _ (fun bs => law (prob c :: map prob cs) (true :: bs) * F (picked (c :: cs) (true :: bs)))
               (fun bs => prob c * (law (map prob cs) bs * F (c :: picked cs bs)))).
    2: { intros bs _. rewrite law_cons, picked_cons. cbn [coin]. ring. }
    rewrite (outcomes_ext _ (fun bs => law (prob c :: map prob cs) (false :: bs) * F (picked (c :: cs) (false :: bs)))
               (fun bs => (1 - prob c) * (law (map prob cs) bs * F (picked cs bs)))).
    2: { intros bs _. rewrite law_cons, picked_cons. cbn [coin]. ring. }
    rewrite !outcomes_scale, (IH F), (IH (fun heads => F (c :: heads))). reflexivity.
Qed.

(** The coins that a run with counts [n] uses. *)
Lemma used_coins {P} (n : P -> Z) keys N : (forall k, (0 <= n k <= Z.of_nat N)%Z) ->
  filter (fun c => (snd c =? n (fst c))%Z) (coins keys N) = map (fun k => (k, n k)) keys.
Proof.
  intro B. unfold coins. induction keys as [|k keys IH]; [reflexivity|]. cbn [list_prod map].
  rewrite filter_app, IH. change ((k, n k) :: map (fun k0 => (k0, n k0)) keys) with ([(k, n k)] ++ map (fun k0 => (k0, n k0)) keys).
  f_equal. clear IH. specialize (B k).
  assert (G : forall a m, filter (fun c : P * Z => (snd c =? n (fst c))%Z) (map (fun y => (k, y)) (map Z.of_nat (seq a m))) =
            if ((Z.of_nat a <=? n k)%Z && (n k <? Z.of_nat (a + m))%Z)%bool then [(k, n k)] else []).
  { intros a m. revert a. induction m as [|m IH]; intro a.
    - cbn. destruct (Z.leb_spec (Z.of_nat a) (n k)), (Z.ltb_spec (n k) (Z.of_nat (a + 0))); cbn; try reflexivity. lia.
    - cbn [seq map filter fst snd]. rewrite IH.
      destruct (Z.eqb_spec (Z.of_nat a) (n k)) as [E|E].
      + rewrite E. destruct (Z.leb_spec (Z.of_nat (S a)) (n k)); [lia|]. cbn [andb].
        destruct (Z.leb_spec (n k) (n k)); [|lia]. destruct (Z.ltb_spec (n k) (Z.of_nat (a + S m))); [reflexivity | lia].
      + destruct (Z.leb_spec (Z.of_nat (S a)) (n k)), (Z.leb_spec (Z.of_nat a) (n k)),
          (Z.ltb_spec (n k) (Z.of_nat (S a + m))), (Z.ltb_spec (n k) (Z.of_nat (a + S m))); cbn; reflexivity || lia. }
  rewrite G. destruct (Z.leb_spec (Z.of_nat 0) (n k)), (Z.ltb_spec (n k) (Z.of_nat (0 + S N))); cbn; reflexivity || lia.
Qed.

Lemma mem_picked {C} `{EqDec C} (cs : list C) bs : NoDup cs -> length bs = length cs ->
  map (fun c => mem c (picked cs bs)) cs = bs.
Proof.
  revert bs. induction cs as [|c cs IH]; intros [|b bs] N L; try discriminate; [reflexivity|].
  inversion N; subst. assert (I : incl (picked cs bs) cs).
  { intros x Hx. unfold picked in Hx. apply in_map_iff in Hx. destruct Hx as [[y b'] [E Hx]]. cbn in E. subst y.
    apply filter_In in Hx. destruct Hx as [Hx _]. exact (in_combine_l _ _ _ _ Hx). }
  cbn [map]. rewrite picked_cons. f_equal.
  - destruct b; [apply mem_true_iff; left; reflexivity|]. apply mem_false_iff. intro X. apply I in X. contradiction.
  - transitivity (map (fun c => mem c (picked cs bs)) cs); [|apply IH; [assumption | cbn in L; lia]]. apply map_ext_in. intros c' Hc'. apply mem_ext.
    destruct b; [|reflexivity]. split; [intros [->|X]; [contradiction | exact X] | intro X; right; exact X].
Qed.

(** A run whose result contains [k] exactly if [k] has a positive count and
    should_keep says so. *)
Lemma run_law {P} `{EqDec P} (keep : Z -> R) (keys : list P) N (n : P -> Z) (G : list (P * Z) -> list bool) (E : list bool -> bool) :
  NoDup keys -> (forall k, (0 <= n k <= Z.of_nat N)%Z) -> (forall z, (z <= 0)%Z -> keep z = 0) ->
  (forall heads, G heads = map (fun k => (0 <? n k)%Z && answers heads k (n k)) keys) ->
  expectation (coins keys N) (fun c => keep (snd c)) (fun heads => indicator (E (G heads))) =
  kept keep (map n keys) E.
Proof.
  intros Nk B Z0 EG.
  rewrite (expectation_ext _ _ _ (fun heads => indicator (E (map (fun k => (0 <? n k)%Z && answers heads k (n k)) keys))))
    by (intro heads; rewrite EG; reflexivity).
  rewrite (expectation_used (fun c => (snd c =? n (fst c))%Z)).
  2: { intro heads. f_equal. f_equal. apply map_ext. intro k. f_equal. unfold answers. apply mem_ext.
       rewrite filter_In. cbn. rewrite Z.eqb_refl. tauto. }
  rewrite used_coins by exact B. rewrite expectation_outcomes, map_map. cbn [snd]. unfold kept.
  rewrite !map_length, map_map. apply outcomes_ext. intros bs L.
  assert (Lw : forall (ks : list P) bs, length bs = length ks -> (exists k b, In (k, b) (combine ks bs) /\ b = true /\ (n k <= 0)%Z) ->
     law (map (fun k => keep (n k)) ks) bs = 0).
  { clear -Z0. induction ks as [|k ks IH]; intros [|b bs] L [k' [b' [I [Eb Hn]]]]; try discriminate; [destruct I|].
    cbn [map]. rewrite law_cons. destruct I as [I|I].
    - inversion I; subst. cbn [coin]. rewrite (Z0 _ Hn). ring.
    - rewrite (IH bs); [ring | cbn in L; lia | exists k', b'; auto]. }
  destruct (existsb (fun kb => snd kb && (n (fst kb) <=? 0)%Z) (combine keys bs)) eqn:X.
  - rewrite Lw; [ring | exact L |]. apply existsb_exists in X. destruct X as [[k b] [I X]]. cbn in X.
    apply andb_true_iff in X. destruct X as [X1 X2]. exists k, b. split; [exact I|]. split; [exact X1 | apply Z.leb_le; exact X2].
  - f_equal. f_equal. f_equal.
    assert (M := mem_picked (map (fun k => (k, n k)) keys) bs).
    rewrite map_map in M. etransitivity; [|apply M].
    + apply map_ext_in. intros k Hk. unfold answers.
      destruct (mem (k, n k) (picked (map (fun k0 => (k0, n k0)) keys) bs)) eqn:Mk; [|apply andb_false_r].
      rewrite andb_true_r. apply Z.ltb_lt. apply mem_true_iff in Mk. unfold picked in Mk.
      apply in_map_iff in Mk. destruct Mk as [[c b] [Ec Ib]]. cbn in Ec. subst c. apply filter_In in Ib. destruct Ib as [Ib Eb].
      cbn in Eb. subst b.
      assert (Ik : In (k, true) (combine keys bs)).
      { clear -Ib. revert bs Ib. induction keys as [|k' ks IH]; intros [|b bs] Ib; try destruct Ib.
        - left. inversion H. reflexivity.
        - right. apply IH. exact H. }
      destruct (Z.lt_ge_cases 0 (n k)) as [Y|Y]; [exact Y|]. exfalso.
      assert (T : existsb (fun kb => snd kb && (n (fst kb) <=? 0)%Z) (combine keys bs) = true).
      { apply existsb_exists. exists (k, true). split; [exact Ik|]. cbn. apply Z.leb_le. exact Y. }
      congruence.
    + apply NoDup_map_inj; [|exact Nk]. intros a b _ _ Eab. inversion Eab. reflexivity.
    + rewrite map_length. exact L.
Qed.

Lemma neighbouring_counts {P} (n n' : P -> Z) keys l0 :
  (forall k, (0 <= n' k)%Z) -> (forall k, (0 <= n k - n' k <= 1)%Z) ->
  (Z.of_nat (length (filter (fun k => negb (n k =? n' k)%Z) keys)) <= l0)%Z ->
  neighbouring l0 (map n keys) (map n' keys).
Proof.
  intros B D L. split.
  - clear L. induction keys as [|k keys IH]; constructor; [|exact IH]. specialize (B k). specialize (D k). lia.
  - eapply Z.le_trans; [|exact L]. apply Nat2Z.inj_le. clear. induction keys as [|k keys IH]; [cbn; lia|].
    cbn [map combine filter fst snd]. destruct (negb (n k =? n' k)%Z); cbn; lia.
Qed.
