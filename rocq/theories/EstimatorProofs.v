(** Proofs about the error estimator: binary search and interpolation. *)
From Coq Require Import List ZArith QArith Bool Sorted Lia Lqa.
From Verif Require Import Base BaseLemmas ListLemmas HistModel HistSpec HistProofs HistProofs2 HistProofs3 EstimatorModel EstimatorSpec.
Import ListNotations.

(** ** bisect_left *)
Lemma bisect_loop_spec fuel a x : forall lo hi, (lo <= hi <= length a)%nat -> (hi - lo <= fuel)%nat ->
  (forall i j, (i <= j < length a)%nat -> pair_lt (nth j a (0, 0)) x = true -> pair_lt (nth i a (0, 0)) x = true) ->
  (forall i, (i < lo)%nat -> pair_lt (nth i a (0, 0)) x = true) ->
  (forall i, (hi <= i < length a)%nat -> pair_lt (nth i a (0, 0)) x = false) ->
  let k := bisect_loop fuel a x lo hi in
  (k <= length a)%nat /\ (forall i, (i < k)%nat -> pair_lt (nth i a (0, 0)) x = true) /\
  (forall i, (k <= i < length a)%nat -> pair_lt (nth i a (0, 0)) x = false).
Proof.
  induction fuel as [|f IH]; intros lo hi B F M L H; cbn [bisect_loop].
  - assert (lo = hi) by lia. subst. repeat split; auto; lia.
  - destruct (Nat.ltb_spec lo hi) as [Hl|Hl].
    + set (mid := ((lo + hi) / 2)%nat).
      assert (Bm : (lo <= mid < hi)%nat).
      { unfold mid. split; [apply Nat.div_le_lower_bound; lia | apply Nat.div_lt_upper_bound; lia]. }
      destruct (pair_lt (nth mid a (0, 0)) x) eqn:E.
      * apply IH; auto; try lia. intros i Hi. apply (M i mid); [lia | exact E].
      * apply IH; auto; try lia. intros i Hi. destruct (pair_lt (nth i a (0, 0)) x) eqn:E'; [|reflexivity].
        rewrite (M mid i) in E; [discriminate | lia | exact E'].
    + assert (lo = hi) by lia. subst. repeat split; auto; lia.
Qed.

Lemma pair_lt_zero (p : Q * Q) (b : Q) : (0 <= snd p)%Q -> pair_lt p (b, 0) = true <-> (fst p < b)%Q.
Proof.
  intros N. unfold pair_lt. cbn [fst snd].
  assert (E : Qle_bool 0 (snd p) = true) by (apply Qle_bool_iff; exact N). rewrite E. cbn [negb].
  rewrite andb_false_r, orb_false_r, negb_true_iff.
  destruct (Qlt_le_dec (fst p) b) as [L|L].
  - split; [auto|]. intros _. destruct (Qle_bool b (fst p)) eqn:E'; [|reflexivity].
    apply Qle_bool_iff in E'. lra.
  - split; [|lra]. intros E'. exfalso. rewrite (proj2 (Qle_bool_iff _ _) L) in E'. discriminate.
Qed.

Lemma sorted_nth_lt (a : list (Q * Q)) : StronglySorted (fun p q => (fst p < fst q)%Q) a ->
  forall i j, (i < j < length a)%nat -> (fst (nth i a (0, 0)) < fst (nth j a (0, 0)))%Q.
Proof.
  induction 1 as [|p a S IH F]; intros i j B; cbn [length] in B; [lia|].
  destruct i, j; try lia; cbn [nth].
  - rewrite Forall_forall in F. apply F, nth_In. lia.
  - apply IH. lia.
Qed.

(** ** The ratio found: the entry of the bound, or the interpolation between two
    neighbours. *)
Lemma get_ratio_spec rs m (b : Q) : StronglySorted (fun p q => (fst p < fst q)%Q) rs ->
  Forall (fun p => (0 <= snd p)%Q) rs ->
  (exists y, hd_error rs = Some (0%Q, y)) -> (exists pre, rs = pre ++ [m]) -> (0 < b)%Q -> (b <= fst m)%Q ->
  (exists x y, In (x, y) rs /\ (x == b)%Q /\ get_ratio_dropped rs b = Ok y) \/
  (exists pre p q post, rs = pre ++ p :: q :: post /\ (fst p < b < fst q)%Q /\
     get_ratio_dropped rs b = Ok ((snd p * (fst q - b) + snd q * (b - fst p)) / (fst q - fst p))%Q).
Proof.
  intros Ss N [y0 H0] [pre0 E0] Pb Lb. unfold get_ratio_dropped.
  assert (E1 : Qle_bool b 0 = false).
  { destruct (Qle_bool b 0) eqn:E; [|reflexivity]. apply Qle_bool_iff in E. lra. }
  rewrite E1. assert (Er : rev rs = m :: rev pre0) by (rewrite E0, rev_app_distr; reflexivity). rewrite Er.
  rewrite (proj2 (Qle_bool_iff _ _) Lb). cbn [negb].
  assert (Nn : forall i, (0 <= snd (nth i rs (0, 0)))%Q).
  { intros i. destruct (nth_in_or_default i rs (0, 0)%Q) as [I|I]; [|rewrite I; cbn; lra].
    rewrite Forall_forall in N. apply N. exact I. }
  destruct (bisect_loop_spec (length rs) rs (b, 0%Q) 0 (length rs)) as (K1 & K2 & K3); try lia.
  { intros i j B J. apply (pair_lt_zero _ _ (Nn j)) in J. apply (pair_lt_zero _ _ (Nn i)).
    destruct (Nat.eq_dec i j) as [->|D]; [exact J|].
    pose proof (sorted_nth_lt rs Ss i j ltac:(lia)). lra. }
  fold (bisect_left rs (b, 0%Q)) in K1, K2, K3. set (k := bisect_left rs (b, 0%Q)) in *. clearbody k.
  assert (Lm : nth (length pre0) rs (0, 0)%Q = m).
  { rewrite E0, app_nth2, Nat.sub_diag by lia. reflexivity. }
  assert (Len : length rs = S (length pre0)) by (rewrite E0, app_length; cbn; lia).
  assert (Kl : (k < length rs)%nat).
  { destruct (Nat.eq_dec k (length rs)) as [->|]; [|lia]. exfalso.
    specialize (K2 (length pre0) ltac:(lia)). apply (pair_lt_zero _ _ (Nn _)) in K2. rewrite Lm in K2. lra. }
  assert (Kp : (0 < k)%nat).
  { destruct k; [|lia]. exfalso. specialize (K3 0%nat ltac:(lia)).
    destruct rs as [|[x y] rs']; [cbn in Kl; lia|]. cbn in H0. injection H0 as -> ->.
    cbn [nth] in K3. assert (pair_lt (0%Q, y0) (b, 0%Q) = true); [|congruence].
    apply pair_lt_zero; [exact (Nn 0%nat) | exact Pb]. }
  rewrite (nth_error_nth' rs (0, 0)%Q Kl).
  destruct (nth k rs (0, 0)%Q) as [x2 y2] eqn:E2.
  assert (Gk : (b <= x2)%Q).
  { specialize (K3 k ltac:(lia)). rewrite E2 in K3. destruct (Qlt_le_dec x2 b) as [L|L]; [|exact L].
    exfalso. assert (pair_lt (x2, y2) (b, 0%Q) = true); [|congruence].
    apply pair_lt_zero; [|exact L]. pose proof (Nn k) as P. rewrite E2 in P. exact P. }
  destruct (Qeq_bool x2 b) eqn:Eq.
  - left. exists x2, y2. split; [|split; [apply Qeq_bool_iff; exact Eq | reflexivity]].
    rewrite <- E2. apply nth_In. exact Kl.
  - right. destruct k as [|i]; [lia|].
    assert (Li : (fst (nth i rs (0, 0)) < b)%Q) by (apply (pair_lt_zero _ _ (Nn i)), K2; lia).
    destruct (nth i rs (0, 0)%Q) as [x1 y1] eqn:Ei. cbn [fst] in Li.
    assert (Lb2 : (b < x2)%Q).
    { apply Qle_lteq in Gk. destruct Gk as [G|G]; [exact G|]. exfalso.
      assert (Qeq_bool x2 b = true) by (apply Qeq_bool_iff; symmetry; exact G). congruence. }
    destruct (nth_split rs (0, 0)%Q (ltac:(lia) : (i < length rs)%nat)) as (l1 & l2 & Es & El).
    rewrite Ei in Es.
    destruct l2 as [|q post].
    { exfalso. rewrite Es, app_length in Kl. cbn in Kl. lia. }
    assert (q = (x2, y2)).
    { rewrite <- E2, Es, app_nth2 by lia. replace (S i - length l1)%nat with 1%nat by lia. reflexivity. }
    subst q. exists l1, (x1, y1), (x2, y2), post. split; [exact Es|]. cbn [fst snd]. split; [lra|].
    assert (E3 : Qeq_bool (x2 - x1) 0 = false).
    { destruct (Qeq_bool (x2 - x1) 0) eqn:E3; [|reflexivity]. apply Qeq_bool_iff in E3. lra. }
    rewrite E3. reflexivity.
Qed.

(** ** Interpolation of the excess *)
Local Open Scope Z_scope.

Lemma chord_point l1 l2 b x : l1 < b < l2 ->
  (l2 - l1) * Z.max 0 (x - b) <= Z.max 0 (x - l1) * (l2 - b) + Z.max 0 (x - l2) * (b - l1)
  <= (l2 - l1) * Z.max 0 (x - b) + (l2 - l1) * (if (l1 <? x) && (x <? l2) then x - l1 else 0).
Proof.
  intros B. destruct (Z.ltb_spec l1 x), (Z.ltb_spec x l2); cbn [andb].
  - rewrite (Z.max_r 0 (x - l1)), (Z.max_l 0 (x - l2)) by lia.
    destruct (Z.leb_spec x b).
    + rewrite (Z.max_l 0 (x - b)) by lia. nia.
    + rewrite (Z.max_r 0 (x - b)) by lia. nia.
  - rewrite (Z.max_r 0 (x - l1)), (Z.max_r 0 (x - l2)), (Z.max_r 0 (x - b)) by lia. nia.
  - rewrite !Z.max_l by lia. lia.
  - lia.
Qed.

Lemma excess_cons t x xs : excess t (x :: xs) = Z.max 0 (x - t) + excess t xs.
Proof. unfold excess. cbn [map]. rewrite sumZ_cons. reflexivity. Qed.

Definition between (l1 l2 : Z) (xs : list Z) : Z := sumZ (map (fun x => if (l1 <? x) && (x <? l2) then x - l1 else 0) xs).

Lemma chord l1 l2 b xs : l1 < b < l2 ->
  (l2 - l1) * excess b xs <= excess l1 xs * (l2 - b) + excess l2 xs * (b - l1)
  <= (l2 - l1) * excess b xs + (l2 - l1) * between l1 l2 xs.
Proof.
  intros B. induction xs as [|x xs IH]; [cbn; lia|].
  unfold between. cbn [map]. rewrite !excess_cons, sumZ_cons. fold (between l1 l2 xs).
  pose proof (chord_point l1 l2 b x B). nia.
Qed.

Lemma excess_bounds t xs : 0 <= t -> Forall (fun x => 1 <= x) xs -> 0 <= excess t xs <= sumZ xs.
Proof.
  intros Ht. induction 1 as [|x xs P F IH]; [cbn; lia|]. rewrite excess_cons, sumZ_cons. lia.
Qed.

Lemma between_bound l1 l2 xs : Forall (fun x => 1 <= x) xs ->
  (forall x, In x xs -> l1 < x < l2 -> 100 * (x - l1) <= x) -> 0 <= 100 * between l1 l2 xs <= sumZ xs.
Proof.
  intros F. induction F as [|x xs P F IH]; intros H; [cbn; lia|].
  unfold between. cbn [map]. rewrite !sumZ_cons. fold (between l1 l2 xs).
  specialize (IH ltac:(intros y I; apply H; right; exact I)).
  specialize (H x (or_introl eq_refl)).
  destruct (Z.ltb_spec l1 x), (Z.ltb_spec x l2); cbn [andb]; lia.
Qed.

Lemma between_none l1 l2 xs : (forall x, In x xs -> ~ l1 < x < l2) -> between l1 l2 xs = 0.
Proof.
  induction xs as [|x xs IH]; intros H; [reflexivity|].
  unfold between. cbn [map]. rewrite sumZ_cons. fold (between l1 l2 xs).
  rewrite IH by (intros y I; apply H; right; exact I). specialize (H x (or_introl eq_refl)).
  destruct (Z.ltb_spec l1 x), (Z.ltb_spec x l2); cbn [andb]; lia.
Qed.

(** ** Neighbours in the list of ratios *)
Lemma sorted_neighbours {A} (f : A -> Z) pre p q post : StronglySorted (fun a b => f a < f b) (pre ++ p :: q :: post) ->
  forall r, In r (pre ++ p :: q :: post) -> f r <= f p \/ f q <= f r.
Proof.
  induction pre as [|a pre IH]; cbn [app]; intros Ss r I.
  - inversion Ss as [|? ? Ss' F]; subst. inversion Ss' as [|? ? _ F']; subst.
    destruct I as [<-|[<-|I]]; [lia|lia|]. rewrite Forall_forall in F'. specialize (F' r I). lia.
  - inversion Ss as [|? ? Ss' F]; subst. destruct I as [<-|I].
    + left. rewrite Forall_forall in F. assert (In p (pre ++ p :: q :: post)) by (apply in_or_app; right; left; reflexivity).
      specialize (F p H). lia.
    + exact (IH Ss' r I).
Qed.

(** A contribution strictly between two neighbouring thresholds lies in the bin of the
    lower one. *)
Lemma neighbours_bin xs h m (rs : list (Z * Q)) pre p q post x :
  Forall (fun x => 1 <= x) xs -> histogram_of xs h -> maximum m xs ->
  StronglySorted (fun a b => fst a < fst b) rs -> (forall t, In t (map fst rs) <-> t = 0 \/ In t (map b_lower h) \/ t = m) ->
  rs = pre ++ p :: q :: post -> In x xs -> fst p < x < fst q ->
  exists b, In b h /\ b_lower b = fst p /\ x < b_upper b.
Proof.
  intros F H M Ss K E I B. assert (H' := H). destruct H' as (Sh & Fd & C).
  destruct (C x I) as (b & Ib & Rb). exists b. split; [exact Ib|]. split; [|lia].
  assert (Pb : 0 < b_lower b).
  { rewrite Forall_forall in Fd. destruct (Fd b Ib) as (L & _). pose proof (leading_bin_pos _ _ L). lia. }
  assert (Kb : In (b_lower b) (map fst rs)) by (apply K; right; left; apply in_map; exact Ib).
  apply in_map_iff in Kb. destruct Kb as (r & Er & Ir). rewrite E in Ir.
  rewrite E in Ss. pose proof (sorted_neighbours fst pre p q post Ss r Ir) as D.
  destruct D as [D|D]; [|lia]. destruct (Z.eq_dec (b_lower b) (fst p)) as [|N]; [assumption|]. exfalso.
  assert (Kp : In (fst p) (map fst rs)).
  { rewrite E. apply in_map, in_or_app. right. left. reflexivity. }
  apply K in Kp. destruct Kp as [Z0|[Z0|Z0]].
  - lia.
  - apply in_map_iff in Z0. destruct Z0 as (b1 & E1 & I1).
    assert (b_upper b <= b_lower b1).
    { clear - Sh Ib I1 E1 Er N D Fd. induction Sh as [|a h Sh IH Fa]; [destruct Ib|].
      inversion Fd as [|? ? (La & _) Fd']; subst. pose proof (leading_bin_pos _ _ La).
      rewrite Forall_forall in Fa. destruct Ib as [<-|Ib], I1 as [<-|I1].
      - lia.
      - apply Fa. exact I1.
      - specialize (Fa b Ib). cbn in Fa. lia.
      - apply IH; auto. }
    lia.
  - destruct M as [_ Mm]. rewrite Forall_forall in Mm. specialize (Mm x I). cbn in Mm. lia.
Qed.

Lemma leading_bin_small lo up x : leading_bin lo up -> lo <= x < up -> x < 1000 -> x = lo.
Proof.
  intros (k & Pk & Eu & D & [[Ek R]|R]) B L.
  - subst k. cbn in Eu. lia.
  - destruct (Z.eq_dec k 0) as [->|N]; [cbn in Eu; lia|].
    assert (10 ^ 1 <= 10 ^ k) by (apply Z.pow_le_mono_r; lia). change (10 ^ 1) with 10 in *. lia.
Qed.

(** ** The list handed to the estimator *)
Lemma ratios_of_sorted rs : StronglySorted (fun a b : Z * Q => fst a < fst b /\ (snd b < snd a)%Q) rs ->
  StronglySorted (fun a b => fst a < fst b)%Q (ratios_of rs).
Proof.
  induction 1 as [|a rs Ss IH F]; cbn [ratios_of map]; constructor; [exact IH|].
  apply Forall_forall. intros b I. apply in_map_iff in I. destruct I as (c & <- & Ic).
  rewrite Forall_forall in F. destruct (F c Ic) as [L _]. cbn [fst]. rewrite <- Zlt_Qlt. exact L.
Qed.

Lemma sorted_fst_only rs : StronglySorted (fun a b : Z * Q => fst a < fst b /\ (snd b < snd a)%Q) rs ->
  StronglySorted (fun a b => fst a < fst b) rs.
Proof.
  induction 1 as [|a rs Ss IH F]; constructor; [exact IH|]. eapply Forall_impl; [|exact F]. cbn. tauto.
Qed.
