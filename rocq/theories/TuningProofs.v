(** Lemmas for C45. *)
From Coq Require Import List ZArith QArith Qround Bool Permutation Sorted Lia Lqa.
From Verif Require Import Base BaseLemmas ListLemmas HistModel HistProofs4 TuningModel.
Import ListNotations.
Local Open Scope Z_scope.

(** ** Integer candidates *)
Lemma set_last_cons {A} (x y : A) l : l <> [] -> set_last x (y :: l) = y :: set_last x l.
Proof. destruct l; [congruence | reflexivity]. Qed.
Lemma set_last_length {A} (x : A) l : length (set_last x l) = length l.
Proof.
  induction l as [|y l IH]; [reflexivity|]. destruct l as [|z l]; [reflexivity|].
  rewrite set_last_cons by discriminate. cbn [length]. rewrite IH. reflexivity.
Qed.
Lemma set_last_last {A} (x d : A) l : l <> [] -> last (set_last x l) d = x.
Proof.
  induction l as [|y l IH]; [congruence|]. intros _. destruct l as [|z l]; [reflexivity|].
  rewrite set_last_cons by discriminate.
  assert (N : set_last x (z :: l) <> []) by (intro E; apply (f_equal (@length A)) in E; rewrite set_last_length in E; discriminate).
  destruct (set_last x (z :: l)) as [|w l'] eqn:E; [congruence|]. rewrite <- (IH ltac:(discriminate)). reflexivity.
Qed.

Lemma step_loop_spec ceils m n i previous : previous < m -> (0 < n)%nat ->
  let l := step_loop ceils m n i previous in
  l <> [] /\ (length l <= n)%nat /\ StronglySorted Z.lt (set_last m l) /\
  Forall (fun x => previous < x <= m) (set_last m l).
Proof.
  revert i previous. induction n as [|n IH]; intros i previous L Hn; [lia|]. cbn [step_loop].
  destruct (Z.leb_spec m previous); [lia|].
  set (next := Z.max (previous + 1) (ceils i)). cbv zeta.
  split; [discriminate|].
  destruct (Z.ltb_spec next m) as [Ln|Ln].
  - destruct n as [|n'].
    + cbn. split; [lia|]. split; [constructor; constructor | constructor; [lia | constructor]].
    + destruct (IH (S i) next Ln ltac:(lia)) as (A & B & C & D).
      set (r := step_loop ceils m (S n') (S i) next) in *.
      rewrite set_last_cons by exact A. split; [cbn [length]; lia|]. split.
      * constructor; [exact C|]. eapply Forall_impl; [|exact D]. cbn. intros; lia.
      * constructor; [lia|]. eapply Forall_impl; [|exact D]. cbn. intros; lia.
  - assert (E : step_loop ceils m n (S i) next = []).
    { destruct n; [reflexivity|]. cbn [step_loop]. destruct (Z.leb_spec m next); [reflexivity | lia]. }
    rewrite E. cbn. split; [lia|]. split; [constructor; constructor | constructor; [lia | constructor]].
Qed.

Lemma Ok_inj {A} (x y : A) : Ok x = Ok y -> x = y.
Proof. congruence. Qed.

Lemma relative_step_spec ceils m k cs : constant_relative_step ceils m k = Ok cs ->
  StronglySorted Z.lt cs /\ hd 0 cs = 1 /\ Forall (fun x => 1 <= x <= m) cs /\
  Z.of_nat (length cs) <= k /\ (2 <= k -> last cs 0 = m).
Proof.
  unfold constant_relative_step. destruct (Z.ltb_spec m 1); [discriminate|].
  destruct (Z.leb_spec (Z.min k m) 0); [discriminate|].
  destruct (Z.eqb_spec (Z.min k m) 1) as [E|E]; intro X; apply Ok_inj in X; subst cs.
  - split; [constructor; constructor|]. split; [reflexivity|]. split; [constructor; [lia | constructor]|]. cbn. lia.
  - destruct (step_loop_spec ceils m (Z.to_nat (Z.min k m - 1)) 1 1 ltac:(lia) ltac:(lia)) as (A & B & C & D).
    set (r := step_loop ceils m (Z.to_nat (Z.min k m - 1)) 1 1) in *.
    rewrite set_last_cons by exact A. split; [|split; [|split; [|split]]].
    + constructor; [exact C|]. eapply Forall_impl; [|exact D]. cbn. intros; lia.
    + reflexivity.
    + constructor; [lia|]. eapply Forall_impl; [|exact D]. cbn. intros; lia.
    + cbn [length]. rewrite set_last_length. lia.
    + intros _. assert (L := set_last_last m 0 (1 :: r) ltac:(discriminate)). rewrite set_last_cons in L by exact A. exact L.
Qed.

Lemma relative_step_ok ceils m k : 1 <= m -> 1 <= k -> exists cs, constant_relative_step ceils m k = Ok cs /\ cs <> [].
Proof.
  intros Hm Hk. unfold constant_relative_step. destruct (Z.ltb_spec m 1); [lia|].
  destruct (Z.leb_spec (Z.min k m) 0); [lia|]. destruct (Z.eqb_spec (Z.min k m) 1); eexists; (split; [reflexivity|]).
  - discriminate.
  - intro E. apply (f_equal (@length Z)) in E. rewrite set_last_length in E. discriminate.
Qed.

Lemma sorted_NoDup {A} (R : A -> A -> Prop) l : (forall x, ~ R x x) -> StronglySorted R l -> NoDup l.
Proof.
  intros I. induction 1 as [|x l S IH F]; constructor; [|exact IH].
  intro Hx. rewrite Forall_forall in F. exact (I x (F x Hx)).
Qed.

(** ** Sum candidates *)
Lemma py_round_bounds q : (q - (1 # 2) <= inject_Z (py_round q) /\ inject_Z (py_round q) <= q + (1 # 2))%Q.
Proof.
  unfold py_round. set (f := Qfloor (q + (1 # 2))).
  assert (A := Qfloor_le (q + (1 # 2))). assert (B := Qlt_floor (q + (1 # 2))). fold f in A, B.
  rewrite inject_Z_plus in B. change (inject_Z 1) with 1%Q in B.
  destruct (Qeq_bool (inject_Z f) (q + (1 # 2)) && Z.odd f) eqn:E.
  - apply andb_true_iff in E. destruct E as [E _]. apply Qeq_bool_eq in E.
    unfold Z.sub. rewrite inject_Z_plus. change (inject_Z (Z.opp 1)) with (- (1))%Q. split; lra.
  - split; lra.
Qed.

Lemma injZ_lt a b : (inject_Z a < inject_Z b)%Q -> a < b.
Proof. rewrite <- Zlt_Qlt. auto. Qed.
Lemma injZ_le a b : (inject_Z a <= inject_Z b)%Q -> a <= b.
Proof. rewrite <- Zle_Qle. auto. Qed.

(** Positions chosen by linspace. *)
Definition positions (start stop : Z) (num : nat) : list Z := map py_round (linspace start stop num).

Lemma sorted_map_seq {A} (R : A -> A -> Prop) (f : nat -> A) n : forall s,
  (forall i j, (s <= i)%nat -> (i < j)%nat -> (j < s + n)%nat -> R (f i) (f j)) -> StronglySorted R (map f (seq s n)).
Proof.
  induction n as [|n IH]; intros s H; [constructor|]. cbn [seq map]. constructor.
  - apply IH. intros i j Hi Hj Hk. apply H; lia.
  - apply Forall_forall. intros x I. apply in_map_iff in I. destruct I as [j [<- I]]. apply in_seq in I. apply H; lia.
Qed.

Lemma positions_spec start stop num : 0 <= start -> start <= stop -> Z.of_nat num <= stop - start + 1 ->
  StronglySorted Z.lt (positions start stop num) /\
  Forall (fun p => start <= p <= stop) (positions start stop num) /\
  length (positions start stop num) = num /\
  ((0 < num)%nat -> hd 0 (positions start stop num) = start) /\
  ((2 <= num)%nat -> last (positions start stop num) 0 = stop).
Proof.
  intros H0 H1 Hn. unfold positions. destruct num as [|[|m]].
  - cbn. repeat split; try constructor; lia.
  - cbn [linspace map]. rewrite (py_round_integer (inject_Z start) start) by reflexivity.
    split; [constructor; constructor|]. split; [constructor; [lia | constructor]|]. cbn. lia.
  - cbn [linspace]. rewrite map_map. set (k := S m) in *.
    set (v := fun i => (inject_Z start + inject_Z (Z.of_nat i) * (inject_Z (stop - start) / inject_Z (Z.of_nat k)))%Q).
    set (step := (inject_Z (stop - start) / inject_Z (Z.of_nat k))%Q).
    assert (Pk : (0 < inject_Z (Z.of_nat k))%Q) by (change 0%Q with (inject_Z 0); rewrite <- Zlt_Qlt; lia).
    assert (Nk : ~ (inject_Z (Z.of_nat k) == 0)%Q) by (intro E; rewrite E in Pk; discriminate).
    assert (S1 : (1 <= step)%Q).
    { unfold step. apply Qle_shift_div_l; [exact Pk|]. rewrite Qmult_1_l, <- Zle_Qle. lia. }
    assert (V0 : py_round (v O) = start).
    { apply py_round_integer. unfold v. change (inject_Z (Z.of_nat 0)) with 0%Q. ring. }
    assert (Vk : py_round (v k) = stop).
    { apply py_round_integer. unfold v.
      assert (E : (inject_Z (Z.of_nat k) * (inject_Z (stop - start) / inject_Z (Z.of_nat k)) == inject_Z (stop - start))%Q) by (field; exact Nk).
      rewrite E. rewrite <- inject_Z_plus. replace (start + (stop - start)) with stop by lia. reflexivity. }
    assert (D : forall i j, (i < j)%nat -> (step <= v j - v i)%Q).
    { intros i j L. unfold v. fold step.
      assert (E : (inject_Z start + inject_Z (Z.of_nat j) * step - (inject_Z start + inject_Z (Z.of_nat i) * step)
                   == inject_Z (Z.of_nat j - Z.of_nat i) * step)%Q).
      { unfold Z.sub. rewrite inject_Z_plus, inject_Z_opp. ring. }
      rewrite E. assert (G : (1 <= inject_Z (Z.of_nat j - Z.of_nat i))%Q) by (change 1%Q with (inject_Z 1); rewrite <- Zle_Qle; lia).
      rewrite <- (Qmult_1_l step) at 1. apply Qmult_le_compat_r; [exact G | lra]. }
    assert (M : forall i j, (i < j)%nat -> py_round (v i) < py_round (v j)).
    { intros i j L. destruct (Qle_lt_or_eq _ _ S1) as [S2|S2].
      - assert (A := py_round_bounds (v i)). assert (B := py_round_bounds (v j)). assert (C := D i j L).
        apply injZ_lt. lra.
      - assert (I : forall i, py_round (v i) = start + Z.of_nat i).
        { intro i0. apply py_round_integer. unfold v. fold step. rewrite <- S2, inject_Z_plus. ring. }
        rewrite !I. lia. }
    split; [|split; [|split; [|split]]].
    + apply sorted_map_seq. intros i j _ L _. apply M. exact L.
    + apply Forall_forall. intros x I. apply in_map_iff in I. destruct I as [i [<- I]]. apply in_seq in I.
      cut (start <= py_round (v i) <= stop); [intro Y; exact Y|]. split.
      * destruct i as [|i]; [rewrite V0; lia|]. assert (X := M O (S i) ltac:(lia)). lia.
      * destruct (Nat.eq_dec i k) as [->|Ne]; [rewrite Vk; lia|]. assert (X := M i k ltac:(lia)). lia.
    + rewrite map_length, seq_length. reflexivity.
    + intros _. cbn [seq map hd]. exact V0.
    + intros _. rewrite seq_S, map_app. cbn [map]. rewrite last_last. exact Vk.
Qed.

Lemma nth_sorted {A} (R : A -> A -> Prop) d (l : list A) i j : StronglySorted R l -> (i < j)%nat -> (j < length l)%nat -> R (nth i l d) (nth j l d).
Proof.
  intro S. revert i j. induction S as [|x l S IH F]; intros i j Hi Hj; [cbn in Hj; lia|].
  destruct j as [|j]; [lia|]. cbn in Hj. destruct i as [|i].
  - cbn [nth]. rewrite Forall_forall in F. apply F. apply nth_In. lia.
  - cbn [nth]. apply IH; lia.
Qed.

Lemma nth_last {A} (l : list A) d : nth (length l - 1) l d = last l d.
Proof.
  induction l as [|x l IH]; [reflexivity|]. destruct l as [|y l]; [reflexivity|].
  change (last (x :: y :: l) d) with (last (y :: l) d). rewrite <- IH. cbn [length].
  replace (S (S (length l)) - 1)%nat with (S (length l)) by lia. replace (S (length l) - 1)%nat with (length l) by lia. reflexivity.
Qed.

Lemma hd_map {A B} (f : A -> B) l d d' : l <> [] -> hd d (map f l) = f (hd d' l).
Proof. destruct l; [congruence | reflexivity]. Qed.
Lemma last_map {A B} (f : A -> B) l d d' : l <> [] -> last (map f l) d = f (last l d').
Proof.
  induction l as [|x l IH]; [congruence|]. intros _. destruct l as [|y l]; [reflexivity|].
  change (last (map f (x :: y :: l)) d) with (last (map f (y :: l)) d). rewrite IH by discriminate. reflexivity.
Qed.

Definition first_bin (maxs : list Q) : nat := if Qle_bool (hd 0%Q maxs) 0 then 1 else 0.

Lemma subsample_spec maxs k cs : StronglySorted Qlt maxs -> bins_max_values_subsample maxs k = Ok cs ->
  StronglySorted Qlt cs /\ incl cs maxs /\ Z.of_nat (length cs) <= Z.max 0 k /\
  (cs <> [] -> hd 0%Q cs = nth (first_bin maxs) maxs 0%Q) /\
  ((2 <= length cs)%nat -> last cs 0%Q = last maxs 0%Q) /\
  Z.of_nat (length cs) = Z.min k (Z.of_nat (length maxs) - Z.of_nat (first_bin maxs)).
Proof.
  intro S. unfold bins_max_values_subsample. destruct maxs as [|m0 rest] eqn:Em; [discriminate|].
  rewrite <- Em in *.
  assert (F : (if Qle_bool m0 0 then 1 else 0) = Z.of_nat (first_bin maxs)).
  { unfold first_bin. rewrite Em. cbn [hd]. destruct (Qle_bool m0 0); reflexivity. }
  rewrite F. set (from := first_bin maxs) in *. set (n := length maxs) in *.
  assert (Hf : (from <= 1)%nat) by (unfold from, first_bin; destruct (Qle_bool (hd 0%Q maxs) 0); [apply le_n | apply le_S, le_n]).
  assert (Hn : (1 <= n)%nat) by (unfold n; rewrite Em; apply le_n_S, Nat.le_0_l).
  destruct (Z.ltb_spec (Z.min k (Z.of_nat n - Z.of_nat from)) 0) as [|H]; [discriminate|].
  set (num := Z.to_nat (Z.min k (Z.of_nat n - Z.of_nat from))). intro X. apply Ok_inj in X. subst cs.
  rewrite <- (map_map py_round (fun p => nth (Z.to_nat p) maxs 0%Q)). fold (positions (Z.of_nat from) (Z.of_nat n - 1) num).
  assert (Enum : Z.of_nat num = Z.min k (Z.of_nat n - Z.of_nat from)) by (unfold num; lia).
  clearbody num from. destruct (Nat.eq_dec num 0) as [Z0|NZ].
  { rewrite Z0. cbn. split; [constructor|]. split; [intros x []|]. split; [lia|]. split; [congruence|]. split; lia. }
  destruct (positions_spec (Z.of_nat from) (Z.of_nat n - 1) num ltac:(lia) ltac:(lia) ltac:(lia)) as (A & B & C & D & E).
  set (ps := positions (Z.of_nat from) (Z.of_nat n - 1) num) in *.
  assert (Nps : ps <> []) by (intro Z; rewrite Z in C; cbn in C; lia).
  rewrite map_length, C. split; [|split; [|split; [|split; [|split]]]].
  - clear -A B S. induction A as [|p l A IH F]; [constructor|]. inversion B as [|? ? Bp B']; subst. cbn [map]. constructor; [exact (IH B')|].
    apply Forall_forall. intros x I. apply in_map_iff in I. destruct I as [q [<- I]].
    rewrite Forall_forall in F, B'. assert (L := F q I). assert (Bq := B' q I).
    apply nth_sorted; [exact S | lia | lia].
  - intros x I. apply in_map_iff in I. destruct I as [p [<- I]]. rewrite Forall_forall in B. assert (Bp := B p I). apply nth_In. lia.
  - lia.
  - intros _. rewrite (hd_map _ _ _ 0) by exact Nps. rewrite D by lia. rewrite Nat2Z.id. reflexivity.
  - intro L. rewrite (last_map _ _ _ 0) by exact Nps. rewrite E by lia.
    replace (Z.to_nat (Z.of_nat n - 1)) with (length maxs - 1)%nat by (unfold n; lia). apply nth_last.
  - exact Enum.
Qed.
