(** Proofs about logarithmic bins and candidate bounds. *)
From Coq Require Import List ZArith QArith Bool Sorted Permutation Lia Znumtheory.
From Verif Require Import Base BackendModel BackendSpec ListLemmas BackendProofs HistModel HistSpec.
Import ListNotations.
Local Open Scope Z_scope.

Lemma grow_bound_spec fuel : forall v b,
  0 < b -> v <= b * 10 ^ Z.of_nat fuel ->
  exists j, 0 <= j /\ grow_bound fuel v b = b * 10 ^ j /\ v <= grow_bound fuel v b /\
            (j = 0 \/ b * 10 ^ (j - 1) < v).
Proof.
  induction fuel as [|f IH]; intros v b Hb Hv.
  - exists 0. cbn [grow_bound]. change (10 ^ Z.of_nat 0) with 1 in Hv.
    change (10 ^ 0) with 1. lia.
  - cbn [grow_bound]. destruct (Z.ltb_spec b v) as [L|L].
    + destruct (IH v (b * 10)) as (j & Hj & E & Le & Or); [lia | |].
      * rewrite Nat2Z.inj_succ, Z.pow_succ_r in Hv by lia. lia.
      * exists (j + 1). rewrite E in *.
        rewrite Z.pow_add_r by lia. change (10 ^ 1) with 10.
        repeat split; try lia.
        right. replace (j + 1 - 1) with j by lia.
        destruct Or as [-> | Or].
        -- change (10 ^ 0) with 1. lia.
        -- assert (j - 1 < 0 \/ 0 <= j - 1) as [N|N] by lia.
           { replace j with 0 by lia. change (10 ^ 0) with 1. lia. }
           replace j with (Z.succ (j - 1)) at 1 by lia.
           rewrite Z.pow_succ_r by lia. lia.
    + exists 0. change (10 ^ 0) with 1. lia.
Qed.

Lemma pow10_pos k : 0 <= k -> 0 < 10 ^ k.
Proof. intros. apply Z.pow_pos_nonneg; lia. Qed.

(** The unified description of the bin of a value. *)
Lemma log_bin_char v : 1 <= v ->
  exists k, 0 <= k /\ log_bin v = (v / 10 ^ k * 10 ^ k, v / 10 ^ k * 10 ^ k + 10 ^ k) /\
            (k = 0 /\ v < 1000 \/ 100 * 10 ^ k <= v < 1000 * 10 ^ k).
Proof.
  intros Hv. unfold log_bin.
  destruct (grow_bound_spec (Z.to_nat (Z.log2_up v)) v 1000) as (j & Hj & E & Le & Or); [lia | |].
  - rewrite Z2Nat.id by apply Z.log2_up_nonneg.
    assert (v <= 2 ^ Z.log2_up v).
    { assert (v = 1 \/ 1 < v) as [-> | N] by lia; [cbn; lia | apply Z.log2_up_spec; lia]. }
    assert (2 ^ Z.log2_up v <= 10 ^ Z.log2_up v)
      by (apply Z.pow_le_mono_l; pose proof (Z.log2_up_nonneg v); lia).
    lia.
  - rewrite E in *. clear E. pose proof (pow10_pos j Hj) as Hp.
    replace (1000 * 10 ^ j / 1000) with (10 ^ j) by (rewrite Z.mul_comm, Z.div_mul; lia).
    destruct (Z.eqb_spec v (1000 * 10 ^ j)) as [->|N]; cbn [negb].
    + exists (j + 1). rewrite Z.pow_add_r by lia. change (10 ^ 1) with 10.
      split; [lia|]. split; [|right; lia].
      replace (1000 * 10 ^ j / 10 ^ j) with 1000 by (rewrite Z.div_mul; lia).
      replace (1000 * 10 ^ j / (10 ^ j * 10)) with 100.
      2: { replace (1000 * 10 ^ j) with (100 * (10 ^ j * 10)) by lia. rewrite Z.div_mul; lia. }
      f_equal; lia.
    + exists j. split; [lia|]. split; [reflexivity|].
      destruct Or as [-> | Or].
      * left. change (10 ^ 0) with 1 in *. lia.
      * assert (j = 0 \/ 1 <= j) as [-> | N'] by lia.
        { left. change (10 ^ 0) with 1 in *. lia. }
        right. replace (10 ^ j) with (10 * 10 ^ (j - 1)) in *.
        2: { rewrite <- Z.pow_succ_r by lia. f_equal. lia. }
        lia.
Qed.

Lemma div_mul_range v p : 0 < p -> v / p * p <= v < v / p * p + p.
Proof.
  intros. pose proof (Z.div_mod v p ltac:(lia)). pose proof (Z.mod_pos_bound v p ltac:(lia)). lia.
Qed.

Lemma log_bin_contains v : 1 <= v ->
  leading_bin (fst (log_bin v)) (snd (log_bin v)) /\ fst (log_bin v) <= v < snd (log_bin v).
Proof.
  intros Hv. destruct (log_bin_char v Hv) as (k & Hk & -> & Or). cbn [fst snd].
  pose proof (pow10_pos k Hk) as Hp. pose proof (div_mul_range v (10 ^ k) Hp) as R.
  split; [|exact R].
  exists k. split; [exact Hk|]. split; [reflexivity|]. split; [exists (v / 10 ^ k); reflexivity|].
  destruct Or as [[-> L] | L].
  - left. change (10 ^ 0) with 1 in *. rewrite Z.div_1_r. lia.
  - right.
    assert (100 <= v / 10 ^ k) by (apply Z.div_le_lower_bound; lia).
    nia.
Qed.

Lemma pow10_lt_inv a b : 0 <= a -> 0 <= b -> 10 ^ a < 10 ^ b -> a + 1 <= b.
Proof.
  intros. assert (a < b); [|lia]. apply (Z.pow_lt_mono_r_iff 10); lia.
Qed.

Lemma pow10_succ_le a b : 0 <= a -> a + 1 <= b -> 10 * 10 ^ a <= 10 ^ b.
Proof.
  intros. rewrite <- Z.pow_succ_r by lia. apply Z.pow_le_mono_r; lia.
Qed.

(** Two bins with a common integer are equal. *)
Lemma leading_bin_unique lo up lo' up' v :
  leading_bin lo up -> leading_bin lo' up' -> lo <= v < up -> lo' <= v < up' ->
  lo = lo' /\ up = up'.
Proof.
  intros (k & Hk & Eu & [c Ec] & Or) (k' & Hk' & Eu' & [c' Ec'] & Or') R R'.
  pose proof (pow10_pos k Hk) as Hp. pose proof (pow10_pos k' Hk') as Hp'.
  assert (V : k = 0 /\ v < 1000 \/ 100 * 10 ^ k <= v < 1000 * 10 ^ k).
  { destruct Or as [[-> L] | L].
    - left. change (10 ^ 0) with 1 in *. lia.
    - right. split; [lia|].
      assert (c + 1 <= 1000) by nia. nia. }
  assert (V' : k' = 0 /\ v < 1000 \/ 100 * 10 ^ k' <= v < 1000 * 10 ^ k').
  { destruct Or' as [[-> L] | L].
    - left. change (10 ^ 0) with 1 in *. lia.
    - right. split; [lia|].
      assert (c' + 1 <= 1000) by nia. nia. }
  assert (K : k = k').
  { destruct (Z.lt_trichotomy k k') as [N | [N | N]]; [|exact N|].
    - pose proof (pow10_succ_le k k' Hk ltac:(lia)).
      destruct V' as [[-> L] | L]; [lia|]. destruct V as [[-> L'] | L'].
      + change (10 ^ 0) with 1 in *. lia.
      + lia.
    - pose proof (pow10_succ_le k' k Hk' ltac:(lia)).
      destruct V as [[-> L] | L]; [lia|]. destruct V' as [[-> L'] | L'].
      + change (10 ^ 0) with 1 in *. lia.
      + lia. }
  subst k'. assert (c = c') by nia. subst c'. lia.
Qed.

Lemma leading_bin_width lo up : leading_bin lo up -> up - lo = 1 \/ 100 * (up - lo) <= lo.
Proof.
  intros (k & Hk & Eu & _ & [[-> _] | L]); [left | right]; [change (10 ^ 0) with 1 in Eu|]; lia.
Qed.

Lemma leading_bin_pos lo up : leading_bin lo up -> 0 < lo < up.
Proof.
  intros (k & Hk & -> & _ & Or). pose proof (pow10_pos k Hk).
  destruct Or as [[-> L] | L]; lia.
Qed.

(** The bin of every integer of a bin is that bin. *)
Lemma log_bin_complete lo up v : leading_bin lo up -> lo <= v < up -> log_bin v = (lo, up).
Proof.
  intros B R. pose proof (leading_bin_pos _ _ B).
  destruct (log_bin_contains v ltac:(lia)) as [B' R'].
  destruct (leading_bin_unique _ _ _ _ v B' B R' R) as [E1 E2].
  destruct (log_bin v) as [a b]. cbn in *. congruence.
Qed.

Lemma log_bin_idem v : 1 <= v -> log_bin (fst (log_bin v)) = log_bin v.
Proof.
  intros Hv. destruct (log_bin_contains v Hv) as [B R].
  rewrite (log_bin_complete _ _ (fst (log_bin v)) B); [destruct (log_bin v); reflexivity|].
  pose proof (leading_bin_pos _ _ B). lia.
Qed.

(** ** Candidate bounds *)

(** The successor of the lower end of a bin is the upper end, itself the lower
    end of a bin. *)
Lemma leading_bin_next lo up : leading_bin lo up -> exists up', leading_bin up up'.
Proof.
  intros (k & Hk & -> & [c Ec] & Or). pose proof (pow10_pos k Hk) as Hp.
  assert (lo + 10 ^ k < 1000 * 10 ^ k \/ lo + 10 ^ k = 1000 * 10 ^ k) as [L | L].
  { destruct Or as [[-> L] | L]; [change (10 ^ 0) with 1 in *; lia|].
    assert (c + 1 <= 1000) by nia. nia. }
  - exists (lo + 10 ^ k + 10 ^ k). exists k. split; [exact Hk|]. split; [reflexivity|].
    split; [exists (c + 1); lia|].
    destruct Or as [[-> L'] | L']; [left; change (10 ^ 0) with 1 in *; lia | right; lia].
  - exists (lo + 10 ^ k + 10 ^ (k + 1)). exists (k + 1).
    rewrite L. rewrite Z.pow_add_r by lia. change (10 ^ 1) with 10.
    split; [lia|]. split; [reflexivity|]. split; [exists 100; lia|]. right. lia.
Qed.

(** The step of the loop goes from one lower end to the next. *)
Lemma bounds_step current power j :
  1 <= j -> power = 10 ^ j -> 10 ^ (j - 1) <= current <= power ->
  (exists up, leading_bin current up) ->
  let power' := if power <=? current then power * 10 else power in
  exists j', 1 <= j' /\ power' = 10 ^ j' /\
    leading_bin current (current + Z.max 1 (power' / 1000)) /\
    10 ^ (j' - 1) <= current + Z.max 1 (power' / 1000) <= power'.
Proof.
  intros Hj Ep R [up B] power'.
  assert (exists j', 1 <= j' /\ power' = 10 ^ j' /\ 10 ^ (j' - 1) <= current < 10 ^ j') as (j' & Hj' & Ep' & R').
  { subst power'. destruct (Z.leb_spec power current) as [L | L].
    - exists (j + 1). replace (j + 1 - 1) with j by lia.
      rewrite Z.pow_add_r by lia. change (10 ^ 1) with 10.
      pose proof (pow10_pos j ltac:(lia)). lia.
    - exists j. lia. }
  exists j'. split; [exact Hj'|]. split; [exact Ep'|].
  rewrite Ep'.
  destruct B as (k & Hk & Eu & [c Ec] & Or). pose proof (pow10_pos k Hk) as Hp.
  pose proof (pow10_pos (j' - 1) ltac:(lia)) as Hpj.
  assert (ES : 10 ^ j' = 10 * 10 ^ (j' - 1)) by (rewrite <- Z.pow_succ_r by lia; f_equal; lia).
  assert (S : Z.max 1 (10 ^ j' / 1000) = 10 ^ k).
  { destruct Or as [[-> L] | L].
    - change (10 ^ 0) with 1 in *.
      assert (j' < 4).
      { destruct (Z.lt_ge_cases j' 4) as [?|G]; [assumption|].
        assert (10 ^ 3 <= 10 ^ (j' - 1)) by (apply Z.pow_le_mono_r; lia).
        change (10 ^ 3) with 1000 in *. lia. }
      assert (j' = 1 \/ j' = 2 \/ j' = 3) as [-> | [-> | ->]] by lia; reflexivity.
    - assert (j' = k + 3) as ->.
      { assert (10 ^ (k + 2) = 100 * 10 ^ k) as E2
          by (rewrite Z.pow_add_r by lia; change (10 ^ 2) with 100; lia).
        assert (10 ^ (k + 3) = 1000 * 10 ^ k) as E3
          by (rewrite Z.pow_add_r by lia; change (10 ^ 3) with 1000; lia).
        assert (k + 2 < j') by (apply (Z.pow_lt_mono_r_iff 10); lia).
        assert (j' - 1 < k + 3) by (apply (Z.pow_lt_mono_r_iff 10); lia).
        lia. }
      rewrite (Z.pow_add_r 10 k 3) by lia. change (10 ^ 3) with 1000.
      rewrite Z.div_mul by lia. lia. }
  rewrite S. split; [exists k; repeat split; auto; exists c; exact Ec|].
  split; [lia|].
  destruct Or as [[-> L] | L].
  - change (10 ^ 0) with 1. lia.
  - assert (k + 1 <= j') as G.
    { assert (10 ^ k < 10 ^ j') by lia. pose proof (pow10_lt_inv k j' Hk ltac:(lia) ltac:(lia)). lia. }
    assert (exists d, 10 ^ j' = d * 10 ^ k) as [d Ed].
    { exists (10 ^ (j' - k)). rewrite <- Z.pow_add_r by lia. f_equal. lia. }
    assert (c < d) by nia. nia.
Qed.

(** All integers from [a] upwards. *)
Fixpoint from (n : nat) (a : Z) : list Z :=
  match n with O => [] | S n' => a :: from n' (a + 1) end.

Lemma in_from n : forall a x, In x (from n a) <-> a <= x < a + Z.of_nat n.
Proof.
  induction n as [|n IH]; intros a x; cbn [from In]; [lia|].
  rewrite IH. lia.
Qed.

Lemma bounds_loop_spec fuel : forall upper current power j,
  1 <= j -> power = 10 ^ j -> 10 ^ (j - 1) <= current <= power ->
  (exists up, leading_bin current up) -> upper < current + Z.of_nat fuel ->
  StronglySorted Z.lt (bounds_loop fuel upper current power) /\
  (forall x, In x (bounds_loop fuel upper current power) <->
             current <= x <= upper /\ exists up, leading_bin x up).
Proof.
  induction fuel as [|f IH]; intros upper current power j Hj Ep R B F; cbn [bounds_loop].
  - split; [constructor|]. intros x. split; [intros [] | intros [? _]; lia].
  - destruct (Z.leb_spec current upper) as [L | L].
    2: { split; [constructor|]. intros x. split; [intros [] | intros [? _]; lia]. }
    destruct (bounds_step current power j Hj Ep R B) as (j' & Hj' & Ep' & B' & R').
    set (power' := if power <=? current then power * 10 else power) in *.
    set (next := current + Z.max 1 (power' / 1000)) in *.
    destruct (leading_bin_next _ _ B') as [up' Bn].
    pose proof (leading_bin_pos _ _ B') as Pn.
    destruct (IH upper next power' j' Hj' Ep' R' (ex_intro _ up' Bn) ltac:(lia)) as [S I].
    split.
    + constructor; [exact S|]. apply Forall_forall. intros x Hx. apply I in Hx. lia.
    + intros x. cbn [In]. rewrite I. split.
      * intros [<- | [Rx Bx]]; [split; [lia | exact B] | split; [lia | exact Bx]].
      * intros [Rx [ux Bx]].
        destruct (Z.lt_ge_cases x next) as [N | N]; [|right; split; [lia | eauto]].
        left. pose proof (leading_bin_pos _ _ Bx).
        destruct (leading_bin_unique _ _ _ _ x B' Bx); lia.
Qed.

Lemma possible_bounds_spec upper :
  StronglySorted Z.lt (possible_bounds upper) /\
  (forall x, In x (possible_bounds upper) <-> 1 <= x <= upper /\ exists up, leading_bin x up).
Proof.
  unfold possible_bounds. apply (bounds_loop_spec _ _ _ _ 1); [lia | reflexivity | cbn; lia | | lia].
  exists 2. exists 0. split; [lia|]. split; [reflexivity|]. split; [exists 1; reflexivity|].
  left. lia.
Qed.
