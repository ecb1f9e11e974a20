(** C77: the chances of contributions to survive contribution bounding. *)
From Coq Require Import List ZArith QArith Bool Lia Permutation PeanoNat Setoid.
From Coq Require Import Lqa.
From Verif Require Import Base BaseLemmas ListLemmas BackendModel BackendSpec BackendProofs BounderModel BounderSpec BounderProofs.
From Verif Require Import ParamsModel EngineModel AnalyzeSpec.
From Verif Require Import SampleModel SampleSpec SampleProofs SampleProofs2 SampleProofs3 SampleProofs4.
Import ListNotations.
Local Open Scope Q_scope.

(** ** Local sampling *)

(** LocalBackend.sample_fixed_per_key and choose_from_list_without_replacement give
    every element the same chance, whatever is measured on the elements.  The draws are
    legal: no position twice, all in range, exactly as many as asked for. *)
Theorem C77_local_sampling_is_fair : forall A n (l : list A),
  let m := length l in
  is_distribution (draw (Nat.min n m) m) /\
  (forall idx, possible (draw (Nat.min n m) m) idx -> valid_draw (Nat.min n m) m idx) /\
  (forall f, expect (draw (Nat.min n m) m) (fun idx => total f (choose idx n l)) == chance n m * total f l).
Proof.
  intros A n l m. split; [apply draw_dist; unfold m; lia|]. split; [intros idx; apply draw_valid|]. intro f. apply choose_fair.
Qed.

(** ** Spark *)
Lemma survives_total {A} `{EqDec A} n (t : tree A) a : NoDup (leaves t) ->
  survives n t a == weighted (fun b => indicator (eqb b a)) (spark_chances n t) (leaves t).
Proof.
  intro N. rewrite <- spark_chances_exact. apply expect_ext. intros x I. apply spark_draws_possible in I. destruct I as (Vx & Lx & _).
  apply spark_sample_submset in Vx. rewrite Lx in Vx. apply submset_NoDup in Vx; [|exact N].
  clear -Vx. induction Vx as [|b l Nb N IH]; [reflexivity|]. rewrite total_cons, <- IH. unfold mem. cbn [existsb]. fold (mem a l).
  destruct (eq_dec a b) as [->|Ne].
  - rewrite !eqb_refl. assert (M : mem b l = false) by (apply mem_false_iff; exact Nb). rewrite M. cbn. ring.
  - apply eqb_false_iff in Ne as E1. assert (E2 : eqb b a = false) by (apply eqb_false_iff; congruence). rewrite E1, E2. cbn [orb].
    destruct (mem a l); cbn; ring.
Qed.
Lemma weighted_indicator {A} `{EqDec A} (cs : list Q) (l : list A) i a : NoDup l -> length cs = length l -> nth_error l i = Some a ->
  weighted (fun b => indicator (eqb b a)) cs l == nth i cs 0.
Proof.
  revert cs i. induction l as [|b l IH]; intros cs i N L E; [destruct i; discriminate|]. destruct cs as [|c cs]; [discriminate|]. injection L as L.
  inversion N as [|? ? Nb N']; subst. unfold weighted. cbn [combine map]. unfold sumQ. cbn [fold_right fst snd]. fold (sumQ (map (fun ca => fst ca * indicator (eqb (snd ca) a)) (combine cs l))).
  fold (weighted (fun b => indicator (eqb b a)) cs l). destruct i as [|i].
  - injection E as ->. rewrite eqb_refl. cbn [nth indicator].
    assert (Z0 : weighted (fun b => indicator (eqb b a)) cs l == 0); [|rewrite Z0; ring].
    unfold weighted. rewrite (sumQ_ext _ (fun _ => 0)).
    + exact (total_zero (combine cs l)).
    + intros [c' b] I. cbn [fst snd]. apply in_combine_r in I. destruct (eqb b a) eqn:E; [apply eqb_eq in E; subst; contradiction|cbn; ring].
  - cbn [nth_error nth] in *. rewrite (IH cs i N' L E).
    destruct (eqb b a) eqn:E'; [apply eqb_eq in E'; subst; exfalso; apply Nb, (nth_error_In _ _ E)|cbn; ring].
Qed.
Lemma survives_chance {A} `{EqDec A} n (t : tree A) i a : NoDup (leaves t) -> nth_error (leaves t) i = Some a ->
  survives n t a == nth i (spark_chances n t) 0.
Proof. intros N E. rewrite survives_total by exact N. apply weighted_indicator; [exact N|apply chances_length|exact E]. Qed.

(** SparkRDDBackend.sample_fixed_per_key along any reduction tree: what happens is a
    legal execution of the Spark model (the one the other theorems on Spark are about),
    and every value survives with the product, over the merges above it, of the fraction
    of the merged lists that is kept. *)
Theorem C77_spark_chances : forall A `{EqDec A} n (t : tree A),
  is_distribution (spark_draws n t) /\
  (forall x, possible (spark_draws n t) x ->
     valid_stree n x /\ sleaves x = leaves t /\ length (spark_sample x) = held n t) /\
  (forall f, expect (spark_draws n t) (fun x => total f (spark_sample x)) == weighted f (spark_chances n t) (leaves t)) /\
  (NoDup (leaves t) -> forall i a, nth_error (leaves t) i = Some a -> survives n t a == nth i (spark_chances n t) 0).
Proof.
  intros A HA n t. split; [apply spark_draws_dist|]. split; [apply spark_draws_possible|]. split; [intro f; apply spark_chances_exact|].
  intros N i a E. apply survives_chance; assumption.
Qed.

(** Values reduced one after the other: the value at position [i] of [m] survives with
    probability (n / (n+1)) ^ (m - max n i). *)
Theorem C77_spark_one_by_one : forall A `{EqDec A} n (a : A) rest i b,
  (0 < n)%nat -> NoDup (a :: rest) -> nth_error (a :: rest) i = Some b ->
  survives n (one_by_one a rest) b == pow (num n / num (S n)) (length (a :: rest) - Nat.max n i).
Proof.
  intros A HA n a rest i b Pn N E.
  rewrite (survives_chance n _ i b); [|rewrite one_by_one_leaves; exact N|rewrite one_by_one_leaves; exact E].
  apply one_by_one_chance; [exact Pn|]. assert (L : (i < length (a :: rest))%nat) by (apply nth_error_Some; congruence). cbn in L. lia.
Qed.

(** The contract "max_contributions contributions are uniformly sampled"
    (SamplingPerPrivacyIdContributionBounder) does not hold on Spark: later values are
    preferred, by any factor. *)
Theorem C77_uniform_sampling_on_spark_refuted : forall n factor, (0 < n)%nat -> 0 < factor ->
  exists m, (n < m)%nat /\
    let t := one_by_one 0%nat (seq 1 m) in
    0 < survives n t m /\ factor * survives n t 0%nat < survives n t m.
Proof.
  intros n q Pn Pq. pose proof (num_pos n Pn) as PN. pose proof (num_pos (S n) ltac:(lia)) as PS.
  (* choose enough values *)
  destruct (Qlt_le_dec q 0) as [?|_]; [lra|].
  pose (k := (Z.to_nat (Z.abs (Qnum (q * num (S n)))) + 1)%nat).
  assert (Hk : q * num (S n) < num k).
  { unfold k, num. destruct (q * inject_Z (Z.of_nat (S n))) as [a b] eqn:E. cbn [Qnum]. unfold Qlt, inject_Z. cbn [Qnum Qden].
    pose proof (Pos2Z.is_pos b). nia. }
  exists (n + k)%nat. split; [unfold k; lia|]. cbv zeta.
  assert (ND : NoDup (0%nat :: seq 1 (n + k))) by (change (NoDup (seq 0 (S (n + k)))); apply seq_NoDup).
  assert (E0 : survives n (one_by_one 0%nat (seq 1 (n + k))) 0%nat == pow (num n / num (S n)) (S k)).
  { rewrite (C77_spark_one_by_one nat n 0%nat _ 0 0%nat Pn ND eq_refl). cbn [length]. rewrite seq_length.
    replace (S (n + k) - Nat.max n 0)%nat with (S k) by lia. reflexivity. }
  assert (Em : survives n (one_by_one 0%nat (seq 1 (n + k))) (n + k)%nat == num n / num (S n)).
  { rewrite (C77_spark_one_by_one nat n 0%nat (seq 1 (n + k)) (n + k) (n + k)%nat Pn ND).
    - cbn [length]. rewrite seq_length. replace (S (n + k) - Nat.max n (n + k))%nat with 1%nat by lia. cbn [pow]. ring.
    - change (0%nat :: seq 1 (n + k)) with (seq 0 (S (n + k))). rewrite (nth_error_nth' _ 0%nat) by (rewrite seq_length; lia).
      rewrite seq_nth by lia. reflexivity. }
  rewrite E0, Em. clear E0 Em ND. cbn [pow].
  assert (Pr : 0 < num n / num (S n)) by (apply Qlt_shift_div_l; [exact PS|lra]).
  split; [exact Pr|].
  pose proof (pow_small n k Pn) as B. set (x := pow (num n / num (S n)) k) in *.
  assert (X0 : 0 <= x) by (apply pow_nonneg; lra).
  assert (Fq : q < 1 + num k / num n).
  { assert (q <= num k / num n); [|lra]. apply Qle_shift_div_l; [exact PN|]. rewrite num_S in Hk. nra. }
  assert (q * x < 1).
  { destruct (Qlt_le_dec 0 x) as [Px|Nx].
    - apply Qlt_le_trans with (x * (1 + num k / num n)); [|exact B]. rewrite (Qmult_comm x). apply Qmult_lt_compat_r; assumption.
    - assert (x == 0) as -> by lra. lra. }
  setoid_replace (q * (num n / num (S n) * x)) with (q * x * (num n / num (S n))) by ring.
  setoid_replace (num n / num (S n)) with (1 * (num n / num (S n))) at 2 by ring.
  apply Qmult_lt_compat_r; assumption.
Qed.

(** Exactly when Spark is fair: the values have the same chance if and only if every
    merge above [n] values joins lists built from equally many values. *)
Theorem C77_spark_fair_iff_balanced : forall A `{EqDec A} n (t : tree A), (0 < n)%nat -> NoDup (leaves t) ->
  ((exists c, forall a, In a (leaves t) -> survives n t a == c) <-> balanced n t) /\
  (balanced n t -> forall a, In a (leaves t) -> survives n t a == chance n (length (leaves t))).
Proof.
  intros A HA n t Pn N.
  assert (All : forall c, (forall a, In a (leaves t) -> survives n t a == c) <-> all_equal c (spark_chances n t)).
  { intro c. unfold all_equal. rewrite Forall_forall. split.
    - intros S q I. apply (In_nth _ _ 0) in I. destruct I as (i & Li & <-). rewrite chances_length in Li.
      destruct (nth_error (leaves t) i) as [a|] eqn:E; [|apply nth_error_None in E; lia].
      rewrite <- (survives_chance n t i a N E). apply S, (nth_error_In _ _ E).
    - intros S a I. apply In_nth_error in I. destruct I as (i & E). rewrite (survives_chance n t i a N E). apply S. apply nth_In.
      rewrite chances_length. apply nth_error_Some. congruence. }
  split; [split|].
  - intros (c & S). apply All in S. pose proof (equal_chance_value n c t Pn S) as V. apply (fair_iff_balanced n t Pn).
    revert S. apply Forall_impl. intros x ->. exact V.
  - intro B. exists (chance n (length (leaves t))). apply All. apply fair_iff_balanced; assumption.
  - intro B. apply All. apply fair_iff_balanced; assumption.
Qed.

(** ** Contribution bounding *)

(** With draws that treat the positions of every group alike, every row is kept with
    the chance that the documentation of the bounders gives it: any sum over the kept
    rows is, on average, the sum over all rows weighted by these chances.  All five
    bounders and every choice of bounds. *)
Theorem C77_bounders_are_fair : forall U P V `{EqDec U} `{EqDec P} (d : dist (sampling U P)) p sampled (rows : list (U * P * V)) out,
  fair_draws (value_bound p) (id_bound p) (pair_groups rows) (id_groups p rows) d ->
  (forall sm, possible d sm -> bound_contributions p sampled sm (fun vs => vs) rows = Ok (out sm)) ->
  forall f, expect d (fun sm => total f (as_rows (out sm))) == total (fun r => row_chance p sampled rows r * f r) rows.
Proof. intros. apply fair_bounders; assumption. Qed.

(** The local backend's draws, one independent uniform draw for every group, are such
    draws. *)
Theorem C77_local_draws_are_fair : forall U P V `{EqDec U} `{EqDec P} p (rows : list (U * P * V)),
  fair_draws (value_bound p) (id_bound p) (pair_groups rows) (id_groups p rows)
    (local_draws (value_bound p) (id_bound p) (pair_groups rows) (id_groups p rows)).
Proof.
  intros U P V HU HP p rows. apply local_draws_fair.
  - unfold pair_groups. rewrite map_map, map_id. apply NoDup_distinct.
  - unfold id_groups. rewrite map_map, map_id. apply NoDup_distinct.
Qed.

(** *** The hypotheses are met *)
Definition fair_params : params :=
  Params [COUNT] LaplaceNoise (Some 1%Z) (Some 2%Z) None 1 None None None None false None None None false false
    ParamsModel.TruncatedGeometric None false true.
Definition fair_rows : list (Z * Z * nat) := [(1, 7, 1%nat); (1, 7, 2%nat); (1, 7, 3%nat); (1, 8, 4%nat); (2, 8, 5%nat)]%Z.
Definition fair_out (sm : sampling Z Z) : list ((Z * Z) * list nat) :=
  match bound_contributions fair_params true sm (fun vs => vs) fair_rows with Ok out => out | Err _ => [] end.

(** Privacy id 1 has two partitions for one place, and three values in partition 7 for two
    places: these values survive with probability 1/3, the value in partition 8 with 1/2,
    the only row of privacy id 2 always.  On Spark three values for one place survive
    with 1/4, 1/4, 1/2. *)
Example C77_hypotheses_met :
  fair_draws 2 1 (pair_groups fair_rows) (id_groups fair_params fair_rows)
    (local_draws 2 1 (pair_groups fair_rows) (id_groups fair_params fair_rows)) /\
  (forall sm, bound_contributions fair_params true sm (fun vs => vs) fair_rows = Ok (fair_out sm)) /\
  map (fun r => Qred (row_chance fair_params true fair_rows r)) fair_rows = [1 # 3; 1 # 3; 1 # 3; 1 # 2; 1] /\
  map (fun i => Qred (expect (local_draws 2 1 (pair_groups fair_rows) (id_groups fair_params fair_rows))
                        (fun sm => total (fun r => indicator (Nat.eqb (snd r) i)) (as_rows (fair_out sm))))) [1; 2; 3; 4; 5]%nat
    = [1 # 3; 1 # 3; 1 # 3; 1 # 2; 1] /\
  map (fun i => Qred (survives 1 (one_by_one 0%nat [1; 2]%nat) i)) [0; 1; 2]%nat = [1 # 4; 1 # 4; 1 # 2] /\
  balanced 1 (Node (Node (Leaf 0%nat) (Leaf 1%nat)) (Node (Leaf 2%nat) (Leaf 3%nat))) /\
  ~ balanced 1 (one_by_one 0%nat [1; 2]%nat).
Proof.
  split; [apply (C77_local_draws_are_fair Z Z nat fair_params fair_rows)|]. split; [reflexivity|].
  split; [vm_compute; reflexivity|]. split; [vm_compute; reflexivity|]. split; [vm_compute; reflexivity|].
  split; [cbn; lia|]. cbn. lia.
Qed.

Print Assumptions C77_local_sampling_is_fair.
Print Assumptions C77_spark_chances.
Print Assumptions C77_spark_one_by_one.
Print Assumptions C77_uniform_sampling_on_spark_refuted.
Print Assumptions C77_spark_fair_iff_balanced.
Print Assumptions C77_bounders_are_fair.
Print Assumptions C77_local_draws_are_fair.
