(** Properties C08-C11: contribution bounding. *)
From Coq Require Import List ZArith Bool Permutation PeanoNat Lia.
From Verif Require Import Base BackendModel BackendSpec ListLemmas BackendProofs BounderModel BounderSpec BounderProofs.
Import ListNotations.

(** C08 on any backend: [out] is any result that a backend obeying the sampling
    contract may produce. *)
Theorem C08_cross_and_per_bounds_any_backend {U P V A} `{EqDec U} `{EqDec P}
    (l0 linf : nat) (agg : list V -> A) (rows : list (U * P * V)) (out : list ((U * P) * A)) :
  bound_cross_and_per_any l0 linf agg rows out ->
  NoDup (map fst out) /\
  (forall u, length (kept_of u out) = Nat.min l0 (length (partitions_of u rows))) /\
  (forall u p a, In ((u, p), a) out ->
     In (u, p) (map fst rows) /\
     exists vs, a = agg vs /\ submset vs (values_of (u, p) rows) /\
                length vs = Nat.min linf (length (values_of (u, p) rows))).
Proof. exact (cross_and_per_any_bounds l0 linf agg rows out). Qed.
Print Assumptions C08_cross_and_per_bounds_any_backend.

(** C08 on the local backend, for every random outcome. *)
Theorem C08_cross_and_per_bounds {U P V A} `{EqDec U} `{EqDec P}
    (ch1 : source (U * P)) (ch2 : source U)
    (l0 linf : nat) (agg : list V -> A) (rows : list (U * P * V)) :
  valid_source linf ch1 -> valid_source l0 ch2 ->
  let out := bound_cross_and_per ch1 ch2 l0 linf agg rows in
  NoDup (map fst out) /\
  (forall u, length (kept_of u out) = Nat.min l0 (length (partitions_of u rows))) /\
  (forall u p a, In ((u, p), a) out ->
     In (u, p) (map fst rows) /\
     exists vs, a = agg vs /\ submset vs (values_of (u, p) rows) /\
                length vs = Nat.min linf (length (values_of (u, p) rows))).
Proof.
  exact (fun V1 V2 => cross_and_per_any_bounds l0 linf agg rows _
                        (cross_and_per_local_any ch1 ch2 l0 linf agg rows V1 V2)).
Qed.
Print Assumptions C08_cross_and_per_bounds.

Example C08_hypotheses_met :
  let rows := [(1, 1, 10); (1, 2, 20); (1, 1, 11); (2, 1, 30); (1, 3, 40); (1, 1, 12)]%Z in
  let ch1 := fun (_ : Z * Z) m => [m - 1; 0] in
  let ch2 := fun (_ : Z) (m : nat) => [1; 0] in
  valid_source 2 ch1 /\ valid_source 2 ch2 /\
  bound_cross_and_per ch1 ch2 2 2 (fun vs => vs) rows =
    [((1, 2), [20]); ((1, 1), [12; 10]); ((2, 1), [30])]%Z.
Proof.
  cbn zeta. split; [|split; [|reflexivity]].
  - intros k m L. split; [|split; [reflexivity|]].
    + constructor; [cbn; lia|]. constructor; [tauto|constructor].
    + repeat constructor; lia.
  - intros k m L. split; [|split; [reflexivity|]].
    + constructor; [cbn; lia|]. constructor; [tauto|constructor].
    + repeat constructor; lia.
Qed.

(** C09 *)
Theorem C09_total_contributions_any_backend {U P V A} `{EqDec U} `{EqDec P}
    (m : nat) (agg : list V -> A) (rows : list (U * P * V)) (out : list ((U * P) * A)) :
  bound_per_privacy_id_any m agg rows out ->
  exists kept, Permutation out (map_values agg kept) /\
    NoDup (map fst kept) /\
    (forall k vs, In (k, vs) kept -> vs <> []) /\
    (forall u, submset (as_rows (kept_of u kept)) (rows_of u rows) /\
               length (as_rows (kept_of u kept)) = Nat.min m (length (rows_of u rows))).
Proof. exact (per_privacy_id_any_bounds m agg rows out). Qed.
Print Assumptions C09_total_contributions_any_backend.

Theorem C09_total_contributions {U P V A} `{EqDec U} `{EqDec P}
    (ch : source U) (m : nat) (agg : list V -> A) (rows : list (U * P * V)) :
  valid_source m ch ->
  exists kept, Permutation (bound_per_privacy_id ch m agg rows) (map_values agg kept) /\
    NoDup (map fst kept) /\
    (forall k vs, In (k, vs) kept -> vs <> []) /\
    (forall u, submset (as_rows (kept_of u kept)) (rows_of u rows) /\
               length (as_rows (kept_of u kept)) = Nat.min m (length (rows_of u rows))).
Proof.
  exact (fun Vs => per_privacy_id_any_bounds m agg rows _ (per_privacy_id_local_any ch m agg rows Vs)).
Qed.
Print Assumptions C09_total_contributions.

Example C09_hypotheses_met :
  let rows := [(1, 1, 10); (1, 2, 20); (1, 1, 11); (2, 1, 30); (1, 3, 40)]%Z in
  let ch := fun (_ : Z) (m : nat) => [2; 3; 0] in
  valid_source 3 ch /\
  bound_per_privacy_id ch 3 (fun vs => vs) rows =
    [((1, 1), [11; 10]); ((1, 3), [40]); ((2, 1), [30])]%Z.
Proof.
  cbn zeta. split; [|reflexivity]. intros k m L. split; [|split; [reflexivity|]].
  - repeat constructor; cbn; lia.
  - repeat constructor; lia.
Qed.

(** C10 *)
Theorem C10_cross_partition_any_backend {U P V A} `{EqDec U} `{EqDec P}
    (ch : source U) (l0 : nat) (agg : list V -> A) (rows : list (U * P * V)) (out : list ((U * P) * A)) :
  valid_source l0 ch ->
  bound_cross_partition_any ch l0 agg rows out ->
  NoDup (map fst out) /\
  (forall u, length (kept_of u out) = Nat.min l0 (length (partitions_of u rows))) /\
  (forall u p a, In ((u, p), a) out ->
     In (u, p) (map fst rows) /\
     exists vs, a = agg vs /\ Permutation vs (values_of (u, p) rows)).
Proof. exact (cross_partition_any_bounds ch l0 agg rows out). Qed.
Print Assumptions C10_cross_partition_any_backend.

Theorem C10_cross_partition_bounds {U P V A} `{EqDec U} `{EqDec P}
    (ch : source U) (l0 : nat) (agg : list V -> A) (rows : list (U * P * V)) :
  valid_source l0 ch ->
  let out := bound_cross_partition ch l0 agg rows in
  NoDup (map fst out) /\
  (forall u, length (kept_of u out) = Nat.min l0 (length (partitions_of u rows))) /\
  (forall u p a, In ((u, p), a) out ->
     In (u, p) (map fst rows) /\ a = agg (values_of (u, p) rows)).
Proof. exact (cross_partition_local_bounds ch l0 agg rows). Qed.
Print Assumptions C10_cross_partition_bounds.

Theorem C10_per_partition_any_backend {U P V A} `{EqDec U} `{EqDec P}
    (linf : nat) (agg : list V -> A) (rows : list (U * P * V)) (out : list ((U * P) * A)) :
  bound_linf_any linf agg rows out ->
  NoDup (map fst out) /\
  (forall k, In k (map fst out) <-> In k (map fst rows)) /\
  (forall k a, In (k, a) out ->
     exists vs, a = agg vs /\ submset vs (values_of k rows) /\
                length vs = Nat.min linf (length (values_of k rows))).
Proof. exact (linf_any_bounds linf agg rows out). Qed.
Print Assumptions C10_per_partition_any_backend.

Theorem C10_per_partition_bounds {U P V A} `{EqDec U} `{EqDec P}
    (ch : source (U * P)) (linf : nat) (agg : list V -> A) (rows : list (U * P * V)) :
  valid_source linf ch ->
  let out := bound_linf ch linf agg rows in
  NoDup (map fst out) /\
  (forall k, In k (map fst out) <-> In k (map fst rows)) /\
  (forall k a, In (k, a) out ->
     exists vs, a = agg vs /\ submset vs (values_of k rows) /\
                length vs = Nat.min linf (length (values_of k rows))).
Proof.
  exact (fun Vs => linf_any_bounds linf agg rows _ (linf_local_any ch linf agg rows Vs)).
Qed.
Print Assumptions C10_per_partition_bounds.

Theorem C10_noop_passes_everything {U P V A} `{EqDec U} `{EqDec P}
    (agg : list V -> A) (rows : list (U * P * V)) :
  NoDup (map fst (bound_noop agg rows)) /\
  (forall k a, In (k, a) (bound_noop agg rows) <->
               In k (map fst rows) /\ a = agg (values_of k rows)).
Proof. exact (noop_exact agg rows). Qed.
Print Assumptions C10_noop_passes_everything.

Example C10_hypotheses_met :
  let rows := [(1, 1, 10); (1, 2, 20); (1, 1, 11); (2, 1, 30)]%Z in
  let ch := fun (_ : Z) (m : nat) => [1] in
  valid_source 1 ch /\
  bound_cross_partition ch 1 (fun vs => vs) rows = [((1, 2), [20]); ((2, 1), [30])]%Z /\
  bound_linf (fun _ m => [m - 1]) 1 (fun vs => vs) rows =
    [((1, 1), [11]); ((1, 2), [20]); ((2, 1), [30])]%Z /\
  bound_noop (fun vs => vs) rows = [((1, 1), [10; 11]); ((1, 2), [20]); ((2, 1), [30])]%Z.
Proof.
  cbn zeta. split; [|repeat split; reflexivity]. intros k m L.
  split; [|split; [reflexivity|]]; repeat constructor; cbn; try lia; tauto.
Qed.

(** C11: for data within the limits every random source (even one violating the
    sampling contract) passes every value, in order, once. *)
Theorem C11_no_loss_cross_and_per {U P V A} `{EqDec U} `{EqDec P}
    (ch1 : source (U * P)) (ch2 : source U) (l0 linf : nat) (agg : list V -> A)
    (rows : list (U * P * V)) :
  (forall k, length (values_of k rows) <= linf) ->
  (forall u, length (partitions_of u rows) <= l0) ->
  let out := bound_cross_and_per ch1 ch2 l0 linf agg rows in
  NoDup (map fst out) /\
  (forall k a, In (k, a) out <-> In k (map fst rows) /\ a = agg (values_of k rows)).
Proof. exact (cross_and_per_no_loss ch1 ch2 l0 linf agg rows). Qed.
Print Assumptions C11_no_loss_cross_and_per.

Theorem C11_no_loss_total {U P V A} `{EqDec U} `{EqDec P}
    (ch : source U) (m : nat) (agg : list V -> A) (rows : list (U * P * V)) :
  (forall u, length (rows_of u rows) <= m) ->
  let out := bound_per_privacy_id ch m agg rows in
  NoDup (map fst out) /\
  (forall k a, In (k, a) out <-> In k (map fst rows) /\ a = agg (values_of k rows)).
Proof. exact (per_privacy_id_no_loss ch m agg rows). Qed.
Print Assumptions C11_no_loss_total.

Theorem C11_no_loss_cross_partition {U P V A} `{EqDec U} `{EqDec P}
    (ch : source U) (l0 : nat) (agg : list V -> A) (rows : list (U * P * V)) :
  (forall u, length (partitions_of u rows) <= l0) ->
  let out := bound_cross_partition ch l0 agg rows in
  NoDup (map fst out) /\
  (forall k a, In (k, a) out <-> In k (map fst rows) /\ a = agg (values_of k rows)).
Proof. exact (cross_partition_no_loss ch l0 agg rows). Qed.
Print Assumptions C11_no_loss_cross_partition.

Theorem C11_no_loss_per_partition {U P V A} `{EqDec U} `{EqDec P}
    (ch : source (U * P)) (linf : nat) (agg : list V -> A) (rows : list (U * P * V)) :
  (forall k, length (values_of k rows) <= linf) ->
  let out := bound_linf ch linf agg rows in
  NoDup (map fst out) /\
  (forall k a, In (k, a) out <-> In k (map fst rows) /\ a = agg (values_of k rows)).
Proof. exact (linf_no_loss ch linf agg rows). Qed.
Print Assumptions C11_no_loss_per_partition.

Example C11_hypotheses_met :
  let rows := [(1, 1, 10); (1, 2, 20); (1, 1, 11); (2, 1, 30)]%Z in
  (forall k, length (values_of k rows) <= 2) /\
  (forall u, length (partitions_of u rows) <= 2) /\
  (forall u, length (rows_of u rows) <= 3).
Proof.
  cbn zeta. split; [|split].
  - intro k. unfold values_of. rewrite map_length. cbn [filter fst].
    destruct (eqb (1, 1)%Z k) eqn:E1; destruct (eqb (1, 2)%Z k) eqn:E2; destruct (eqb (2, 1)%Z k) eqn:E3;
      cbn; try lia; try apply eqb_eq in E1; try apply eqb_eq in E2; try apply eqb_eq in E3; congruence.
  - intro u. unfold partitions_of. cbn [filter fst].
    destruct (eqb 1%Z u) eqn:E1; destruct (eqb 2%Z u) eqn:E2; cbn; lia.
  - intro u. unfold rows_of. cbn [filter fst].
    destruct (eqb 1%Z u) eqn:E1; destruct (eqb 2%Z u) eqn:E2; cbn; try lia;
      apply eqb_eq in E1; apply eqb_eq in E2; congruence.
Qed.
