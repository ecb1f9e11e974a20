(** Property C66: VECTOR_SUM over arrays that the rows of the dataset refer to. *)
From Coq Require Import List ZArith QArith Bool Lia.
From Verif Require Import Base BackendModel BackendSpec BounderModel ParamsModel CombinerModel EngineModel EngineSpec EngineProps
  ArrayModel ArraySpec ArrayProofs ArrayProofs2.
Import ListNotations.
Local Open Scope nat_scope.

(** C66: when no array occurs in two rows, an aggregation gives the result that
    it gives on the contents of the arrays. *)
Theorem C66_unshared_arrays {U P} `{EqDec U} `{EqDec P} (p : params) (sm : sampling U P)
    (should_keep : P -> Z -> bool) (nz : P -> nat -> noises) (public : option (list P))
    (m : memory) (rows : list (U * P * aval)) :
  valid_sampling p sm -> in_memory m rows -> NoDup (arrays_of_rows rows) ->
  snd (aggregate_in p sm should_keep nz public m rows)
  = aggregate p sm should_keep nz public (content_rows m rows).
Proof.
  intros Vs M N. apply aggregate_in_value; [auto | exact M|]. intros cs _. apply NoDup_separate.
  apply (ListLemmas.submset_NoDup _ _ (arrays_of_submset _ _ (all_created_submset p cs sm public rows (fun _ => Vs)))), N.
Qed.
Print Assumptions C66_unshared_arrays.

(** C66: rows may share arrays when accumulators are created of one value each:
    the user bounds contributions, or the library keeps one row of each privacy
    id per partition. *)
Theorem C66_one_value_per_accumulator {U P} `{EqDec U} `{EqDec P} (p : params) (sm : sampling U P)
    (should_keep : P -> Z -> bool) (nz : P -> nat -> noises) (public : option (list P))
    (m : memory) (rows : list (U * P * aval)) :
  has VECTOR_SUM (metrics p) = true -> in_memory m rows ->
  (contribution_bounds_already_enforced p = false ->
     max_contributions p = None /\ max_contributions_per_partition p = Some 1%Z /\ valid_sampling p sm) ->
  snd (aggregate_in p sm should_keep nz public m rows)
  = aggregate p sm should_keep nz public (content_rows m rows) /\
  forall a, a < length m -> nth a (fst (aggregate_in p sm should_keep nz public m rows)) [] = nth a m [].
Proof.
  intros Hv M Hp. split.
  - apply aggregate_in_value; [intros E; apply Hp, E | exact M|]. intros cs Ec. apply short_separate.
    intros vs. apply created_short. intros E. destruct (Hp E) as [E1 [E2 E3]]. repeat split; auto.
    apply (vector_expects p); assumption.
  - intros a La. unfold aggregate_in. destruct (create_compound_combiner p) as [cs|e] eqn:Ec; [|reflexivity].
    assert (Vs : contribution_bounds_already_enforced p = false -> valid_sampling p sm) by (intros E; apply Hp, E).
    pose proof (contributions_memory p cs sm public m rows Vs M) as [_ F].
    assert (S : forall vs, In vs (all_created p cs sm public rows) -> length vs <= 1).
    { apply created_short. intros E. destruct (Hp E) as [E1 [E2 E3]]. repeat split; auto.
      apply (vector_expects p); assumption. }
    destruct (contributions_in p cs sm public m rows) as [m' c]. cbn [fst] in *. apply F; [exact La|].
    intros I. apply in_flat_map in I. destruct I as [vs [I Ha]]. rewrite short_firsts in Ha by auto. destruct Ha.
Qed.
Print Assumptions C66_one_value_per_accumulator.

(** C66: the only arrays that an aggregation may change are arrays of a privacy
    id with at least two rows in a partition, when the library bounds
    contributions. *)
Theorem C66_changed_arrays {U P} `{EqDec U} `{EqDec P} (p : params) (sm : sampling U P)
    (should_keep : P -> Z -> bool) (nz : P -> nat -> noises) (public : option (list P))
    (m : memory) (rows : list (U * P * aval)) (a : nat) :
  valid_sampling p sm -> in_memory m rows -> a < length m ->
  nth a (fst (aggregate_in p sm should_keep nz public m rows)) [] <> nth a m [] ->
  contribution_bounds_already_enforced p = false /\
  exists k, In (Arr a) (values_of k rows) /\ 2 <= length (values_of k rows).
Proof. intros Vs. apply changed_arrays. auto. Qed.
Print Assumptions C66_changed_arrays.

(** ** A dataset: two vectors of privacy id 1 and one of privacy id 2 *)
Definition array_params (linf : Z) : params :=
  Params [VECTOR_SUM] LaplaceNoise (Some 1%Z) (Some linf) None 1 None None None None false (Some Linf) (Some 100%Q)
         (Some 2%Z) false false ParamsModel.TruncatedGeometric None false true.
Definition exact_noises {P : Type} : P -> nat -> noises :=
  fun _ _ => Noises (fun x => x) (fun x => x) (fun x => x) (fun _ => None) (fun l _ => l) (fun l => l).
Definition keep_all {P : Type} : P -> Z -> bool := fun _ _ => true.
Definition in_order (l0 linf : nat) : sampling Z Z := Sampling Z Z (fun _ _ => seq 0 linf) (fun _ _ => seq 0 l0).
Definition array_memory : memory := [[1; 2]; [10; 20]; [100; 200]]%Q.
Definition array_rows : list (Z * Z * aval) := [(1, 7, Arr 0); (1, 7, Arr 1); (2, 7, Arr 2)]%Z.

Lemma in_order_valid l0 linf : valid_sampling (array_params linf) (in_order l0 (Z.to_nat linf)) \/ l0 <> 1.
Proof.
  destruct (Nat.eq_dec l0 1) as [->|N]; [left|right; exact N].
  split; intros x E; injection E as <-; intros k m L; (split; [apply seq_NoDup|]; split; [apply seq_length|];
    apply Forall_forall; intros i Hi; apply in_seq in Hi; cbn in *; lia).
Qed.

Example C66_unshared_case :
  valid_sampling (array_params 2) (in_order 1 2) /\ in_memory array_memory array_rows /\ NoDup (arrays_of_rows array_rows) /\
  create_compound_combiner (array_params 2) = Ok [CVector 2] /\
  aggregate_in (array_params 2) (in_order 1 2) keep_all exact_noises None array_memory array_rows
  = ([[1 + 10; 2 + 20]; [10; 20]; [100; 200]]%Q, Ok [(7%Z, [(NVectorSum, RVec [(1 + 10) + 100; (2 + 20) + 200]%Q)])]).
Proof.
  split; [destruct (in_order_valid 1 2) as [V|N]; [exact V | congruence]|].
  split; [intros a Ha; cbn in Ha |- *; lia|].
  split; [repeat constructor; cbn; lia|]. split; reflexivity.
Qed.

(** Python lists are copied: sharing is no problem and nothing is changed. *)
Example C66_lists_case :
  let rows := [(1, 7, Lit (Vec [1; 2]%Q)); (1, 7, Lit (Vec [10; 20]%Q)); (2, 7, Lit (Vec [1; 2]%Q))]%Z in
  arrays_of_rows rows = [] /\
  snd (aggregate_in (array_params 2) (in_order 1 2) keep_all exact_noises None [] rows)
  = Ok [(7%Z, [(NVectorSum, RVec [(1 + 10) + 1; (2 + 20) + 2]%Q)])].
Proof. split; reflexivity. Qed.

Example C66_one_value_case :
  let rows := [(1, 7, Arr 0); (1, 7, Arr 1); (2, 7, Arr 0)]%Z in
  has VECTOR_SUM (metrics (array_params 1)) = true /\ valid_sampling (array_params 1) (in_order 1 1) /\
  in_memory array_memory rows /\ max_contributions_per_partition (array_params 1) = Some 1%Z /\
  aggregate_in (array_params 1) (in_order 1 1) keep_all exact_noises None array_memory rows
  = (array_memory, Ok [(7%Z, [(NVectorSum, RVec [1 + 1; 2 + 2]%Q)])]).
Proof.
  cbn zeta. split; [reflexivity|]. split; [destruct (in_order_valid 1 1) as [V|N]; [exact V | congruence]|].
  split; [intros a Ha; cbn in Ha |- *; lia|]. split; reflexivity.
Qed.

(** C66, refuted: "an aggregation does not change its input".  The arrays of a
    dataset that has no shared arrays differ afterwards, and the same
    aggregation of the same rows then gives another result. *)
Theorem C66_input_changed_refuted :
  exists (p : params) (sm : sampling Z Z) (m : memory) (rows : list (Z * Z * aval)),
    accepted p /\ valid_sampling p sm /\ in_memory m rows /\ NoDup (arrays_of_rows rows) /\
    let first := aggregate_in p sm keep_all exact_noises None m rows in
    let second := aggregate_in p sm keep_all exact_noises None (fst first) rows in
    firstn (length m) (fst first) <> m /\
    exists v w, snd first = Ok [(7%Z, [(NVectorSum, RVec v)])] /\ snd second = Ok [(7%Z, [(NVectorSum, RVec w)])] /\
                (nth 0 v 0 == 111)%Q /\ (nth 0 w 0 == 121)%Q.
Proof.
  exists (array_params 2), (in_order 1 2), array_memory, array_rows.
  split; [exists (raw_of (array_params 2)); vm_compute; reflexivity|].
  split; [destruct (in_order_valid 1 2) as [V|N]; [exact V | congruence]|].
  split; [intros a Ha; cbn in Ha |- *; lia|].
  split; [repeat constructor; cbn; lia|].
  split; [intros E; vm_compute in E; discriminate E|].
  eexists. eexists. split; [reflexivity|]. split; [reflexivity|]. split; vm_compute; reflexivity.
Qed.
Print Assumptions C66_input_changed_refuted.

(** C66, refuted: "the result is that of the contents of the arrays".  Twenty
    privacy ids have one row with the same array (e.g. a row of an embedding
    table); privacy id 1 has that array and another one.  All entries are at
    most 1 in absolute value and privacy id 1 is bounded to two rows.  On the
    contents, leaving privacy id 1 out moves the sum by 2; it moves the sum of
    the aggregation by 22, and the sum is wrong. *)
Definition shared_rows : list (Z * Z * aval) :=
  [(1, 7, Arr 0); (1, 7, Arr 1)]%Z ++ map (fun u => (Z.of_nat u, 7%Z, Arr 0)) (seq 2 20).
Definition shared_memory : memory := [[1; 0]; [1; 0]]%Q.

Theorem C66_shared_arrays_refuted :
  exists (p : params) (sm : sampling Z Z) (m : memory) (rows : list (Z * Z * aval)) (v v' w w' : list Q),
    accepted p /\ valid_sampling p sm /\ in_memory m rows /\
    max_partitions_contributed p = Some 1%Z /\ max_contributions_per_partition p = Some 2%Z /\
    (forall l x, In l m -> In x l -> -1 <= x <= 1)%Q /\
    aggregate p sm keep_all exact_noises None (content_rows m rows) = Ok [(7%Z, [(NVectorSum, RVec v)])] /\
    aggregate p sm keep_all exact_noises None (without 1%Z (content_rows m rows)) = Ok [(7%Z, [(NVectorSum, RVec v')])] /\
    snd (aggregate_in p sm keep_all exact_noises None m rows) = Ok [(7%Z, [(NVectorSum, RVec w)])] /\
    snd (aggregate_in p sm keep_all exact_noises None m (without 1%Z rows)) = Ok [(7%Z, [(NVectorSum, RVec w')])] /\
    (nth 0 v 0 - nth 0 v' 0 == 2)%Q /\ (nth 0 w 0 - nth 0 w' 0 == 22)%Q /\ ~ (nth 0 w 0 == nth 0 v 0)%Q.
Proof.
  exists (array_params 2), (in_order 1 2), shared_memory, shared_rows. do 4 eexists.
  split; [exists (raw_of (array_params 2)); vm_compute; reflexivity|].
  split; [destruct (in_order_valid 1 2) as [V|N]; [exact V | congruence]|].
  split; [intros a Ha; cbn in Ha |- *; lia|].
  split; [reflexivity|]. split; [reflexivity|].
  split. { intros l x [<-|[<-|[]]] [<-|[<-|[]]]; split; discriminate. }
  split; [vm_compute; reflexivity|]. split; [vm_compute; reflexivity|].
  split; [vm_compute; reflexivity|]. split; [vm_compute; reflexivity|].
  split; [vm_compute; reflexivity|]. split; [vm_compute; reflexivity|]. vm_compute. discriminate.
Qed.
Print Assumptions C66_shared_arrays_refuted.
