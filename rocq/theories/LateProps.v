(** C62: the budget of a combiner is bound late, by reference, and survives
    serialization.  Histories are any interleaving of calls of the accountant, edits of the
    parameters, constructions of combiners, serializations to other processes and uses. *)
From Coq Require Import List ZArith QArith Bool.
From Verif Require Import Base ParamsModel SensModel BudgetModel CombinerModel SelectModel LateModel LateSpec LateProofs LateProofs2 LateProofs3.
Import ListNotations.

(** Whenever, in whatever process, a mechanism is obtained, it is the one for the budget that
    the accountant has granted, for good, to the combiner's own request, and for the
    parameters as they were when the combiner was constructed. *)
Theorem C62_every_use_has_the_granted_budget : forall eps delta num ws a0 p0 h n j created b c p is,
  new_accountant eps delta num ws = Ok a0 ->
  let t := trace (World a0 p0 []) h in
  let final := w_acct (wrun (World a0 p0 []) h) in
  happened t n (GetMechanism j) (OMech created (Ok b)) -> comes_from p0 t j c p is ->
  right_mechanism final c p is b.
Proof. intros until is. intros N. apply use_right. eapply new_before; exact N. Qed.

(** Every object that is used was constructed in the driver or copied from one that was. *)
Theorem C62_every_use_has_an_origin : forall eps delta num ws a0 p0 h n j created r,
  new_accountant eps delta num ws = Ok a0 ->
  let t := trace (World a0 p0 []) h in
  happened t n (GetMechanism j) (OMech created r) -> exists c p is, comes_from p0 t j c p is.
Proof. intros until r. intros N. apply use_origin. eapply new_before; exact N. Qed.

(** After compute_budgets a combiner works, also if it was used too early before, and so do its
    copies, provided that none of the serializations took place before compute_budgets. *)
Theorem C62_works_after_compute : forall eps delta num ws a0 p0 h n j created r c p is b,
  new_accountant eps delta num ws = Ok a0 ->
  let t := trace (World a0 p0 []) h in
  let final := w_acct (wrun (World a0 p0 []) h) in
  happened t n (GetMechanism j) (OMech created r) -> comes_from p0 t j c p is ->
  computed (firstn n t) -> ~ early_copy t j ->
  right_mechanism final c p is b -> r = Ok b.
Proof. intros until b. intros N. apply use_available. eapply new_before; exact N. Qed.

(** Before compute_budgets, and for a combiner that was serialized before it at any time
    thereafter, there is no mechanism: no noise is added with another budget.  If there is a right
    mechanism, the exception is "Privacy budget is not calculated yet". *)
Theorem C62_too_early_raises : forall eps delta num ws a0 p0 h n j created r c p is b,
  new_accountant eps delta num ws = Ok a0 ->
  let t := trace (World a0 p0 []) h in
  let final := w_acct (wrun (World a0 p0 []) h) in
  happened t n (GetMechanism j) (OMech created r) -> comes_from p0 t j c p is ->
  ~ computed (firstn n t) \/ early_copy t j ->
  (exists e, r = Err e) /\ (right_mechanism final c p is b -> r = Err AssertionError).
Proof. intros until b. intros N. apply use_assert. eapply new_before; exact N. Qed.

(** An object creates its mechanism once; the combiners with CombinerParams keep none. *)
Theorem C62_created_once : forall eps delta num ws a0 p0 h n1 n2 j b1 b2 c p is,
  new_accountant eps delta num ws = Ok a0 ->
  let t := trace (World a0 p0 []) h in
  happened t n1 (GetMechanism j) (OMech true (Ok b1)) ->
  happened t n2 (GetMechanism j) (OMech true (Ok b2)) -> (n1 < n2)%nat ->
  comes_from p0 t j c p is -> c = KWithParams.
Proof. intros until is. intros N. apply use_once. eapply new_before; exact N. Qed.

(** All copies of a combiner, in all processes and at all times, use equal mechanisms. *)
Theorem C62_copies_agree : forall eps delta num ws a0 p0 h n1 n2 j1 j2 cr1 cr2 b1 b2 c p is,
  new_accountant eps delta num ws = Ok a0 ->
  let t := trace (World a0 p0 []) h in
  happened t n1 (GetMechanism j1) (OMech cr1 (Ok b1)) ->
  happened t n2 (GetMechanism j2) (OMech cr2 (Ok b2)) ->
  comes_from p0 t j1 c p is -> comes_from p0 t j2 c p is -> b1 = b2.
Proof. intros until is. intros N. apply use_agree. eapply new_before; exact N. Qed.

(** A history with all cases: two requests; combiner 0 (count) is constructed and the parameters
    edited; combiner 1 is an early copy of it; both fail; combiner 2 is constructed with the new
    parameters; compute_budgets; now 0 and 2 work, 0 twice with one creation; combiner 3, a late copy of 0, and 4, a
    copy of 3, work; 1 still fails. *)
Definition late_params (l0 : Z) : params :=
  Params [COUNT; SUM] LaplaceNoise (Some l0) (Some 3%Z) None 1 (Some 0%Q) (Some 5%Q) None None
         false None None None false false TruncatedGeometric None false true.
Definition late_accountant : acct := Acct 2 0 None None [] [] [] false.
Definition late_history : list event :=
  [ Account (Request LAPLACE 1 1 None); Account (Request LAPLACE 3 1 None);
    Construct KCount [0%nat]; Edit (late_params 7); Transfer 0; GetMechanism 0; GetMechanism 1;
    Construct KSum [1%nat]; Account Compute; GetMechanism 0; GetMechanism 0; GetMechanism 2; Transfer 0;
    GetMechanism 3; Transfer 3; GetMechanism 4; GetMechanism 1 ].
Example C62_hypotheses_met :
  new_accountant 2 0 None None = Ok late_accountant /\
  map snd (trace (World late_accountant (late_params 2) []) late_history) =
  [ OAcct (Ok (OutMech 0)); OAcct (Ok (OutMech 1)); OObject 0; ODone; OObject 1;
    OMech true (Err AssertionError); OMech true (Err AssertionError); OObject 2; OAcct (Ok OutUnit);
    OMech true (Ok (BAdditive (Laplace (2 # 4) 6))); OMech false (Ok (BAdditive (Laplace (2 # 4) 6)));
    OMech true (Ok (BAdditive (Laplace (6 # 4) 105))); OObject 3;
    OMech true (Ok (BAdditive (Laplace (2 # 4) 6))); OObject 4;
    OMech true (Ok (BAdditive (Laplace (2 # 4) 6))); OMech true (Err AssertionError) ].
Proof. split; reflexivity. Qed.
(** Combiner 4 comes from the construction with the parameters before the edit. *)
Example C62_origin_met :
  comes_from (late_params 2) (trace (World late_accountant (late_params 2) []) late_history) 4 KCount (late_params 2) [0%nat] /\
  early_copy (trace (World late_accountant (late_params 2) []) late_history) 1.
Proof.
  split.
  - apply (copied _ _ 14 3); [reflexivity |]. apply (copied _ _ 12 0); [reflexivity |].
    exact (constructed (late_params 2) (firstn 12 (firstn 14 (trace (World late_accountant (late_params 2) []) late_history)))
             2 0 KCount [0%nat] eq_refl).
  - apply (early_now _ 4 0); [reflexivity |]. intros H. simpl in H.
    repeat (destruct H as [H | H]; [discriminate |]). exact H.
Qed.

Print Assumptions C62_every_use_has_the_granted_budget.
Print Assumptions C62_every_use_has_an_origin.
Print Assumptions C62_works_after_compute.
Print Assumptions C62_too_early_raises.
Print Assumptions C62_created_once.
Print Assumptions C62_copies_agree.
