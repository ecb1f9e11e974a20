(** Properties C01-C05: the naive budget accountant. *)
From Coq Require Import List ZArith QArith Bool Lqa.
From Verif Require Import Base BaseLemmas BudgetModel BudgetSpec BudgetProofs BudgetTreeProofs.
Import ListNotations.
Local Open Scope Q_scope.

(** ** C01: the epsilons handed out, times counts, add up to exactly total_epsilon. *)

(** Positive weights and counts: additionally every single share is in (0, total]. *)
Theorem C01_naive_epsilon_spent_exactly :
  forall e d num ws s0 ops s2,
    new_accountant e d num ws = Ok s0 ->
    Forall op_pos ops ->
    step (run s0 ops) Compute = (s2, Ok OutUnit) ->
    granted ops (outs s0 ops) <> [] ->
    exists es,
      read_eps s2 es /\
      length es = length (granted ops (outs s0 ops)) /\
      weighted_sum (map req_count (granted ops (outs s0 ops))) es == e /\
      Forall (fun x => 0 < x /\ x <= e) es.
Proof. exact c01_lemma. Qed.

(** Any weights (also zero and negative ones): the sum is exactly the total, except
    that every share is zero when the weights cancel out. *)
Theorem C01_naive_epsilon_any_weights :
  forall e d num ws s0 ops s2,
    new_accountant e d num ws = Ok s0 ->
    step (run s0 ops) Compute = (s2, Ok OutUnit) ->
    granted ops (outs s0 ops) <> [] ->
    exists es,
      read_eps s2 es /\
      length es = length (granted ops (outs s0 ops)) /\
      (weighted_sum (map req_count (granted ops (outs s0 ops))) es == e \/
       Forall (fun x => x == 0) es).
Proof. exact c01_general_lemma. Qed.

(** Finding: weights are not validated, so with a negative weight a single
    mechanism can be given more than the whole budget. *)
Theorem C01_share_within_total_any_weights_refuted :
  exists s0 ops s2 es,
    new_accountant 1 0 None None = Ok s0 /\
    step (run s0 ops) Compute = (s2, Ok OutUnit) /\
    read_eps s2 es /\ exists x, In x es /\ 1 < x.
Proof.
  pose (s0 := Acct 1 0 None None [] [] [] false).
  pose (ops := [Request LAPLACE 2 1 None; Request LAPLACE (-1) 1 None]).
  exists s0, ops, (fst (step (run s0 ops) Compute)), [2; -1].
  split; [reflexivity|]. split; [vm_compute; reflexivity|]. split.
  - unfold read_eps. vm_compute. repeat constructor.
  - exists 2%Q. split; [left; reflexivity|reflexivity].
Qed.

Example C01_hypotheses_met :
  exists s0 s2,
    let ops := [Enter 2; Request GAUSSIAN 1 3 None; Request LAPLACE 2 1 None; Exit;
                Request GENERIC 1 1 None; Request LAPLACE 1 1 (Some 1)] in
    new_accountant 1 (1 # 1000) None None = Ok s0 /\
    Forall op_pos ops /\
    step (run s0 ops) Compute = (s2, Ok OutUnit) /\
    map req_count (granted ops (outs s0 ops)) = [3; 1; 1]%Z /\
    Forall2 (fun m x => exists y, get_eps m = Ok y /\ y == x) (mechs s2) [2 # 13; 4 # 13; 3 # 13].
Proof.
  pose (s0 := Acct 1 (1 # 1000) None None [] [] [] false).
  exists s0, (fst (step (run s0 ([Enter 2; Request GAUSSIAN 1 3 None; Request LAPLACE 2 1 None; Exit;
                Request GENERIC 1 1 None; Request LAPLACE 1 1 (Some 1)])) Compute)).
  cbv zeta. split; [reflexivity|]. split.
  - repeat constructor; simpl; try reflexivity; try lra.
  - split; [vm_compute; reflexivity|]. split; [reflexivity|].
    vm_compute mechs. repeat constructor; eexists; (split; [reflexivity|]); reflexivity.
Qed.

(** ** C02: deltas. *)
Theorem C02_naive_delta_spent_exactly :
  forall e d num ws s0 ops s2,
    new_accountant e d num ws = Ok s0 ->
    Forall op_pos ops ->
    step (run s0 ops) Compute = (s2, Ok OutUnit) ->
    exists ds,
      read_delta s2 ds /\
      length ds = length (granted ops (outs s0 ops)) /\
      weighted_sum (map req_count (granted ops (outs s0 ops))) ds ==
        (if existsb uses_delta (map req_type (granted ops (outs s0 ops))) then d else 0) /\
      Forall2 (fun t x => 0 <= x /\ x <= d /\ (t = LAPLACE -> x == 0))
              (map req_type (granted ops (outs s0 ops))) ds.
Proof. exact c02_lemma. Qed.

(** Deltas of delta-using mechanisms are in the same proportion as their epsilons. *)
Theorem C02_delta_proportional_to_epsilon :
  forall e d num ws s0 ops s2 es ds,
    new_accountant e d num ws = Ok s0 ->
    Forall op_pos ops ->
    step (run s0 ops) Compute = (s2, Ok OutUnit) ->
    read_eps s2 es -> read_delta s2 ds ->
    forall i j ei ej di dj ti tj,
      nth_error (map req_type (granted ops (outs s0 ops))) i = Some ti ->
      nth_error (map req_type (granted ops (outs s0 ops))) j = Some tj ->
      uses_delta ti = true -> uses_delta tj = true ->
      nth_error es i = Some ei -> nth_error es j = Some ej ->
      nth_error ds i = Some di -> nth_error ds j = Some dj ->
      di * ej == dj * ei.
Proof. exact c03_delta_lemma. Qed.

Example C02_hypotheses_met :
  exists s0 s2,
    let ops := [Enter 2; Request GAUSSIAN 1 3 None; Request LAPLACE 2 1 None; Exit;
                Request GENERIC 1 1 None] in
    new_accountant 1 (1 # 1000) None None = Ok s0 /\
    Forall op_pos ops /\
    step (run s0 ops) Compute = (s2, Ok OutUnit) /\
    Forall2 (fun m x => exists y, get_delta m = Ok y /\ y == x) (mechs s2)
            [2 # 9000; 0; 3 # 9000].
Proof.
  pose (s0 := Acct 1 (1 # 1000) None None [] [] [] false).
  exists s0, (fst (step (run s0 ([Enter 2; Request GAUSSIAN 1 3 None; Request LAPLACE 2 1 None; Exit;
                Request GENERIC 1 1 None])) Compute)).
  cbv zeta. split; [reflexivity|]. split.
  - repeat constructor; simpl; try reflexivity; try lra.
  - split; [vm_compute; reflexivity|].
    vm_compute mechs. repeat constructor; eexists; (split; [reflexivity|]); reflexivity.
Qed.

(** ** C03: shares follow weights and scopes. *)
Theorem C03_shares_follow_weights :
  forall e d num ws s0 forest s2,
    new_accountant e d num ws = Ok s0 ->
    Forall (item_ok (negb (Qeq_bool d 0))) forest ->
    step (run s0 (flat_map item_ops forest)) Compute = (s2, Ok OutUnit) ->
    exists es, read_eps s2 es /\ Forall2 Qeq es (share e (IScope 1 forest)).
Proof. exact c03_lemma. Qed.

(** Nesting three scopes deep, one of them empty: 1/6 and 1/3 of epsilon go to the
    scope's mechanisms, 1/2 to the mechanism outside. *)
Example C03_hypotheses_met :
  exists s0 s2,
    let forest := [IScope 2 [IMech LAPLACE 1; IScope 5 []; IScope 2 [IScope 7 [IMech GENERIC 9]]];
                   IMech GAUSSIAN 2] in
    new_accountant 3 (1 # 10) None None = Ok s0 /\
    Forall (item_ok (negb (Qeq_bool (1 # 10) 0))) forest /\
    step (run s0 (flat_map item_ops forest)) Compute = (s2, Ok OutUnit) /\
    Forall2 Qeq (share 3 (IScope 1 forest)) [1 # 2; 1; 3 # 2].
Proof.
  pose (s0 := Acct 3 (1 # 10) None None [] [] [] false).
  exists s0, (fst (step (run s0 (flat_map item_ops [IScope 2 [IMech LAPLACE 1; IScope 5 []; IScope 2 [IScope 7 [IMech GENERIC 9]]];
                   IMech GAUSSIAN 2])) Compute)).
  cbv zeta. split; [reflexivity|]. split.
  - repeat constructor; simpl; auto; try lra; try discriminate.
  - split; [vm_compute; reflexivity|]. vm_compute share. repeat constructor.
Qed.

(** ** C04: life cycle. *)
Theorem C04_unreadable_before_compute :
  forall e d num ws s0 ops,
    new_accountant e d num ws = Ok s0 ->
    computed ops (outs s0 ops) = false ->
    Forall (fun r => r = (Err AssertionError, Err AssertionError)) (readings (run s0 ops)).
Proof. exact c04_before_lemma. Qed.

Theorem C04_readable_and_frozen_after_compute :
  forall s s2 b ops2,
    step s Compute = (s2, Ok b) ->
    Forall (fun r => is_ok (fst r) = true /\ is_ok (snd r) = true) (readings s2) /\
    length (readings s2) = length (readings s) /\
    readings (run s2 ops2) = readings s2 /\
    Forall (fun p => is_request_or_compute (fst p) = true -> is_ok (snd p) = false)
           (combine ops2 (outs s2 ops2)).
Proof. exact c04_after_lemma. Qed.

Theorem C04_rejected_compute_changes_nothing :
  forall s s2, step s Compute = (s2, Err ValueError) -> s2 = s.
Proof. exact c04_rejected_lemma. Qed.

Theorem C04_rejected_request_changes_nothing :
  forall s t w c n s2 x, step s (Request t w c n) = (s2, Err x) -> s2 = s.
Proof. exact c04_failed_request_lemma. Qed.

(** Finding: a compute_budgets call rejected for another reason (a scope is still
    open) does change the accountant: no later call can ever succeed and the
    budgets stay unreadable. *)
Theorem C04_every_rejected_compute_changes_nothing_refuted :
  exists s0 ops,
    new_accountant 1 0 None None = Ok s0 /\
    ops = [Enter 1; Request LAPLACE 1 1 None; Compute; Exit; Compute] /\
    outs s0 ops = [Ok OutUnit; Ok (OutMech 0); Err GenericException; Ok OutUnit; Err GenericException] /\
    readings (run s0 ops) = [(Err AssertionError, Err AssertionError)] /\
    (* without the early compute_budgets everything is fine *)
    outs s0 [Enter 1; Request LAPLACE 1 1 None; Exit; Compute] =
      [Ok OutUnit; Ok (OutMech 0); Ok OutUnit; Ok OutUnit].
Proof.
  exists (Acct 1 0 None None [] [] [] false), [Enter 1; Request LAPLACE 1 1 None; Compute; Exit; Compute].
  repeat split; vm_compute; reflexivity.
Qed.

Example C04_hypotheses_met :
  exists s0 s2,
    new_accountant 1 0 (Some 2%Z) None = Ok s0 /\
    let ops := [Request LAPLACE 1 1 None; StartAgg 1; Compute; Request LAPLACE 1 1 None; StartAgg 1] in
    computed ops (outs s0 ops) = false /\
    outs s0 ops = [Ok (OutMech 0); Ok (OutBudget (Some (1 / inject_Z 2, 0 / inject_Z 2))); Err ValueError;
                   Ok (OutMech 1); Ok (OutBudget (Some (1 / inject_Z 2, 0 / inject_Z 2)))] /\
    step (run s0 ops) Compute = (s2, Ok OutUnit) /\
    length (readings s2) = 2%nat.
Proof.
  pose (s0 := Acct 1 0 (Some 2%Z) None [] [] [] false).
  exists s0, (fst (step (run s0 ([Request LAPLACE 1 1 None; StartAgg 1; Compute; Request LAPLACE 1 1 None; StartAgg 1])) Compute)).
  repeat split; vm_compute; reflexivity.
Qed.

(** ** C05: declared aggregations. *)

(** compute_budgets fails with ValueError exactly when what was performed is not
    what was declared. *)
Theorem C05_declaration_enforced :
  forall e d num ws s0 ops,
    new_accountant e d num ws = Ok s0 ->
    (snd (step (run s0 ops) Compute) = Err ValueError <->
     ~ matches_declaration num ws (performed ops)).
Proof. exact c05_enforced_lemma. Qed.

(** Every aggregation of the history gets exactly the epsilon announced for it. *)
Theorem C05_announced_epsilon_is_granted :
  forall e d num ws s0 aggs s2,
    new_accountant e d num ws = Ok s0 ->
    (num <> None \/ exists l, ws = Some l /\ l <> []) ->
    aggs <> [] ->
    Forall (fun a => 0 < fst a /\ Forall (item_ok (negb (Qeq_bool d 0))) (snd a) /\
                     leaves (IScope (fst a) (snd a)) <> 0%nat) aggs ->
    let ops := flat_map agg_ops aggs in
    step (run s0 ops) Compute = (s2, Ok OutUnit) ->
    exists ess : list (list Q),
      read_eps s2 (concat ess) /\
      Forall2 (fun es a => length es = leaves (IScope (fst a) (snd a))) ess aggs /\
      Forall2 (fun es b => sumQ es == fst b) ess (announced ops (outs s0 ops)) /\
      sumQ (map fst (announced ops (outs s0 ops))) == e.
Proof. exact c05_announced_lemma. Qed.

(** Finding: the announced delta is not what an aggregation gets: with one
    Laplace-only aggregation and one that selects partitions, each is announced half
    of delta, but the first gets nothing and the second all of it. *)
Theorem C05_announced_delta_is_granted_refuted :
  exists s0 s2 b1 b2 d1 d2,
    let ops := flat_map agg_ops [(1, [IMech LAPLACE 1]); (1, [IMech GENERIC 1])] in
    new_accountant 1 (1 # 10) (Some 2%Z) None = Ok s0 /\
    step (run s0 ops) Compute = (s2, Ok OutUnit) /\
    announced ops (outs s0 ops) = [b1; b2] /\
    read_delta s2 [d1; d2] /\
    snd b1 == 1 # 20 /\ snd b2 == 1 # 20 /\ d1 == 0 /\ d2 == 1 # 10.
Proof.
  pose (s0 := Acct 1 (1 # 10) (Some 2%Z) None [] [] [] false).
  pose (ops := flat_map agg_ops [(1, [IMech LAPLACE 1]); (1, [IMech GENERIC 1])]).
  exists s0, (fst (step (run s0 ops) Compute)).
  exists (1 / inject_Z 2, (1 # 10) / inject_Z 2), (1 / inject_Z 2, (1 # 10) / inject_Z 2).
  exists 0, ((1 # 10) * (1 * (1 / (1 + 0))) / (0 + (1 * (1 / (1 + 0))) * inject_Z 1)).
  cbv zeta. split; [reflexivity|]. split; [vm_compute; reflexivity|].
  split; [vm_compute; reflexivity|]. split; [|repeat split].
  unfold read_delta. vm_compute. repeat constructor.
Qed.

Example C05_hypotheses_met :
  exists s0 s2,
    let aggs := [(1, [IMech LAPLACE 1; IMech GENERIC 1]); (3, [IScope 1 [IMech LAPLACE 4]])] in
    let ops := flat_map agg_ops aggs in
    new_accountant 2 (1 # 10) None (Some [1; 3]) = Ok s0 /\
    Forall (fun a => 0 < fst a /\ Forall (item_ok (negb (Qeq_bool (1 # 10) 0))) (snd a) /\
                     leaves (IScope (fst a) (snd a)) <> 0%nat) aggs /\
    step (run s0 ops) Compute = (s2, Ok OutUnit) /\
    matches_declaration None (Some [1; 3]) (performed ops) /\
    Forall2 (fun b x => fst b == x) (announced ops (outs s0 ops)) [1 # 2; 3 # 2].
Proof.
  pose (s0 := Acct 2 (1 # 10) None (Some [1; 3]) [] [] [] false).
  exists s0, (fst (step (run s0 (flat_map agg_ops [(1, [IMech LAPLACE 1; IMech GENERIC 1]); (3, [IScope 1 [IMech LAPLACE 4]])])) Compute)).
  cbv zeta. split; [reflexivity|]. split.
  - repeat constructor; simpl; auto; try lra; try discriminate.
  - split; [vm_compute; reflexivity|]. split.
    + split; [discriminate|]. intros l E; injection E as <-. intros _. vm_compute. repeat constructor.
    + vm_compute announced. repeat constructor.
Qed.

Print Assumptions C01_naive_epsilon_spent_exactly.
Print Assumptions C01_naive_epsilon_any_weights.
Print Assumptions C01_share_within_total_any_weights_refuted.
Print Assumptions C02_naive_delta_spent_exactly.
Print Assumptions C02_delta_proportional_to_epsilon.
Print Assumptions C03_shares_follow_weights.
Print Assumptions C04_unreadable_before_compute.
Print Assumptions C04_readable_and_frozen_after_compute.
Print Assumptions C04_rejected_compute_changes_nothing.
Print Assumptions C04_rejected_request_changes_nothing.
Print Assumptions C04_every_rejected_compute_changes_nothing_refuted.
Print Assumptions C05_declaration_enforced.
Print Assumptions C05_announced_epsilon_is_granted.
Print Assumptions C05_announced_delta_is_granted_refuted.
