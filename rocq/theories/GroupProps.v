(** Property C72: privacy for groups of privacy ids, and for a privacy id whose data is
    replaced. *)
From Coq Require Import List ZArith QArith Qreals Reals Lqa Lra Bool Lia.
From Verif Require Import Base BaseLemmas BackendModel ListLemmas BackendSpec BackendProofs ParamsModel SensModel CombinerModel CombinerProofs3 EngineModel EngineSpec
  EngineProofs EngineProofs2 EngineProofs3 EngineProofs4 EngineProofs5 EngineProps EngineProps2 BudgetModel VectorModel ExpMechProofs BudgetSpec BudgetProofs LaplaceModel LaplaceSpec LaplaceProofs
  SelectModel SelectSpec SelectProofs SelectProofs2 SelectProofs3 SelectProps WrapperModel EnforcedSpec EnforcedProofs EnforcedProofs2 EnforcedProps QuantileModel QuantileProps DistSpec DistProofs DpModel DpSpec DpProofs DpProofs2 DpProofs3 DpProofs4 DpProofs5 DpProps
  PldModel PldProofs PldProps PldDpModel PldDpSpec PldDpProofs PldDpProofs2 PldDpProofs3 PldDpProofs4 PldDpProps GroupSpec GroupProofs.
Import ListNotations.
Local Open Scope R_scope.
Local Close Scope Q_scope.

(** Several aggregations on one accountant, as in C61, with and without the rows of all
    of [us]: k privacy ids get k times the epsilon. *)
Theorem C72_group_privacy {U P} `{EqDec U} `{EqDec P}
    (e d : Q) num ws s0 ops s2 es ds (calls : list (call U P)) (us : list U) (py : pydp) N X T :
  new_accountant e d num ws = Ok s0 ->
  Forall op_pos ops ->
  BudgetSpec.granted ops (outs s0 ops) = flat_map call_requests calls ->
  BudgetSpec.granted ops (outs s0 ops) <> [] ->
  step (run s0 ops) Compute = (s2, Ok OutUnit) ->
  read_eps s2 es -> read_delta s2 ds ->
  Forall valid_call calls ->
  pydp_keeps_promises py ->
  (forall vs, incl vs us -> Forall (large_enough N X T) (map (forget_group vs) calls)) ->
  forall E, indistinguishable (INR (length us) * Q2R e) (group_delta (length us) (Q2R e) (Q2R d))
    (prob (run_calls py N X T (combine calls (divide calls (combine es ds)))) E)
    (prob (run_calls py N X T (combine (map (forget_group us) calls) (divide (map (forget_group us) calls) (combine es ds)))) E).
Proof.
  intros Hn Hp Hg Hne Hc He Hd V K L E. destruct (new_accountant_inv _ _ _ _ _ Hn) as [_ [Pe [Pd _]]].
  apply Qlt_le_weak, Qle_Rle in Pe. apply Qle_Rle in Pd. rewrite RMicromega.Q2R_0 in Pe, Pd.
  apply (group_steps (fun cs => prob (run_calls py N X T (combine cs (divide cs (combine es ds)))) E) (Q2R e) (Q2R d)
    (fun cs => BudgetSpec.granted ops (outs s0 ops) = flat_map call_requests cs /\ Forall valid_call cs /\ Forall (large_enough N X T) cs)); try assumption.
  - intros u cs [G1 [G2 G3]] [_ [_ G4]].
    apply (C61_total_budget_differential_privacy e d num ws s0 ops s2 es ds cs u py N X T); try assumption. exact (both_large _ _ _ _ _ G3 G4).
  - intros vs I. split; [rewrite Hg; symmetry; apply group_requests|]. split; [apply group_valid; exact V | exact (L vs I)].
Qed.
Print Assumptions C72_group_privacy.

(** The data of one privacy id is replaced by other data. *)
Theorem C72_replaced_data {U P} `{EqDec U} `{EqDec P}
    (e d : Q) num ws s0 ops s2 es ds (calls calls' : list (call U P)) (u : U) (py : pydp) N X T :
  new_accountant e d num ws = Ok s0 ->
  Forall op_pos ops ->
  BudgetSpec.granted ops (outs s0 ops) = flat_map call_requests calls ->
  BudgetSpec.granted ops (outs s0 ops) <> [] ->
  step (run s0 ops) Compute = (s2, Ok OutUnit) ->
  read_eps s2 es -> read_delta s2 ds ->
  Forall2 (differ_only_in u) calls calls' ->
  Forall valid_call calls -> Forall valid_call calls' ->
  pydp_keeps_promises py ->
  Forall (large_enough N X T) (calls ++ calls' ++ map (forget u) calls) ->
  forall E, indistinguishable (2 * Q2R e) (Q2R d + exp (Q2R e) * Q2R d)
    (prob (run_calls py N X T (combine calls (divide calls (combine es ds)))) E)
    (prob (run_calls py N X T (combine calls' (divide calls' (combine es ds)))) E).
Proof.
  intros Hn Hp Hg Hne Hc He Hd D V V' K L E. apply Forall_app in L. destruct L as [L1 L]. apply Forall_app in L. destruct L as [L2 L3].
  apply (replacement_steps (fun cs => prob (run_calls py N X T (combine cs (divide cs (combine es ds)))) E) (Q2R e) (Q2R d)
    (fun cs => BudgetSpec.granted ops (outs s0 ops) = flat_map call_requests cs /\ Forall valid_call cs /\ Forall (large_enough N X T) cs) u); try assumption.
  - intros cs [G1 [G2 G3]] [_ [_ G4]].
    apply (C61_total_budget_differential_privacy e d num ws s0 ops s2 es ds cs u py N X T); try assumption. exact (both_large _ _ _ _ _ G3 G4).
  - repeat split; assumption.
  - split; [rewrite Hg; apply (differ_requests u); exact D|]. split; assumption.
  - split; [rewrite Hg; clear; induction calls as [|c cs IH]; [reflexivity|]; cbn [map flat_map]; rewrite IH; reflexivity|]. split; [|exact L3].
    apply Forall_map. eapply Forall_impl; [|exact V]. intros c. apply forget_valid.
Qed.
Print Assumptions C72_replaced_data.

(** The same with a PLDBudgetAccountant (C71). *)
Theorem C72_group_privacy_pld {U P} `{EqDec U} `{EqDec P}
    (e d : Q) num ws s0 ops fuel infinity lib (calls : list (call U P)) ms (us : list U) (rp : real_pydp) N X :
  new_accountant e d num ws = Ok s0 ->
  Forall op_pos ops ->
  BudgetSpec.granted ops (outs s0 ops) = flat_map call_requests calls ->
  pld_compute fuel lib (run s0 ops) = Some (Ok ms) ->
  Forall (fun c => valid_call c /\ engine_accepts c /\ post_aggregation_thresholding (c_params c) = false) calls ->
  keeps_promises infinity lib rp -> Q2R e < infinity ->
  (forall vs, incl vs us -> Forall (large_enough N X []) (map (forget_group vs) calls)) ->
  forall E, indistinguishable (INR (length us) * Q2R e) (group_delta (length us) (Q2R e) (Q2R d))
    (prob (run_pld_calls rp N X (combine calls (divide_specs calls ms))) E)
    (prob (run_pld_calls rp N X (combine (map (forget_group us) calls) (divide_specs (map (forget_group us) calls) ms))) E).
Proof.
  intros Hn Hp Hg Hc V K Fin L E. destruct (new_accountant_inv _ _ _ _ _ Hn) as [_ [Pe [Pd _]]].
  apply Qlt_le_weak, Qle_Rle in Pe. apply Qle_Rle in Pd. rewrite RMicromega.Q2R_0 in Pe, Pd.
  apply (group_steps (fun cs => prob (run_pld_calls rp N X (combine cs (divide_specs cs ms))) E) (Q2R e) (Q2R d)
    (fun cs => BudgetSpec.granted ops (outs s0 ops) = flat_map call_requests cs /\
       Forall (fun c => valid_call c /\ engine_accepts c /\ post_aggregation_thresholding (c_params c) = false) cs /\ Forall (large_enough N X []) cs)); try assumption.
  - intros u cs [G1 [G2 G3]] [_ [_ G4]].
    apply (C71_total_budget_differential_privacy e d num ws s0 ops fuel infinity lib cs ms u rp N X); try assumption. exact (both_large _ _ _ _ _ G3 G4).
  - intros vs I. split; [rewrite Hg; symmetry; apply group_requests|]. split; [|exact (L vs I)].
    apply Forall_map. eapply Forall_impl; [|exact V]. intros c [A B]. split; [|exact B].
    assert (G := group_valid vs [c] (Forall_cons _ A (Forall_nil _))). inversion G; assumption.
Qed.
Print Assumptions C72_group_privacy_pld.

(** Large enough bounds exist for all subgroups of a group. *)
Theorem C72_bounds_exist {U P} `{EqDec U} `{EqDec P} (calls : list (call U P)) us :
  exists N X T, forall vs, incl vs us -> Forall (large_enough N X T) (map (forget_group vs) calls).
Proof. apply group_enough. Qed.
Print Assumptions C72_bounds_exist.

(** ** The hypotheses are met *)

(** Two privacy ids, with the accountant and the calls of C61. *)
Example C72_group_hypotheses_met :
  exists N X T, (forall vs, incl vs [1; 2]%Z -> Forall (large_enough N X T) (map (forget_group vs) demo_calls)) /\
    map (fun c => length (c_rows c)) (map (forget_group [1; 2]%Z) demo_calls) <> map (fun c => length (c_rows c)) demo_calls /\
    map (fun c => length (c_rows c)) (map (forget_group [1; 2]%Z) demo_calls) <> map (fun c => length (c_rows c)) (map (forget 1%Z) demo_calls).
Proof.
  destruct (C72_bounds_exist demo_calls [1; 2]%Z) as [N [X [T L]]]. exists N, X, T. split; [exact L|].
  split; vm_compute; discriminate.
Qed.
(** Privacy id 1 with rows of other partitions and values. *)
Definition replaced_rows : list (Z * Z * value) := (without 1%Z demo_rows ++ [(1, 40, Num 3); (1, 40, Num (-7))]%Z)%list.
Definition replaced_call : call Z Z :=
  Call (demo_call_params [MEAN] LaplaceNoise false false) [CMean (-1) 5 [NMean]] (first_sampling 2 2) None [10; 20; 30; 40]%Z replaced_rows.
Definition original_call : call Z Z :=
  demo_call [MEAN] [CMean (-1) 5 [NMean]] LaplaceNoise false None.
Example C72_replacement_hypotheses_met :
  differ_only_in 1%Z original_call replaced_call /\ valid_call original_call /\ valid_call replaced_call /\
  exists N X T, Forall (large_enough N X T) ([original_call] ++ [replaced_call] ++ map (forget 1%Z) [original_call]).
Proof.
  split; [vm_compute; reflexivity|]. split; [|split; [|apply DpProofs5.all_enough]].
  - assert (V := demo_calls_valid). inversion V as [|? ? _ V']. inversion V'. assumption.
  - split; [apply demo_params_valid; [cbn; intuition discriminate | reflexivity]|].
    split; [split; [reflexivity | intros x Ix; cbn in Ix |- *; intuition]|]. split; [cbn; intuition discriminate|].
    eexists. left. split; [exists (raw_of (c_params replaced_call)); vm_compute; reflexivity|]. split; [vm_compute; reflexivity|]. split; [reflexivity|].
    split. { unfold valid_sampling. cbn -[Z.to_nat]. split; intros x Ex; inversion Ex; subst; apply first_n_valid. }
    split; [discriminate|]. split; [|vm_compute; reflexivity]. repeat constructor; cbn; intuition discriminate.
Qed.
