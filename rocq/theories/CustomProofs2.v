(** Lemmas for C68: what custom combiners are given and what they compute. *)
From Coq Require Import List ZArith QArith Bool PeanoNat Lia.
From Verif Require Import Base BackendModel BackendSpec BackendProofs ListLemmas BounderModel BounderSpec ParamsModel SensModel BudgetModel CombinerModel
  EngineModel EngineSpec EngineProofs EngineProofs2 EngineProofs3 EngineProofs4 EngineProofs5 SelectModel CustomModel CustomSpec CustomProofs.
Import ListNotations.
Local Open Scope nat_scope.

Section Result.
Context {U P V A O : Type} `{EqDec U} `{EqDec P}.

Lemma combine_same (cs : list (ready V A O)) (h h' : ready V A O -> A) :
  combine cs (combine (map h cs) (map h' cs)) = map (fun c => (c, (h c, h' c))) cs.
Proof. induction cs as [|c cs IH]; [reflexivity|]. cbn. rewrite IH. reflexivity. Qed.
Lemma custom_fold (cs : list (ready V A O)) gs : forall z (h : ready V A O -> A),
  fold_left (custom_merge cs) (map (custom_create cs) gs) (z, map h cs) =
  ((z + Z.of_nat (length gs))%Z, map (fun c => fold_left (r_merge c) (map (r_create c) gs) (h c)) cs).
Proof.
  induction gs as [|g gs IH]; intros z h.
  - cbn. rewrite Z.add_0_r. reflexivity.
  - cbn [map fold_left]. assert (E : custom_merge cs (z, map h cs) (custom_create cs g) = ((z + 1)%Z, map (fun c => r_merge c (h c) (r_create c g)) cs)).
    { unfold custom_merge, custom_create. cbn [fst snd]. rewrite combine_same, map_map. reflexivity. }
    rewrite E, IH. f_equal. cbn [length]. lia.
Qed.

Lemma to_bound_taking_part (q : query U P V) : to_bound (q_params q) (q_public q) (q_rows q) = taking_part q.
Proof.
  unfold to_bound, taking_part. destruct (q_public q) as [pub|]; [|reflexivity]. destruct (public_partitions_already_filtered _); [reflexivity|].
  apply drop_partitions_filter.
Qed.

Definition pairs (public : option (list P)) (kept : list ((U * P) * list V)) : list (P * list V) :=
  (map (fun e => (snd (fst e), snd e)) kept ++ match public with Some pub => map (fun k => (k, [])) pub | None => [] end)%list.
Lemma values_of_pairs public kept k : values_of k (pairs public kept) = groups public kept k.
Proof.
  unfold pairs, groups. rewrite values_of_app. f_equal.
  - unfold values_of. rewrite filter_map, map_map. reflexivity.
  - destruct public as [pub|]; [|reflexivity]. unfold values_of. rewrite filter_map, map_map. reflexivity.
Qed.

Lemma custom_accumulators_pairs ex (cs : list (ready V A O)) (q : query U P V) kept :
  contribution_bounds_already_enforced (q_params q) = false ->
  bound_contributions (q_params q) ex (q_sampling q) (fun vs => vs) (taking_part q) = Ok kept ->
  custom_accumulators ex cs q = Ok (combine_per_key (custom_merge cs) (map_values (custom_create cs) (pairs (q_public q) kept))).
Proof.
  intros Hb E. unfold custom_accumulators. fold (to_bound (q_params q) (q_public q) (q_rows q)). cbv zeta.
  rewrite to_bound_taking_part, Hb, bound_natural, E. cbn [rmap]. f_equal. f_equal.
  unfold pairs, map_values, add_empty_public_partitions. rewrite map_app, !map_map. cbn [fst snd].
  destruct (q_public q) as [[|k pub]|]; cbn [map]; rewrite ?app_nil_r; try reflexivity.
  f_equal. cbn [fst snd]. f_equal. rewrite map_map. reflexivity.
Qed.

Lemma custom_rows ex (cs : list (ready V A O)) (q : query U P V) kept col :
  contribution_bounds_already_enforced (q_params q) = false ->
  bound_contributions (q_params q) ex (q_sampling q) (fun vs => vs) (taking_part q) = Ok kept ->
  custom_accumulators ex cs q = Ok col ->
  NoDup (map fst col) /\ (forall k, In k (map fst col) <-> groups (q_public q) kept k <> []) /\
  forall k a, In (k, a) col -> fst a = Z.of_nat (length (groups (q_public q) kept k)) /\
    Forall2 (fun c o => merged c (groups (q_public q) kept k) = Some o) cs (snd a).
Proof.
  intros Hb Ek E. rewrite (custom_accumulators_pairs ex cs q kept Hb Ek) in E. injection E as <-. split; [|split].
  - rewrite combine_per_key_keys. apply NoDup_distinct.
  - intro k. rewrite combine_per_key_keys, in_distinct, <- values_of_pairs. rewrite map_values_keys. split.
    + intros I X. apply (proj1 (values_of_nil_iff _ _)) in X. contradiction.
    + intro N. destruct (in_dec eq_dec k (map fst (pairs (q_public q) kept))) as [I|I]; [exact I|]. exfalso. apply N. apply values_of_nil_iff. exact I.
  - intros k a I. apply in_combine_per_key in I. rewrite values_of_map_values, values_of_pairs in I.
    destruct (groups (q_public q) kept k) as [|g gs]; [discriminate|]. cbn [map fold1] in I. injection I as <-.
    change (custom_create cs g) with (1%Z, map (fun c => r_create c g) cs). rewrite custom_fold. cbn [fst snd length]. split; [lia|].
    clear. unfold merged. cbn [map]. induction cs as [|c cs IH]; constructor; auto.
Qed.

Lemma custom_result_rows ex (cs : list (ready V A O)) (q : query U P V) :
  accepted (q_params q) -> contribution_bounds_already_enforced (q_params q) = false ->
  exists kept rows,
    bound_contributions (q_params q) ex (q_sampling q) (fun vs => vs) (taking_part q) = Ok kept /\
    custom_result ex cs q = Ok rows /\
    NoDup (map fst rows) /\ (forall k, In k (map fst rows) <-> groups (q_public q) kept k <> []) /\
    forall k n os, In (k, (n, os)) rows ->
      n = (if selects_privately (q_params q) (q_public q) then Some (Z.of_nat (length (groups (q_public q) kept k))) else None) /\
      Forall2 (fun c o => exists a, merged c (groups (q_public q) kept k) = Some a /\ o = r_compute c a) cs os.
Proof.
  intros Ha Hb. destruct (bound_ok (q_params q) ex (q_sampling q) (fun vs : list V => vs) (taking_part q) Ha) as [kept Ek].
  exists kept. assert (E := custom_accumulators_pairs ex cs q kept Hb Ek).
  set (col := combine_per_key _ _) in E. destruct (custom_rows ex cs q kept col Hb Ek E) as [N [K R]].
  assert (M : forall accs gs, Forall2 (fun c o => merged c gs = Some o) cs accs ->
     Forall2 (fun c o => exists a, merged c gs = Some a /\ o = r_compute c a) cs (map (fun x => r_compute (fst x) (snd x)) (combine cs accs))).
  { clear. intros accs gs F. induction F as [|c a cs accs X F IH]; cbn [combine map fst snd]; constructor; [|exact IH]. exists a. auto. }
  unfold custom_result. rewrite E. cbn [rbind]. destruct (selects_privately (q_params q) (q_public q)) eqn:Sp.
  - unfold max_rows_per_privacy_id. rewrite Hb. eexists. split; [exact Ek|]. split; [reflexivity|]. rewrite map_map. cbn [fst].
    split; [exact N|]. split; [exact K|]. intros k n os I. apply in_map_iff in I. destruct I as [[k' a] [Ea I]]. cbn [fst snd] in Ea. injection Ea as <- <- <-.
    destruct (R k' a I) as [Ra Rb]. rewrite Ra, divide_by_one. split; [reflexivity|]. apply M. exact Rb.
  - eexists. split; [exact Ek|]. split; [reflexivity|]. rewrite map_map. cbn [fst].
    split; [exact N|]. split; [exact K|]. intros k n os I. apply in_map_iff in I. destruct I as [[k' a] [Ea I]]. cbn [fst snd] in Ea. injection Ea as <- <- <-.
    destruct (R k' a I) as [Ra Rb]. split; [reflexivity|]. apply M. exact Rb.
Qed.
End Result.
