(** Lemmas for C72. *)
From Coq Require Import List ZArith QArith Reals Lra Lia Bool.
From Verif Require Import Base BaseLemmas BackendModel ListLemmas ParamsModel CombinerModel EngineModel EngineSpec SelectSpec BudgetSpec DpSpec DpProofs2 DpProofs5 GroupSpec.
Import ListNotations.
Local Open Scope R_scope.

Lemma indistinguishable_chain e1 d1 e2 d2 x y z :
  indistinguishable e1 d1 x y -> indistinguishable e2 d2 y z ->
  x <= exp (e1 + e2) * z + (d1 + exp e1 * d2) /\ z <= exp (e1 + e2) * x + (d2 + exp e2 * d1).
Proof.
  intros [A B] [C D]. rewrite exp_plus. assert (P1 := exp_pos e1). assert (P2 := exp_pos e2). split.
  - apply (Rmult_le_compat_l (exp e1)) in C; lra.
  - apply (Rmult_le_compat_l (exp e2)) in B; lra.
Qed.
Lemma group_delta_nonneg k e d : 0 <= d -> 0 <= group_delta k e d.
Proof. intro Pd. induction k as [|k IH]; cbn; [lra|]. assert (P := exp_pos e). nra. Qed.
Lemma group_delta_last k e d : group_delta (S k) e d = group_delta k e d + exp (INR k * e) * d.
Proof.
  induction k as [|k IH]; [cbn; rewrite Rmult_0_l, exp_0; ring|]. cbn [group_delta] in *. rewrite IH at 1.
  rewrite S_INR. replace ((INR k + 1) * e) with (e + INR k * e) by ring. rewrite exp_plus. ring.
Qed.

Section Group.
Context {U P : Type} `{EqDec U} `{EqDec P}.

Lemma forget_group_nil (c : call U P) : forget_group [] c = c.
Proof. destruct c. unfold forget_group. cbn. f_equal. apply filter_all. reflexivity. Qed.
Lemma forget_group_cons u us (c : call U P) : forget_group (u :: us) c = forget u (forget_group us c).
Proof.
  unfold forget_group, forget, without. cbn [c_params c_combiners c_sampling c_public c_keys c_rows]. f_equal.
  induction (c_rows c) as [|r l IH]; [reflexivity|]. cbn [filter]. rewrite IH.
  assert (E : mem (fst (fst r)) (u :: us) = eqb (fst (fst r)) u || mem (fst (fst r)) us) by reflexivity. rewrite E.
  destruct (mem (fst (fst r)) us); cbn [negb filter].
  - rewrite orb_true_r. reflexivity.
  - rewrite orb_false_r. reflexivity.
Qed.

(** Privacy for one privacy id gives privacy for a group. *)
Lemma group_steps (Pr : list (call U P) -> R) e d (Good : list (call U P) -> Prop) us : 0 <= e -> 0 <= d ->
  (forall u cs, Good cs -> Good (map (forget u) cs) -> indistinguishable e d (Pr cs) (Pr (map (forget u) cs))) ->
  forall cs, (forall vs, incl vs us -> Good (map (forget_group vs) cs)) ->
  indistinguishable (INR (length us) * e) (group_delta (length us) e d) (Pr cs) (Pr (map (forget_group us) cs)).
Proof.
  intros Pe Pd St. induction us as [|u us IH]; intros cs G.
  - assert (E : map (forget_group []) cs = cs) by (rewrite <- map_id; apply map_ext; apply forget_group_nil). rewrite E. cbn.
    rewrite Rmult_0_l. split; rewrite exp_0; lra.
  - assert (I1 := IH cs (fun vs I => G vs (fun x J => or_intror (I x J)))).
    assert (E : map (forget_group (u :: us)) cs = map (forget u) (map (forget_group us) cs)).
    { rewrite map_map. apply map_ext. apply forget_group_cons. }
    assert (I2 := St u (map (forget_group us) cs) (G us (fun x J => or_intror J))). rewrite <- E in I2.
    specialize (I2 (G (u :: us) (incl_refl _))).
    destruct (indistinguishable_chain _ _ _ _ _ _ _ I1 I2) as [A B]. change (length (u :: us)) with (S (length us)).
    rewrite S_INR. replace ((INR (length us) + 1) * e) with (INR (length us) * e + e) by ring. split.
    + rewrite group_delta_last. exact A.
    + cbn [group_delta]. exact B.
Qed.

Lemma replacement_steps (Pr : list (call U P) -> R) e d (Good : list (call U P) -> Prop) u :
  (forall cs, Good cs -> Good (map (forget u) cs) -> indistinguishable e d (Pr cs) (Pr (map (forget u) cs))) ->
  forall cs cs', Forall2 (differ_only_in u) cs cs' -> Good cs -> Good cs' -> Good (map (forget u) cs) ->
  indistinguishable (2 * e) (d + exp e * d) (Pr cs) (Pr cs').
Proof.
  intros St cs cs' D G G' Gf. assert (E : map (forget u) cs = map (forget u) cs').
  { clear -D. induction D as [|c c' cs cs' X _ IH]; [reflexivity|]. cbn. rewrite IH. f_equal. exact X. }
  assert (I1 := St cs G Gf). rewrite E in Gf. assert (I2 := St cs' G' Gf). rewrite <- E in I2.
  assert (I3 : indistinguishable e d (Pr (map (forget u) cs)) (Pr cs')) by (destruct I2; split; assumption).
  replace (2 * e) with (e + e) by ring. exact (indistinguishable_chain _ _ _ _ _ _ _ I1 I3).
Qed.
Lemma group_requests us (calls : list (call U P)) : flat_map call_requests (map (forget_group us) calls) = flat_map call_requests calls.
Proof. induction calls as [|c cs IH]; [reflexivity|]. cbn [map flat_map]. rewrite IH. reflexivity. Qed.
Lemma group_valid us (calls : list (call U P)) : Forall valid_call calls -> Forall valid_call (map (forget_group us) calls).
Proof.
  intro V. induction us as [|u us IH].
  - apply Forall_map. eapply Forall_impl; [|exact V]. intros c Vc. rewrite forget_group_nil. exact Vc.
  - apply Forall_map. rewrite Forall_map in IH. eapply Forall_impl; [|exact IH]. intros c Vc. cbn beta in Vc. rewrite forget_group_cons. apply forget_valid. exact Vc.
Qed.
Lemma differ_requests u (calls calls' : list (call U P)) : Forall2 (differ_only_in u) calls calls' ->
  flat_map call_requests calls = flat_map call_requests calls'.
Proof.
  induction 1 as [|c c' cs cs' D _ IH]; [reflexivity|]. cbn [flat_map]. rewrite IH. f_equal.
  change (call_requests (forget u c) = call_requests (forget u c')). rewrite D. reflexivity.
Qed.
Lemma both_large u N X T (cs : list (call U P)) : Forall (large_enough N X T) cs -> Forall (large_enough N X T) (map (forget u) cs) ->
  Forall (fun c => large_enough N X T c /\ large_enough N X T (forget u c)) cs.
Proof.
  intros A B. rewrite Forall_map in B. apply Forall_forall. intros c I. rewrite Forall_forall in A, B. split; [apply A | apply B]; exact I.
Qed.

(** Only the privacy ids of the group matter, so there are finitely many cases. *)
Lemma forget_group_ext us vs (c : call U P) : (forall u, In u us <-> In u vs) -> forget_group us c = forget_group vs c.
Proof. intro E. unfold forget_group. f_equal. apply filter_ext. intro r. f_equal. apply mem_ext. apply E. Qed.
Fixpoint power (us : list U) : list (list U) :=
  match us with
  | [] => [[]]
  | u :: us' => power us' ++ map (cons u) (power us')
  end.
Lemma power_filter (f : U -> bool) us : In (filter f us) (power us).
Proof.
  induction us as [|u us IH]; [left; reflexivity|]. cbn [filter power]. apply in_app_iff. destruct (f u).
  - right. apply in_map. exact IH.
  - left. exact IH.
Qed.
Lemma group_enough us (calls : list (call U P)) :
  exists N X T, forall vs, incl vs us -> Forall (large_enough N X T) (map (forget_group vs) calls).
Proof.
  destruct (all_enough (flat_map (fun vs => map (forget_group vs) calls) (power us))) as [N [X [T L]]]. exists N, X, T.
  intros vs I. rewrite Forall_forall in L. apply Forall_forall. intros c Ic.
  apply L. apply in_flat_map. exists (filter (fun u => mem u vs) us). split; [apply power_filter|].
  apply in_map_iff in Ic. destruct Ic as [c0 [<- Ic]]. apply in_map_iff. exists c0. split; [|exact Ic].
  apply forget_group_ext. intro u. rewrite filter_In, mem_true_iff. split; [tauto|]. intro J. split; [apply I; exact J | exact J].
Qed.
End Group.
