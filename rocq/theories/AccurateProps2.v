(** C85, continued: all the partitions at once. *)
From Coq Require Import String List ZArith QArith Qreals Qabs Qminmax Reals Bool Permutation Lia Lqa Lra.
From Verif Require Import Base BaseLemmas BackendModel BackendSpec ListLemmas ParamsModel SensModel CombinerModel EngineModel EngineSpec
  EngineProofs3 EngineProps EnforcedSpec EnforcedProps BounderSpec EngineProps2 QuantileModel QuantileProps BudgetModel BudgetSpec BudgetProofs VectorModel ExpMechProofs LaplaceModel LaplaceSpec LaplaceProofs
  SelectModel SelectSpec SelectProps WrapperModel DistSpec DistProofs DpModel DpSpec
  DpProofs DpProofs2 DpProofs3 DpProofs4 DpProofs5 DpProps LawSpec LawProofs LawProofs2 LawProofs3 LawProps RoundModel RoundSpec RoundProofs RoundProps QTreeModel QTreeProps AccurateSpec AccurateProofs AccurateProps.
Import ListNotations.
Local Open Scope R_scope.
Local Close Scope Q_scope.

Lemma prob_any {A B} (d : dist A) (E : B -> A -> bool) r (ks : list B) :
  is_dist d -> (forall k, In k ks -> prob d (E k) <= r) -> prob d (fun a => existsb (fun k => E k a) ks) <= INR (length ks) * r.
Proof.
  intros D. induction ks as [|k ks IH]; intro Hk.
  - unfold prob. cbn [existsb length INR]. change (indicator false) with 0. rewrite (mixture_const d 0 D). lra.
  - change (length (k :: ks)) with (S (length ks)). rewrite S_INR. assert (I1 := Hk k (or_introl eq_refl)). assert (I2 := IH (fun k' Ik => Hk k' (or_intror Ik))).
    assert (Le : prob d (fun a => existsb (fun k0 => E k0 a) (k :: ks)) <= prob d (E k) + prob d (fun a => existsb (fun k0 => E k0 a) ks)).
    { unfold prob. rewrite <- mixture_add. apply mixture_le; [apply D|]. intro a. cbn [existsb]. unfold indicator.
      destruct (E k a), (existsb (fun k0 => E k0 a) ks); cbn [orb]; lra. }
    lra.
Qed.
Lemma prob_not {A} (d : dist A) (E : A -> bool) : is_dist d -> prob d (fun a => negb (E a)) = 1 - prob d E.
Proof.
  intro D. assert (X : prob d E + prob d (fun a => negb (E a)) = 1).
  { unfold prob. rewrite <- mixture_add. rewrite <- (mixture_const d 1 D). apply mixture_ext. intro a. unfold indicator. destruct (E a); cbn [negb]; lra. }
  lra.
Qed.
Lemma prob_all {A B} (d : dist A) (E : B -> A -> bool) r (ks : list B) :
  is_dist d -> (forall k, In k ks -> 1 - r <= prob d (E k)) -> 1 - INR (length ks) * r <= prob d (fun a => forallb (fun k => E k a) ks).
Proof.
  intros D Hk.
  assert (Any : prob d (fun a => existsb (fun k => negb (E k a)) ks) <= INR (length ks) * r).
  { apply (prob_any d (fun k a => negb (E k a)) r ks D). intros k Ik. rewrite (prob_not d (E k) D). specialize (Hk k Ik). lra. }
  assert (Eq : prob d (fun a => forallb (fun k => E k a) ks) = prob d (fun a => negb (existsb (fun k => negb (E k a)) ks))).
  { unfold prob. apply mixture_ext. intro a. f_equal. clear. induction ks as [|k ks IH]; [reflexivity|]. cbn [forallb existsb].
    rewrite IH, negb_orb, negb_involutive. reflexivity. }
  rewrite Eq, (prob_not d (fun a => existsb (fun k => negb (E k a)) ks) D). lra.
Qed.

Lemma laplace_run_dist {U P} `{EqDec U} `{EqDec P} (c : call U P) b bs py N X T i cb :
  valid_call c -> Forall2 granted_ok (call_requests c) bs -> divide [c] bs = [b] -> pydp_keeps_promises py ->
  nth_error (c_combiners c) i = Some cb -> (forall ps, cb <> CQuantile ps) -> (forall m, cb <> CVector m) ->
  is_dist (run_call py N X T c b).
Proof.
  intros Hv G Hb Hpy Ei Nq Nv. destruct (valid_call_facts c Hv) as [col Fc].
  destruct (call_setup c b bs py col i cb) as [_ [_ [Fb _]]]; try assumption; [exact (f_raw _ _ Fc)|]. apply run_call_dist. exact Fb.
Qed.

(** However the partitions are selected: the probability that the value of any of [ks] is
    released further than [t] + [w] from its truth grows with their number at most. *)
Theorem C85_no_value_is_far {U P} `{EqDec U} `{EqDec P} (c : call U P) b bs gn gv gs gq decode py0 N X T ks i cb n qt e l t w (E : P -> Q -> bool) :
  valid_call c -> Forall2 granted_ok (call_requests c) bs -> divide [c] bs = [b] -> pydp_keeps_promises py0 ->
  (forall m, sorted_grid (gn m)) -> (forall m, sorted_grid (gv m)) -> (forall s, sorted_grid (gs s)) -> (forall q, sorted_grid (gq q)) ->
  large_enough N X T c -> within_bounds (c_params c) (c_rows c) -> noise_kind (c_params c) = LaplaceNoise ->
  incl ks (c_keys c) -> nth_error (c_combiners c) i = Some cb -> In n (names_of cb) -> stands_for cb n = Some qt ->
  (forall lo hi, cb = CSum true lo hi -> (lo <= 0 <= hi)%Q) ->
  epsilon_for cb qt (own c b i) = Some e -> influence (c_params c) cb qt = Some l ->
  let true_value k := Q2R (truth cb qt k (c_rows c)) in
  0 <= t -> (forall k, In k ks -> forall m, rounds_within w (true_value k - t) (true_value k + t) (gn m)) ->
  (forall k v, In k ks -> E k v = true -> t + w < Rabs (Q2R v - true_value k)) ->
  prob (run_call (with_laplace_trees gn gv gs gq decode py0) N X T c b) (fun o => existsb (fun k => released_as (c_keys c) k n (E k) o) ks)
  <= INR (length ks) * exp (- (t * (Q2R e / Q2R l))).
Proof.
  intros Hv G Hb Hp0 S1 S2 S3 S4 L W Nk Ik Ei In_n Sf Hs He Hl true_value Ht Rw Far.
  apply (prob_any _ (fun k => released_as (c_keys c) k n (E k))).
  - apply (laplace_run_dist c b bs _ N X T i cb); try assumption; [apply C83_all_promises_hold; assumption | intros ps -> | intros m ->]; destruct n; discriminate.
  - intros k Kk. apply (C85_far_values_are_rare c b bs gn gv gs gq decode py0 N X T k i cb n qt e l t w (E k)); try assumption.
    + apply Ik, Kk.
    + apply (Rw k Kk).
    + intros v. apply (Far k v Kk).
Qed.
Print Assumptions C85_no_value_is_far.

(** Public partitions without thresholding: the values of all of them are released within
    [t] + [w] of the truth with at least the remaining probability. *)
Theorem C85_all_public_values_are_close {U P} `{EqDec U} `{EqDec P} (c : call U P) b bs gn gv gs gq decode py0 N X T pub i cb n qt e l t w (E : P -> Q -> bool) :
  valid_call c -> Forall2 granted_ok (call_requests c) bs -> divide [c] bs = [b] -> pydp_keeps_promises py0 ->
  (forall m, sorted_grid (gn m)) -> (forall m, sorted_grid (gv m)) -> (forall s, sorted_grid (gs s)) -> (forall q, sorted_grid (gq q)) ->
  large_enough N X T c -> within_bounds (c_params c) (c_rows c) -> noise_kind (c_params c) = LaplaceNoise ->
  c_public c = Some pub -> post_aggregation_thresholding (c_params c) = false ->
  nth_error (c_combiners c) i = Some cb -> In n (names_of cb) -> stands_for cb n = Some qt ->
  (forall lo hi, cb = CSum true lo hi -> (lo <= 0 <= hi)%Q) ->
  epsilon_for cb qt (own c b i) = Some e -> influence (c_params c) cb qt = Some l ->
  let true_value k := Q2R (truth cb qt k (c_rows c)) in
  0 <= t -> (forall k, In k pub -> forall m, rounds_within w (true_value k - t) (true_value k + t) (gn m)) ->
  (forall k v, In k pub -> Rabs (Q2R v - true_value k) <= t + w -> E k v = true) ->
  1 - INR (length pub) * exp (- (t * (Q2R e / Q2R l))) <=
  prob (run_call (with_laplace_trees gn gv gs gq decode py0) N X T c b) (fun o => forallb (fun k => released_as (c_keys c) k n (E k) o) pub).
Proof.
  intros Hv G Hb Hp0 S1 S2 S3 S4 L W Nk Pb Tp Ei In_n Sf Hs He Hl true_value Ht Rw Near.
  apply (prob_all _ (fun k => released_as (c_keys c) k n (E k))).
  - apply (laplace_run_dist c b bs _ N X T i cb); try assumption; [apply C83_all_promises_hold; assumption | intros ps -> | intros m ->]; destruct n; discriminate.
  - intros k Kk. apply (C85_public_values_are_close c b bs gn gv gs gq decode py0 N X T pub k i cb n qt e l t w (E k)); try assumption.
    + apply (Rw k Kk).
    + intros v. apply (Near k v Kk).
Qed.
Print Assumptions C85_all_public_values_are_close.

(** COUNT of partition 20 is 3 and of partition 10 is 2; with epsilon 8 and at most 4 rows for
    a privacy id, both are released within 5/2 with probability at least 1 - 2 exp(-4). *)
Definition close_budgets : list (Q * Q) := [(8, 0); (8, 0)]%Q.
Definition count_at (k : Z) : Q := if Z.eqb k 20 then 3%Q else 2%Q.
Example C85_all_hypotheses_met : exists N X T,
  large_enough N X T law_call /\
  prob (run_call count_pydp N X T law_call (Budgets close_budgets (0, 0)%Q))
    (fun o => existsb (fun k => released_as (c_keys law_call) k NCount (fun v => Qle_bool (count_at k + 3) v) o) [20; 10]%Z) <= 2 * exp (- (2 * (8 / 4))) /\
  1 - 2 * exp (- (2 * (8 / 4))) <=
    prob (run_call count_pydp N X T law_call (Budgets close_budgets (0, 0)%Q))
      (fun o => forallb (fun k => released_as (c_keys law_call) k NCount (fun v => Qle_bool (count_at k - (5 # 2)) v && Qle_bool v (count_at k + (5 # 2))) o) [20; 10]%Z).
Proof.
  destruct (C61_large_enough_exists [law_call] 1%Z) as [N [X [T L]]]. inversion L as [|? ? [L1 _] _]; subst. exists N, X, T. split; [exact L1|].
  assert (Tk : forall k, In k [20; 10]%Z -> Q2R (truth CCount QCount k (c_rows law_call)) = Q2R (count_at k)).
  { intros k [<- | [<- | []]]; apply Qeq_eqR; vm_compute; reflexivity. }
  assert (Ck : forall k, In k [20; 10]%Z -> 2 <= Q2R (count_at k) <= 3).
  { intros k [<- | [<- | []]]; vm_compute; lra. }
  assert (E4 : 8 / 4 = Q2R 8 / Q2R (rows_allowed (c_params law_call))) by (vm_compute; lra).
  assert (Two : 2 = INR (length [20; 10]%Z)) by (cbn; lra).
  assert (Q52 : Q2R (5 # 2) = 5 / 2) by (vm_compute; lra). assert (Q3 : Q2R 3 = 3) by (vm_compute; lra).
  assert (Gr : Forall2 granted_ok (call_requests law_call) close_budgets) by (repeat constructor; cbn; try discriminate; reflexivity).
  rewrite E4. rewrite Two at 1 4. split.
  - eapply (C85_no_value_is_far law_call (Budgets close_budgets (0, 0)%Q) close_budgets _ _ _ _ _ _ N X T [20; 10]%Z 0%nat CCount NCount QCount 8%Q _ 2 (/ 2) (fun k v => Qle_bool (count_at k + 3) v));
      try exact law_call_valid; try exact Gr; try reflexivity; try exact toy_pydp_keeps_promises; try (intros; apply count_grid_sorted);
      try exact L1; try exact enforced_rows_within; try (left; reflexivity); try discriminate.
    + intros k Ik. exact Ik.
    + lra.
    + intros k Ik _. rewrite (Tk k Ik). destruct (Ck k Ik). eapply within_grid; [exact count_grid_rounds | lra | lra].
    + intros k v Ik Ev. rewrite (Tk k Ik). apply Qle_bool_iff, Qle_Rle in Ev. rewrite Q2R_plus, Q3 in Ev. rewrite Rabs_right; lra.
  - eapply (C85_all_public_values_are_close law_call (Budgets close_budgets (0, 0)%Q) close_budgets _ _ _ _ _ _ N X T [20; 10]%Z 0%nat CCount NCount QCount 8%Q _ 2 (/ 2)
      (fun k v => Qle_bool (count_at k - (5 # 2)) v && Qle_bool v (count_at k + (5 # 2))));
      try exact law_call_valid; try exact Gr; try reflexivity; try exact toy_pydp_keeps_promises; try (intros; apply count_grid_sorted);
      try exact L1; try exact enforced_rows_within; try (left; reflexivity); try discriminate.
    + lra.
    + intros k Ik _. rewrite (Tk k Ik). destruct (Ck k Ik). eapply within_grid; [exact count_grid_rounds | lra | lra].
    + intros k v Ik Ev. rewrite (Tk k Ik) in Ev. apply andb_true_iff.
      assert (Q2R v - Q2R (count_at k) <= 2 + / 2 /\ - (Q2R v - Q2R (count_at k)) <= 2 + / 2).
      { split; eapply Rle_trans; try exact Ev; [apply Rle_abs | rewrite <- Rabs_Ropp; apply Rle_abs]. }
      split; apply Qle_bool_iff, Rle_Qle; rewrite ?Q2R_plus, ?Q2R_minus, Q52; lra.
Qed.
