(** Lemmas for C40. *)
From Coq Require Import List ZArith QArith Qabs Qreals Reals Lia Lqa Lra.
From Verif Require Import Base BaseLemmas BackendModel ListLemmas ParamsModel SensModel CombinerModel EngineModel EngineSpec
  EngineProofs2 EngineProofs3 EngineProps BudgetModel BudgetSpec BudgetProofs VectorModel ExpMechProofs LaplaceModel LaplaceSpec.
Import ListNotations.
Local Open Scope R_scope.

(** ** Real arithmetic *)
Lemma Q2R_abs q : Q2R (Qabs q) = Rabs (Q2R q).
Proof.
  apply Qabs_case; intro H.
  - rewrite Rabs_right; [reflexivity|]. apply Rle_ge. rewrite <- RMicromega.Q2R_0. apply Qle_Rle. exact H.
  - rewrite Q2R_opp, Rabs_left1; [reflexivity|]. rewrite <- RMicromega.Q2R_0. apply Qle_Rle. exact H.
Qed.
Lemma Q2R_zero : Q2R 0 = 0.
Proof. apply RMicromega.Q2R_0. Qed.
Lemma Q2R_sumQ l : Q2R (sumQ l) = sumR (map Q2R l).
Proof.
  induction l as [|x l IH]; [apply Q2R_zero|]. cbn [map]. rewrite sumR_cons, <- IH.
  change (sumQ (x :: l)) with (x + sumQ l)%Q. apply Q2R_plus.
Qed.
Lemma Q2R_pos q : (0 < q)%Q -> 0 < Q2R q.
Proof. intro H. rewrite <- Q2R_zero. apply Qlt_Rlt. exact H. Qed.

Lemma prodR_cons x l : prodR (x :: l) = x * prodR l.
Proof. reflexivity. Qed.

(** ** One mechanism *)
Lemma laplace_density_pos b x y : 0 < b -> 0 < laplace_density b x y.
Proof.
  intro H. unfold laplace_density. apply Rmult_lt_0_compat; [|apply exp_pos].
  apply Rinv_0_lt_compat. lra.
Qed.

Lemma laplace_density_ratio b x x' y : 0 < b ->
  laplace_density b x y <= exp (Rabs (x - x') / b) * laplace_density b x' y.
Proof.
  intro H. unfold laplace_density.
  assert (P : 0 < / (2 * b)) by (apply Rinv_0_lt_compat; lra).
  replace (exp (Rabs (x - x') / b) * (/ (2 * b) * exp (- (Rabs (y - x') / b))))
    with (/ (2 * b) * (exp (Rabs (x - x') / b) * exp (- (Rabs (y - x') / b)))) by ring.
  apply Rmult_le_compat_l; [lra|]. rewrite <- exp_plus. apply exp_le.
  assert (T : Rabs (y - x') <= Rabs (y - x) + Rabs (x - x')).
  { replace (y - x') with ((y - x) + (x - x')) by ring. apply Rabs_triang. }
  assert (I : 0 < / b) by (apply Rinv_0_lt_compat; lra).
  unfold Rdiv. assert (D : Rabs (y - x') * / b <= (Rabs (y - x) + Rabs (x - x')) * / b)
    by (apply Rmult_le_compat_r; [lra | exact T]).
  lra.
Qed.

Lemma laplace_vector_pos {P} b (x y : P -> R) keys : 0 < b ->
  0 < prodR (map (fun k => laplace_density b (x k) (y k)) keys).
Proof.
  intro H. induction keys as [|k keys IH]; [cbn; lra|].
  cbn [map]. rewrite prodR_cons. apply Rmult_lt_0_compat; [|exact IH]. apply laplace_density_pos. exact H.
Qed.

Lemma laplace_vector_ratio {P} b (x x' y : P -> R) keys : 0 < b ->
  prodR (map (fun k => laplace_density b (x k) (y k)) keys) <=
  exp (sumR (map (fun k => Rabs (x k - x' k)) keys) / b) *
  prodR (map (fun k => laplace_density b (x' k) (y k)) keys).
Proof.
  intro H. induction keys as [|k keys IH].
  - cbn. unfold Rdiv. rewrite Rmult_0_l, exp_0. lra.
  - cbn [map]. rewrite !prodR_cons, sumR_cons.
    assert (A := laplace_density_ratio b (x k) (x' k) (y k) H).
    assert (B := laplace_vector_pos b x y keys H).
    assert (C := laplace_density_pos b (x k) (y k) H).
    replace ((Rabs (x k - x' k) + sumR (map (fun k0 => Rabs (x k0 - x' k0)) keys)) / b)
      with (Rabs (x k - x' k) / b + sumR (map (fun k0 => Rabs (x k0 - x' k0)) keys) / b) by (unfold Rdiv; ring).
    rewrite exp_plus.
    match goal with |- _ <= ?a * ?b0 * (?c * ?d) => replace (a * b0 * (c * d)) with ((a * c) * (b0 * d)) by ring end.
    apply Rmult_le_compat; [lra | lra | exact A | exact IH].
Qed.

(** ** One noised quantity *)
Lemma mk_sens_l1_pos l0 linf l1 l2 s x : mk_sens l0 linf l1 l2 = Ok s -> s_l1 s = Some x -> (0 < x)%Q.
Proof.
  unfold mk_sens, raise_if. intros E Ex.
  destruct (match l0 with Some z => (z <=? 0)%Z | None => false end) eqn:A0; [discriminate|].
  destruct (nonpos linf) eqn:A1; [discriminate|].
  destruct (nonpos l1) eqn:A2; [discriminate|].
  destruct (nonpos l2) eqn:A3; [discriminate|].
  assert (L1 : forall v, l1 = Some v -> (0 < v)%Q).
  { intros v ->. cbn in A2. apply Qle_bool_false in A2. exact A2. }
  destruct l0 as [z|], linf as [q|]; try discriminate.
  - cbv zeta in E.
    match type of E with (if ?b then _ else _) = _ => destruct b; [discriminate|] end.
    match type of E with (if ?b then _ else _) = _ => destruct b; [discriminate|] end.
    inversion E; subst s. cbn in Ex. inversion Ex; subst x. destruct l1 as [v|]; [apply L1; reflexivity|].
    apply Qmult_lt_0_compat.
    + change 0%Q with (inject_Z 0). rewrite <- Zlt_Qlt. apply Z.leb_gt in A0. exact A0.
    + cbn in A1. apply Qle_bool_false in A1. exact A1.
  - inversion E; subst s. cbn in Ex. apply L1. exact Ex.
Qed.

Definition simple_combiner (c : combiner) : Prop :=
  match c with CCount | CPidCount | CSum _ _ _ | CMean _ _ _ => True | _ => False end.

Lemma simple_plan_pos p c qt s x : simple_combiner c ->
  In (qt, Ok s) (noise_plan p c) -> s_l1 s = Some x -> (0 < x)%Q.
Proof.
  assert (C : forall s, sens_count p = Ok s -> s_l1 s = Some x -> (0 < x)%Q).
  { intro s0. unfold sens_count. destruct (max_contributions p); apply mk_sens_l1_pos. }
  assert (S : forall s, sens_sum p = Ok s -> s_l1 s = Some x -> (0 < x)%Q).
  { intro s0. unfold sens_sum.
    repeat match goal with
           | |- context [match ?o with _ => _ end] => destruct o; try discriminate; try apply mk_sens_l1_pos
           end. }
  assert (N : forall s, sens_normalized_sum p = Ok s -> s_l1 s = Some x -> (0 < x)%Q).
  { intro s0. unfold sens_normalized_sum. cbv zeta.
    repeat match goal with
           | |- context [match ?o with _ => _ end] => destruct o; try discriminate; try apply mk_sens_l1_pos
           end. }
  assert (I : forall s, sens_privacy_id_count p = Ok s -> s_l1 s = Some x -> (0 < x)%Q).
  { intro s0. unfold sens_privacy_id_count. destruct (max_contributions p); apply mk_sens_l1_pos. }
  destruct c; cbn; intros F H E; try contradiction;
    repeat match goal with H : _ \/ _ |- _ => destruct H as [H|H] end; try contradiction;
    inversion H; eauto.
Qed.

Lemma quantity_close {U P} `{EqDec U} `{EqDec P} p cs (sm : sampling U P) public rows keys col u i c qt s eps y :
  simple_combiner c -> noise_kind p = LaplaceNoise -> (0 < eps)%Q ->
  calibrated p cs sm public rows keys col u i c qt s ->
  exists col', raw_accumulators p cs sm public (without u rows) = Ok col' /\
  let x := fun k => Q2R (raw_value (quantity_of qt) i k col) in
  let x' := fun k => Q2R (raw_value (quantity_of qt) i k col') in
  0 < quantity_density p (Ok s) eps keys x y /\
  0 < quantity_density p (Ok s) eps keys x' y /\
  close (Q2R eps) (quantity_density p (Ok s) eps keys x y) (quantity_density p (Ok s) eps keys x' y).
Proof.
  intros Hc Hn He [col' [E' [Hp [R _]]]]. exists col'. split; [exact E'|]. cbv zeta.
  destruct R as [_ [_ [[l1 [El Hl]] _]]].
  assert (Pl := simple_plan_pos p c qt s l1 Hc Hp El).
  unfold quantity_density, granted_spec, create_additive_mechanism. cbn [rbind ms_kind ms_std ms_eps].
  rewrite Hn, El. unfold noise_density. cbn [pydp_laplace].
  assert (Pe := Q2R_pos _ He). assert (Pq := Q2R_pos _ Pl).
  assert (B : 0 < Q2R l1 / Q2R eps) by (apply Rdiv_lt_0_compat; lra).
  split; [apply laplace_vector_pos; exact B|]. split; [apply laplace_vector_pos; exact B|].
  set (x := fun k => Q2R (raw_value (quantity_of qt) i k col)).
  set (x' := fun k => Q2R (raw_value (quantity_of qt) i k col')).
  assert (S : sumR (map (fun k => Rabs (x k - x' k)) keys) <= Q2R l1).
  { apply Qle_Rle in Hl. unfold l1_norm in Hl. rewrite Q2R_sumQ, map_map in Hl.
    erewrite map_ext; [exact Hl|]. intro k. unfold x, x'. rewrite Q2R_abs, Q2R_minus. reflexivity. }
  assert (S' : sumR (map (fun k => Rabs (x' k - x k)) keys) <= Q2R l1).
  { erewrite map_ext; [exact S|]. intro k. apply Rabs_minus_sym. }
  assert (G : forall t, t <= Q2R l1 -> exp (t / (Q2R l1 / Q2R eps)) <= exp (Q2R eps)).
  { intros t Ht. apply exp_le. unfold Rdiv. rewrite Rinv_mult, Rinv_inv.
      assert (Q2R l1 * (/ Q2R l1 * Q2R eps) = Q2R eps) by (field; lra).
      assert (0 < / Q2R l1 * Q2R eps) by (apply Rmult_lt_0_compat; [apply Rinv_0_lt_compat; lra | lra]).
      assert (t * (/ Q2R l1 * Q2R eps) <= Q2R l1 * (/ Q2R l1 * Q2R eps)) by (apply Rmult_le_compat_r; lra).
      lra. }
  split.
  - eapply Rle_trans; [apply (laplace_vector_ratio _ x x' y keys B)|].
    apply Rmult_le_compat_r; [apply Rlt_le, laplace_vector_pos; exact B | apply G; exact S].
  - eapply Rle_trans; [apply (laplace_vector_ratio _ x' x y keys B)|].
    apply Rmult_le_compat_r; [apply Rlt_le, laplace_vector_pos; exact B | apply G; exact S'].
Qed.

(** ** Combiners of the simple metrics *)
Lemma has_false_simple m ms : Forall simple_metric ms -> ~ simple_metric m -> has m ms = false.
Proof.
  intros F N. destruct (has m ms) eqn:E; [|reflexivity]. exfalso.
  unfold has in E. apply existsb_exists in E. destruct E as [m' [I Em]].
  rewrite Forall_forall in F. apply F in I.
  destruct m, m'; cbn in *; try discriminate; auto.
Qed.

Lemma percentiles_simple ms : Forall simple_metric ms -> percentiles ms = [].
Proof.
  unfold percentiles. induction 1 as [|m ms Hm _ IH]; [reflexivity|]. cbn [flat_map]. rewrite IH.
  destruct m; cbn in *; [reflexivity ..| contradiction].
Qed.

Lemma simple_combiners p cs : Forall simple_metric (metrics p) -> post_aggregation_thresholding p = false ->
  create_compound_combiner p = Ok cs -> Forall simple_combiner cs.
Proof.
  intros F T E. unfold create_compound_combiner in E.
  destruct (create_combiners p) as [cs'|] eqn:Ec; [|discriminate]. cbn in E.
  assert (cs' = cs).
  { unfold compound_init in E. repeat match type of E with
      | (if ?b then _ else _) = _ => destruct b; try discriminate
      | raise_if ?b _ _ = _ => unfold raise_if in E; destruct b; try discriminate end. inversion E. reflexivity. }
  subst cs'. unfold create_combiners in Ec. cbv zeta in Ec.
  rewrite (percentiles_simple _ F), (has_false_simple VARIANCE _ F), (has_false_simple VECTOR_SUM _ F), T in Ec by (cbn; tauto).
  cbn [append_if] in Ec.
  assert (S2 : forall l, append_if (has PRIVACY_ID_COUNT (metrics p)) (new_pid_count p) (Ok []) = Ok l -> Forall simple_combiner l).
  { intros l El. eapply append_if_forall; [exact El | |].
    - intros c. unfold new_pid_count. destruct (sens_privacy_id_count p); cbn; [|discriminate]. intro X; inversion X; exact I.
    - intros l' X; inversion X; constructor. }
  assert (SM : forall names c, new_mean p names = Ok c -> simple_combiner c).
  { intros names c. unfold new_mean. destruct (min_value p), (max_value p); try discriminate.
    destruct (sens_count p); cbn; [|discriminate]. destruct (sens_normalized_sum p); cbn; [|discriminate].
    intro X; inversion X; exact I. }
  assert (SC : forall c, new_count p = Ok c -> simple_combiner c).
  { intros c. unfold new_count. destruct (sens_count p); cbn; [|discriminate]. intro X; inversion X; exact I. }
  assert (SS : forall c, new_sum p = Ok c -> simple_combiner c).
  { intros c. unfold new_sum. destruct (sens_sum p); cbn; [|discriminate]. intro X.
    repeat match type of X with
    | (if ?b then _ else _) = _ => destruct b
    | match ?b with _ => _ end = _ => destruct b end; inversion X; exact I. }
  destruct (has MEAN (metrics p)).
  - eapply (append_if_forall _ true); [exact Ec | intros c; apply SM | exact S2].
  - eapply append_if_forall; [exact Ec | exact SC |]. intros l' X.
    eapply append_if_forall; [exact X | exact SS | exact S2].
Qed.

Lemma plan_length p c : simple_combiner c -> length (noise_plan p c) = requests c.
Proof. destruct c; cbn; tauto || reflexivity. Qed.

Lemma noised_length_from p cs n : Forall simple_combiner cs ->
  length (flat_map (fun ic => map (fun qs => (fst ic, fst qs, snd qs)) (noise_plan p (snd ic)))
           (combine (seq n (length cs)) cs)) = list_sum (map requests cs).
Proof.
  revert n. induction cs as [|c cs IH]; intros n F; [reflexivity|]. inversion F; subst.
  cbn [length seq combine flat_map map list_sum fold_right fst snd]. rewrite app_length, map_length, plan_length by assumption.
  f_equal. apply IH. assumption.
Qed.
Lemma noised_length p cs : Forall simple_combiner cs -> length (noised_quantities p cs) = list_sum (map requests cs).
Proof. apply noised_length_from. Qed.

Lemma combine_seq_nth {A} (l : list A) n i x : In (i, x) (combine (seq n (length l)) l) -> nth_error l (i - n) = Some x /\ (n <= i)%nat.
Proof.
  revert n. induction l as [|y l IH]; intros n I; [destruct I|].
  cbn [length seq combine] in I. destruct I as [I|I].
  - inversion I; subst. rewrite Nat.sub_diag. auto.
  - apply IH in I. destruct I as [E L]. split; [|lia].
    replace (i - n)%nat with (S (i - S n)) by lia. exact E.
Qed.

Lemma noised_in p cs i qt s : In (i, qt, s) (noised_quantities p cs) ->
  exists c, nth_error cs i = Some c /\ In (qt, s) (noise_plan p c).
Proof.
  unfold noised_quantities. intro I. apply in_flat_map in I. destruct I as [[i' c] [I1 I2]].
  apply in_map_iff in I2. destruct I2 as [[qt' s'] [E I2]]. cbn in E, I2. inversion E; subst.
  apply combine_seq_nth in I1. destruct I1 as [I1 _]. rewrite Nat.sub_0_r in I1. exists c. auto.
Qed.

Lemma plan_ok p c qt s : simple_combiner c -> constructed p c -> In (qt, s) (noise_plan p c) -> exists s', s = Ok s'.
Proof.
  intros Hs Hk I. destruct c; cbn in Hs; try contradiction; cbn in Hk, I;
    repeat match goal with H : _ \/ _ |- _ => destruct H as [H|H] end; try contradiction; inversion I; subst.
  - unfold new_count in Hk. destruct (sens_count p); [eauto | discriminate].
  - unfold new_pid_count in Hk. destruct (sens_privacy_id_count p); [eauto | discriminate].
  - unfold new_sum in Hk. destruct (sens_sum p); [eauto | discriminate].
  - unfold new_mean in Hk. destruct (min_value p), (max_value p); try discriminate.
    destruct (sens_count p); [eauto | discriminate].
  - unfold new_mean in Hk. destruct (min_value p), (max_value p); try discriminate.
    destruct (sens_count p); [|discriminate]. cbn in Hk. destruct (sens_normalized_sum p); [eauto | discriminate].
Qed.

Lemma simple_not_variance c : simple_combiner c -> forall lo hi n, c <> CVariance lo hi n.
Proof. intros H lo hi n ->. exact H. Qed.

Lemma entry_close {U P} `{EqDec U} `{EqDec P} (q : query U P) u i qt s eps y :
  laplace_query q -> In (i, qt, s) (noised_quantities (q_params q) (q_combiners q)) -> (0 < eps)%Q ->
  0 < quantity_density (q_params q) s eps (q_keys q) (exact q i qt) y /\
  0 < quantity_density (q_params q) s eps (q_keys q) (exact (remove_id u q) i qt) y /\
  close (Q2R eps) (quantity_density (q_params q) s eps (q_keys q) (exact q i qt) y)
                  (quantity_density (q_params q) s eps (q_keys q) (exact (remove_id u q) i qt) y).
Proof.
  intros [Hn [Hm [Ht [col Rn]]]] I He.
  assert (Rn' := Rn). destruct Rn' as [_ [Hcs [_ [_ [_ [_ E]]]]]].
  assert (S := simple_combiners _ _ Hm Ht Hcs).
  apply noised_in in I. destruct I as [c [Hi Hp]].
  assert (Sc : simple_combiner c) by (rewrite Forall_forall in S; apply S; eapply nth_error_In; exact Hi).
  destruct (plan_ok _ _ _ _ Sc (nth_constructed _ _ _ _ Hcs Hi) Hp) as [s' ->].
  assert (C : calibrated (q_params q) (q_combiners q) (q_sampling q) (Some (q_public q)) (q_rows q) (q_keys q) col u i c qt s').
  { apply calibrated_intro; [exact Rn | exact Hi | apply not_variance; apply simple_not_variance; exact Sc | exact Hp |].
    intros lo hi n _ X. exfalso. exact (simple_not_variance c Sc lo hi n X). }
  destruct (quantity_close _ _ _ _ _ _ _ _ _ _ _ _ eps y Sc Hn He C) as [col' [E' Q]]. cbv zeta in Q.
  assert (X : forall k, exact q i qt k = Q2R (raw_value (quantity_of qt) i k col)).
  { intro k. unfold exact. rewrite E. reflexivity. }
  assert (X' : forall k, exact (remove_id u q) i qt k = Q2R (raw_value (quantity_of qt) i k col')).
  { intro k. unfold exact, remove_id. cbn. rewrite E'. reflexivity. }
  assert (Ext : forall x x' : P -> R, (forall k, x k = x' k) ->
    quantity_density (q_params q) (Ok s') eps (q_keys q) x y = quantity_density (q_params q) (Ok s') eps (q_keys q) x' y).
  { intros x x' Ex. unfold quantity_density. destruct (rbind _ _); [|reflexivity]. f_equal. apply map_ext. intro k. rewrite Ex. reflexivity. }
  rewrite (Ext _ _ X), (Ext _ _ X'). exact Q.
Qed.

(** ** Composition *)
Definition entry_density {U P} `{EqDec U} `{EqDec P} (y : nat -> nat -> quantity -> P -> R)
    (e : nat * query U P * (nat * quantity * result sens) * Q) : R :=
  match e with
  | ((j, q, (i, qt, s)), eps) => quantity_density (q_params q) s eps (q_keys q) (exact q i qt) (y j i qt)
  end.

Lemma all_quantities_map {U P} (f : query U P -> query U P) qs :
  (forall q, q_params (f q) = q_params q /\ q_combiners (f q) = q_combiners q) ->
  all_quantities (map f qs) = map (fun e => (fst (fst e), f (snd (fst e)), snd e)) (all_quantities qs).
Proof.
  intro F. unfold all_quantities. rewrite map_length. generalize 0%nat as n.
  induction qs as [|q qs IH]; intro n; [reflexivity|].
  cbn [length seq combine map flat_map fst snd]. rewrite IH, map_app, map_map. f_equal.
  destruct (F q) as [E1 E2]. rewrite E1, E2. reflexivity.
Qed.

Lemma combine_map_l {A B C} (f : A -> B) (l : list A) (l' : list C) :
  combine (map f l) l' = map (fun e => (f (fst e), snd e)) (combine l l').
Proof.
  revert l'. induction l as [|x l IH]; intros [|y l']; try reflexivity. cbn. rewrite IH. reflexivity.
Qed.

Lemma product_close {A} (f g : A -> R) (eps : A -> R) l :
  (forall a, In a l -> 0 < f a /\ 0 < g a /\ close (eps a) (f a) (g a)) ->
  0 < prodR (map f l) /\ 0 < prodR (map g l) /\ close (sumR (map eps l)) (prodR (map f l)) (prodR (map g l)).
Proof.
  induction l as [|a l IH]; intro F.
  - cbn. unfold close. rewrite exp_0. lra.
  - cbn [map]. rewrite !prodR_cons, sumR_cons.
    destruct (F a (or_introl eq_refl)) as [Fa [Ga [C1 C2]]].
    destruct IH as [Fl [Gl [D1 D2]]]; [intros b Ib; apply F; right; exact Ib|].
    split; [apply Rmult_lt_0_compat; assumption|]. split; [apply Rmult_lt_0_compat; assumption|].
    unfold close. rewrite exp_plus. split.
    + replace (exp (eps a) * exp (sumR (map eps l)) * (g a * prodR (map g l)))
        with ((exp (eps a) * g a) * (exp (sumR (map eps l)) * prodR (map g l))) by ring.
      apply Rmult_le_compat; lra.
    + replace (exp (eps a) * exp (sumR (map eps l)) * (f a * prodR (map f l)))
        with ((exp (eps a) * f a) * (exp (sumR (map eps l)) * prodR (map f l))) by ring.
      apply Rmult_le_compat; lra.
Qed.

Lemma in_all_quantities {U P} (qs : list (query U P)) j q e : In (j, q, e) (all_quantities qs) ->
  In q qs /\ In e (noised_quantities (q_params q) (q_combiners q)).
Proof.
  unfold all_quantities. intro I. apply in_flat_map in I. destruct I as [[j' q'] [I1 I2]].
  apply in_map_iff in I2. destruct I2 as [e' [E I2]]. inversion E; subst. split; [|exact I2].
  apply combine_seq_nth in I1. destruct I1 as [I1 _]. eapply nth_error_In; exact I1.
Qed.

Lemma release_close {U P} `{EqDec U} `{EqDec P} (qs : list (query U P)) u es y :
  Forall laplace_query qs -> length es = length (all_quantities qs) -> Forall (fun x => (0 < x)%Q) es ->
  0 < release_density qs es y /\ 0 < release_density (map (remove_id u) qs) es y /\
  close (Q2R (sumQ es)) (release_density qs es y) (release_density (map (remove_id u) qs) es y).
Proof.
  intros F L Pe. unfold release_density.
  rewrite (all_quantities_map (remove_id u)) by (intro q; split; reflexivity).
  rewrite combine_map_l, map_map.
  set (l := combine (all_quantities qs) es).
  assert (Es : sumR (map (fun e => Q2R (snd e)) l) = Q2R (sumQ es)).
  { rewrite Q2R_sumQ. f_equal. rewrite <- map_map. f_equal. unfold l. clear -L.
    revert es L. generalize (all_quantities qs) as a. induction a as [|x a IH]; intros [|y es] L; try discriminate; [reflexivity|].
    cbn. f_equal. apply IH. cbn in L. lia. }
  rewrite <- Es.
  apply (product_close (entry_density y) (fun e => entry_density y (fst (fst (fst e)), remove_id u (snd (fst (fst e))), snd (fst e), snd e))
           (fun e => Q2R (snd e))) with (l := l).
  intros [[[j q] [[i qt] s]] eps] I. cbn [fst snd entry_density].
  assert (I1 := in_combine_l _ _ _ _ I). assert (I2 := in_combine_r _ _ _ _ I).
  apply in_all_quantities in I1. destruct I1 as [Iq Ie].
  rewrite Forall_forall in F, Pe. apply (entry_close q u i qt s eps (y j i qt)); auto.
Qed.

Lemma all_quantities_length {U P} `{EqDec U} `{EqDec P} (qs : list (query U P)) : Forall laplace_query qs ->
  length (all_quantities qs) = length (flat_map budget_requests qs).
Proof.
  intro F. unfold all_quantities. generalize 0%nat as n. induction F as [|q qs Hq F IH]; intro n; [reflexivity|].
  cbn [length seq combine flat_map fst snd]. rewrite !app_length, map_length, IH. f_equal.
  unfold budget_requests. rewrite repeat_length. apply noised_length.
  destruct Hq as [_ [Hm [Ht [col [_ [Hcs _]]]]]]. exact (simple_combiners _ _ Hm Ht Hcs).
Qed.

Lemma requests_counts {U P} (qs : list (query U P)) : Forall (fun r => req_count r = 1%Z) (flat_map budget_requests qs).
Proof.
  apply Forall_forall. intros r I. apply in_flat_map in I. destruct I as [q [_ I]]. apply repeat_spec in I. subst r. reflexivity.
Qed.

Lemma weighted_sum_ones counts es : Forall (fun c => c = 1%Z) counts -> length es = length counts ->
  (weighted_sum counts es == sumQ es)%Q.
Proof.
  intros F. revert es. induction F as [|c counts -> F IH]; intros [|x es] L; try discriminate; [reflexivity|].
  unfold weighted_sum in *. cbn [combine map fst snd].
  apply (Qplus_comp (inject_Z 1 * x)%Q x); [change (inject_Z 1) with 1%Q; ring | apply IH; cbn in L; lia].
Qed.

Lemma read_eps_fun s es es' : read_eps s es -> read_eps s es' -> es = es'.
Proof.
  unfold read_eps. generalize (mechs s) as ms. intros ms A. revert es'.
  induction A as [|m e ms es Em A IH]; intros es' B; inversion B; subst; [reflexivity|].
  f_equal; [congruence | apply IH; assumption].
Qed.
