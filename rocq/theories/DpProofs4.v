(** Lemmas for C61: each stage is differentially private. *)
From Coq Require Import List ZArith QArith Qreals Qabs Reals Bool Permutation Lia Lqa Lra.
From Verif Require Import Base BaseLemmas BackendModel ListLemmas BackendSpec BackendProofs ParamsModel SensModel CombinerModel CombinerProofs3 EngineModel EngineSpec
  EngineProofs EngineProofs2 EngineProofs3 EngineProofs4 EngineProofs5 EngineProps EngineProps2 BudgetModel VectorModel ExpMechProofs LaplaceModel LaplaceSpec LaplaceProofs
  SelectModel SelectSpec SelectProofs SelectProofs2 SelectProofs3 SelectProps WrapperModel EnforcedSpec EnforcedProofs EnforcedProofs2 EnforcedProps QuantileModel QuantileProps VectorSpec VectorProps DistSpec DistProofs DpModel DpSpec DpProofs DpProofs2 DpProofs3.
Import ListNotations.
Local Open Scope R_scope.
Local Close Scope Q_scope.

(** Both directions. *)
Definition both {A} (eps delta : R) (d d' : dist A) : Prop := below eps delta d d' /\ below eps delta d' d.

Lemma both_events {A} `{EqDec A} eps delta (d d' : dist A) :
  (forall E, indistinguishable eps delta (prob d E) (prob d' E)) -> both eps delta d d'.
Proof. intro I. split; apply below_events; intro E; apply I. Qed.
Lemma both_same {A} (d : dist A) : both 0 0 d d.
Proof. split; apply below_same. Qed.
Lemma both_bind {A B} e1 d1 e2 d2 (d d' : dist A) (k k' : A -> dist B) :
  0 <= d2 -> is_dist d -> is_dist d' -> (forall a, is_dist (k a)) -> (forall a, is_dist (k' a)) ->
  both e1 d1 d d' -> (forall a, both e2 d2 (k a) (k' a)) -> both (e1 + e2) (d1 + d2) (dbind d k) (dbind d' k').
Proof.
  intros P2 D D' K K' [B1 B2] B3. split; apply below_bind; auto; intro a; apply B3.
Qed.
Lemma both_post {A B} e dl (d d' : dist A) (h : A -> B) : both e dl d d' -> both e dl (dbind d (fun a => dret (h a))) (dbind d' (fun a => dret (h a))).
Proof.
  assert (G : forall d d' : dist A, below e dl d d' -> below e dl (dbind d (fun a => dret (h a))) (dbind d' (fun a => dret (h a)))).
  { intros x x' Bl F HF. rewrite !mixture_bind.
    rewrite (mixture_ext x _ (fun a => F (h a))), (mixture_ext x' _ (fun a => F (h a))) by (intro; apply mixture_ret).
    apply (Bl (fun a => F (h a))). intro a. apply HF. }
  intros [B1 B2]. split; apply G; assumption.
Qed.
Lemma both_weaken {A} e d1 d2 (d d' : dist A) : d1 <= d2 -> both e d1 d d' -> both e d2 d d'.
Proof. intros L [B1 B2]. split; eapply below_weaken; eassumption. Qed.
Lemma both_ext {A} e dl (d1 d1' d2 d2' : dist A) :
  (forall F, mixture d1 F = mixture d2 F) -> (forall F, mixture d1' F = mixture d2' F) -> both e dl d2 d2' -> both e dl d1 d1'.
Proof. intros E E' [B1 B2]. split; intros F HF; rewrite E, E'; auto. Qed.

Lemma both_eps {A} e e' dl (d d' : dist A) : e <= e' -> is_dist d -> is_dist d' -> both e dl d d' -> both e' dl d d'.
Proof.
  assert (G : forall d d' : dist A, e <= e' -> is_dist d' -> below e dl d d' -> below e' dl d d').
  { intros x x' L D B F HF. specialize (B F HF). assert (M := mixture_range x' F D HF).
    assert (exp e <= exp e') by (destruct L as [L|L]; [left; apply exp_increasing; exact L | rewrite L; lra]).
    apply (Rmult_le_compat_r (mixture x' F)) in H; [|apply M]. lra. }
  intros L D D' [B1 B2]. split; apply G; assumption.
Qed.

Lemma both_stacked {B T} (eps delta : T -> R) (g g' : T -> dist (list B)) (l : list T) :
  (forall t, In t l -> 0 <= delta t) -> (forall t, is_dist (g t)) -> (forall t, is_dist (g' t)) ->
  (forall t, In t l -> both (eps t) (delta t) (g t) (g' t)) ->
  both (sumR (map eps l)) (sumR (map delta l)) (stacked (map g l)) (stacked (map g' l)).
Proof.
  intros P D D' Bo. induction l as [|t l IH].
  - cbn. apply both_same.
  - cbn [map stacked]. rewrite !sumR_cons. apply both_bind.
    + assert (Pl : forall t, In t l -> 0 <= delta t) by (intros; apply P; right; assumption). clear -Pl.
      induction l as [|x l IH]; [cbn; lra|]. cbn [map]. rewrite sumR_cons. assert (0 <= delta x) by (apply Pl; left; reflexivity).
      assert (0 <= sumR (map delta l)) by (apply IH; intros; apply Pl; right; assumption). lra.
    + apply D.
    + apply D'.
    + intro a. apply is_dist_bind; [|intro; apply is_dist_ret]. apply stacked_dist. apply Forall_map, Forall_forall. intros; apply D.
    + intro a. apply is_dist_bind; [|intro; apply is_dist_ret]. apply stacked_dist. apply Forall_map, Forall_forall. intros; apply D'.
    + apply Bo. left. reflexivity.
    + intro a. apply both_post. apply IH; intros; [apply P | apply Bo]; right; assumption.
Qed.

(** Coins. *)
Lemma independent_coins (keep : Z -> R) ns F :
  mixture (independent (fun n => [(keep n, true); (1 - keep n, false)]) ns) F =
  outcomes (length ns) (fun bs => law (map keep ns) bs * F bs).
Proof.
  revert F. induction ns as [|n ns IH]; intro F.
  - cbn [independent length outcomes map]. rewrite mixture_ret. cbn. lra.
  - rewrite mixture_independent_cons, !mixture_cons, mixture_nil, !IH. cbn [length outcomes map]. rewrite <- !outcomes_scale.
    rewrite Rplus_0_r. f_equal; apply outcomes_ext; intros bs _; rewrite law_cons; cbn [coin]; ring.
Qed.
Lemma kept_prob (keep : Z -> R) ns E : prob (independent (fun n => [(keep n, true); (1 - keep n, false)]) ns) E = kept keep ns E.
Proof. unfold prob, kept. apply independent_coins. Qed.

(** Sensitivities are positive. *)
Lemma mk_sens_l2_pos l0 linf l1 l2 s x : mk_sens l0 linf l1 l2 = Ok s -> s_l2sq s = Some x -> (0 < x)%Q.
Proof.
  unfold mk_sens, raise_if. intros E Ex.
  destruct (match l0 with Some z => (z <=? 0)%Z | None => false end) eqn:A0; [discriminate|].
  destruct (nonpos linf) eqn:A1; [discriminate|].
  destruct (nonpos l1) eqn:A2; [discriminate|].
  destruct (nonpos l2) eqn:A3; [discriminate|].
  assert (L2 : forall v, l2 = Some v -> (0 < v)%Q).
  { intros v ->. cbn in A3. apply Qle_bool_false in A3. exact A3. }
  destruct l0 as [z|], linf as [q|]; try discriminate.
  - cbv zeta in E.
    match type of E with (if ?b then _ else _) = _ => destruct b; [discriminate|] end.
    match type of E with (if ?b then _ else _) = _ => destruct b; [discriminate|] end.
    inversion E; subst s. cbn in Ex. inversion Ex; subst x. destruct l2 as [v|]; [apply L2; reflexivity|].
    cbn in A1. apply Qle_bool_false in A1.
    apply Qmult_lt_0_compat.
    + change 0%Q with (inject_Z 0). rewrite <- Zlt_Qlt. apply Z.leb_gt in A0. exact A0.
    + apply Qmult_lt_0_compat; exact A1.
  - inversion E; subst s. cbn in Ex. apply L2. exact Ex.
Qed.

Lemma simple_plan_l2 p c qt s x : simple_combiner c ->
  In (qt, Ok s) (noise_plan p c) -> s_l2sq s = Some x -> (0 < x)%Q.
Proof.
  assert (C : forall s, sens_count p = Ok s -> s_l2sq s = Some x -> (0 < x)%Q).
  { intro s0. unfold sens_count. destruct (max_contributions p); apply mk_sens_l2_pos. }
  assert (S : forall s, sens_sum p = Ok s -> s_l2sq s = Some x -> (0 < x)%Q).
  { intro s0. unfold sens_sum.
    repeat match goal with
           | |- context [match ?o with _ => _ end] => destruct o; try discriminate; try apply mk_sens_l2_pos
           end. }
  assert (N : forall s, sens_normalized_sum p = Ok s -> s_l2sq s = Some x -> (0 < x)%Q).
  { intro s0. unfold sens_normalized_sum. cbv zeta.
    repeat match goal with
           | |- context [match ?o with _ => _ end] => destruct o; try discriminate; try apply mk_sens_l2_pos
           end. }
  assert (I : forall s, sens_privacy_id_count p = Ok s -> s_l2sq s = Some x -> (0 < x)%Q).
  { intro s0. unfold sens_privacy_id_count. destruct (max_contributions p); apply mk_sens_l2_pos. }
  destruct c; cbn; intros F H E; try contradiction;
    repeat match goal with H : _ \/ _ |- _ => destruct H as [H|H] end; try contradiction;
    inversion H; eauto.
Qed.

(** The sensitivities of VarianceCombiner. *)
Lemma mean_linf_pos linf lo hi q : (0 < linf)%Z -> mean_linf linf lo hi = Some q -> (0 < q)%Q.
Proof.
  intros Pl. unfold mean_linf. destruct (Qeq_bool lo hi) eqn:Ne; [discriminate|]. intro E. inversion E; subst q. clear E.
  apply Qmult_lt_0_compat; [change 0%Q with (inject_Z 0); rewrite <- Zlt_Qlt; exact Pl|].
  assert (Nz : ~ (lo == hi)%Q) by (intro X; apply Qeq_bool_iff in X; congruence).
  assert (Nd : ~ (middle lo hi - lo == 0)%Q).
  { intro X. apply Nz. unfold middle in X. assert (Y : (hi == lo + (1 + 1) * (lo + (hi - lo) / 2 - lo))%Q) by field. rewrite X in Y. Lqa.lra. }
  destruct (Qlt_le_dec 0 (Qabs (middle lo hi - lo))) as [L|L]; [exact L|]. exfalso. apply Nd.
  assert (A := Qabs_nonneg (middle lo hi - lo)). assert (Z0 : (Qabs (middle lo hi - lo) == 0)%Q) by (apply Qle_antisym; assumption).
  assert (B1 := Qle_Qabs (middle lo hi - lo)). assert (B2 := Qle_Qabs (- (middle lo hi - lo))). rewrite Qabs_opp in B2. Lqa.lra.
Qed.

Lemma var_sens_pos p linf s : max_partitions_contributed p <> None -> (forall l0, max_partitions_contributed p = Some l0 -> (0 < l0)%Z) ->
  (forall q, linf = Some q -> (0 < q)%Q) -> var_sens p linf = Ok s ->
  (forall x, s_l1 s = Some x -> (0 < x)%Q) /\ (forall x, s_l2sq s = Some x -> (0 < x)%Q).
Proof.
  intros _ P0 Pq. unfold var_sens. destruct (max_partitions_contributed p) as [l0|] eqn:E0; [|discriminate]. destruct linf as [q|]; [|discriminate].
  intro E. inversion E; subst s. cbn [s_l1 s_l2sq]. specialize (P0 l0 eq_refl). specialize (Pq q eq_refl).
  assert (Z0 : (0 < inject_Z l0)%Q) by (change 0%Q with (inject_Z 0); rewrite <- Zlt_Qlt; exact P0).
  split; intros x X; inversion X; subst x; unfold l1_sensitivity, l2sq_sensitivity; repeat apply Qmult_lt_0_compat; assumption.
Qed.

Lemma plan_positive p c qt s : accepted p -> (forall lo hi n, c = CVariance lo hi n -> max_contributions p = None) ->
  In (qt, Ok s) (noise_plan p c) -> c <> CThresh ->
  (forall x, s_l1 s = Some x -> (0 < x)%Q) /\ (forall x, s_l2sq s = Some x -> (0 < x)%Q).
Proof.
  intros Ha Hv I Nt.
  destruct c as [| | |b lo hi|lo hi names|lo hi names|ps|n]; try (exfalso; exact I); try congruence;
    try (split; intros x X; [eapply simple_plan_pos | eapply simple_plan_l2]; try exact I; try eassumption; exact Logic.I).
  specialize (Hv _ _ _ eq_refl). destruct (accepted_facts _ Ha) as [_ [_ [_ Hf]]]. rewrite Hv in Hf. destruct Hf as [l0 [linf [E0 [Ei [P0 Pi]]]]].
  cbn [noise_plan] in I. rewrite Ei in I. rewrite !in_app_iff in I.
  assert (V : forall q, var_sens p q = Ok s -> (forall x, q = Some x -> (0 < x)%Q) ->
    (forall x, s_l1 s = Some x -> (0 < x)%Q) /\ (forall x, s_l2sq s = Some x -> (0 < x)%Q)).
  { intros q Eq Pq. eapply var_sens_pos; [rewrite E0; discriminate | | exact Pq | exact Eq]. intros l X. rewrite E0 in X. inversion X; subst. exact P0. }
  destruct I as [[I|[]]|[I|I]].
  - inversion I; subst. eapply V; [eassumption|]. intros x X. inversion X; subst. unfold var_linf_count.
    change 0%Q with (inject_Z 0). rewrite <- Zlt_Qlt. exact Pi.
  - destruct (Qeq_bool lo hi); [destruct I|]. destruct I as [I|[]]. inversion I; subst. eapply V; [eassumption|]. intros x X. eapply mean_linf_pos; eassumption.
  - destruct (Qeq_bool _ _); [destruct I|]. destruct I as [I|[]]. inversion I; subst. eapply V; [eassumption|]. intros x X. eapply mean_linf_pos; eassumption.
Qed.

Section Private.
Context {U P : Type} `{EqDec U} `{EqDec P} (py : pydp).

Record good_budget (c : call U P) (b : budgets) : Prop := Good {
  gb_length : enough_budgets c b;
  gb_pos : Forall (fun ed => (0 < fst ed)%Q /\ (0 <= snd ed < 1)%Q) (b_noise b);
  gb_gauss : noise_kind (c_params c) = GaussianNoise -> forall i cb, nth_error (c_combiners c) i = Some cb -> cb <> CThresh ->
     Forall (fun ed => (0 < snd ed)%Q) (own c b i);
  gb_sel : selects_privately (c_params c) (c_public c) = true -> (0 < fst (b_selection b))%Q /\ (0 <= snd (b_selection b) < 1)%Q }.

Lemma slices_concat cs : forall bs : list (Q * Q), length bs = list_sum (map requests cs) -> concat (slices cs bs) = bs.
Proof.
  induction cs as [|cb cs IH]; intros bs L.
  - destruct bs; [reflexivity | discriminate].
  - change (list_sum (map requests (cb :: cs))) with (requests cb + list_sum (map requests cs))%nat in L. cbn [slices concat].
    rewrite IH by (rewrite skipn_length; lia). apply firstn_skipn.
Qed.
Lemma slices_count cs : forall bs, length (slices cs bs) = length cs.
Proof. induction cs as [|cb cs IH]; intro bs; [reflexivity|]. cbn. rewrite IH. reflexivity. Qed.

Lemma own_incl (c : call U P) b i : enough_budgets c b -> incl (own c b i) (b_noise b).
Proof.
  intros L ed I. rewrite <- (slices_concat _ _ L). apply in_concat. exists (own c b i). split; [|exact I]. unfold own in *.
  destruct (nth_in_or_default i (slices (c_combiners c) (b_noise b)) []) as [X|X]; [exact X|]. rewrite X in I. destruct I.
Qed.

Lemma shares_in cb bs qt e d : In (qt, (e, d)) (shares cb bs) ->
  exists e0 d0, In (e0, d0) bs /\ ((e == e0 /\ d == d0) \/ (e == e0 * (1 # 3) /\ d == d0 * (1 # 3)))%Q.
Proof.
  destruct cb as [| | |x lo hi|lo hi names|lo hi names|ps|n]; destruct bs as [|[e1 d1] [|[e2 d2] [|]]]; cbn [shares]; intro I; try (exfalso; exact I).
  1-4: destruct I as [I|[]]; inversion I; subst; exists e, d; split; [left; reflexivity | left; split; reflexivity].
  - destruct I as [I|[I|[]]]; inversion I; subst; exists e, d; (split; [cbn; auto | left; split; reflexivity]).
  - cbn in I. exists e1, d1. split; [left; reflexivity|]. right.
    destruct I as [I|[I|[I|[]]]]; inversion I; subst; split; unfold Qdiv; cbn; field.
Qed.

Lemma ledger_good (c : call U P) b i qt s e d : good_budget c b -> In (i, qt, s, (e, d)) (ledger c b) ->
  (0 < e)%Q /\ (0 <= d < 1)%Q /\
  (noise_kind (c_params c) = GaussianNoise -> nth_error (c_combiners c) i <> Some CThresh -> (0 < d)%Q).
Proof.
  intros Gb I. apply ledger_in in I. destruct I as [_ B]. unfold budget_of in B.
  destruct (nth_error (c_combiners c) i) as [cb|] eqn:Ei; [|discriminate].
  destruct (find _ (noise_plan _ _)) as [[? ?]|]; [|discriminate]. destruct (find _ (shares _ _)) as [[qt' eb]|] eqn:F; [|discriminate].
  inversion B; subst. apply find_some in F. destruct F as [F _]. apply shares_in in F. destruct F as [e0 [d0 [I0 F]]].
  assert (G := gb_pos _ _ Gb). rewrite Forall_forall in G. destruct (G _ (own_incl c b i (gb_length _ _ Gb) _ I0)) as [G1 [G2 G3]]. cbn [fst snd] in *.
  assert (Gg : noise_kind (c_params c) = GaussianNoise -> Some cb <> Some CThresh -> (0 < d0)%Q).
  { intros Gk N. assert (X := gb_gauss _ _ Gb Gk i cb Ei ltac:(congruence)). rewrite Forall_forall in X. exact (X _ I0). }
  destruct F as [[Ee Ed]|[Ee Ed]]; (split; [Lqa.lra|]; split; [split; Lqa.lra|]; intros A1 A2; specialize (Gg A1 A2); Lqa.lra).
Qed.

Lemma thresh_entry (c : call U P) b col : call_facts c col -> enough_budgets c b ->
  post_aggregation_thresholding (c_params c) = true ->
  exists s eb, filter (fun en => is_thresh (c_combiners c) (fst (fst (fst en)))) (ledger c b) = [(thresh_index (c_combiners c), QCount, s, eb)].
Proof.
  intros Fc L Tp. destruct (f_thresh _ _ Fc Tp) as [j [Ej Un]]. rewrite (thresh_index_spec _ j Ej Un).
  destruct (noised_complete (c_params c) (c_combiners c) j CThresh QCount Ej) as [s Iq]; [left; reflexivity|].
  destruct (noised_in _ _ _ _ _ Iq) as [cb [Ei Ip]]. destruct (budget_of_some c b j cb QCount s L Ei Ip) as [eb Eb].
  assert (Is : In (j, QCount, s, eb) (ledger c b)).
  { unfold ledger. apply in_flat_map. exists (j, QCount, s). split; [exact Iq|]. cbn [fst snd]. rewrite Eb. left. reflexivity. }
  exists s, eb. clear cb Ei Ip.
  assert (N := filter_keys _ (fun en => is_thresh (c_combiners c) (fst (fst (fst en)))) _ (ledger_keys c b)).
  assert (I : In (j, QCount, s, eb) (filter (fun en => is_thresh (c_combiners c) (fst (fst (fst en)))) (ledger c b))).
  { apply filter_In. split; [exact Is|]. unfold is_thresh. cbn [fst]. rewrite Ej. reflexivity. }
  assert (K : forall en, In en (filter (fun en => is_thresh (c_combiners c) (fst (fst (fst en)))) (ledger c b)) -> fst (fst en) = (j, QCount)).
  { intros [[[i qt] s'] eb'] X. apply filter_In in X. destruct X as [X1 X2]. cbn [fst] in *. unfold is_thresh in X2.
    destruct (nth_error (c_combiners c) i) as [[]|] eqn:Ei; try discriminate.
    apply ledger_in in X1. destruct X1 as [X1 _]. apply noised_in in X1. destruct X1 as [cb [Ei' X1]].
    rewrite Ei in Ei'. inversion Ei'; subst cb. cbn in X1. destruct X1 as [X1|[]]. inversion X1; subst. rewrite (Un i Ei). reflexivity. }
  destruct (filter _ (ledger c b)) as [|x [|y l]]; [destruct I | |].
  - destruct I as [->|[]]. reflexivity.
  - exfalso. cbn [map] in N. inversion N as [|? ? Nx _]; subst. apply Nx. left.
    rewrite (K x (or_introl eq_refl)), (K y (or_intror (or_introl eq_refl))). reflexivity.
Qed.

Lemma thresholding_private (c : call U P) b col : pydp_keeps_promises py -> call_facts c col -> good_budget c b ->
  post_aggregation_thresholding (c_params c) = true ->
  exists l0 s e d, max_partitions_contributed (c_params c) = Some l0 /\
    filter (fun en => is_thresh (c_combiners c) (fst (fst (fst en)))) (ledger c b) = [(thresh_index (c_combiners c), QCount, s, (e, d))] /\
    private_thresholding (threshold py c b (thresh_index (c_combiners c))) l0 (Q2R e) (Q2R d).
Proof.
  intros [_ [_ [[_ Ct] _]]] Fc Gb Tp. assert (Ha := f_accepted _ _ Fc).
  destruct (thresh_entry c b col Fc (gb_length _ _ Gb) Tp) as [s [[e d] Ef]].
  destruct (accepted_facts _ Ha) as [_ [_ [_ Hl]]]. rewrite (f_contrib _ _ Fc (or_intror Tp)) in Hl. destruct Hl as [l0 [linf [E0 [E1 [P0 P1]]]]].
  assert (I : In (thresh_index (c_combiners c), QCount, s, (e, d)) (ledger c b)).
  { apply (fun X => proj1 (proj1 (filter_In (fun en => is_thresh (c_combiners c) (fst (fst (fst en)))) _ _) X)). rewrite Ef. left. reflexivity. }
  exists l0, s, e, d. split; [exact E0|]. split; [exact Ef|].
  assert (Pb : (0 < e)%Q /\ (0 <= d < 1)%Q).
  { destruct (ledger_good _ _ _ _ _ _ _ Gb I) as [A1 [A2 _]]. auto. }
  assert (Es : exists sel, thresholding_mechanism (c_params c) e d = Ok sel /\ sel_l0 sel = Some l0 /\ sel_eps sel = e /\ sel_delta sel = d /\
     sel_pre sel = pre_threshold (c_params c) /\ In (sel_name sel) (map strategy_name [LaplaceThresholding; GaussianThresholding])).
  { unfold thresholding_mechanism, sens_privacy_id_count. rewrite (f_contrib _ _ Fc (or_intror Tp)), E0.
    assert (Ms : exists s', mk_sens (Some l0) (Some 1%Q) None None = Ok s' /\ s_l0 s' = Some l0).
    { unfold mk_sens, raise_if. assert (X : (l0 <=? 0)%Z = false) by (apply Z.leb_gt; lia). rewrite X. cbn. eexists. split; reflexivity. }
    destruct Ms as [s' [-> Es']]. cbn [rbind]. unfold create_thresholding_mechanism.
    destruct (noise_kind (c_params c)); cbn; eexists; (split; [reflexivity|]); rewrite Es'; cbn; auto 10. }
  destruct Es as [sel [Em [S0 [S1 [S2 [S3 S4]]]]]].
  assert (Et : forall n, threshold py c b (thresh_index (c_combiners c)) n = py_noised py sel n).
  { intro n. unfold threshold. rewrite (proj2 (ledger_in c b _ _ _ _ I)), Em. reflexivity. }
  destruct (Ct sel l0 S0 P0) as [C1 C2]; try (rewrite ?S1, ?S2; apply Pb); try exact S4.
  { intros t X. rewrite S3 in X. eapply accepted_pre_threshold; eassumption. }
  rewrite S1, S2 in C2. split.
  - intros n w o Hn. rewrite Et. apply C1. exact Hn.
  - intros ns ns' Ev Nb. unfold prob. 
    rewrite !(mixture_independent_ext (threshold py c b (thresh_index (c_combiners c))) (py_noised py sel)) by (intros; apply Et).
    apply (C2 ns ns' Ev Nb).
Qed.

Lemma selection_private (c : call U P) b col : pydp_keeps_promises py -> call_facts c col -> good_budget c b ->
  selects_privately (c_params c) (c_public c) = true ->
  exists l0, max_partitions_contributed (c_params c) = Some l0 /\ max_contributions (c_params c) = None /\
    private_strategy (py_keep py (aggregate_selector (c_params c) (fst (b_selection b)) (snd (b_selection b)))) l0
      (Q2R (fst (b_selection b))) (Q2R (snd (b_selection b))).
Proof.
  intros [_ [Cp _]] Fc Gb Sp. assert (Ha := f_accepted _ _ Fc). destruct (f_private _ _ Fc Sp) as [Pn _].
  assert (Hm := f_contrib _ _ Fc (or_introl Pn)).
  destruct (accepted_facts _ Ha) as [_ [_ [_ Hl]]]. rewrite Hm in Hl. destruct Hl as [l0 [linf [E0 [E1 [P0 P1]]]]].
  exists l0. split; [exact E0|]. split; [exact Hm|]. destruct (gb_sel _ _ Gb Sp) as [He Hd].
  exact (Cp (aggregate_selector (c_params c) (fst (b_selection b)) (snd (b_selection b))) l0 E0 P0 He Hd (known_strategy _)
              (fun t Et => accepted_pre_threshold _ t Ha Et)).
Qed.

Lemma all_fair (c : call U P) b col : pydp_keeps_promises py -> call_facts c col -> good_budget c b -> fair py c b.
Proof.
  intros Hpy Fc Gb. split.
  - apply (gb_length _ _ Gb).
  - apply (proj1 Hpy).
  - apply (proj1 (proj2 (proj2 Hpy))).
  - apply (proj1 (proj2 (proj2 (proj2 Hpy)))).
  - apply (proj1 (proj2 (proj2 (proj2 (proj2 Hpy))))).
  - intro Sp. destruct (selection_private c b col Hpy Fc Gb Sp) as [l0 [_ [_ [K1 [K2 _]]]]]. split; assumption.
  - intros Tp. destruct (thresholding_private c b col Hpy Fc Gb Tp) as [l0 [s [e [d [_ [_ [K1 _]]]]]]]. exact K1.
Qed.

Lemma thresh_neighbours (c : call U P) u col col' l0 : call_facts c col -> call_facts (forget u c) col' ->
  post_aggregation_thresholding (c_params c) = true -> max_partitions_contributed (c_params c) = Some l0 ->
  neighbouring l0 (map (thresh_count c col) (c_keys c)) (map (thresh_count c col') (c_keys c)).
Proof.
  intros Fc Fc' Tp E0. destruct (f_thresh_run _ _ Fc Tp) as [Ha [Hcs [Hb [Hv [Hp [Nk E]]]]]]. assert (E' := f_raw _ _ Fc'). cbn in E'.
  destruct (f_thresh _ _ Fc Tp) as [j [Ej Un]]. assert (Ji := thresh_index_spec _ j Ej Un).
  destruct (accepted_facts _ Ha) as [_ [_ [_ Hl]]]. assert (Hm := f_contrib _ _ Fc (or_intror Tp)). rewrite Hm in Hl.
  destruct Hl as [l0' [linf [E0' [_ [P0 _]]]]]. rewrite E0 in E0'. inversion E0'; subst l0'.
  destruct (raw_value_diff count_of _ _ j CThresh _ _ _ u _ _ count_additive Ej Hb E E') as [kept [Ek D]].
  destruct (kept_facts _ _ _ _ _ _ _ Hm E0 Hv Hp (to_bound_incl _ _ _) Ek) as [Nkept [Lk _]].
  assert (Ne := entries_NoDup count_of CThresh u kept Nkept).
  set (es := entries count_of CThresh u kept) in *.
  assert (Le : (length es <= Z.to_nat l0)%nat) by (unfold es, entries; rewrite map_length; apply Lk).
  assert (V : forall e, In e es -> snd e = 0%Q \/ snd e = 1%Q).
  { intros e I. unfold es, entries in I. apply in_map_iff in I. destruct I as [x [<- _]]. cbn. destruct (snd x); auto. }
  assert (C01 : forall k, (change es k == 0)%Q \/ (change es k == 1)%Q).
  { intro k. clear -Ne V. induction es as [|[k0 x] es IH]; [left; reflexivity|]. rewrite change_cons by exact Ne.
    destruct (eqb k0 k).
    - destruct (V (k0, x) (or_introl eq_refl)) as [X|X]; cbn in X; subst x; [left | right]; reflexivity.
    - apply IH; [inversion Ne; assumption|]. intros; apply V; right; assumption. }
  assert (Tz : forall k, exists z z', (0 <= z')%Z /\ thresh_count c col k = z /\ thresh_count c col' k = z' /\ (inject_Z z - inject_Z z' == change es k)%Q).
  { intro k. destruct (thresh_raw _ _ _ _ _ _ j k E Ej) as [z [A [B C]]]. destruct (thresh_raw _ _ _ _ _ _ j k E' Ej) as [z' [A' [B' C']]].
    exists z, z'. split; [exact A'|]. unfold thresh_count. rewrite Ji, B, B'. split; [reflexivity|]. split; [reflexivity|].
    rewrite <- B, <- B'. apply D. }
  assert (Dz : forall k, (0 <= thresh_count c col k - thresh_count c col' k <= 1)%Z /\
                (negb (thresh_count c col k =? thresh_count c col' k)%Z = negb (Qeq_bool (change es k) 0))).
  { intro k. destruct (Tz k) as [z [z' [_ [-> [-> X]]]]].
    assert (Xz : (change es k == inject_Z (z - z'))%Q) by (rewrite <- X; unfold Z.sub; rewrite inject_Z_plus, inject_Z_opp; ring).
    assert (Xb : Qeq_bool (change es k) 0 = Qeq_bool (inject_Z (z - z')) 0) by (rewrite Xz; reflexivity). rewrite Xb. clear Xb.
    assert (Zc : (z - z' = 0 \/ z - z' = 1)%Z).
    { destruct (C01 k) as [Y|Y]; rewrite Xz in Y; [left | right]; unfold Qeq in Y; cbn in Y; lia. }
    split; [lia|]. destruct Zc as [Zc|Zc]; rewrite Zc.
    - assert (z = z') by lia. subst. rewrite Z.eqb_refl. reflexivity.
    - assert (z <> z') by lia. apply Z.eqb_neq in H1. rewrite H1. reflexivity. }
  apply neighbouring_counts.
  - intro k. destruct (Tz k) as [z [z' [A [_ [-> _]]]]]. exact A.
  - intro k. apply Dz.
  - assert (Ch := changed_change (c_keys c) es Nk Ne). unfold changed in Ch.
    rewrite (filter_ext _ (fun k => negb (Qeq_bool (change es k) 0))) by (intro k; apply Dz). lia.
Qed.

Lemma raw_forget (c : call U P) u col' : call_facts (forget u c) col' ->
  raw_accumulators (c_params c) (c_combiners c) (c_sampling c) (c_public c) (without u (c_rows c)) = Ok col'.
Proof. exact (f_raw (forget u c) col'). Qed.

Definition stage_eps (c : call U P) (b : budgets) : R :=
  (if selects_privately (c_params c) (c_public c) then Q2R (fst (b_selection b)) else 0) +
  sumR (map (fun en => Q2R (fst (snd en))) (filter (fun en => is_thresh (c_combiners c) (fst (fst (fst en)))) (ledger c b))).
Definition stage_delta (c : call U P) (b : budgets) : R :=
  (if selects_privately (c_params c) (c_public c) then Q2R (snd (b_selection b)) else 0) +
  sumR (map (fun en => Q2R (snd (snd en))) (filter (fun en => is_thresh (c_combiners c) (fst (fst (fst en)))) (ledger c b))).

Lemma no_thresh_entries (c : call U P) b col : call_facts c col -> post_aggregation_thresholding (c_params c) = false ->
  filter (fun en => is_thresh (c_combiners c) (fst (fst (fst en)))) (ledger c b) = [].
Proof.
  intros Fc Tp. assert (S0 := f_no_thresh _ _ Fc Tp). induction (ledger c b) as [|en l IH]; [reflexivity|].
  cbn [filter]. rewrite IH. unfold is_thresh. destruct (nth_error (c_combiners c) (fst (fst (fst en)))) as [cb|] eqn:X; [|reflexivity].
  destruct cb; try reflexivity. exfalso. exact (S0 _ X).
Qed.

Lemma estimate_influence (c : call U P) u col col' l0 : call_facts c col -> call_facts (forget u c) col' ->
  max_contributions (c_params c) = None -> max_partitions_contributed (c_params c) = Some l0 ->
  (forall k, 0 <= estimate (c_params c) k col - estimate (c_params c) k col' <= 1)%Z /\
  (Z.of_nat (length (filter (fun k => negb (estimate (c_params c) k col =? estimate (c_params c) k col')%Z) (c_keys c))) <= l0)%Z.
Proof.
  intros Fc Fc' Hm E0. assert (E := f_raw _ _ Fc). assert (E' := raw_forget c u col' Fc').
  destruct (f_run _ _ Fc) as [[Ha [Hcs [Hb [Hv [Hp [Nk _]]]]]]|[Ha [Hcs [Hb [W [Nk _]]]]]].
  - assert (Er : forall k x, estimate (c_params c) k x = row_count k x) by (intros k x; unfold estimate, max_rows_per_privacy_id; rewrite Hb; apply divide_by_one).
    destruct (selection_influence _ _ _ _ _ col col' u (c_keys c) l0 Ha Hb Hv Hp Nk E E') as [D1 D2]; [rewrite Hm; exact E0|].
    split; [intro k; rewrite !Er; apply D1|]. rewrite (filter_ext _ (fun k => negb (row_count k col =? row_count k col')%Z)) by (intro k; rewrite !Er; reflexivity). exact D2.
  - apply (trusted_influence _ _ _ _ _ col col' u (c_keys c) l0 Ha Hb W Nk E E'). rewrite Hm. exact E0.
Qed.

Lemma stage_both (c : call U P) b u col col' : pydp_keeps_promises py -> call_facts c col -> call_facts (forget u c) col' -> good_budget c b ->
  both (stage_eps c b) (stage_delta c b) (stage py c b col) (stage py (forget u c) b col').
Proof.
  intros Hpy Fc Fc' Gb. assert (Ha := f_accepted _ _ Fc). assert (Nk := f_distinct _ _ Fc). assert (E := f_raw _ _ Fc). assert (E' := raw_forget c u col' Fc').
  unfold stage, stage_eps, stage_delta. cbn [forget c_params c_public c_combiners c_keys].
  destruct (selects_privately (c_params c) (c_public c)) eqn:Sp.
  - destruct (f_private _ _ Fc Sp) as [Pn [Tp Fp]]. rewrite (no_thresh_entries c b col Fc Tp). cbn [map sumR fold_right].
    change (sumR []) with 0. rewrite !Rplus_0_r.
    destruct (selection_private c b col Hpy Fc Gb Sp) as [l0 [E0 [Hm [K1 [K2 K3]]]]].
    apply both_post. change (should_keep py (forget u c) b) with (should_keep py c b). apply both_events. intro Ev.
    unfold should_keep. cbv zeta. rewrite !kept_prob. apply K3.
    apply neighbouring_counts.
    + intro k. apply (estimate_facts (forget u c) col' k Fc' Sp).
    + apply (estimate_influence c u col col' l0 Fc Fc' Hm E0).
    + apply (estimate_influence c u col col' l0 Fc Fc' Hm E0).
  - destruct (post_aggregation_thresholding (c_params c)) eqn:Tp.
    + destruct (thresholding_private c b col Hpy Fc Gb Tp) as [l0 [s [e [d [E0 [-> [_ K]]]]]]]. cbn [map].
      rewrite !sumR_cons. cbn [fst snd]. change (sumR []) with 0. rewrite !Rplus_0_r, !Rplus_0_l.
      change (threshold py (forget u c) b) with (threshold py c b). change (thresh_count (forget u c) col') with (thresh_count c col').
      apply both_events. intro Ev. apply K. apply (thresh_neighbours c u col col' l0); assumption.
    + rewrite (no_thresh_entries c b col Fc Tp). cbn [map]. change (sumR []) with 0. rewrite !Rplus_0_r. apply both_same.
Qed.

Lemma covers_pairs m (keys : list P) f g : covers m keys (fun k => (f k - g k)%Q) ->
  covers m (combine (map f keys) (map g keys)) (fun e => (fst e - snd e)%Q).
Proof.
  assert (C : combine (map f keys) (map g keys) = map (fun k => (f k, g k)) keys).
  { clear. induction keys as [|k keys IH]; [reflexivity|]. cbn. rewrite IH. reflexivity. }
  rewrite C. unfold covers, l1_norm, l2sq_norm. rewrite !map_map. cbn [fst snd]. auto.
Qed.

Lemma sens_known (c : call U P) col u i cb qt rs : call_facts c col -> nth_error (c_combiners c) i = Some cb ->
  In (qt, rs) (noise_plan (c_params c) cb) ->
  exists s, rs = Ok s /\ calibrated (c_params c) (c_combiners c) (c_sampling c) (c_public c) (c_rows c) (c_keys c) col u i cb qt s.
Proof.
  intros Fc Ei Ip.
  assert (Hv : forall lo hi n, cb = CVariance lo hi n -> max_contributions (c_params c) = None)
    by (intros lo hi n ->; apply (f_variance _ _ Fc _ _ _ _ Ei)).
  assert (Hq : forall lo hi n, qt = QSquares -> cb = CVariance lo hi n -> squares_covered lo hi)
    by (intros lo hi n _ ->; apply (f_variance _ _ Fc _ _ _ _ Ei)).
  destruct (f_run _ _ Fc) as [R|R].
  - assert (R' := R). destruct R' as [Ha [Hcs [Hb [Hvs [Hp [Nk E]]]]]].
    destruct (all_sensitivities _ _ _ _ _ _ _ u _ _ _ _ Ha Hcs Ei Hb Hv Hvs Hp Nk E Ip Hq) as [col' [s [_ [-> _]]]].
    exists s. split; [reflexivity|]. apply calibrated_intro; assumption.
  - assert (Hn : forall lo hi, cb <> CSum true lo hi).
    { intros lo hi ->. destruct R as [_ [_ [Hb _]]]. exact (f_sum _ _ Fc Hb i lo hi Ei). }
    destruct (C69_sensitivities_exist _ _ _ _ _ _ _ _ _ _ _ R Ei Hn Hv Hq u Ip) as [s ->].
    exists s. split; [reflexivity|]. apply C69_calibrated; assumption.
Qed.

Lemma group_both (c : call U P) b u col col' en : pydp_keeps_promises py -> call_facts c col -> call_facts (forget u c) col' -> good_budget c b ->
  In en (used c b) -> both (Q2R (fst (snd en))) (Q2R (snd (snd en))) (group py c b col en) (group py (forget u c) b col' en).
Proof.
  intros Hpy Fc Fc' Gb I. assert (E' := raw_forget c u col' Fc').
  destruct en as [[[i qt] s] [e d]]. unfold used in I. apply filter_In in I. destruct I as [Il It]. cbn [fst snd] in *.
  destruct (ledger_in c b _ _ _ _ Il) as [In1 Bo]. apply noised_in in In1. destruct In1 as [cb [Ei Ip]].
  assert (Nt : cb <> CThresh) by (intros ->; unfold is_thresh in It; rewrite Ei in It; discriminate).
  destruct (sens_known c col u i cb qt s Fc Ei Ip) as [s' [-> Cal]].
  destruct Cal as [col'' [E'' [_ [_ Cov]]]]. rewrite E' in E''. inversion E''; subst col''. clear E''.
  destruct (Cov (MSpec (noise_kind (c_params c)) None e d)) as [m [Em Cm]].
  destruct (ledger_good _ _ _ _ _ _ _ Gb Il) as [Pe [Pd Ga]].
  assert (Hv : forall lo hi n, cb = CVariance lo hi n -> max_contributions (c_params c) = None)
    by (intros lo hi n ->; apply (f_variance _ _ Fc _ _ _ _ Ei)).
  destruct (plan_positive _ _ _ _ (f_accepted _ _ Fc) Hv Ip Nt) as [L1 L2].
  assert (Pm : exists d', (d' <= d)%Q /\ promises m e d').
  { unfold create_additive_mechanism in Em. cbn [ms_kind ms_std ms_eps ms_delta] in Em. destruct (noise_kind (c_params c)).
    - destruct (s_l1 s') as [l1|] eqn:El; [|discriminate]. inversion Em; subst m. exists 0%Q. split; [apply Pd|].
      specialize (L1 _ eq_refl). split; [exact Pe|]. split; [exact L1|]. split; reflexivity.
    - destruct (s_l2sq s') as [l2|] eqn:El; [|discriminate]. inversion Em; subst m. exists d. split; [apply Qle_refl|].
      specialize (L2 _ eq_refl). specialize (Ga eq_refl ltac:(congruence)).
      cbn. repeat split; try apply Pd; assumption. }
  destruct Pm as [d' [Ld Pm]].
  assert (An : forall x, add_noise py c b i qt x = py_noise py m x).
  { intro x. unfold add_noise. rewrite Bo. cbn [rbind]. rewrite Em. reflexivity. }
  pose (f := fun k => raw_value (quantity_of qt) i k col). pose (f' := fun k => raw_value (quantity_of qt) i k col').
  apply both_weaken with (Q2R d'); [apply Qle_Rle; exact Ld|].
  apply both_ext with (d2 := independent (py_noise py m) (map f (c_keys c))) (d2' := independent (py_noise py m) (map f' (c_keys c))).
  - intro F. unfold group. rewrite map_map, !mixture_independent_map. apply mixture_independent_ext. intros k _. cbn. apply An.
  - intro F. unfold group. rewrite map_map, !mixture_independent_map. apply mixture_independent_ext. intros k _. cbn. apply An.
  - apply both_events. intro Ev. destruct Hpy as [[_ Cn] _]. apply (Cn m e d' Pm); [rewrite !map_length; reflexivity|].
    apply covers_pairs. exact Cm.
Qed.

Lemma used_forget (c : call U P) u b : used (forget u c) b = used c b.
Proof. reflexivity. Qed.

Lemma Q2R_nonneg q : (0 <= q)%Q -> 0 <= Q2R q.
Proof. intro L. apply Qle_Rle in L. rewrite RMicromega.Q2R_0 in L. exact L. Qed.
Lemma used_delta (c : call U P) b en : good_budget c b -> In en (used c b) -> 0 <= Q2R (snd (snd en)).
Proof.
  intros Gb I. unfold used in I. apply filter_In in I. destruct I as [I _]. destruct en as [[[i qt] s] [e d]].
  apply Q2R_nonneg. apply (ledger_good _ _ _ _ _ _ _ Gb I).
Qed.

Lemma noise_both (c : call U P) b u col col' : pydp_keeps_promises py -> call_facts c col -> call_facts (forget u c) col' -> good_budget c b ->
  both (sumR (map (fun en => Q2R (fst (snd en))) (used c b))) (sumR (map (fun en => Q2R (snd (snd en))) (used c b)))
    (noise_stage py c b col) (noise_stage py (forget u c) b col').
Proof.
  intros Hpy Fc Fc' Gb. unfold noise_stage. rewrite used_forget.
  assert (Fb := all_fair c b col Hpy Fc Gb). apply both_stacked.
  - intros en I. apply (used_delta c b); assumption.
  - intro en. apply group_dist. exact Fb.
  - intro en. apply (group_dist py (forget u c)). destruct Fb. split; assumption.
  - intros en I. apply group_both; assumption.
Qed.

(** ** Quantiles *)
Definition tree_budget (c : call U P) (b : budgets) (en : nat * list Q) : Q * Q := nth 0 (own c b (fst en)) (0, 0)%Q.

Lemma tree_neighbours l0 linf (keys : list P) tree tree' : tree_change l0 linf keys tree tree' ->
  neighbouring_trees l0 linf (map tree keys) (map tree' keys).
Proof.
  intros [extra [E1 [E2 E3]]]. exists (map extra keys). split; [|split; [rewrite !map_length; reflexivity|split]].
  - clear E3. induction keys as [|k keys IH]; cbn [map combine]; constructor; [apply E1 | exact IH].
  - apply Forall_map. apply Forall_forall. intros k _. apply E2.
  - assert (L : length (filter (fun e : list Q => match e with [] => false | _ => true end) (map extra keys)) =
                length (filter (fun k => match extra k with [] => false | _ => true end) keys)).
    { clear. induction keys as [|k keys IH]; [reflexivity|]. cbn [map filter]. destruct (extra k); cbn [length]; rewrite IH; reflexivity. }
    rewrite L. exact E3.
Qed.

(** ** Vectors *)
Lemma grid_step {K J A} (f : K -> J -> dist A) j js (keys : list K) : forall F,
  mixture (independent (fun k => independent (f k) (j :: js)) keys) F =
  mixture (independent (fun k => f k j) keys) (fun ys =>
    mixture (independent (fun k => independent (f k) js) keys) (fun rows => F (map (fun yr => fst yr :: snd yr) (combine ys rows)))).
Proof.
  induction keys as [|k keys IH]; intro F.
  - cbn [independent]. rewrite !mixture_ret. reflexivity.
  - rewrite !mixture_independent_cons. apply mixture_ext. intro y.
    transitivity (mixture (independent (f k) js) (fun row => mixture (independent (fun k => f k j) keys) (fun ys =>
      mixture (independent (fun k => independent (f k) js) keys) (fun rows => F ((y :: row) :: map (fun yr => fst yr :: snd yr) (combine ys rows)))))).
    + apply mixture_ext. intro row. rewrite IH. reflexivity.
    + rewrite mixture_swap. apply mixture_ext. intro ys. rewrite mixture_independent_cons. reflexivity.
Qed.

Lemma grid_both {K J A} e dl (f f' : K -> J -> dist A) (keys : list K) js : 0 <= dl ->
  (forall k j, is_dist (f k j)) -> (forall k j, is_dist (f' k j)) ->
  (forall j, both e dl (independent (fun k => f k j) keys) (independent (fun k => f' k j) keys)) ->
  both (INR (length js) * e) (INR (length js) * dl)
    (independent (fun k => independent (f k) js) keys) (independent (fun k => independent (f' k) js) keys).
Proof.
  intros Pd D D' Bo. induction js as [|j js IH].
  - cbn [length INR]. rewrite !Rmult_0_l.
    assert (G : forall g : K -> J -> dist A, forall F, mixture (independent (fun k => independent (g k) []) keys) F = F (map (fun _ => []) keys)).
    { clear. intro g. induction keys as [|k keys IH]; intro F; [cbn [independent]; rewrite mixture_ret; reflexivity|].
      rewrite mixture_independent_cons. cbn [independent]. rewrite mixture_ret, IH. reflexivity. }
    apply both_ext with (d2 := dret (map (fun _ => []) keys)) (d2' := dret (map (fun _ => []) keys)).
    + intro F. rewrite G, mixture_ret. reflexivity.
    + intro F. rewrite G, mixture_ret. reflexivity.
    + apply both_same.
  - change (length (j :: js)) with (S (length js)). rewrite S_INR. rewrite !Rmult_plus_distr_r, !Rmult_1_l.
    rewrite (Rplus_comm (INR (length js) * e)), (Rplus_comm (INR (length js) * dl)).
    pose (glue := fun (ys : list A) (rows : list (list A)) => map (fun yr => fst yr :: snd yr) (combine ys rows)).
    apply both_ext with
      (d2 := dbind (independent (fun k => f k j) keys) (fun ys => dbind (independent (fun k => independent (f k) js) keys) (fun rows => dret (glue ys rows))))
      (d2' := dbind (independent (fun k => f' k j) keys) (fun ys => dbind (independent (fun k => independent (f' k) js) keys) (fun rows => dret (glue ys rows)))).
    + intro F. rewrite grid_step, mixture_bind. apply mixture_ext. intro ys. rewrite mixture_bind. apply mixture_ext. intro rows. rewrite mixture_ret. reflexivity.
    + intro F. rewrite grid_step, mixture_bind. apply mixture_ext. intro ys. rewrite mixture_bind. apply mixture_ext. intro rows. rewrite mixture_ret. reflexivity.
    + assert (Dk : forall g : K -> J -> dist A, (forall k j, is_dist (g k j)) -> is_dist (independent (fun k => independent (g k) js) keys))
        by (intros g Dg; apply is_dist_independent; intros k _; apply is_dist_independent; intros; apply Dg).
      apply both_bind.
      * assert (0 <= INR (length js)) by apply pos_INR. nra.
      * apply is_dist_independent. intros; apply D.
      * apply is_dist_independent. intros; apply D'.
      * intro ys. apply is_dist_bind; [apply Dk; exact D | intro; apply is_dist_ret].
      * intro ys. apply is_dist_bind; [apply Dk; exact D' | intro; apply is_dist_ret].
      * apply Bo.
      * intro ys. apply both_post. exact IH.
Qed.

Lemma covers_real_pairs m (keys : list P) (f g : P -> R) : covers_real m keys (fun k => f k - g k) ->
  covers_real m (combine (map f keys) (map g keys)) (fun e => fst e - snd e).
Proof.
  assert (E : combine (map f keys) (map g keys) = map (fun k => (f k, g k)) keys) by (clear; induction keys as [|k keys IH]; [reflexivity | cbn; rewrite IH; reflexivity]).
  rewrite E. unfold covers_real. destruct m; rewrite map_map; cbn [fst snd]; auto.
Qed.

Lemma vector_group_both (c : call U P) b u col col' i n e d : pydp_keeps_promises py -> call_facts c col -> call_facts (forget u c) col' -> good_budget c b ->
  nth_error (c_combiners c) i = Some (CVector n) -> own c b i = [(e, d)] -> (0 < e)%Q -> (0 <= d < 1)%Q ->
  both (Q2R e) (Q2R d) (tree_group py c b col (i, [])) (tree_group py (forget u c) b col' (i, [])).
Proof.
  intros Hpy Fc Fc' Gb I Eo Pe Pd. assert (E' := raw_forget c u col' Fc').
  destruct (f_vector _ _ Fc i n I) as [[Pn [Hb [n' [kind [mn [linf [En [Pn' [Ek [Nk [Em [Pm [El Small]]]]]]]]]]]]] En']. rewrite En in En'. inversion En'; subst n'. clear En'.
  assert (Hm := f_contrib _ _ Fc (or_introl Pn)).
  assert (Std : standard_run (c_params c) (c_combiners c) (c_sampling c) None (c_rows c) (c_keys c) col).
  { rewrite <- Pn. destruct (f_run _ _ Fc) as [R0|R0]; [exact R0|]. exfalso. destruct R0 as [_ [_ [X _]]]. congruence. }
  destruct (C19_small_norm_partial _ _ _ _ _ _ u i n kind mn linf e d Std I Hm En Ek Em Pm El Small) as [col'' [m [E'' [Mm Cov]]]].
  rewrite Pn in E'. rewrite E' in E''. inversion E''; subst col''. clear E''.
  assert (F0 := accepted_facts _ (f_accepted _ _ Fc)). rewrite Hm in F0. destruct F0 as [_ [_ [_ [l0 [linf' [E0 [El' [P0 Pi]]]]]]]].
  rewrite El in El'. inversion El'; subst linf'. clear El'.
  set (coordinate := fun (x : list (P * cacc)) j k => clipped_coordinate kind (Q2R mn) i j k x) in *.
  assert (At : forall x k, tree_law py c b (question_at c x (i, [], k)) =
     independent (fun j => py_vector py m (coordinate x j k)) (seq 0 (Z.to_nat n))).
  { intros x k. unfold question_at, list_at. cbn [tree_law fst snd]. unfold ask_tree. rewrite I, Eo. unfold noised_vector. rewrite En, Ek, Em, Mm.
    unfold coordinate, clipped_coordinate. destruct (clip_vector (map Q2R (raw_vector i k x)) (Q2R mn) kind) as [w|] eqn:Ec; [reflexivity|].
    exfalso. destruct (proj1 (C49_vector_clipping_defined (map Q2R (raw_vector i k x)) (Q2R mn) kind) Nk) as [w Ew]. congruence. }
  destruct Hpy as [_ [_ [_ [_ [Dv Cv]]]]].
  assert (NP : (0 < inject_Z n)%Q) by (change 0%Q with (inject_Z 0); rewrite <- Zlt_Qlt; exact Pn').
  assert (N1 : (1 <= inject_Z n)%Q) by (change 1%Q with (inject_Z 1); rewrite <- Zle_Qle; lia).
  assert (QP : (0 < inject_Z l0 /\ 0 < inject_Z linf)%Q) by (split; change 0%Q with (inject_Z 0); rewrite <- Zlt_Qlt; assumption).
  assert (Pe' : (0 < e / inject_Z n)%Q) by (apply Qlt_shift_div_l; [exact NP | rewrite Qmult_0_l; exact Pe]).
  assert (Promise : exists d', promises m (e / inject_Z n)%Q d' /\ (d' <= d / inject_Z n)%Q /\ (0 <= d')%Q).
  { unfold vector_mechanism in Mm. rewrite E0, El, En in Mm. destruct (noise_kind (c_params c)) eqn:Hn; inversion Mm; subst m.
    - exists 0%Q. split; [|split; [|apply Qle_refl]].
      + split; [exact Pe'|]. split; [|split; reflexivity]. apply Qmult_lt_0_compat; apply QP.
      + apply Qle_shift_div_l; [exact NP|]. rewrite Qmult_0_l. apply Pd.
    - assert (Pd' : (0 < d)%Q).
      { apply (proj1 (Forall_forall _ _) (gb_gauss _ _ Gb Hn i _ I ltac:(discriminate)) (e, d)). rewrite Eo. left. reflexivity. }
      assert (Pdn : (0 < d / inject_Z n)%Q) by (apply Qlt_shift_div_l; [exact NP | rewrite Qmult_0_l; exact Pd']).
      exists (d / inject_Z n)%Q. split; [|split; [apply Qle_refl | apply Qlt_le_weak; exact Pdn]].
      split; [exact Pe'|]. split; [exact Pdn|]. split; [|split; [|split; reflexivity]].
      + apply Qlt_shift_div_r; [exact NP|]. rewrite Qmult_1_l. eapply Qlt_le_trans; [apply Pd | exact N1].
      + unfold l2sq_sensitivity. repeat apply Qmult_lt_0_compat; apply QP. }
  destruct Promise as [d' [Pr [Ld Pd']]].
  apply both_ext with (d2 := independent (fun k => independent (fun j => py_vector py m (coordinate col j k)) (seq 0 (Z.to_nat n))) (c_keys c))
                      (d2' := independent (fun k => independent (fun j => py_vector py m (coordinate col' j k)) (seq 0 (Z.to_nat n))) (c_keys c)).
  - intro F. unfold tree_group. rewrite map_map, !mixture_independent_map. apply mixture_independent_ext. intros k _. apply At.
  - intro F. unfold tree_group. rewrite map_map, !mixture_independent_map. apply mixture_independent_ext. intros k _. apply (At col').
  - assert (Rn : INR (length (seq 0 (Z.to_nat n))) = Q2R (inject_Z n)).
    { rewrite seq_length, INR_IZR_INZ, Z2Nat.id by lia. unfold Q2R, inject_Z. cbn. field. }
    assert (Nz : ~ (inject_Z n == 0)%Q) by (intro X; rewrite X in NP; apply (Qlt_irrefl 0); exact NP).
    replace (Q2R e) with (INR (length (seq 0 (Z.to_nat n))) * Q2R (e / inject_Z n)).
    2: { rewrite Rn, <- Q2R_mult. apply Qeq_eqR. field. exact Nz. }
    apply both_weaken with (INR (length (seq 0 (Z.to_nat n))) * Q2R d').
    { rewrite Rn, <- Q2R_mult. apply Qle_Rle. apply (Qmult_le_l _ _ _ NP) in Ld. eapply Qle_trans; [exact Ld|].
      apply Qle_lteq. right. field. exact Nz. }
    apply (grid_both (Q2R (e / inject_Z n)) (Q2R d') (fun k j => py_vector py m (coordinate col j k)) (fun k j => py_vector py m (coordinate col' j k))).
    + apply Q2R_nonneg. exact Pd'.
    + intros; apply Dv.
    + intros; apply Dv.
    + intro j. apply both_ext with (d2 := independent (py_vector py m) (map (coordinate col j) (c_keys c)))
                                   (d2' := independent (py_vector py m) (map (coordinate col' j) (c_keys c))).
      * intro F. rewrite mixture_independent_map. reflexivity.
      * intro F. rewrite mixture_independent_map. reflexivity.
      * apply both_events. intro Ev. apply (Cv m _ _ Pr); [rewrite !map_length; reflexivity|]. apply covers_real_pairs. apply Cov.
Qed.

Lemma tree_group_both (c : call U P) b u col col' en : pydp_keeps_promises py -> call_facts c col -> call_facts (forget u c) col' -> good_budget c b ->
  In en (trees c) -> both (Q2R (fst (tree_budget c b en))) (Q2R (snd (tree_budget c b en))) (tree_group py c b col en) (tree_group py (forget u c) b col' en).
Proof.
  intros Hpy Fc Fc' Gb I. destruct en as [i ps]. apply in_trees in I. destruct I as [I|[[n I] ->]].
  2: { assert (L := own_length c b i _ (gb_length _ _ Gb) I). cbn [requests] in L. unfold tree_budget. cbn [fst].
       destruct (own c b i) as [|[e d] [|]] eqn:Eo; try discriminate L. cbn [nth fst snd].
       assert (G := gb_pos _ _ Gb). rewrite Forall_forall in G.
       destruct (G (e, d)) as [Pe Pd]; [apply (own_incl c b i (gb_length _ _ Gb)); rewrite Eo; left; reflexivity|].
       apply (vector_group_both c b u col col' i n e d); assumption. }
  assert (E' := raw_forget c u col' Fc').
  assert (L := own_length c b i _ (gb_length _ _ Gb) I). cbn [requests] in L. unfold tree_budget. cbn [fst].
  destruct (own c b i) as [|[e d] [|]] eqn:Eo; try discriminate L. cbn [nth fst snd]. clear L.
  assert (G := gb_pos _ _ Gb). rewrite Forall_forall in G.
  destruct (G (e, d)) as [Pe Pd]; [apply (own_incl c b i (gb_length _ _ Gb)); rewrite Eo; left; reflexivity|]. cbn [fst snd] in *.
  destruct (C70_bounds_known _ _ _ _ e d true true (f_accepted _ _ Fc) (f_check _ _ Fc) (f_combiners _ _ Fc) I) as [l0 [linf [P0 [Pi [Q0 [Qi _]]]]]].
  destruct (C70_one_id_influence _ _ _ _ _ _ _ u i ps e d l0 linf (f_run _ _ Fc) I Q0 Qi) as [col'' [E'' Tc]].
  rewrite E' in E''. inversion E''; subst col''. clear E''.
  destruct (f_quantile _ _ Fc i ps I) as [lo [hi [Elo [Ehi Lt]]]].
  set (q := with_quantiles (map (fun x => x / 100)%Q ps) (quantile_query_of (c_params c) e d ps)).
  assert (At : forall x k, tree_law py c b (question_at c x (i, ps, k)) = py_quantiles py q (raw_tree i k x)).
  { intros x k. unfold question_at, list_at. cbn [tree_law fst snd]. unfold ask_tree. rewrite I, Eo. reflexivity. }
  apply both_ext with (d2 := independent (py_quantiles py q) (map (fun k => raw_tree i k col) (c_keys c)))
                      (d2' := independent (py_quantiles py q) (map (fun k => raw_tree i k col') (c_keys c))).
  - intro F. unfold tree_group. rewrite map_map, !mixture_independent_map. apply mixture_independent_ext. intros k _. apply At.
  - intro F. unfold tree_group. rewrite map_map, !mixture_independent_map. apply mixture_independent_ext. intros k _. apply (At col').
  - apply both_events. intro Ev. destruct Hpy as [_ [_ [_ [[_ Cq] _]]]].
    apply (Cq q l0 linf lo hi); try assumption; try reflexivity.
    + intro Gn. apply (fun Gk => proj1 (Forall_forall _ _) (gb_gauss _ _ Gb Gk i _ I ltac:(discriminate)) (e, d)); [|rewrite Eo; left; reflexivity].
      cbn in Gn. unfold noise_type in Gn. destruct (noise_kind (c_params c)); [discriminate | reflexivity].
    + cbn. unfold noise_type. destruct (noise_kind (c_params c)); auto.
    + apply tree_neighbours. exact Tc.
Qed.

Lemma tree_delta (c : call U P) b en : good_budget c b -> 0 <= Q2R (snd (tree_budget c b en)).
Proof.
  intro Gb. apply Q2R_nonneg. unfold tree_budget. destruct (own c b (fst en)) as [|ed l] eqn:Eo; [apply Qle_refl|]. cbn [nth].
  assert (G := gb_pos _ _ Gb). rewrite Forall_forall in G. apply (G ed). apply (own_incl c b (fst en) (gb_length _ _ Gb)). rewrite Eo. left. reflexivity.
Qed.

Lemma tree_both (c : call U P) b u col col' : pydp_keeps_promises py -> call_facts c col -> call_facts (forget u c) col' -> good_budget c b ->
  both (sumR (map (fun en => Q2R (fst (tree_budget c b en))) (trees c))) (sumR (map (fun en => Q2R (snd (tree_budget c b en))) (trees c)))
    (tree_stage py c b col) (tree_stage py (forget u c) b col').
Proof.
  intros Hpy Fc Fc' Gb. unfold tree_stage. change (trees (forget u c)) with (trees c).
  assert (Fb := all_fair c b col Hpy Fc Gb). apply both_stacked.
  - intros en _. apply tree_delta. exact Gb.
  - intro en. apply tree_group_dist. exact Fb.
  - intro en. apply (tree_group_dist py (forget u c)). destruct Fb. split; assumption.
  - intros en I. apply tree_group_both; assumption.
Qed.

(** ** The budgets used are at most the budgets of the call *)
Lemma sumR_filter {T} (q : T -> bool) (f : T -> R) l :
  sumR (map f l) = sumR (map f (filter q l)) + sumR (map f (filter (fun x => negb (q x)) l)).
Proof.
  induction l as [|x l IH]; [cbn; lra|]. cbn [map filter]. rewrite sumR_cons, IH. destruct (q x); cbn [negb map]; rewrite sumR_cons; lra.
Qed.
Lemma sumR_flat_map {S T} (f : T -> R) (g : S -> list T) l : sumR (map f (flat_map g l)) = sumR (map (fun x => sumR (map f (g x))) l).
Proof.
  induction l as [|x l IH]; [reflexivity|]. cbn [flat_map map]. rewrite map_app, sumR_cons, <- IH.
  generalize (g x) as h. intro h. induction h as [|y h IHh]; [cbn [map app]; change (sumR []) with 0; lra|]. cbn [map app]. rewrite !sumR_cons, IHh. lra.
Qed.
Lemma flat_map_twice {A B C} (f : A -> list B) (g : B -> list C) l : flat_map g (flat_map f l) = flat_map (fun x => flat_map g (f x)) l.
Proof. induction l as [|x l IH]; [reflexivity|]. cbn [flat_map]. rewrite flat_map_app, IH. reflexivity. Qed.

Lemma own_each (c : call U P) b : enough_budgets c b ->
  flat_map (fun ic => own c b (fst ic)) (combine (seq 0 (length (c_combiners c))) (c_combiners c)) = b_noise b.
Proof.
  intro L. rewrite <- (slices_concat _ _ L), flat_map_concat_map. f_equal.
  rewrite <- (map_map fst (own c b)), combine_fst by (rewrite seq_length; reflexivity).
  unfold own. rewrite <- (slices_count (c_combiners c) (b_noise b)). generalize (slices (c_combiners c) (b_noise b)) as l. clear.
  induction l as [|x l IH]; [reflexivity|]. cbn [length seq map nth]. f_equal. rewrite <- seq_shift, map_map. exact IH.
Qed.

(** [f] is one of the two components of a budget. *)
Definition component (f : Q * Q -> Q) : Prop := f = fst \/ f = snd.

Lemma spent_by_combiner (c : call U P) b f i cb : enough_budgets c b -> component f -> nth_error (c_combiners c) i = Some cb ->
  (forall ed, In ed (own c b i) -> 0 <= Q2R (f ed)) ->
  sumR (map (fun en => Q2R (f (snd en)))
    (flat_map (fun e => match budget_of c b (fst (fst e)) (snd (fst e)) with Some (s, eb) => [(fst e, s, eb)] | None => [] end)
       (map (fun qs : quantity * result sens => (i, fst qs, snd qs)) (noise_plan (c_params c) cb)))) +
  sumR (map (fun en => Q2R (f (tree_budget c b en))) (match cb with CQuantile ps => [(i, ps)] | CVector _ => [(i, [])] | _ => [] end))
  <= sumR (map (fun ed => Q2R (f ed)) (own c b i)).
Proof.
  intros L Cf Ei Po. assert (Lo := own_length c b i cb L Ei).
  assert (B : forall qt s, In (qt, s) (noise_plan (c_params c) cb) -> forall eb, find (fun e => eqb (fst e) qt) (shares cb (own c b i)) = Some (qt, eb) ->
    budget_of c b i qt = Some (s, eb)).
  { intros qt s I eb F. unfold budget_of. rewrite Ei, (found_once _ _ _ (plan_quantities _ _) I), F. reflexivity. }
  destruct cb as [| | |x lo hi|lo hi names|lo hi names|ps|n]; cbn [requests] in Lo; destruct (own c b i) as [|[e1 d1] [|[e2 d2] [|]]] eqn:Eo; try discriminate Lo.
  1-4: cbn [noise_plan map flat_map fst snd]; rewrite (B _ _ (or_introl eq_refl) _ eq_refl); cbn [app map fst snd]; rewrite !sumR_cons; cbn [snd]; change (sumR []) with 0; lra.
  - cbn [noise_plan map flat_map fst snd]. rewrite (B _ _ (or_introl eq_refl) _ eq_refl), (B _ _ (or_intror (or_introl eq_refl)) _ eq_refl).
    cbn [app map fst snd]. rewrite !sumR_cons. cbn [snd]. change (sumR []) with 0. lra.
  - set (plan := noise_plan (c_params c) (CVariance lo hi names)) in *.
    specialize (Po _ (or_introl eq_refl)). cbn [map]. rewrite (sumR_cons _ []). change (sumR []) with 0. rewrite !Rplus_0_r.
    assert (T3 : forall qt s, In (qt, s) plan -> exists eb, budget_of c b i qt = Some (s, eb) /\ Q2R (f eb) = Q2R (f (e1, d1)) / 3).
    { intros qt s I. assert (Sh : exists eb, find (fun e => eqb (fst e) qt) (shares (CVariance lo hi names) [(e1, d1)]) = Some (qt, eb) /\ (f eb == f (e1, d1) * (1 # 3))%Q).
      { destruct qt; eexists; (split; [reflexivity|]); destruct Cf as [-> | ->]; cbn [fst snd]; unfold Qdiv; cbn; field. }
      destruct Sh as [eb [Sh E3]]. exists eb. split; [exact (B _ _ I _ Sh)|]. apply Qeq_eqR in E3. rewrite E3, Q2R_mult. replace (Q2R (1 # 3)) with (/ 3) by (unfold Q2R; cbn; lra). reflexivity. }
    assert (S3 : sumR (map (fun en => Q2R (f (snd en)))
      (flat_map (fun e => match budget_of c b (fst (fst e)) (snd (fst e)) with Some (s, eb) => [(fst e, s, eb)] | None => [] end)
         (map (fun qs : quantity * result sens => (i, fst qs, snd qs)) plan))) = INR (length plan) * (Q2R (f (e1, d1)) / 3)).
    { clearbody plan. clear B. induction plan as [|[qt s] plan IH]; [cbn; lra|]. cbn [map flat_map fst snd].
      destruct (T3 qt s (or_introl eq_refl)) as [eb [-> E3]]. cbn [app map]. rewrite sumR_cons. cbn [snd]. rewrite E3, IH by (intros; apply T3; right; assumption).
      change (length ((qt, s) :: plan)) with (S (length plan)). rewrite S_INR. lra. }
    rewrite S3. assert (L3 : (length plan <= 3)%nat).
    { unfold plan. cbn [noise_plan]. destruct (max_contributions_per_partition (c_params c)); [|cbn; lia]. rewrite !app_length.
      destruct (Qeq_bool _ _), (Qeq_bool _ _); cbn; lia. }
    apply le_INR in L3. change (INR 3) with (1 + 1 + 1) in L3. assert (0 <= INR (length plan)) by apply pos_INR. nra.
  - cbn [noise_plan map flat_map]. unfold tree_budget. cbn [fst]. rewrite Eo. cbn [nth]. rewrite !sumR_cons. change (sumR []) with 0. lra.
  - cbn [noise_plan map flat_map]. unfold tree_budget. cbn [fst]. rewrite Eo. cbn [nth]. rewrite !sumR_cons. change (sumR []) with 0. lra.
Qed.

Lemma spent_at_most (c : call U P) b f : good_budget c b -> component f ->
  sumR (map (fun en => Q2R (f (snd en))) (ledger c b)) + sumR (map (fun en => Q2R (f (tree_budget c b en))) (trees c))
  <= Q2R (sumQ (map f (b_noise b))).
Proof.
  intros Gb Cf. assert (L := gb_length _ _ Gb). rewrite Q2R_sumQ, map_map. rewrite <- (own_each c b L) at 1.
  unfold ledger, trees, noised_quantities. rewrite flat_map_twice, !sumR_flat_map, <- sumR_add. apply sumR_le.
  intros [i cb] I. apply combine_seq_nth in I. rewrite Nat.sub_0_r in I. destruct I as [I _]. cbn [fst snd].
  apply spent_by_combiner; try assumption. intros ed J. apply Q2R_nonneg. apply (own_incl c b i L) in J.
  assert (G := gb_pos _ _ Gb). rewrite Forall_forall in G. destruct (G ed J) as [G1 [G2 _]]. destruct Cf as [-> | ->]; [apply Qlt_le_weak|]; assumption.
Qed.

Definition call_eps (c : call U P) (b : budgets) : Q :=
  (sumQ (map fst (b_noise b)) + if selects_privately (c_params c) (c_public c) then fst (b_selection b) else 0)%Q.
Definition call_delta (c : call U P) (b : budgets) : Q :=
  (sumQ (map snd (b_noise b)) + if selects_privately (c_params c) (c_public c) then snd (b_selection b) else 0)%Q.

Lemma run_call_dist (c : call U P) b N X T : fair py c b -> is_dist (run_call py N X T c b).
Proof.
  intro Fb. unfold run_call. cbv zeta. apply is_dist_bind.
  - apply is_dist_random_function. intros s I. destruct (selects_privately (c_params c) (c_public c)) eqn:Sp; [|destruct I].
    apply should_keep_dist; assumption.
  - intro keep. apply is_dist_bind; [apply is_dist_random_function; intros s _; apply (noise_law_dist py c b s Fb)|].
    intro noise. apply is_dist_bind; [apply is_dist_random_function; intros s _; apply (thresh_law_dist py c b s Fb)|].
    intro noised. apply is_dist_bind; [apply is_dist_random_function; intros s _; apply (tree_law_dist py c b s Fb)|].
    intro answers. apply is_dist_ret.
Qed.

Lemma run_both (c : call U P) b u N X T : pydp_keeps_promises py -> valid_call c -> good_budget c b ->
  large_enough N X T c -> large_enough N X T (forget u c) ->
  is_dist (run_call py N X T c b) /\ is_dist (run_call py N X T (forget u c) b) /\
  both (Q2R (call_eps c b)) (Q2R (call_delta c b)) (run_call py N X T c b) (run_call py N X T (forget u c) b).
Proof.
  intros Hpy Vc Gb Le Le'. destruct (valid_call_facts c Vc) as [col Fc]. destruct (valid_call_facts _ (forget_valid u c Vc)) as [col' Fc'].
  assert (Fb := all_fair c b col Hpy Fc Gb).
  assert (Fb' : fair py (forget u c) b) by (destruct Fb; split; assumption).
  assert (Rd := run_call_dist c b N X T Fb). assert (Rd' := run_call_dist (forget u c) b N X T Fb').
  split; [exact Rd|]. split; [exact Rd'|].
  assert (Sp : forall f, component f ->
    sumR (map (fun en => Q2R (f (snd en))) (filter (fun en => is_thresh (c_combiners c) (fst (fst (fst en)))) (ledger c b))) +
    (sumR (map (fun en => Q2R (f (snd en))) (used c b)) + sumR (map (fun en => Q2R (f (tree_budget c b en))) (trees c))) <= Q2R (sumQ (map f (b_noise b)))).
  { intros f Cf. assert (S0 := spent_at_most c b f Gb Cf).
    rewrite (sumR_filter (fun en => is_thresh (c_combiners c) (fst (fst (fst en)))) _ (ledger c b)) in S0. fold (used c b) in S0. lra. }
  apply both_eps with (stage_eps c b + (sumR (map (fun en => Q2R (fst (snd en))) (used c b)) + sumR (map (fun en => Q2R (fst (tree_budget c b en))) (trees c))));
    [|exact Rd | exact Rd'|].
  { unfold call_eps, stage_eps. rewrite Q2R_plus. assert (S1 := Sp fst (or_introl eq_refl)).
    destruct (selects_privately (c_params c) (c_public c)); rewrite ?RMicromega.Q2R_0; lra. }
  apply both_weaken with (stage_delta c b + (sumR (map (fun en => Q2R (snd (snd en))) (used c b)) + sumR (map (fun en => Q2R (snd (tree_budget c b en))) (trees c)))).
  { unfold call_delta, stage_delta. rewrite Q2R_plus. assert (S1 := Sp snd (or_intror eq_refl)).
    destruct (selects_privately (c_params c) (c_public c)); rewrite ?RMicromega.Q2R_0; lra. }
  eapply both_ext; [intro F; apply run_call_stages; eassumption | intro F; apply run_call_stages; eassumption|].
  assert (Pu : forall {A} (g : A -> R) l, (forall x, In x l -> 0 <= g x) -> 0 <= sumR (map g l)).
  { intros A g l G. induction l as [|x l IH]; [cbn; lra|]. cbn [map]. rewrite sumR_cons.
    assert (0 <= g x) by (apply G; left; reflexivity). assert (0 <= sumR (map g l)) by (apply IH; intros; apply G; right; assumption). lra. }
  assert (P1 := Pu _ (fun en => Q2R (snd (snd en))) (used c b) (fun en I => used_delta c b en Gb I)).
  assert (P2 := Pu _ (fun en => Q2R (snd (tree_budget c b en))) (trees c) (fun en _ => tree_delta c b en Gb)).
  assert (D1 : forall sel ys, is_dist (dbind (tree_stage py c b col) (fun zs => dret (shape c b sel ys zs))))
    by (intros; apply is_dist_bind; [apply tree_stage_dist; exact Fb | intro; apply is_dist_ret]).
  assert (D2 : forall sel ys, is_dist (dbind (tree_stage py (forget u c) b col') (fun zs => dret (shape (forget u c) b sel ys zs))))
    by (intros; apply is_dist_bind; [apply tree_stage_dist; exact Fb' | intro; apply is_dist_ret]).
  apply both_bind.
  - lra.
  - apply stage_dist. exact Fb.
  - apply stage_dist. exact Fb'.
  - intro sel. apply is_dist_bind; [apply noise_stage_dist; exact Fb | intro; apply D1].
  - intro sel. apply is_dist_bind; [apply noise_stage_dist; exact Fb' | intro; apply D2].
  - apply stage_both; assumption.
  - intro sel. apply both_bind; [exact P2 | apply noise_stage_dist; exact Fb | apply noise_stage_dist; exact Fb' | intro; apply D1 | intro; apply D2 | |].
    + apply noise_both; assumption.
    + intro ys. change (shape (forget u c) b sel ys) with (shape c b sel ys). apply both_post. apply tree_both; assumption.
Qed.
End Private.
