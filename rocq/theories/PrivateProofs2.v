(** Lemmas for C60: one call and all calls. *)
From Coq Require Import List ZArith QArith Qreals Reals Bool Lia Lra.
From Verif Require Import Base BaseLemmas BackendModel ListLemmas BounderSpec ParamsModel SensModel CombinerModel EngineModel EngineSpec
  EngineProofs2 EngineProofs3 EngineProofs4 EngineProofs5 EngineProps EngineProps2 BudgetModel BudgetSpec BudgetProofs
  VectorModel ExpMechProofs LaplaceModel LaplaceSpec LaplaceProofs
  SelectModel SelectSpec SelectProofs SelectProofs2 SelectProofs3 SelectProps PrivateSpec PrivateProofs.
Import ListNotations.
Local Open Scope R_scope.

Lemma Q2R_one : Q2R 1 = 1.
Proof. unfold Q2R; cbn; lra. Qed.

(** ** The selection of one call *)
Lemma call_dominates {U P} `{EqDec U} `{EqDec P} (pydp : selector -> Z -> R) (q : pquery U P) g u :
  pydp_contract pydp -> private_query q -> (0 < g_eps g)%Q -> (0 <= g_delta g < 1)%Q ->
  let f := set_probability pydp q g in
  let f' := set_probability pydp (premove_id u q) g in
  (forall bs, length bs = length (pq_keys q) -> 0 <= f bs) /\ (forall bs, length bs = length (pq_keys q) -> 0 <= f' bs) /\
  (exists h, dominates (Q2R (g_eps g)) (Q2R (g_delta g)) (length (pq_keys q)) f f' h) /\
  (exists h, dominates (Q2R (g_eps g)) (Q2R (g_delta g)) (length (pq_keys q)) f' f h).
Proof.
  intros Hpy [Hn [Hs [Ht [Hf [Hm [_ [col Rn]]]]]]] He Hd. cbv zeta.
  destruct Rn as [Ha [Hcs [Hb [Hv [Hp [Nk Er]]]]]].
  destruct (accepted_facts _ Ha) as [_ [_ [_ Hl]]]. rewrite Hm in Hl. destruct Hl as [l0 [linf [E0 [_ [P0 _]]]]].
  destruct (Hpy (aggregate_selector (pq_params q) (g_eps g) (g_delta g)) l0 E0 P0 He Hd (known_strategy _)
              (fun t Et => accepted_pre_threshold _ t Ha Et)) as [Rk [Z0 C]].
  set (keep := pydp (aggregate_selector (pq_params q) (g_eps g) (g_delta g))) in *.
  destruct (private_run _ _ (pq_sampling q) (without u (pq_rows q)) Ha Hcs Ht Hf) as [col' [_ [Er' _]]].
  destruct (selection_influence _ _ _ None _ col col' u (pq_keys q) l0 Ha Hb Hv Hp Nk Er Er') as [D1 D2].
  { rewrite Hm. exact E0. }
  set (ns := map (fun k => row_count k col) (pq_keys q)). set (ns' := map (fun k => row_count k col') (pq_keys q)).
  assert (L : length ns = length (pq_keys q)) by (unfold ns; apply map_length).
  assert (L' : length ns' = length (pq_keys q)) by (unfold ns'; apply map_length).
  assert (F : forall S, length S = length (pq_keys q) -> set_probability pydp q g S = law (map keep ns) S).
  { intros S LS. unfold set_probability. fold keep. rewrite (selected_law _ _ _ _ col) by assumption.
    apply kept_one. fold ns. lia. }
  assert (F' : forall S, length S = length (pq_keys q) -> set_probability pydp (premove_id u q) g S = law (map keep ns') S).
  { intros S LS. unfold set_probability, premove_id. cbn [pq_params pq_combiners pq_sampling pq_keys pq_rows]. fold keep.
    rewrite (selected_law _ _ _ _ col') by assumption. apply kept_one. fold ns'. lia. }
  assert (Pn : forall l S, 0 <= law (map keep l) S).
  { intros l S. apply law_nonneg. apply Forall_map. apply Forall_forall. intros z _. apply Rk. }
  assert (N : neighbouring l0 ns ns').
  { apply neighbouring_counts; [|exact D1 | exact D2].
    apply (counts_of_run _ _ _ (without u (pq_rows q)) col' Ha Hcs Ht Hf Hb Hv Er'). }
  assert (G : forall a b fa fb, length a = length (pq_keys q) -> length b = length (pq_keys q) ->
    (forall S, length S = length (pq_keys q) -> fa S = law (map keep a) S) ->
    (forall S, length S = length (pq_keys q) -> fb S = law (map keep b) S) ->
    (forall E, kept keep a E <= exp (Q2R (g_eps g)) * kept keep b E + Q2R (g_delta g)) ->
    exists h, dominates (Q2R (g_eps g)) (Q2R (g_delta g)) (length (pq_keys q)) fa fb h).
  { intros a b fa fb La Lb Fa Fb Ind.
    destruct (events_dominated (length (pq_keys q)) (Q2R (g_eps g)) (Q2R (g_delta g)) (law (map keep a)) (law (map keep b)))
      as [h [B M]]; [intros; apply Pn | intros; apply Pn | |].
    - intro E. specialize (Ind E). unfold kept in Ind. rewrite La, Lb in Ind. exact Ind.
    - assert (Ma : outcomes (length (pq_keys q)) (law (map keep a)) = 1).
      { rewrite <- La, <- (map_length keep a). apply law_mass. }
      exists h. split; [|split].
      + intros bs Lbs. rewrite (Fa bs Lbs), (Fb bs Lbs). apply B. exact Lbs.
      + rewrite (outcomes_ext _ fa (law (map keep a)) Fa). exact Ma.
      + rewrite Ma in M. exact M. }
  split; [intros bs Lb; rewrite F by exact Lb; apply Pn|]. split; [intros bs Lb; rewrite F' by exact Lb; apply Pn|].
  split; [apply (G ns ns') | apply (G ns' ns)]; try assumption; intro E; apply (C ns ns' E N).
Qed.

(** ** The noise of one call *)
Lemma marked_NoDup {P} (keys : list P) S : NoDup keys -> NoDup (marked keys S).
Proof.
  unfold marked. revert S. induction keys as [|k keys IH]; intros [|b S] N; try constructor.
  inversion N; subst. cbn [combine filter]. assert (I : incl (map fst (filter snd (combine keys S))) keys).
  { intros x Hx. apply in_map_iff in Hx. destruct Hx as [[y b'] [E Hx]]. cbn in E. subst y.
    apply filter_In in Hx. destruct Hx as [Hx _]. exact (in_combine_l _ _ _ _ Hx). }
  cbn [snd]. destruct b; [|apply IH; assumption]. cbn [map fst]. constructor; [|apply IH; assumption].
  intro X. apply I in X. contradiction.
Qed.

Lemma call_values {U P} `{EqDec U} `{EqDec P} (q : pquery U P) g u S y :
  private_query q -> length (g_noise g) = list_sum (map requests (pq_combiners q)) ->
  Forall (fun x => (0 < x)%Q) (g_noise g) ->
  0 < values_density q g S y /\ 0 < values_density (premove_id u q) g S y /\
  close (Q2R (sumQ (g_noise g))) (values_density q g S y) (values_density (premove_id u q) g S y).
Proof.
  intros [Hn [Hs [Ht [Hf [Hm [_ [col Rn]]]]]]] L Pe.
  assert (Rn' := Rn). destruct Rn' as [_ [Hcs [_ [_ [_ [Nk E]]]]]].
  assert (Sc := simple_combiners _ _ Hs Ht Hcs).
  assert (Rs : standard_run (pq_params q) (pq_combiners q) (pq_sampling q) None (pq_rows q) (marked (pq_keys q) S) col).
  { destruct Rn as [R1 [R2 [R3 [R4 [R5 [_ R7]]]]]]. repeat (split; [assumption|]). split; [apply marked_NoDup; exact Nk | exact R7]. }
  unfold values_density. cbn [premove_id pq_params pq_combiners pq_keys].
  set (l := combine (noised_quantities (pq_params q) (pq_combiners q)) (g_noise g)).
  assert (Es : sumR (map (fun e => Q2R (snd e)) l) = Q2R (sumQ (g_noise g))).
  { rewrite Q2R_sumQ. f_equal. rewrite <- (map_map snd Q2R). f_equal. unfold l.
    assert (Lq : length (noised_quantities (pq_params q) (pq_combiners q)) = length (g_noise g)) by (rewrite noised_length by exact Sc; lia).
    revert Lq. generalize (noised_quantities (pq_params q) (pq_combiners q)) as a. generalize (g_noise g) as b. clear.
    induction b as [|y b IH]; intros [|x a] L; try discriminate; [reflexivity|]. cbn. f_equal. apply IH. cbn in L. lia. }
  rewrite <- Es.
  apply (product_close
    (fun e => match e with ((i, qt, s), eps) =>
       quantity_density (pq_params q) s eps (marked (pq_keys q) S) (private_exact q i qt) (y i qt) end)
    (fun e => match e with ((i, qt, s), eps) =>
       quantity_density (pq_params q) s eps (marked (pq_keys q) S) (private_exact (premove_id u q) i qt) (y i qt) end)).
  intros [[[i qt] s] eps] I. cbn [snd].
  assert (I1 := in_combine_l _ _ _ _ I). assert (I2 := in_combine_r _ _ _ _ I).
  rewrite Forall_forall in Pe. assert (He := Pe _ I2).
  apply noised_in in I1. destruct I1 as [c [Hi Hp]].
  assert (Scc : simple_combiner c) by (rewrite Forall_forall in Sc; apply Sc; eapply nth_error_In; exact Hi).
  destruct (plan_ok _ _ _ _ Scc (nth_constructed _ _ _ _ Hcs Hi) Hp) as [s' ->].
  assert (C : calibrated (pq_params q) (pq_combiners q) (pq_sampling q) None (pq_rows q) (marked (pq_keys q) S) col u i c qt s').
  { apply calibrated_intro; [exact Rs | exact Hi | apply not_variance; apply simple_not_variance; exact Scc | exact Hp |].
    intros lo hi n _ X. exfalso. exact (simple_not_variance c Scc lo hi n X). }
  destruct (quantity_close _ _ _ _ _ _ _ _ _ _ _ _ eps (y i qt) Scc Hn He C) as [col' [E' Q]]. cbv zeta in Q.
  assert (X : forall k, private_exact q i qt k = Q2R (raw_value (quantity_of qt) i k col)).
  { intro k. unfold private_exact. rewrite E. reflexivity. }
  assert (X' : forall k, private_exact (premove_id u q) i qt k = Q2R (raw_value (quantity_of qt) i k col')).
  { intro k. unfold private_exact, premove_id. cbn. rewrite E'. reflexivity. }
  assert (Ext : forall x x' : P -> R, (forall k, x k = x' k) ->
    quantity_density (pq_params q) (Ok s') eps (marked (pq_keys q) S) x (y i qt) =
    quantity_density (pq_params q) (Ok s') eps (marked (pq_keys q) S) x' (y i qt)).
  { intros x x' Ex. unfold quantity_density. destruct (rbind _ _); [|reflexivity]. f_equal. apply map_ext. intro k. rewrite Ex. reflexivity. }
  rewrite (Ext _ _ X), (Ext _ _ X'). exact Q.
Qed.

(** ** All calls *)
Definition good_grant {U P} `{EqDec U} `{EqDec P} (q : pquery U P) (g : grant) : Prop :=
  private_query q /\ length (g_noise g) = list_sum (map requests (pq_combiners q)) /\
  Forall (fun x => (0 < x)%Q) (g_noise g) /\ (0 < g_eps g)%Q /\ (0 <= g_delta g < 1)%Q.

Definition noise_total (gs : list grant) : Q := sumQ (map (fun g => sumQ (g_noise g)) gs).

Lemma joint_density_close {U P} `{EqDec U} `{EqDec P} (qs : list (pquery U P)) gs u Ss y :
  Forall2 good_grant qs gs -> length Ss = length qs ->
  0 < joint_density (combine qs gs) Ss y /\ 0 < joint_density (combine (map (premove_id u) qs) gs) Ss y /\
  close (Q2R (noise_total gs)) (joint_density (combine qs gs) Ss y) (joint_density (combine (map (premove_id u) qs) gs) Ss y).
Proof.
  intros F L. unfold joint_density, noise_total. rewrite !combine_length, map_length. generalize 0%nat as n.
  revert Ss L. induction F as [|q g qs gs G F IH]; intros Ss L n.
  - destruct Ss; [|discriminate]. cbn. unfold close. rewrite Q2R_zero, exp_0. lra.
  - destruct Ss as [|T Ss]; [discriminate|]. destruct (IH Ss (eq_add_S _ _ L) (S n)) as [A [B [C1 C2]]].
    cbn [map combine length Nat.min seq]. rewrite !prodR_cons. cbn [fst snd].
    destruct G as [Gq [Gl [Gn _]]].
    destruct (call_values q g u T (y n) Gq Gl Gn) as [A' [B' [D1 D2]]].
    change (sumQ (sumQ (g_noise g) :: map (fun g0 => sumQ (g_noise g0)) gs))
      with (sumQ (g_noise g) + sumQ (map (fun g0 => sumQ (g_noise g0)) gs))%Q.
    rewrite Q2R_plus. split; [apply Rmult_lt_0_compat; assumption|]. split; [apply Rmult_lt_0_compat; assumption|].
    unfold close. rewrite exp_plus. split.
    + match goal with |- _ <= ?a * ?b0 * (?c * ?d) => replace (a * b0 * (c * d)) with ((a * c) * (b0 * d)) by ring end.
      apply Rmult_le_compat; lra.
    + match goal with |- _ <= ?a * ?b0 * (?c * ?d) => replace (a * b0 * (c * d)) with ((a * c) * (b0 * d)) by ring end.
      apply Rmult_le_compat; lra.
Qed.

Lemma joint_probability_joint {U P} `{EqDec U} `{EqDec P} pydp (qgs : list (pquery U P * grant)) Ss :
  joint_probability pydp qgs Ss = joint (map (fun qg => set_probability pydp (fst qg) (snd qg)) qgs) Ss.
Proof.
  unfold joint_probability, joint. f_equal. revert Ss. induction qgs as [|qg qgs IH]; intros [|T Ss]; try reflexivity.
  cbn. f_equal. apply IH.
Qed.

Lemma fits_length ns Ss : fits ns Ss -> length Ss = length ns.
Proof. induction 1; cbn; lia. Qed.

(** One direction, for any two lists of calls. *)
Lemma release_direction {U P} `{EqDec U} `{EqDec P} (pydp : selector -> Z -> R) integral (qs qs' : list (pquery U P)) gs :
  region_integrals integral ->
  map (fun q => length (pq_keys q)) qs = map (fun q => length (pq_keys q)) qs' ->
  length gs = length qs ->
  (forall i q q' g, nth_error qs i = Some q -> nth_error qs' i = Some q' -> nth_error gs i = Some g ->
     (0 <= Q2R (g_delta g) <= 1) /\
     (forall S, length S = length (pq_keys q) -> 0 <= set_probability pydp q' g S) /\
     exists h, dominates (Q2R (g_eps g)) (Q2R (g_delta g)) (length (pq_keys q)) (set_probability pydp q g) (set_probability pydp q' g) h) ->
  (forall Ss y, fits (map (fun q => length (pq_keys q)) qs) Ss ->
     0 < joint_density (combine qs gs) Ss y /\
     joint_density (combine qs gs) Ss y <= exp (Q2R (noise_total gs)) * joint_density (combine qs' gs) Ss y) ->
  (forall Ss, fits (map (fun q => length (pq_keys q)) qs) Ss -> integral Ss (joint_density (combine qs gs) Ss) <= 1) ->
  release_probability pydp integral qs gs <=
  exp (Q2R (noise_total gs) + sumR (map (fun g => Q2R (g_eps g)) gs)) * release_probability pydp integral qs' gs
  + sumR (map (fun g => Q2R (g_delta g)) gs).
Proof.
  intros [Imono Iscale] Ek Lg Hsel Hden Hint. unfold release_probability. rewrite <- Ek.
  set (ns := map (fun q => length (pq_keys q)) qs) in *.
  assert (Lqs : length qs' = length qs) by (apply (f_equal (@length nat)) in Ek; unfold ns in Ek; rewrite !map_length in Ek; lia).
  destruct (joint_dominates ns
    (map (fun qg => set_probability pydp (fst qg) (snd qg)) (combine qs gs))
    (map (fun qg => set_probability pydp (fst qg) (snd qg)) (combine qs' gs))
    (map (fun g => (Q2R (g_eps g), Q2R (g_delta g))) gs)) as [Hh [D [M1 M2]]].
  { unfold ns. rewrite !map_length, combine_length. lia. }
  { unfold ns. rewrite !map_length, combine_length. lia. }
  { unfold ns. rewrite !map_length. lia. }
  { intros i n f f' ed En Ef Ef' Ee. unfold ns in En.
    rewrite nth_error_map in En, Ef, Ef', Ee.
    destruct (nth_error qs i) as [q|] eqn:Eq; [|discriminate].
    destruct (nth_error gs i) as [g|] eqn:Eg; [|discriminate].
    assert (Ec : forall (a : list (pquery U P)) x, nth_error a i = Some x -> nth_error (combine a gs) i = Some (x, g)).
    { clear -Eg. revert gs Eg. induction i as [|i IH]; intros [|g' gs] Eg [|x' a] x Ex; try discriminate; cbn in *.
      - inversion Eg; inversion Ex; reflexivity.
      - apply IH; assumption. }
    destruct (nth_error qs' i) as [q'|] eqn:Eq'.
    2: { apply nth_error_None in Eq'. assert (nth_error qs i <> None) by congruence. apply nth_error_Some in H1. lia. }
    rewrite (Ec _ _ Eq) in Ef. rewrite (Ec _ _ Eq') in Ef'. cbn in En, Ef, Ef', Ee.
    inversion En; inversion Ef; inversion Ef'; inversion Ee; subst. cbn [fst snd].
    destruct (Hsel i q q' g Eq Eq' Eg) as [S1 [_ S3]]. split; [exact S1 | exact S3]. }
  rewrite !map_map in M2, D. cbn [fst snd] in M2, D.
  set (se := sumR (map (fun g => Q2R (g_eps g)) gs)) in *. set (sd := sumR (map (fun g => Q2R (g_delta g)) gs)) in *.
  set (ne := Q2R (noise_total gs)) in *.
  assert (I0 : forall Ss, fits ns Ss -> 0 <= integral Ss (joint_density (combine qs gs) Ss)).
  { intros Ss FS. assert (X := Iscale Ss 0 (joint_density (combine qs gs) Ss) (Rle_refl 0)). rewrite Rmult_0_l in X.
    rewrite <- X. apply Imono. intro y. destruct (Hden Ss y FS). lra. }
  assert (I1 : forall Ss, fits ns Ss -> integral Ss (joint_density (combine qs gs) Ss) <= exp ne * integral Ss (joint_density (combine qs' gs) Ss)).
  { intros Ss FS. rewrite <- Iscale by apply Rlt_le, exp_pos. apply Imono. intro y. destruct (Hden Ss y FS). split; lra. }
  rewrite <- all_sets_scale.
  assert (T : forall Ss, fits ns Ss ->
    joint_probability pydp (combine qs gs) Ss * integral Ss (joint_density (combine qs gs) Ss) <=
    exp (ne + se) * (joint_probability pydp (combine qs' gs) Ss * integral Ss (joint_density (combine qs' gs) Ss)) +
    (joint (map (fun qg => set_probability pydp (fst qg) (snd qg)) (combine qs gs)) Ss + - 1 * Hh Ss)).
  { intros Ss FS. rewrite !joint_probability_joint. destruct (D Ss FS) as [Y0 [Y1 Y2]].
    set (W := joint (map (fun qg => set_probability pydp (fst qg) (snd qg)) (combine qs gs)) Ss) in *.
    set (W' := joint (map (fun qg => set_probability pydp (fst qg) (snd qg)) (combine qs' gs)) Ss) in *.
    assert (J0 := I0 Ss FS). assert (J1 := Hint Ss FS). assert (J2 := I1 Ss FS).
    set (I := integral Ss (joint_density (combine qs gs) Ss)) in *.
    set (I' := integral Ss (joint_density (combine qs' gs) Ss)) in *.
    assert (A : (W - Hh Ss) * I <= (W - Hh Ss) * 1) by (apply Rmult_le_compat_l; lra).
    assert (B : Hh Ss * I <= (exp se * W') * (exp ne * I')) by (apply Rmult_le_compat; lra).
    rewrite exp_plus. lra. }
  eapply Rle_trans; [apply all_sets_le; exact T|].
  rewrite (all_sets_add ns _ (fun Ss => joint _ Ss + - 1 * Hh Ss)), (all_sets_add ns (joint _) (fun Ss => - 1 * Hh Ss)).
  rewrite (all_sets_scale ns (-1) Hh), M1. apply Rplus_le_compat; [apply Rle_refl | lra].
Qed.

Lemma release_private {U P} `{EqDec U} `{EqDec P} (pydp : selector -> Z -> R) integral (qs : list (pquery U P)) gs u :
  pydp_contract pydp -> Forall2 good_grant qs gs -> region_integrals integral ->
  (forall Ss, length Ss = length qs -> integral Ss (joint_density (combine qs gs) Ss) <= 1 /\
     integral Ss (joint_density (combine (map (premove_id u) qs) gs) Ss) <= 1) ->
  indistinguishable (Q2R (noise_total gs) + sumR (map (fun g => Q2R (g_eps g)) gs)) (sumR (map (fun g => Q2R (g_delta g)) gs))
    (release_probability pydp integral qs gs) (release_probability pydp integral (map (premove_id u) qs) gs).
Proof.
  intros Hpy F Hi Hint.
  assert (Lg : length gs = length qs) by (clear -F; induction F; cbn; lia).
  assert (Ek : map (fun q => length (pq_keys q)) qs = map (fun q => length (pq_keys q)) (map (premove_id u) qs))
    by (rewrite map_map; reflexivity).
  assert (N : forall i q g, nth_error qs i = Some q -> nth_error gs i = Some g -> good_grant q g).
  { clear -F. intro i. revert qs gs F. induction i as [|i IH]; intros qs gs F q g Eq Eg; destruct F; try discriminate; cbn in Eq, Eg.
    - inversion Eq; inversion Eg; subst. assumption.
    - eapply IH; eassumption. }
  assert (Dl : forall g : grant, (0 <= g_delta g < 1)%Q -> 0 <= Q2R (g_delta g) <= 1).
  { intros g [A B]. apply Qle_Rle in A. apply Qlt_Rlt in B. rewrite Q2R_zero in A. rewrite Q2R_one in B. lra. }
  split.
  - apply release_direction; auto.
    + intros i q q' g Eq Eq' Eg. rewrite nth_error_map, Eq in Eq'. inversion Eq'; subst q'.
      destruct (N i q g Eq Eg) as [Gq [_ [_ [Ge Gd]]]].
      destruct (call_dominates pydp q g u Hpy Gq Ge Gd) as [_ [P2 [D _]]]. auto.
    + intros Ss y FS. apply fits_length in FS. rewrite map_length in FS.
      destruct (joint_density_close qs gs u Ss y F FS) as [A [_ [C _]]]. auto.
    + intros Ss FS. apply fits_length in FS. rewrite map_length in FS. apply Hint. exact FS.
  - apply release_direction; auto.
    + rewrite map_length. exact Lg.
    + intros i q q' g Eq Eq' Eg. rewrite nth_error_map, Eq' in Eq. inversion Eq; subst q.
      destruct (N i q' g Eq' Eg) as [Gq [_ [_ [Ge Gd]]]].
      destruct (call_dominates pydp q' g u Hpy Gq Ge Gd) as [P1 [_ [_ D]]]. auto.
    + intros Ss y FS. rewrite <- Ek in FS. apply fits_length in FS. rewrite map_length in FS.
      destruct (joint_density_close qs gs u Ss y F FS) as [_ [A [_ C]]]. auto.
    + intros Ss FS. rewrite <- Ek in FS. apply fits_length in FS. rewrite map_length in FS. apply Hint. exact FS.
Qed.
