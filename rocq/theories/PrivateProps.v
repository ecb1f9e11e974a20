(** C60: aggregations with private partitions are differentially private with the
    whole budget of the accountant: partition selection and noise together. *)
From Coq Require Import List ZArith QArith Qreals Reals Lia Lqa Lra.
From Verif Require Import Base BaseLemmas BackendModel ListLemmas ParamsModel SensModel CombinerModel EngineModel EngineSpec
  EngineProps EngineProofs4 BudgetModel BudgetSpec BudgetProofs BudgetProps VectorModel ExpMechProofs LaplaceModel LaplaceSpec
  LaplaceProofs SelectModel SelectSpec SelectProofs SelectProps PrivateSpec PrivateProofs PrivateProofs2 PrivateProofs3.
Import ListNotations.
Local Open Scope R_scope.

(** Any number of aggregations of COUNT, SUM, MEAN and PRIVACY_ID_COUNT with private
    partitions, all with budgets from one accountant of total ([e], [d]).  The release
    consists of the sets of partitions kept by the calls and the noisy values on them.
    For every event (a region of noisy values for every combination of kept sets), its
    probability changes by at most a factor exp(e) and d when all rows of a privacy id
    [u] are removed, in both directions. *)
Theorem C60_total_budget_differential_privacy {U P} `{EqDec U} `{EqDec P}
    (e d : Q) num ws s0 ops s2 es ds (qs : list (pquery U P)) (u : U) (pydp : selector -> Z -> R)
    (integral : list (list bool) -> ((nat -> nat -> quantity -> P -> R) -> R) -> R) :
  new_accountant e d num ws = Ok s0 ->
  Forall op_pos ops ->
  granted ops (outs s0 ops) = flat_map private_requests qs ->
  granted ops (outs s0 ops) <> [] ->
  step (run s0 ops) Compute = (s2, Ok OutUnit) ->
  read_eps s2 es -> read_delta s2 ds ->
  Forall private_query qs ->
  pydp_contract pydp ->
  region_integrals integral ->
  let gs := grants qs es ds in
  (forall Ss, length Ss = length qs ->
     integral Ss (joint_density (combine qs gs) Ss) <= 1 /\
     integral Ss (joint_density (combine (map (premove_id u) qs) gs) Ss) <= 1) ->
  indistinguishable (Q2R e) (Q2R d)
    (release_probability pydp integral qs gs)
    (release_probability pydp integral (map (premove_id u) qs) gs).
Proof.
  intros Hnew Hpos Hg Hne Hc Hes Hds Hq Hpy Hi. cbv zeta. intros Hint.
  destruct (c01_lemma e d num ws s0 ops s2 Hnew Hpos Hc Hne) as [es' [Hes' [L [W F]]]].
  destruct (c02_lemma e d num ws s0 ops s2 Hnew Hpos Hc) as [ds' [Hds' [Ld [Wd Fd]]]].
  rewrite (read_eps_fun _ _ _ Hes Hes') in *. rewrite (read_delta_fun _ _ _ Hds Hds') in *. clear es Hes ds Hds.
  destruct (new_accountant_inv _ _ _ _ _ Hnew) as [_ [_ [D0 [D1 _]]]].
  rewrite Hg in L, W, Ld, Wd, Fd.
  assert (O : Forall (fun c => c = 1%Z) (map req_count (flat_map private_requests qs))).
  { apply Forall_map. apply Forall_flat_map. apply Forall_forall. intros q _. unfold private_requests.
    apply Forall_app. split; [|repeat constructor]. apply Forall_forall. intros x X. apply repeat_spec in X. subst x. reflexivity. }
  rewrite weighted_sum_ones in W by (try exact O; rewrite map_length; exact L).
  rewrite weighted_sum_ones in Wd by (try exact O; rewrite map_length; exact Ld).
  assert (Fe : Forall (fun x => (0 < x)%Q) es') by (eapply Forall_impl; [|exact F]; intros a [X _]; exact X).
  assert (Fd' : Forall (fun x => (0 <= x < 1)%Q) ds').
  { clear -Fd D1. induction Fd as [|t x ts xs [A [B _]] Fd IH]; constructor; [|exact IH]. split; [exact A|].
    eapply Qle_lt_trans; eassumption. }
  destruct (grants_good qs es' ds' Hq L Ld Fe Fd') as [G [T1 T2]].
  assert (R := release_private pydp integral qs (grants qs es' ds') u Hpy G Hi Hint).
  rewrite T1 in R. apply Qeq_eqR in W. rewrite W in R.
  eapply indistinguishable_weaken; [|exact R].
  eapply Rle_trans; [exact T2|]. apply Qeq_eqR in Wd. rewrite Wd.
  destruct (existsb _ _); [lra|]. apply Qle_Rle. exact D0.
Qed.
Print Assumptions C60_total_budget_differential_privacy.

(** The same with any budgets: epsilons and deltas of the calls add up. *)
Theorem C60_composition {U P} `{EqDec U} `{EqDec P}
    es ds (qs : list (pquery U P)) (u : U) (pydp : selector -> Z -> R)
    (integral : list (list bool) -> ((nat -> nat -> quantity -> P -> R) -> R) -> R) :
  Forall private_query qs ->
  length es = length (flat_map private_requests qs) -> length ds = length (flat_map private_requests qs) ->
  Forall (fun x => (0 < x)%Q) es -> Forall (fun x => (0 <= x < 1)%Q) ds ->
  pydp_contract pydp -> region_integrals integral ->
  let gs := grants qs es ds in
  (forall Ss, length Ss = length qs ->
     integral Ss (joint_density (combine qs gs) Ss) <= 1 /\
     integral Ss (joint_density (combine (map (premove_id u) qs) gs) Ss) <= 1) ->
  indistinguishable (Q2R (sumQ es)) (Q2R (sumQ ds))
    (release_probability pydp integral qs gs) (release_probability pydp integral (map (premove_id u) qs) gs).
Proof.
  intros Hq L Ld Fe Fd Hpy Hi. cbv zeta. intro Hint.
  destruct (grants_good qs es ds Hq L Ld Fe Fd) as [G [T1 T2]].
  assert (R := release_private pydp integral qs (grants qs es ds) u Hpy G Hi Hint).
  rewrite T1 in R. eapply indistinguishable_weaken; [exact T2 | exact R].
Qed.
Print Assumptions C60_composition.

(** Contribution bounding chooses at random: [dist] is any finite distribution of the
    random choices of all the calls. *)
Theorem C60_random_contribution_bounding {U P} `{EqDec U} `{EqDec P}
    es ds (qs : list (pquery U P)) (u : U) (dist : list (R * list (sampling U P))) (pydp : selector -> Z -> R)
    (integral : list (list bool) -> ((nat -> nat -> quantity -> P -> R) -> R) -> R) :
  Forall (fun wa => 0 <= fst wa /\ length (snd wa) = length qs /\ Forall private_query (presample qs (snd wa))) dist ->
  sumR (map fst dist) = 1 ->
  length es = length (flat_map private_requests qs) -> length ds = length (flat_map private_requests qs) ->
  Forall (fun x => (0 < x)%Q) es -> Forall (fun x => (0 <= x < 1)%Q) ds ->
  pydp_contract pydp -> region_integrals integral ->
  let gs := grants qs es ds in
  (forall wa Ss, In wa dist -> length Ss = length qs ->
     integral Ss (joint_density (combine (presample qs (snd wa)) gs) Ss) <= 1 /\
     integral Ss (joint_density (combine (presample (map (premove_id u) qs) (snd wa)) gs) Ss) <= 1) ->
  indistinguishable (Q2R (sumQ es)) (Q2R (sumQ ds))
    (mixture dist (fun sms => release_probability pydp integral (presample qs sms) gs))
    (mixture dist (fun sms => release_probability pydp integral (presample (map (premove_id u) qs) sms) gs)).
Proof.
  intros F W L Ld Fe Fd Hpy Hi. cbv zeta. intro Hint.
  assert (C : forall wa, In wa dist -> 0 <= fst wa /\ indistinguishable (Q2R (sumQ es)) (Q2R (sumQ ds))
            (release_probability pydp integral (presample qs (snd wa)) (grants qs es ds))
            (release_probability pydp integral (presample (map (premove_id u) qs) (snd wa)) (grants qs es ds))).
  { intros wa I. rewrite Forall_forall in F. destruct (F wa I) as [W0 [Lw Hq]]. split; [exact W0|].
    rewrite presample_remove. rewrite <- (presample_grants qs (snd wa)) by exact Lw.
    apply C60_composition; try assumption.
    - rewrite presample_requests; assumption.
    - rewrite presample_requests; assumption.
    - intros Ss LS. rewrite presample_grants by exact Lw. rewrite <- presample_remove. apply Hint; [exact I|].
      unfold presample in LS. rewrite map_length, combine_length in LS. lia. }
  assert (D : forall l, sumR (map (fun wa : R * list (sampling U P) => fst wa * l) dist) = l).
  { intro l. transitivity (sumR (map (fun wa : R * list (sampling U P) => l * fst wa) dist)).
    - f_equal. apply map_ext. intro. ring.
    - rewrite sumR_scale, W. ring. }
  assert (Add : forall (f g : R * list (sampling U P) -> R), sumR (map (fun x => f x + g x) dist) = sumR (map f dist) + sumR (map g dist)).
  { intros f g. clear. induction dist as [|x l IH]; [cbn; lra|]. cbn [map]. rewrite !sumR_cons, IH. lra. }
  unfold indistinguishable, mixture. split.
  - rewrite <- sumR_scale. rewrite <- (D (Q2R (sumQ ds))). rewrite <- Add. apply sumR_le. intros wa I.
    destruct (C wa I) as [W0 [X _]]. apply (Rmult_le_compat_l _ _ _ W0) in X. lra.
  - rewrite <- sumR_scale. rewrite <- (D (Q2R (sumQ ds))). rewrite <- Add. apply sumR_le. intros wa I.
    destruct (C wa I) as [W0 [_ X]]. apply (Rmult_le_compat_l _ _ _ W0) in X. lra.
Qed.
Print Assumptions C60_random_contribution_bounding.

(** budget_weight is documented as the weight of an aggregation relative to the other
    ones.  Yet it also shifts the budget within an aggregation: the requests of the
    combiners have this weight, the one of partition selection has weight 1. *)
Definition one_call (w : Q) : list item := [IScope w [IMech LAPLACE w; IMech GENERIC 1]].
Theorem C60_selection_share (e d : Q) num ws s0 (w : Q) s2 :
  new_accountant e d num ws = Ok s0 -> (0 < w)%Q ->
  step (run s0 (flat_map item_ops (one_call w))) Compute = (s2, Ok OutUnit) ->
  exists a b, read_eps s2 [a; b] /\ (a == e * w / (w + 1))%Q /\ (b == e / (w + 1))%Q.
Proof.
  intros Hn Hw Hc. destruct (C03_shares_follow_weights e d num ws s0 (one_call w) s2 Hn) as [es [Re Sh]]; [|exact Hc|].
  { repeat constructor; cbn; try exact Hw; try discriminate. }
  cbn -[Qplus Qmult Qdiv] in Sh. unfold live_weight, sumQ in Sh. cbn -[Qplus Qmult Qdiv] in Sh.
  inversion Sh as [|a ? es' ? Ea Sh' X1 X2]; subst. inversion Sh' as [|b ? es'' ? Eb Sh'' Y1 Y2]; subst. inversion Sh''; subst.
  exists a, b. split; [exact Re|]. split; [rewrite Ea | rewrite Eb]; field; repeat split; intro X; Lqa.lra.
Qed.
Print Assumptions C60_selection_share.

Definition weighted (w : Q) : params :=
  Params [COUNT] LaplaceNoise (Some 2%Z) (Some 2%Z) None w None None None None false None None None
         false false TruncatedGeometric None false true.
Definition selection_epsilon (w : Q) : option Q :=
  match rev (mechs (run (Acct 1 (1 # 10) None None [] [] [] false)
        (Enter w :: map (fun r => Request (req_type r) (req_weight r) (req_count r) None)
                        (private_requests (PQuery (weighted w) [CCount] (first_sampling 2 2) [10]%Z (@nil (Z * Z * value))))
         ++ [Exit; Compute]))) with
  | m :: _ => option_map Qred (m_eps m)
  | [] => None
  end.
Theorem C60_budget_weight_of_the_only_aggregation_refuted :
  accepted (weighted 1) /\ accepted (weighted 3) /\
  create_compound_combiner (weighted 1) = Ok [CCount] /\ create_compound_combiner (weighted 3) = Ok [CCount] /\
  selection_epsilon 1 = Some (1 # 2)%Q /\ selection_epsilon 3 = Some (1 # 4)%Q.
Proof.
  split; [exists (raw_of (weighted 1)); vm_compute; reflexivity|].
  split; [exists (raw_of (weighted 3)); vm_compute; reflexivity|].
  repeat split; vm_compute; reflexivity.
Qed.
Print Assumptions C60_budget_weight_of_the_only_aggregation_refuted.

(** ** The hypotheses are met *)
Definition demo_pquery (ms : list metric) (cs : list combiner) : pquery Z Z :=
  PQuery (demo_params ms None) cs (first_sampling 2 2) [10; 20; 30; 40]%Z demo_rows.
Definition demo_pqueries : list (pquery Z Z) :=
  [demo_pquery [COUNT; SUM; PRIVACY_ID_COUNT] [CCount; CSum false (-3) 5; CPidCount]; demo_pquery [MEAN] [CMean (-3) 5 [NMean]]].
Definition demo_pops : list op :=
  flat_map (fun q => agg_ops (1%Q, map (fun r => IMech (req_type r) (req_weight r)) (private_requests q))) demo_pqueries.

Lemma demo_private ms cs col :
  Forall simple_metric ms ->
  post_init (raw_of (demo_params ms None)) = Ok (demo_params ms None) ->
  create_compound_combiner (demo_params ms None) = Ok cs ->
  raw_accumulators (demo_params ms None) cs (first_sampling 2 2) None demo_rows = Ok col ->
  private_query (demo_pquery ms cs).
Proof.
  intros Sm A B E. split; [reflexivity|]. split; [exact Sm|]. do 3 (split; [reflexivity|]).
  split; [intros x X; cbn in X; cbn; intuition|].
  exists col. split; [exists (raw_of (demo_params ms None)); exact A|]. split; [exact B|]. split; [reflexivity|].
  split. { unfold valid_sampling. cbn -[Z.to_nat]. split; intros x X; inversion X; subst; apply first_n_valid. }
  split; [discriminate|]. split; [|exact E]. repeat constructor; cbn; intuition discriminate.
Qed.
Lemma demo_pqueries_private : Forall private_query demo_pqueries.
Proof.
  apply Forall_cons; [|apply Forall_cons; [|apply Forall_nil]]; eapply demo_private; try (vm_compute; reflexivity); repeat constructor.
Qed.

(** A functional that meets the hypotheses on [integral]: evaluation at a point, scaled. *)
Definition point_mass {P} (D D' : list (list bool) -> (nat -> nat -> quantity -> P -> R) -> R) (y0 : nat -> nat -> quantity -> P -> R)
    (Ss : list (list bool)) (f : (nat -> nat -> quantity -> P -> R) -> R) : R :=
  / (Rabs (D Ss y0) + Rabs (D' Ss y0) + 1) * f y0.
Lemma point_mass_integrals {P} (D D' : list (list bool) -> (nat -> nat -> quantity -> P -> R) -> R) y0 :
  region_integrals (point_mass D D' y0).
Proof.
  assert (W : forall Ss, 0 < / (Rabs (D Ss y0) + Rabs (D' Ss y0) + 1)).
  { intro Ss. apply Rinv_0_lt_compat. pose proof (Rabs_pos (D Ss y0)). pose proof (Rabs_pos (D' Ss y0)). lra. }
  split; unfold point_mass.
  - intros Ss f g B. apply Rmult_le_compat_l; [apply Rlt_le, W | apply B].
  - intros Ss c f _. ring.
Qed.
Lemma point_mass_bounded {P} (D D' : list (list bool) -> (nat -> nat -> quantity -> P -> R) -> R) y0 Ss :
  point_mass D D' y0 Ss (D Ss) <= 1 /\ point_mass D D' y0 Ss (D' Ss) <= 1.
Proof.
  unfold point_mass. pose proof (Rabs_pos (D Ss y0)). pose proof (Rabs_pos (D' Ss y0)).
  pose proof (Rle_abs (D Ss y0)). pose proof (Rle_abs (D' Ss y0)).
  assert (K : forall x, x <= Rabs (D Ss y0) + Rabs (D' Ss y0) + 1 -> / (Rabs (D Ss y0) + Rabs (D' Ss y0) + 1) * x <= 1).
  { intros x X. apply Rmult_le_reg_l with (Rabs (D Ss y0) + Rabs (D' Ss y0) + 1); [lra|]. rewrite <- Rmult_assoc, Rinv_r by lra. lra. }
  split; apply K; lra.
Qed.

Example C60_hypotheses_met :
  exists s0 s2 es ds integral,
    new_accountant 1 (1 # 10) None None = Ok s0 /\ Forall op_pos demo_pops /\
    granted demo_pops (outs s0 demo_pops) = flat_map private_requests demo_pqueries /\
    granted demo_pops (outs s0 demo_pops) <> [] /\
    step (run s0 demo_pops) Compute = (s2, Ok OutUnit) /\
    read_eps s2 es /\ read_delta s2 ds /\ Forall private_query demo_pqueries /\
    pydp_contract demo_pydp /\ region_integrals integral /\
    (forall Ss, integral Ss (joint_density (combine demo_pqueries (grants demo_pqueries es ds)) Ss) <= 1 /\
       integral Ss (joint_density (combine (map (premove_id 1%Z) demo_pqueries) (grants demo_pqueries es ds)) Ss) <= 1) /\
    length es = 7%nat.
Proof.
  pose (s0 := Acct 1 (1 # 10) None None [] [] [] false).
  pose (s2 := fst (step (run s0 demo_pops) Compute)).
  pose (es := map (fun m => match get_eps m with Ok x => x | Err _ => 0%Q end) (mechs s2)).
  pose (ds := map (fun m => match get_delta m with Ok x => x | Err _ => 0%Q end) (mechs s2)).
  exists s0, s2, es, ds.
  exists (point_mass (fun Ss => joint_density (combine demo_pqueries (grants demo_pqueries es ds)) Ss)
            (fun Ss => joint_density (combine (map (premove_id 1%Z) demo_pqueries) (grants demo_pqueries es ds)) Ss) (fun _ _ _ _ => 0)).
  split; [reflexivity|]. split; [repeat constructor; vm_compute; reflexivity|].
  split; [vm_compute; reflexivity|]. split; [vm_compute; discriminate|]. split; [vm_compute; reflexivity|].
  split; [vm_compute; repeat constructor|]. split; [vm_compute; repeat constructor|].
  split; [exact demo_pqueries_private|]. split; [exact demo_pydp_contract|].
  split; [apply point_mass_integrals|]. split; [intro Ss; apply point_mass_bounded | vm_compute; reflexivity].
Qed.
