(** C61: DPEngine.aggregate as a random program is differentially private with the
    whole budget of the accountant, whatever the noise kind and the way partitions are
    selected. *)
From Coq Require Import String List ZArith QArith Qreals Qabs Reals Bool Permutation Lia Lqa Lra.
From Verif Require Import Base BaseLemmas BackendModel BackendSpec ListLemmas ParamsModel SensModel CombinerModel EngineModel EngineSpec
  EngineProps EnforcedSpec EnforcedProps BounderSpec EngineProps2 QuantileModel BudgetModel BudgetSpec BudgetProofs VectorModel VectorSpec ExpMechProofs LaplaceModel LaplaceSpec LaplaceProofs
  SelectModel SelectSpec SelectProps WrapperModel DistSpec DistProofs DpModel DpSpec
  DpProofs DpProofs2 DpProofs3 DpProofs4 DpProofs5.
Import ListNotations.
Local Open Scope R_scope.
Local Close Scope Q_scope.

(** Any number of calls of DPEngine.aggregate for any metrics, each with
    Laplace or Gaussian noise, with public partitions, private partition selection or
    post-aggregation thresholding, and with contribution bounds enforced by the library
    or by the user, on one accountant of total ([e], [d]).
    [run_calls] is the distribution of everything released when PyDP answers at random.
    Any event has (e, d)-indistinguishable probabilities with and without the rows of
    privacy id [u]. *)
Theorem C61_total_budget_differential_privacy {U P} `{EqDec U} `{EqDec P}
    (e d : Q) num ws s0 ops s2 es ds (calls : list (call U P)) (u : U) (py : pydp) N X T :
  new_accountant e d num ws = Ok s0 ->
  Forall op_pos ops ->
  granted ops (outs s0 ops) = flat_map call_requests calls ->
  granted ops (outs s0 ops) <> [] ->
  step (run s0 ops) Compute = (s2, Ok OutUnit) ->
  read_eps s2 es -> read_delta s2 ds ->
  Forall valid_call calls ->
  pydp_keeps_promises py ->
  Forall (fun c => large_enough N X T c /\ large_enough N X T (forget u c)) calls ->
  forall E, indistinguishable (Q2R e) (Q2R d)
    (prob (run_calls py N X T (combine calls (divide calls (combine es ds)))) E)
    (prob (run_calls py N X T (combine (map (forget u) calls) (divide (map (forget u) calls) (combine es ds)))) E).
Proof.
  intros Hnew Hpos Hg Hne Hc Hes Hds Hv Hpy Hl E.
  assert (One : Forall (fun r => req_count r = 1%Z) (granted ops (outs s0 ops))).
  { rewrite Hg. apply Forall_flat_map. apply Forall_forall. intros c _. unfold call_requests. apply Forall_app. split.
    - apply Forall_flat_map. apply Forall_forall. intros cb _. apply Forall_forall. intros x Ix. apply repeat_spec in Ix. subst. reflexivity.
    - destruct (selects_privately _ _); repeat constructor. }
  destruct (accountant_grants e d num ws s0 ops s2 es ds Hnew Hpos Hne One Hc Hes Hds) as [G [Te Td]]. rewrite Hg in G.
  assert (B := composed py u N X T calls (combine es ds) Hpy Hv G Hl). rewrite Te in B.
  apply (both_weaken _ _ _ _ _ Td) in B. destruct B as [B1 B2]. split; apply below_prob; assumption.
Qed.
Print Assumptions C61_total_budget_differential_privacy.

(** With a total delta that is positive, every private partition selection gets a
    positive delta: partitions can be released. *)
Theorem C61_selection_gets_delta {U P}
    (e d : Q) num ws s0 ops s2 es ds (calls : list (call U P)) :
  new_accountant e d num ws = Ok s0 ->
  Forall op_pos ops ->
  granted ops (outs s0 ops) = flat_map call_requests calls ->
  step (run s0 ops) Compute = (s2, Ok OutUnit) ->
  read_eps s2 es -> read_delta s2 ds -> (0 < d)%Q ->
  Forall2 (fun c b => selects_privately (c_params c) (c_public c) = true -> (0 < snd (b_selection b))%Q)
    calls (divide calls (combine es ds)).
Proof.
  intros Hnew Hpos Hg Hc Hes Hds Pd. apply divide_selection_delta. rewrite <- Hg.
  destruct (granted ops (outs s0 ops)) as [|r gr] eqn:Eg.
  - destruct (c02_lemma e d num ws s0 ops s2 Hnew Hpos Hc) as [ds' [Hds' [Ld _]]]. rewrite Eg in Ld.
    assert (E2 := PrivateProofs3.read_delta_fun _ _ _ Hds Hds'). subst ds'. destruct ds; [|discriminate]. destruct es; constructor.
  - rewrite <- Eg in Hg |- *. eapply accountant_grants_delta; try eassumption; [|rewrite Eg; discriminate].
    rewrite Hg. apply Forall_flat_map. apply Forall_forall. intros c _. unfold call_requests. apply Forall_app. split.
    + apply Forall_flat_map. apply Forall_forall. intros cb _. apply Forall_forall. intros x Ix. apply repeat_spec in Ix. subst. reflexivity.
    + destruct (selects_privately _ _); repeat constructor.
Qed.
Print Assumptions C61_selection_gets_delta.

(** The same with any usable budgets: epsilons and deltas add up. *)
Theorem C61_composition {U P} `{EqDec U} `{EqDec P}
    (calls : list (call U P)) (bs : list (Q * Q)) (u : U) (py : pydp) N X T :
  Forall valid_call calls ->
  Forall2 granted_ok (flat_map call_requests calls) bs ->
  pydp_keeps_promises py ->
  Forall (fun c => large_enough N X T c /\ large_enough N X T (forget u c)) calls ->
  forall E, indistinguishable (Q2R (sumQ (map fst bs))) (Q2R (sumQ (map snd bs)))
    (prob (run_calls py N X T (combine calls (divide calls bs))) E)
    (prob (run_calls py N X T (combine (map (forget u) calls) (divide (map (forget u) calls) bs))) E).
Proof.
  intros Hv G Hpy Hl E. destruct (composed py u N X T calls bs Hpy Hv G Hl) as [B1 B2]. split; apply below_prob; assumption.
Qed.
Print Assumptions C61_composition.

(** Contribution bounding at random: the choices of the calls are drawn from any
    distribution of valid choices, and then the calls run. *)
Theorem C61_random_contribution_bounding {U P} `{EqDec U} `{EqDec P}
    (calls : list (call U P)) (bs : list (Q * Q)) (u : U) (py : pydp) N X T (choices : dist (list (sampling U P))) :
  is_dist choices ->
  (forall w sms, In (w, sms) choices -> length sms = length calls /\ Forall valid_call (redrawn calls sms) /\
     Forall (fun c => large_enough N X T c /\ large_enough N X T (forget u c)) (redrawn calls sms)) ->
  Forall2 granted_ok (flat_map call_requests calls) bs ->
  pydp_keeps_promises py ->
  let execution cs := dbind choices (fun sms => run_calls py N X T (combine (redrawn cs sms) (divide cs bs))) in
  forall E, indistinguishable (Q2R (sumQ (map fst bs))) (Q2R (sumQ (map snd bs)))
    (prob (execution calls) E) (prob (execution (map (forget u) calls)) E).
Proof.
  intros Hd Hs G Hpy execution E.
  assert (Dv : forall (cs : list (call U P)) sms bs0, length sms = length cs -> divide (redrawn cs sms) bs0 = divide cs bs0).
  { induction cs as [|c cs IH]; intros [|s sms] bs0 L; try discriminate; [reflexivity|]. cbn in L. unfold redrawn in *.
    cbn [combine map fst snd divide redraw c_combiners c_params c_public]. rewrite IH by lia. reflexivity. }
  assert (B : both (Q2R (sumQ (map fst bs))) (Q2R (sumQ (map snd bs))) (execution calls) (execution (map (forget u) calls))).
  { apply both_random; [exact Hd|]. intros w sms I. destruct (Hs w sms I) as [L [V Le]].
    rewrite <- (Dv calls sms bs L), <- (Dv (map (forget u) calls) sms bs) by (rewrite map_length; exact L).
    rewrite redrawn_forget. apply composed; try assumption. rewrite redrawn_requests by exact L. exact G. }
  destruct B as [B1 B2]. split; apply below_prob; assumption.
Qed.
Print Assumptions C61_random_contribution_bounding.

(** [N], [X] and [T] only bound what PyDP may be asked: large enough values always exist, and
    which ones are taken does not matter. *)
Theorem C61_large_enough_exists {U P} `{EqDec U} `{EqDec P} (calls : list (call U P)) (u : U) :
  exists N X T, Forall (fun c => large_enough N X T c /\ large_enough N X T (forget u c)) calls.
Proof.
  destruct (all_enough (calls ++ map (forget u) calls)) as [N [X [T F]]]. exists N, X, T. apply Forall_app in F. destruct F as [F1 F2].
  apply Forall_forall. intros c I. rewrite Forall_forall in F1, F2. split; [apply F1; exact I | apply F2; apply in_map; exact I].
Qed.
Print Assumptions C61_large_enough_exists.
Theorem C61_bounds_do_not_matter {U P} `{EqDec U} `{EqDec P} (c : call U P) b bs (py : pydp) N X T N' X' T' :
  valid_call c -> Forall2 granted_ok (call_requests c) bs -> divide [c] bs = [b] ->
  pydp_keeps_promises py -> large_enough N X T c -> large_enough N' X' T' c ->
  forall E, prob (run_call py N X T c b) E = prob (run_call py N' X' T' c b) E.
Proof.
  intros Hv G Hb Hpy L L' E. destruct (valid_call_facts c Hv) as [col Fc].
  assert (G' : Forall2 granted_ok (flat_map call_requests [c]) bs) by (cbn [flat_map]; rewrite app_nil_r; exact G).
  destruct (divide_good [c] bs (Forall_cons _ Hv (Forall_nil _)) G') as [_ [F _]]. rewrite Hb in F.
  inversion F as [|? ? [_ Gb] _]; subst. cbn [fst snd] in Gb.
  assert (Fr := all_fair py c b col Hpy Fc Gb). unfold prob.
  rewrite (run_call_stages py c b col N X T _ Fc Fr L), (run_call_stages py c b col N' X' T' _ Fc Fr L'). reflexivity.
Qed.
Print Assumptions C61_bounds_do_not_matter.

(** With probability one the call succeeds and releases nothing about partitions other
    than [c_keys c]. *)
Theorem C61_calls_succeed {U P} `{EqDec U} `{EqDec P} (c : call U P) b bs (py : pydp) N X T :
  valid_call c -> Forall2 granted_ok (call_requests c) bs -> divide [c] bs = [b] ->
  pydp_keeps_promises py -> large_enough N X T c ->
  prob (run_call py N X T c b)
    (fun o => match o with Ok (ms, []) => Nat.eqb (length ms) (length (c_keys c)) | _ => false end) = 1.
Proof.
  intros Hv G Hb Hpy L. destruct (valid_call_facts c Hv) as [col Fc].
  assert (G' : Forall2 granted_ok (flat_map call_requests [c]) bs) by (cbn [flat_map]; rewrite app_nil_r; exact G).
  destruct (divide_good [c] bs (Forall_cons _ Hv (Forall_nil _)) G') as [_ [F _]]. rewrite Hb in F.
  inversion F as [|? ? [_ Gb] _]; subst. cbn [fst snd] in Gb.
  assert (Fr := all_fair py c b col Hpy Fc Gb). unfold prob.
  assert (D := run_call_dist py c b N X T Fr). rewrite <- (mixture_const _ 1 D). apply mixture_ext_in.
  intros w o I. right. unfold run_call in I. cbv zeta in I.
  apply in_flat_map in I. destruct I as [[w1 keep] [_ I]]. apply in_map_iff in I. destruct I as [[w2 o2] [E2 I]]. injection E2 as _ <-. cbn [snd] in *.
  apply in_flat_map in I. destruct I as [[w3 noise] [_ I]]. apply in_map_iff in I. destruct I as [[w4 o4] [E4 I]]. injection E4 as _ <-. cbn [snd] in *.
  apply in_flat_map in I. destruct I as [[w5 noised] [_ I]]. apply in_map_iff in I. destruct I as [[w6 o6] [E6 I]]. injection E6 as _ <-. cbn [snd] in *.
  apply in_flat_map in I. destruct I as [[w7 answers] [_ I]]. apply in_map_iff in I. destruct I as [[w8 o8] [E8 I]]. injection E8 as _ <-. cbn [snd] in *.
  destruct I as [I|[]]. injection I as _ <-. rewrite (aggregate_seen c b col keep noise noised answers Fc (gb_length _ _ Gb)).
  unfold shape. rewrite map_length, combine_length, map_length, Nat.min_id, Nat.eqb_refl. reflexivity.
Qed.
Print Assumptions C61_calls_succeed.

(** The order of the partitions in the result of LocalBackend is not protected: here it
    is determined by one privacy id, with public partitions and whatever the noise. *)
Definition order_params : params :=
  Params [COUNT] LaplaceNoise (Some 1%Z) (Some 1%Z) None 1 None None None None false None None None
         false false TruncatedGeometric None false true.
Definition order_rows : list (Z * Z * value) := [(1, 20, Num 1); (2, 10, Num 1)]%Z.
Theorem C61_order_of_the_result_refuted :
  accepted order_params /\
  forall keep nz, exists out out',
    aggregate order_params (first_sampling 1 1) keep nz (Some [10; 20]%Z) order_rows = Ok out /\
    aggregate order_params (first_sampling 1 1) keep nz (Some [10; 20]%Z) (without 1%Z order_rows) = Ok out' /\
    map fst out = [20; 10]%Z /\ map fst out' = [10; 20]%Z.
Proof.
  split; [exists (raw_of order_params); vm_compute; reflexivity|].
  intros keep nz. do 2 eexists. split; [lazy; reflexivity|]. split; [lazy; reflexivity|]. split; reflexivity.
Qed.
Print Assumptions C61_order_of_the_result_refuted.

(** ** The hypotheses are met *)

(** A PyDP that keeps its promises. Laplace noise: randomized response, with logistic
    probabilities. *)
Definition logistic (a : R) : R := / (1 + exp (- a)).
Definition unit_interval (x : R) : R := Rmax 0 (Rmin 1 x).
Definition toy_pydp : pydp :=
  Pydp (fun m x => match m with
                   | Laplace e l1 => let a := logistic (Q2R e / Q2R l1 * Q2R x) in [(a, 1%Q); (1 - a, 0%Q)]
                   | _ => dret 0%Q
                   end)
       demo_pydp
       (fun sel n => let k := unit_interval (demo_pydp sel n) in [(k, Some 1%Q); (1 - k, None)])
       (fun q l => let a := match qq_l0 q, qq_linf q with
                            | Some l0, Some linf => logistic (Q2R (qq_eps q) / (IZR l0 * IZR linf) * INR (length l))
                            | _, _ => / 2
                            end in
                   [(a, map (fun _ => 1%Q) (qq_quantiles q)); (1 - a, map (fun _ => 0%Q) (qq_quantiles q))])
       (fun m x => match m with
                   | Laplace e l1 => let a := logistic (Q2R e / Q2R l1 * x) in [(a, 1%Q); (1 - a, 0%Q)]
                   | _ => dret 0%Q
                   end).

Lemma logistic_range a : 0 < logistic a < 1.
Proof.
  unfold logistic. pose proof (exp_pos (- a)). split; [apply Rinv_0_lt_compat; lra|].
  apply Rmult_lt_reg_l with (1 + exp (- a)); [lra|]. rewrite Rinv_r by lra. lra.
Qed.
Lemma logistic_le a b : logistic a <= exp (Rabs (a - b)) * logistic b.
Proof.
  unfold logistic. pose proof (exp_pos (- a)). pose proof (exp_pos (- b)). set (t := Rabs (a - b)).
  assert (K : 1 + exp (- b) <= exp t * (1 + exp (- a))).
  { rewrite Rmult_plus_distr_l, Rmult_1_r, <- exp_plus.
    assert (0 <= t) by apply Rabs_pos. assert (a - b <= t) by apply Rle_abs.
    assert (forall x y, x <= y -> exp x <= exp y) as Mo.
    { intros x y [L|L]; [left; apply exp_increasing; exact L | subst; lra]. }
    assert (exp 0 <= exp t) by (apply Mo; assumption). rewrite exp_0 in *. 
    assert (exp (- b) <= exp (t + - a)) by (apply Mo; lra). lra. }
  apply Rmult_le_reg_l with (1 + exp (- a)); [lra|]. rewrite Rinv_r by lra.
  apply Rmult_le_reg_r with (1 + exp (- b)); [lra|].
  replace ((1 + exp (- a)) * (exp t * / (1 + exp (- b))) * (1 + exp (- b))) with (exp t * (1 + exp (- a))) by (field; lra). lra.
Qed.
Lemma logistic_opp a : 1 - logistic a = logistic (- a).
Proof.
  unfold logistic. rewrite Ropp_involutive, exp_Ropp. pose proof (exp_pos a). field. split; lra.
Qed.
Definition answers {B} (y n : B) (a : R) : dist B := [(logistic a, y); (1 - logistic a, n)].
Lemma answers_dist {B} (y n : B) a : is_dist (answers y n a).
Proof.
  pose proof (logistic_range a). split.
  - apply Forall_cons; [cbn; lra|]. apply Forall_cons; [cbn; lra | apply Forall_nil].
  - unfold answers. cbn [map fst]. rewrite !sumR_cons. cbn. lra.
Qed.
Lemma answers_below {B} (y n : B) a b : below (Rabs (a - b)) 0 (answers y n a) (answers y n b).
Proof.
  intros F HF. unfold answers. rewrite !mixture_cons, !mixture_nil.
  assert (A := logistic_le a b). assert (C := logistic_le (- a) (- b)). rewrite <- !logistic_opp in C.
  replace (- a - - b) with (- (a - b)) in C by ring. rewrite Rabs_Ropp in C.
  destruct (HF y), (HF n). apply (Rmult_le_compat_r (F y)) in A; [|assumption]. apply (Rmult_le_compat_r (F n)) in C; [|assumption]. lra.
Qed.
Lemma many_answers_below {A B} (y n : B) (f : A -> R) xs : forall xs', length xs = length xs' ->
  below (sumR (map (fun e => Rabs (f (fst e) - f (snd e))) (combine xs xs'))) 0
    (independent (fun x => answers y n (f x)) xs) (independent (fun x => answers y n (f x)) xs').
Proof.
  induction xs as [|x xs IH]; intros [|x' xs'] L; try discriminate; [apply below_same|].
  cbn [independent combine map fst snd]. rewrite sumR_cons. rewrite <- (Rplus_0_l 0) at 1.
  assert (D : forall l, is_dist (independent (fun x => answers y n (f x)) l)) by (intro l; apply is_dist_independent; intros; apply answers_dist).
  apply below_bind; [lra | apply answers_dist | apply answers_dist | | | apply answers_below |];
    try (intro a; apply is_dist_bind; [apply D | intro; apply is_dist_ret]).
  intro a. cbn in L. assert (B0 := IH xs' ltac:(lia)).
  intros F HF. rewrite !mixture_bind.
  rewrite (mixture_ext _ _ (fun b => F (a :: b))), (mixture_ext (independent _ xs') _ (fun b => F (a :: b))) by (intro; apply mixture_ret).
  apply (B0 (fun b => F (a :: b))). intro b. apply HF.
Qed.
Lemma many_answers_within {A B} (y n : B) (f : A -> R) e xs xs' : length xs = length xs' ->
  sumR (map (fun e => Rabs (f (fst e) - f (snd e))) (combine xs xs')) <= e ->
  below e 0 (independent (fun x => answers y n (f x)) xs) (independent (fun x => answers y n (f x)) xs').
Proof.
  intros L Es F HF. assert (B0 := many_answers_below y n f xs xs' L F HF).
  assert (M : exp (sumR (map (fun e0 => Rabs (f (fst e0) - f (snd e0))) (combine xs xs'))) <= exp e).
  { destruct Es as [Es|Es]; [left; apply exp_increasing; exact Es | rewrite Es; lra]. }
  assert (Pm : 0 <= mixture (independent (fun x => answers y n (f x)) xs') F).
  { apply mixture_range; [apply is_dist_independent; intros; apply answers_dist | exact HF]. }
  apply (Rmult_le_compat_r _ _ _ Pm) in M. lra.
Qed.

Lemma toy_noise : noise_contract (py_noise toy_pydp).
Proof.
  split.
  - intros [e l1| | |] x; try apply is_dist_ret. apply (answers_dist 1%Q 0%Q).
  - intros [e l1| |e d l2|] eps delta Hp xs xs' E L C; [| destruct Hp | | destruct Hp].
    + destruct Hp as [He0 [Hl [-> ->]]]. cbn [covers] in C.
      assert (He : 0 < Q2R e) by (rewrite <- RMicromega.Q2R_0; apply Qlt_Rlt; assumption).
      assert (Hl' : 0 < Q2R l1) by (rewrite <- RMicromega.Q2R_0; apply Qlt_Rlt; assumption).
      pose (f := fun x => Q2R e / Q2R l1 * Q2R x).
      assert (G : forall ys ys', length ys = length ys' -> (l1_norm (combine ys ys') (fun e0 => fst e0 - snd e0) <= l1)%Q ->
        below (Q2R e) 0 (independent (fun x => answers 1%Q 0%Q (f x)) ys) (independent (fun x => answers 1%Q 0%Q (f x)) ys')).
      { intros ys ys' Ly Cy. apply many_answers_within; [exact Ly|].
        apply Qle_Rle in Cy. unfold l1_norm in Cy. rewrite Q2R_sumQ, map_map in Cy.
        replace (sumR (map (fun e0 => Rabs (f (fst e0) - f (snd e0))) (combine ys ys')))
          with (Q2R e / Q2R l1 * sumR (map (fun e0 => Q2R (Qabs (fst e0 - snd e0))) (combine ys ys'))).
        - apply Rle_trans with (Q2R e / Q2R l1 * Q2R l1).
          + apply Rmult_le_compat_l; [|exact Cy]. apply Rlt_le. apply Rdiv_lt_0_compat; assumption.
          + right. field. lra.
        - assert (Pc : 0 < Q2R e / Q2R l1) by (apply Rdiv_lt_0_compat; assumption). clear -Pc.
          induction (combine ys ys') as [|p l IH]; [cbn; ring|]. cbn [map]. rewrite !sumR_cons, <- IH, Rmult_plus_distr_l. f_equal.
          unfold f. rewrite <- Rmult_minus_distr_l, Rabs_mult, (Rabs_pos_eq (Q2R e / Q2R l1)) by lra. f_equal.
          rewrite <- Q2R_minus. apply Q2R_abs. }
      rewrite RMicromega.Q2R_0. split; apply below_prob; apply G; auto.
      eapply Qle_trans; [|exact C]. apply Qle_lteq. right. unfold l1_norm.
      clear. revert xs'. induction xs as [|x xs IH]; intros [|x' xs']; try reflexivity. cbn [combine map].
      change (sumQ (?a :: ?l)) with (a + sumQ l)%Q. cbn [fst snd].
      change (Qabs (x' - x) + sumQ (map (fun k => Qabs (fst k - snd k)) (combine xs' xs)) ==
              Qabs (x - x') + sumQ (map (fun k => Qabs (fst k - snd k)) (combine xs xs')))%Q.
      rewrite IH. apply Qplus_comp; [|reflexivity]. rewrite Qabs_Qminus. reflexivity.
    + destruct Hp as [He0 [Hd [Hd1 [_ [-> ->]]]]]. cbn [py_noise toy_pydp].
      assert (Q0 : forall ys : list Q, length ys = length xs -> independent (fun _ : Q => dret 0%Q) ys = independent (fun _ : Q => dret 0%Q) xs).
      { clear. intro ys. revert xs. induction ys; intros [|x xs] L; try discriminate; [reflexivity|]. cbn [independent].
        rewrite (IHys xs) by (cbn in L; lia). reflexivity. }
      rewrite (Q0 xs' (eq_sym L)).
      assert (Pp : 0 <= prob (independent (fun _ : Q => dret 0%Q) xs) E).
      { apply mixture_range; [apply is_dist_independent; intros; apply is_dist_ret | intro a; unfold indicator; destruct (E a); lra]. }
      assert (Ge : 1 <= exp (Q2R e)).
      { rewrite <- exp_0. left. apply exp_increasing. rewrite <- RMicromega.Q2R_0. apply Qlt_Rlt. assumption. }
      assert (0 < Q2R d) by (rewrite <- RMicromega.Q2R_0; apply Qlt_Rlt; assumption).
      apply (Rmult_le_compat_r _ _ _ Pp) in Ge. split; lra.
Qed.

(** The same randomized response for the coordinates of vectors. *)
Lemma toy_vector : vector_contract (py_vector toy_pydp).
Proof.
  split.
  - intros [e l1| | |] x; try apply is_dist_ret. apply (answers_dist 1%Q 0%Q).
  - intros [e l1| |e d l2|] eps delta Hp xs xs' E L C; [| destruct Hp | | destruct Hp].
    + destruct Hp as [He0 [Hl [-> ->]]]. cbn [covers_real] in C.
      assert (He : 0 < Q2R e) by (rewrite <- RMicromega.Q2R_0; apply Qlt_Rlt; assumption).
      assert (Hl' : 0 < Q2R l1) by (rewrite <- RMicromega.Q2R_0; apply Qlt_Rlt; assumption).
      assert (Pc : 0 < Q2R e / Q2R l1) by (apply Rdiv_lt_0_compat; assumption).
      pose (f := fun x => Q2R e / Q2R l1 * x).
      assert (G : forall ys ys' : list R, length ys = length ys' -> sumR (map (fun e0 => Rabs (fst e0 - snd e0)) (combine ys ys')) <= Q2R l1 ->
        below (Q2R e) 0 (independent (fun x => answers 1%Q 0%Q (f x)) ys) (independent (fun x => answers 1%Q 0%Q (f x)) ys')).
      { intros ys ys' Ly Cy. apply many_answers_within; [exact Ly|].
        replace (sumR (map (fun e0 => Rabs (f (fst e0) - f (snd e0))) (combine ys ys')))
          with (Q2R e / Q2R l1 * sumR (map (fun e0 => Rabs (fst e0 - snd e0)) (combine ys ys'))).
        - apply Rle_trans with (Q2R e / Q2R l1 * Q2R l1).
          + apply Rmult_le_compat_l; [|exact Cy]. apply Rlt_le. exact Pc.
          + right. field. lra.
        - clear -Pc. induction (combine ys ys') as [|p l IH]; [cbn; ring|]. cbn [map]. rewrite !sumR_cons, <- IH, Rmult_plus_distr_l. f_equal.
          unfold f. rewrite <- Rmult_minus_distr_l, Rabs_mult, (Rabs_pos_eq (Q2R e / Q2R l1)) by lra. reflexivity. }
      rewrite RMicromega.Q2R_0. split; apply below_prob; apply G; auto.
      eapply Rle_trans; [right | exact C].
      clear. revert xs'. induction xs as [|x xs IH]; intros [|x' xs']; try reflexivity. cbn [combine map fst snd].
      rewrite !sumR_cons, IH, (Rabs_minus_sym x'). reflexivity.
    + destruct Hp as [He0 [Hd [Hd1 [_ [-> ->]]]]]. cbn [py_vector toy_pydp].
      assert (Q0 : forall ys : list R, length ys = length xs -> independent (fun _ : R => dret 0%Q) ys = independent (fun _ : R => dret 0%Q) xs).
      { clear. intro ys. revert xs. induction ys; intros [|x xs] L; try discriminate; [reflexivity|]. cbn [independent].
        rewrite (IHys xs) by (cbn in L; lia). reflexivity. }
      rewrite (Q0 xs' (eq_sym L)).
      assert (Pp : 0 <= prob (independent (fun _ : R => dret 0%Q) xs) E).
      { apply mixture_range; [apply is_dist_independent; intros; apply is_dist_ret | intro a; unfold indicator; destruct (E a); lra]. }
      assert (Ge : 1 <= exp (Q2R e)).
      { rewrite <- exp_0. left. apply exp_increasing. rewrite <- RMicromega.Q2R_0. apply Qlt_Rlt. assumption. }
      assert (0 < Q2R d) by (rewrite <- RMicromega.Q2R_0; apply Qlt_Rlt; assumption).
      apply (Rmult_le_compat_r _ _ _ Pp) in Ge. split; lra.
Qed.

Lemma unit_interval_range x : 0 <= unit_interval x <= 1.
Proof.
  unfold unit_interval. split; [apply Rmax_l|]. apply Rmax_lub; [lra | apply Rmin_l].
Qed.
Lemma unit_interval_same x : 0 <= x <= 1 -> unit_interval x = x.
Proof. intros [A B]. unfold unit_interval. rewrite Rmin_right by lra. apply Rmax_right. exact A. Qed.

Lemma toy_thresholding : thresholding_contract (py_noised toy_pydp).
Proof.
  split.
  - intros sel n. cbn [py_noised toy_pydp]. cbv zeta. pose proof (unit_interval_range (demo_pydp sel n)).
    split; [apply Forall_cons; [cbn [fst]; lra | apply Forall_cons; [cbn [fst]; lra | apply Forall_nil]]|]. cbn [map fst]. rewrite !sumR_cons. cbn. lra.
  - intros sel l0 E0 P0 He Hd Hn0 Ht.
    destruct (demo_pydp_contract sel l0 E0 P0 He Hd) as [R1 [R2 R3]].
    { right. exact Hn0. }
    { exact Ht. }
    assert (U : forall n, unit_interval (demo_pydp sel n) = demo_pydp sel n) by (intro n; apply unit_interval_same; apply R1).
    split.
    + intros n w o Hn I. cbn [py_noised toy_pydp] in I. cbv zeta in I. rewrite U, (R2 n Hn) in I. destruct I as [I|[I|[]]]; injection I as <- <-; auto.
    + intros ns ns' E Hn. 
      pose (g := fun b : bool => if b then Some 1%Q else None).
      assert (K : forall ms, prob (independent (py_noised toy_pydp sel) ms) E = kept (demo_pydp sel) ms (fun bs => E (map g bs))).
      { intro ms. rewrite <- kept_prob. unfold prob. change (fun a : list bool => indicator (E (map g a))) with (fun a => (fun ys => indicator (E ys)) (map g a)).
        generalize (fun ys => indicator (E ys)). clear -U.
        induction ms as [|n ms IH]; intro F; [reflexivity|]. rewrite !mixture_independent_cons.
        cbn [py_noised toy_pydp]. cbv zeta. rewrite U, !mixture_cons, !mixture_nil. rewrite !IH. reflexivity. }
      rewrite !K. apply R3. exact Hn.
Qed.

Lemma half_dist {B} (y n : B) : is_dist [(/ 2, y); (1 - / 2, n)].
Proof.
  split; [apply Forall_cons; [cbn; lra|]; apply Forall_cons; [cbn; lra | apply Forall_nil]|]. cbn [map fst]. rewrite !sumR_cons. cbn. lra.
Qed.
Lemma extra_entries l0 linf : (0 < linf)%Z -> forall ts ts' extras,
  Forall2 (fun t t'e => Permutation t (fst t'e ++ snd t'e)) ts (combine ts' extras) -> length extras = length ts' ->
  Forall (fun e : list Q => (Z.of_nat (length e) <= linf)%Z) extras ->
  (Z.of_nat (length (filter (fun e => match e with [] => false | _ => true end) extras)) <= l0)%Z ->
  length ts = length ts' /\
  sumR (map (fun e => Rabs (INR (length (fst e)) - INR (length (snd e)))) (combine ts ts')) <= IZR (l0 * linf).
Proof.
  intro Pl. assert (G : forall ts ts' extras,
    Forall2 (fun t t'e => Permutation t (fst t'e ++ snd t'e)) ts (combine ts' extras) -> length extras = length ts' ->
    Forall (fun e : list Q => (Z.of_nat (length e) <= linf)%Z) extras ->
    length ts = length ts' /\ sumR (map (fun e => Rabs (INR (length (fst e)) - INR (length (snd e)))) (combine ts ts')) <=
      IZR (Z.of_nat (length (filter (fun e : list Q => match e with [] => false | _ => true end) extras)) * linf)).
  { intros ts ts'. revert ts. induction ts' as [|t' ts' IH]; intros ts [|x extras] F L B; try discriminate L.
    - inversion F; subst. split; [reflexivity|]. cbn. lra.
    - cbn [combine] in F. inversion F as [|t ? ts0 ? Pt F']; subst. inversion B; subst. cbn [fst snd] in Pt.
      destruct (IH ts0 extras F' ltac:(cbn in L; lia) ltac:(assumption)) as [L1 S1]. split; [cbn; rewrite L1; reflexivity|].
      cbn [combine map fst snd]. rewrite sumR_cons. assert (Lt := Permutation_length Pt). rewrite app_length in Lt. rewrite Lt, plus_INR.
      replace (INR (length t') + INR (length x) - INR (length t')) with (INR (length x)) by ring. rewrite Rabs_pos_eq by apply pos_INR.
      cbn [filter]. destruct x as [|v x]; [cbn [length INR]; lra|]. cbn [length] in *. rewrite Nat2Z.inj_succ, Z.mul_succ_l, plus_IZR.
      match goal with Hx : (Z.of_nat (S (length x)) <= linf)%Z |- _ => apply IZR_le in Hx; rewrite <- INR_IZR_INZ in Hx; lra end. }
  intros ts ts' extras F L B C. destruct (G ts ts' extras F L B) as [L1 S1]. split; [exact L1|]. eapply Rle_trans; [exact S1|].
  apply IZR_le. nia.
Qed.
Lemma toy_quantiles : quantiles_contract (py_quantiles toy_pydp).
Proof.
  split.
  - intros q l. cbn [py_quantiles toy_pydp]. cbv zeta.
    destruct (qq_l0 q) as [l0|]; [|apply half_dist]. destruct (qq_linf q) as [linf|]; [|apply half_dist]. apply answers_dist.
  - intros q l0 linf lo hi _ _ _ _ _ Pe Pd _ _ E0 Ei P0 Pi ts ts' E [extras [F [L [B C]]]].
    destruct (extra_entries l0 linf Pi ts ts' extras F L B C) as [Lt Ls].
    assert (Pe' : 0 < Q2R (qq_eps q)) by (rewrite <- RMicromega.Q2R_0; apply Qlt_Rlt; assumption).
    assert (Pd' : 0 <= Q2R (qq_delta q)) by (rewrite <- RMicromega.Q2R_0; apply Qle_Rle; apply Pd).
    assert (Pb : 0 < IZR l0 * IZR linf) by (apply Rmult_lt_0_compat; apply IZR_lt; assumption). rewrite mult_IZR in Ls.
    pose (f := fun l : list Q => Q2R (qq_eps q) / (IZR l0 * IZR linf) * INR (length l)).
    assert (Eq : forall l, py_quantiles toy_pydp q l = answers (map (fun _ => 1%Q) (qq_quantiles q)) (map (fun _ => 0%Q) (qq_quantiles q)) (f l)).
    { intro l. cbn [py_quantiles toy_pydp]. rewrite E0, Ei. reflexivity. }
    assert (S1 : sumR (map (fun e => Rabs (f (fst e) - f (snd e))) (combine ts ts')) <= Q2R (qq_eps q)).
    { replace (sumR (map (fun e0 => Rabs (f (fst e0) - f (snd e0))) (combine ts ts')))
        with (Q2R (qq_eps q) / (IZR l0 * IZR linf) * sumR (map (fun e => Rabs (INR (length (fst e)) - INR (length (snd e)))) (combine ts ts'))).
      - apply Rle_trans with (Q2R (qq_eps q) / (IZR l0 * IZR linf) * (IZR l0 * IZR linf)).
        + apply Rmult_le_compat_l; [|exact Ls]. apply Rlt_le. apply Rdiv_lt_0_compat; assumption.
        + right. unfold Rdiv. rewrite Rmult_assoc, Rinv_l by lra. ring.
      - assert (Pc : 0 < Q2R (qq_eps q) / (IZR l0 * IZR linf)) by (apply Rdiv_lt_0_compat; assumption). clear -Pc.
        induction (combine ts ts') as [|p l IH]; [cbn; ring|]. cbn [map]. rewrite !sumR_cons, <- IH, Rmult_plus_distr_l. f_equal.
        unfold f. rewrite <- Rmult_minus_distr_l, Rabs_mult, (Rabs_pos_eq (Q2R (qq_eps q) / (IZR l0 * IZR linf))) by lra. reflexivity. }
    assert (S2 : sumR (map (fun e => Rabs (f (fst e) - f (snd e))) (combine ts' ts)) <= Q2R (qq_eps q)).
    { eapply Rle_trans; [right | exact S1]. clear. generalize f as g. intro g. revert ts'.
      induction ts as [|t ts IH]; intros [|t' ts']; try reflexivity. cbn [combine map fst snd]. rewrite !sumR_cons, IH, (Rabs_minus_sym (g t')). reflexivity. }
    assert (Ex : forall l, prob (independent (py_quantiles toy_pydp q) l) E =
      prob (independent (fun t => answers (map (fun _ => 1%Q) (qq_quantiles q)) (map (fun _ => 0%Q) (qq_quantiles q)) (f t)) l) E).
    { intro l. unfold prob. apply mixture_independent_ext. intros t _. apply Eq. }
    rewrite !Ex. split; eapply Rle_trans.
    + apply below_prob. apply (many_answers_within _ _ f _ _ _ Lt S1).
    + lra.
    + apply below_prob. apply (many_answers_within _ _ f _ _ _ (eq_sym Lt) S2).
    + lra.
Qed.
Example toy_pydp_keeps_promises : pydp_keeps_promises toy_pydp.
Proof. split; [exact toy_noise|]. split; [exact demo_pydp_contract|]. split; [exact toy_thresholding|].
  split; [exact toy_quantiles | exact toy_vector]. Qed.

(** Nine calls on one accountant: public partitions and Gaussian noise, private
    partitions and Laplace noise, both kinds of thresholding, VARIANCE, PERCENTILE,
    contribution bounds that the user has enforced, and VECTOR_SUM. *)
Definition demo_call_params (ms : list metric) (nk : noise) (thresholding enforced : bool) : params :=
  Params ms nk (Some 2%Z) (Some 2%Z) None 1 (Some (-1)%Q) (Some 5%Q) None None false None None None
         enforced false TruncatedGeometric (if thresholding then Some 2%Z else None) thresholding true.
Definition demo_call ms cs nk th pub : call Z Z :=
  Call (demo_call_params ms nk th false) cs (first_sampling 2 2) pub [10; 20; 30; 40]%Z demo_rows.
Definition demo_enforced_call : call Z Z :=
  Call (demo_call_params [COUNT; PERCENTILE 50] GaussianNoise false true) [CCount; CQuantile [50%Q]] (first_sampling 0 0) None [20; 10]%Z enforced_rows.
(** Vectors of size 2 clipped to the norm 1, two per partition: the noise is sufficient. *)
Definition demo_vector_params (ms : list metric) (nk : noise) (kind : norm_kind) : params :=
  Params ms nk (Some 2%Z) (Some 2%Z) None 1 None None None None false (Some kind) (Some 1%Q) (Some 2%Z)
         false false TruncatedGeometric None false true.
Definition demo_vector_rows : list (Z * Z * value) :=
  [(1, 10, Vec [1; -3]%Q); (2, 10, Vec [5; 2]%Q); (1, 20, Vec [1; 1]%Q); (1, 20, Vec [0; 7]%Q); (1, 20, Vec [2; 2]%Q); (3, 20, Vec [1 # 2; 0]%Q)]%Z.
Definition demo_vector_call ms cs nk kind : call Z Z :=
  Call (demo_vector_params ms nk kind) cs (first_sampling 2 2) None [10; 20]%Z demo_vector_rows.
Definition demo_calls : list (call Z Z) :=
  [demo_call [COUNT; SUM] [CCount; CSum false (-1) 5] GaussianNoise false (Some [10; 20; 30; 40]%Z);
   demo_call [MEAN] [CMean (-1) 5 [NMean]] LaplaceNoise false None;
   demo_call [PRIVACY_ID_COUNT; SUM] [CSum false (-1) 5; CThresh] LaplaceNoise true None;
   demo_call [COUNT; PRIVACY_ID_COUNT] [CCount; CThresh] GaussianNoise true None;
   demo_call [VARIANCE] [CVariance (-1) 5 [NVariance]] GaussianNoise false (Some [10; 20; 30; 40]%Z);
   demo_call [PERCENTILE 50; PERCENTILE 90] [CQuantile [50; 90]%Q] LaplaceNoise false None;
   demo_enforced_call;
   demo_vector_call [VECTOR_SUM] [CVector 2] GaussianNoise L2;
   demo_vector_call [VECTOR_SUM; COUNT] [CCount; CVector 2] LaplaceNoise L1].
Definition demo_call_ops : list op :=
  flat_map (fun c => agg_ops (1%Q, map (fun r => IMech (req_type r) (req_weight r)) (call_requests c))) demo_calls.

Lemma demo_params_valid ms nk th enforced pub : ~ In VECTOR_SUM ms ->
  check_aggregate_params true true (demo_call_params ms nk th enforced) = Ok tt -> @valid_params Z (demo_call_params ms nk th enforced) pub.
Proof.
  intros Nv C. split; [exact C|]. split; [intro V; exfalso; exact (Nv V)|]. split; [reflexivity|]. split; [|split].
  - intros _ lo hi E1 E2. cbn in E1, E2. inversion E1; inversion E2; subst. right. vm_compute. discriminate.
  - intros x _. exists (-1)%Q, 5%Q. repeat split.
  - reflexivity.
Qed.
Lemma demo_valid ms cs nk th pub sm col :
  ~ In VECTOR_SUM ms -> check_aggregate_params true true (demo_call_params ms nk th false) = Ok tt ->
  (pub = None \/ pub = Some [10; 20; 30; 40]%Z) ->
  (valid_source 2 (ch_pid_pk sm) /\ valid_source 2 (ch_pid sm)) ->
  post_init (raw_of (demo_call_params ms nk th false)) = Ok (demo_call_params ms nk th false) ->
  create_compound_combiner (demo_call_params ms nk th false) = Ok cs ->
  raw_accumulators (demo_call_params ms nk th false) cs sm pub demo_rows = Ok col ->
  valid_call (redraw (demo_call ms cs nk th pub) sm).
Proof.
  intros Nv C Hp [V1 V2] A B E. unfold valid_call. cbv zeta. cbn [redraw c_params demo_call c_public c_combiners c_sampling c_rows c_keys].
  split; [apply demo_params_valid; assumption|]. split.
  - destruct Hp as [-> | ->]; [split; [reflexivity | intros x Ix; cbn in Ix |- *; intuition]|]. split; [tauto | discriminate].
  - split; [intro V; exfalso; exact (Nv V)|]. exists col. left. split; [exists (raw_of (demo_call_params ms nk th false)); exact A|]. split; [exact B|]. split; [reflexivity|].
    split. { unfold valid_sampling. cbn -[Z.to_nat]. split; intros x Ex; inversion Ex; subst; assumption. }
    split; [discriminate|]. split; [|exact E]. repeat constructor; cbn; intuition discriminate.
Qed.
Lemma enforced_rows_within : within_bounds (c_params demo_enforced_call) enforced_rows.
Proof.
  split; [discriminate|]. split.
  - intros l0 E u. inversion E; subst. unfold partitions_of, enforced_rows. cbn.
    repeat match goal with |- context [eqb ?x ?y] => destruct (eqb x y) eqn:? end; cbn; try lia;
    repeat match goal with H : eqb _ _ = true |- _ => apply eqb_eq in H end; subst; try discriminate; try lia.
  - intros l E u k. inversion E; subst. unfold values_of, enforced_rows. cbn.
    repeat match goal with |- context [eqb ?x ?y] => destruct (eqb x y) eqn:? end; cbn; try lia;
    repeat match goal with H : eqb _ _ = true |- _ => apply eqb_eq in H; inversion H; clear H end; subst; try discriminate; try lia.
Qed.
Lemma demo_vector_valid ms cs nk kind col :
  kind <> L0 -> check_aggregate_params true true (demo_vector_params ms nk kind) = Ok tt ->
  forallb (fun m => match m with VARIANCE | PERCENTILE _ => false | _ => true end) ms = true ->
  post_init (raw_of (demo_vector_params ms nk kind)) = Ok (demo_vector_params ms nk kind) ->
  create_compound_combiner (demo_vector_params ms nk kind) = Ok cs ->
  raw_accumulators (demo_vector_params ms nk kind) cs (first_sampling 2 2) None demo_vector_rows = Ok col ->
  valid_call (demo_vector_call ms cs nk kind).
Proof.
  intros Nk C M A B E. rewrite forallb_forall in M. unfold valid_call. cbv zeta. cbn [c_params demo_vector_call c_public c_combiners c_sampling c_rows c_keys].
  split; [split; [exact C|]; split; [|split; [reflexivity|]; split; [|split; [|reflexivity]]]|].
  - intros _. split; [reflexivity|]. split; [reflexivity|]. exists 2%Z, kind, 1%Q, 2%Z.
    repeat (split; [reflexivity || assumption || (vm_compute; discriminate)|]). vm_compute. discriminate.
  - intro I. apply M in I. discriminate.
  - intros x I. apply M in I. discriminate.
  - split; [split; [reflexivity | intros x Ix; cbn in Ix |- *; intuition]|]. split.
    + intros _ n En. inversion En; subst. intros v I. cbn in I.
      repeat (destruct I as [<- | I]; [eexists; split; reflexivity|]). destruct I.
    + exists col. left. split; [exists (raw_of (demo_vector_params ms nk kind)); exact A|]. split; [exact B|]. split; [reflexivity|].
      split. { unfold valid_sampling. cbn -[Z.to_nat]. split; intros x Ex; inversion Ex; subst; apply first_n_valid. }
      split; [discriminate|]. split; [|exact E]. repeat constructor; cbn; intuition discriminate.
Qed.
Lemma demo_calls_valid : Forall valid_call demo_calls.
Proof.
  repeat (apply Forall_cons; [eapply (demo_valid _ _ _ _ _ (first_sampling 2 2));
    [cbn; intuition discriminate | reflexivity | tauto | split; apply first_n_valid | vm_compute; reflexivity ..]|]).
  apply Forall_cons; [|apply Forall_cons; [|apply Forall_cons; [|apply Forall_nil]]]; [| eapply demo_vector_valid; [discriminate | vm_compute; reflexivity ..] ..].
  split; [apply demo_params_valid; [cbn; intuition discriminate | reflexivity]|].
  split; [split; [reflexivity | intros x Ix; cbn in Ix |- *; intuition]|]. split; [cbn; intuition discriminate|]. eexists. right.
  split; [exists (raw_of (c_params demo_enforced_call)); vm_compute; reflexivity|]. split; [vm_compute; reflexivity|]. split; [reflexivity|].
  split; [exact enforced_rows_within|].
  split; [repeat constructor; cbn; intuition discriminate|]. vm_compute. reflexivity.
Qed.

Example C61_hypotheses_met :
  exists s0 s2 es ds N X T,
    new_accountant 1 (1 # 10) None None = Ok s0 /\ Forall op_pos demo_call_ops /\
    granted demo_call_ops (outs s0 demo_call_ops) = flat_map call_requests demo_calls /\
    granted demo_call_ops (outs s0 demo_call_ops) <> [] /\
    step (run s0 demo_call_ops) Compute = (s2, Ok OutUnit) /\
    read_eps s2 es /\ read_delta s2 ds /\ Forall valid_call demo_calls /\ pydp_keeps_promises toy_pydp /\
    Forall (fun c => large_enough N X T c /\ large_enough N X T (forget 1%Z c)) demo_calls /\
    map req_type (granted demo_call_ops (outs s0 demo_call_ops)) =
      [GAUSSIAN; GAUSSIAN; LAPLACE; LAPLACE; GENERIC; LAPLACE; LAPLACE_THRESHOLDING; GAUSSIAN; GAUSSIAN_THRESHOLDING;
       GAUSSIAN; LAPLACE; GENERIC; GAUSSIAN; GAUSSIAN; GENERIC;
       GAUSSIAN; GENERIC; LAPLACE; LAPLACE; GENERIC].
Proof.
  pose (s0 := Acct 1 (1 # 10) None None [] [] [] false).
  pose (s2 := fst (step (run s0 demo_call_ops) Compute)).
  pose (es := map (fun m => match get_eps m with Ok x => x | Err _ => 0%Q end) (mechs s2)).
  pose (ds := map (fun m => match get_delta m with Ok x => x | Err _ => 0%Q end) (mechs s2)).
  destruct (C61_large_enough_exists demo_calls 1%Z) as [N [X [T L]]]. exists s0, s2, es, ds, N, X, T.
  split; [reflexivity|]. split; [repeat constructor; vm_compute; reflexivity|].
  split; [vm_compute; reflexivity|]. split; [vm_compute; discriminate|]. split; [vm_compute; reflexivity|].
  split; [vm_compute; repeat constructor|]. split; [vm_compute; repeat constructor|].
  split; [exact demo_calls_valid|]. split; [exact toy_pydp_keeps_promises|]. split; [exact L | vm_compute; reflexivity].
Qed.

(** Usable budgets for C61_composition, C61_bounds_do_not_matter and C61_calls_succeed. *)
Example C61_budgets_exist : Forall2 granted_ok (flat_map call_requests demo_calls) (repeat (1, 1 # 100)%Q 20) /\
  Forall (fun c => exists bs b, Forall2 granted_ok (call_requests c) bs /\ divide [c] bs = [b]) demo_calls.
Proof.
  assert (G : forall l, Forall2 granted_ok l (repeat (1, 1 # 100)%Q (length l))).
  { induction l as [|r l IH]; [constructor|]. cbn [length repeat]. constructor; [|exact IH].
    split; [reflexivity|]. split; [split; [discriminate | reflexivity] | intros _; reflexivity]. }
  split; [apply (G (flat_map call_requests demo_calls))|].
  apply Forall_forall. intros c _. exists (repeat (1, 1 # 100)%Q (length (call_requests c))). eexists. split; [apply G | reflexivity].
Qed.

(** Choices for C61_random_contribution_bounding: the first or the last rows and
    partitions, with probability 1/2 each, in the second call. *)
Definition last_sampling (l0 linf : nat) : sampling Z Z :=
  Sampling Z Z (fun _ m => seq (m - linf) linf) (fun _ m => seq (m - l0) l0).
Lemma last_n_valid {G} n : valid_source n (fun (_ : G) m => seq (m - n) n).
Proof.
  intros g m L. split; [apply seq_NoDup|]. split; [apply seq_length|].
  apply Forall_forall. intros x Hx. apply in_seq in Hx. lia.
Qed.
Definition demo_choices : dist (list (sampling Z Z)) := [(/ 2, [first_sampling 2 2]); (/ 2, [last_sampling 2 2])].
Definition demo_second : call Z Z := demo_call [MEAN] [CMean (-1) 5 [NMean]] LaplaceNoise false None.
Example C61_choices_exist :
  is_dist demo_choices /\
  exists N X T, forall w sms, In (w, sms) demo_choices ->
    length sms = length [demo_second] /\ Forall valid_call (redrawn [demo_second] sms) /\
    Forall (fun c => large_enough N X T c /\ large_enough N X T (forget 1%Z c)) (redrawn [demo_second] sms).
Proof.
  split.
  { split; [apply Forall_cons; [cbn; lra | apply Forall_cons; [cbn; lra | apply Forall_nil]]|]. cbn. lra. }
  destruct (C61_large_enough_exists (redrawn [demo_second] [first_sampling 2 2] ++ redrawn [demo_second] [last_sampling 2 2]) 1%Z) as [N [X [T L]]].
  apply Forall_app in L. destruct L as [L1 L2]. exists N, X, T. intros w sms [I|[I|[]]]; injection I as _ <-.
  - split; [reflexivity|]. split; [|exact L1]. apply Forall_cons; [|apply Forall_nil].
    assert (V := demo_calls_valid). inversion V as [|? ? _ V']. inversion V'. assumption.
  - split; [reflexivity|]. split; [|exact L2]. apply Forall_cons; [|apply Forall_nil].
    eapply (demo_valid _ _ _ _ _ (last_sampling 2 2)); [cbn; intuition discriminate | reflexivity | tauto | split; apply last_n_valid | vm_compute; reflexivity ..].
Qed.
