(** C85: how far the released values are from the truth, for Laplace noise. *)
From Coq Require Import String List ZArith QArith Qreals Qabs Qminmax Reals Bool Permutation Lia Lqa Lra.
From Verif Require Import Base BaseLemmas BackendModel BackendSpec ListLemmas ParamsModel SensModel CombinerModel EngineModel EngineSpec
  EngineProofs3 EngineProps EnforcedSpec EnforcedProps BounderSpec EngineProps2 QuantileModel QuantileProps BudgetModel BudgetSpec BudgetProofs VectorModel ExpMechProofs LaplaceModel LaplaceSpec LaplaceProofs
  SelectModel SelectSpec SelectProps WrapperModel DistSpec DistProofs DpModel DpSpec
  DpProofs DpProofs2 DpProofs3 DpProofs4 DpProofs5 DpProps LawSpec LawProofs LawProofs2 LawProofs3 LawProps RoundModel RoundSpec RoundProofs RoundProps QTreeModel QTreeProps AccurateSpec AccurateProofs.
Import ListNotations.
Local Open Scope R_scope.
Local Close Scope Q_scope.

Section Noised.
Context {U P : Type} `{EqDec U} `{EqDec P} (py : pydp) (c : call U P) (b : budgets).

Lemma noised_le i k col F G : fair py c b -> (forall x y z, F x y z <= G x y z) -> noised_values py c b i k col F <= noised_values py c b i k col G.
Proof.
  intros Fb L. assert (Dn : forall qt' x, is_dist (add_noise py c b i qt' x)) by (intros qt' x; exact (noise_law_dist py c b (i, qt', k, x) Fb)).
  unfold noised_values. apply mixture_le; [apply Dn|]. intro x. apply mixture_le; [apply Dn|]. intro y. apply mixture_le; [apply Dn|]. intro z. apply L.
Qed.
Lemma noised_const i k col r : fair py c b -> noised_values py c b i k col (fun _ _ _ => r) = r.
Proof.
  intros Fb. assert (Dn : forall qt' x, is_dist (add_noise py c b i qt' x)) by (intros qt' x; exact (noise_law_dist py c b (i, qt', k, x) Fb)).
  unfold noised_values. rewrite (mixture_ext _ _ (fun _ => r)); [apply mixture_const, Dn|]. intro x.
  rewrite (mixture_ext _ _ (fun _ => r)); [apply mixture_const, Dn|]. intro y. apply mixture_const, Dn.
Qed.
Lemma noised_sum i k col F G :
  noised_values py c b i k col (fun x y z => F x y z + G x y z) = noised_values py c b i k col F + noised_values py c b i k col G.
Proof.
  unfold noised_values. rewrite <- mixture_add. apply mixture_ext. intro x. rewrite <- mixture_add. apply mixture_ext. intro y. apply mixture_add.
Qed.
Lemma noised_count i k col F : fair py c b ->
  noised_values py c b i k col (fun x _ _ => F x) = mixture (add_noise py c b i QCount (raw_value count_of i k col)) F.
Proof.
  intros Fb. assert (Dn : forall qt' x, is_dist (add_noise py c b i qt' x)) by (intros qt' x; exact (noise_law_dist py c b (i, qt', k, x) Fb)).
  unfold noised_values. apply mixture_ext. intro x. rewrite (mixture_ext _ _ (fun _ => F x)); [apply mixture_const, Dn|]. intro y. apply mixture_const, Dn.
Qed.
Lemma noised_total i k col F : fair py c b ->
  noised_values py c b i k col (fun _ y _ => F y) = mixture (add_noise py c b i QSum (raw_value sum_of i k col)) F.
Proof.
  intros Fb. assert (Dn : forall qt' x, is_dist (add_noise py c b i qt' x)) by (intros qt' x; exact (noise_law_dist py c b (i, qt', k, x) Fb)).
  unfold noised_values. rewrite (mixture_ext _ _ (fun _ => mixture (add_noise py c b i QSum (raw_value sum_of i k col)) F)); [apply mixture_const, Dn|].
  intro x. apply mixture_ext. intro y. apply mixture_const, Dn.
Qed.

(** However the partitions are selected, values are released with the noised quantities. *)
Lemma released_at_most bs N X T col k i cb n E :
  valid_call c -> Forall2 granted_ok (call_requests c) bs -> divide [c] bs = [b] -> pydp_keeps_promises py -> large_enough N X T c ->
  raw_accumulators (c_params c) (c_combiners c) (c_sampling c) (c_public c) (c_rows c) = Ok col ->
  In k (c_keys c) -> nth_error (c_combiners c) i = Some cb -> (forall ps, cb <> CQuantile ps) -> (forall m, cb <> CVector m) -> cb <> CThresh ->
  In n (names_of cb) ->
  prob (run_call py N X T c b) (released_as (c_keys c) k n E) <=
  noised_values py c b i k col (fun x y z => indicator (match of_noised cb n 0 x y z with Some v => E v | None => false end)).
Proof.
  intros Hv G Hb Hpy L Er Ik Ei Nq Nv Nt In_n. destruct (call_setup c b bs py col i cb) as [Fc [Gb [Fb Cc]]]; try assumption.
  set (F := fun m : option Q => indicator (match m with Some v => E v | None => false end)).
  change (mixture (run_call py N X T c b) (fun o => F (metric (c_keys c) k n o)) <= noised_values py c b i k col (fun x y z => F (of_noised cb n 0 x y z))).
  assert (F0 : forall m, 0 <= F m) by (intro m; unfold F, indicator; destruct m as [v|]; [destruct (E v)|]; lra).
  assert (V0 : 0 <= noised_values py c b i k col (fun x y z => F (of_noised cb n 0 x y z))).
  { rewrite <- (noised_const i k col 0 Fb). apply noised_le; [exact Fb|]. intros. apply F0. }
  destruct (post_aggregation_thresholding (c_params c)) eqn:Tp.
  - destruct (f_thresh _ _ Fc Tp) as [j [Ej _]].
    destruct (C73_thresholded_law c b bs py N X T col k i j cb n F) as [ids [_ Law]]; try assumption. rewrite Law.
    assert (Dt : is_dist (threshold py c b j ids)) by (exact (threshold_dist py c b j ids Fb)).
    rewrite <- (mixture_const (threshold py c b j ids) (noised_values py c b i k col (fun x y z => F (of_noised cb n 0 x y z))) Dt).
    apply mixture_le; [apply Dt|]. intros [above|]; [|exact V0]. apply noised_le; [exact Fb|]. intros x y z.
    right. f_equal. destruct cb; try reflexivity. congruence.
  - destruct (selects_privately (c_params c) (c_public c)) eqn:Sp.
    + rewrite (C73_private_law c b bs py N X T col k i cb n F) by assumption. cbv zeta.
      set (kept := py_keep py _ _). assert (K : 0 <= kept <= 1) by (apply (proj1 (fair_keep _ _ _ Fb Sp))).
      change (F None) with 0. rewrite Rmult_0_r, Rplus_0_r. rewrite <- (Rmult_1_l (noised_values py c b i k col _)) at 2.
      apply Rmult_le_compat_r; [exact V0 | apply K].
    + rewrite (C73_public_law c b bs py N X T col k i cb n F) by assumption. right. reflexivity.
Qed.
End Noised.

(** Noise beyond [t], for one quantity. *)
Lemma noise_beyond {U P} `{EqDec U} `{EqDec P} (c : call U P) b col i cb qt e l gn gv gs gq decode py x t w A :
  call_facts c col -> good_budget c b -> nth_error (c_combiners c) i = Some cb -> noise_kind (c_params c) = LaplaceNoise ->
  epsilon_for cb qt (own c b i) = Some e -> influence (c_params c) cb qt = Some l ->
  (forall m, sorted_grid (gn m)) -> 0 <= t -> (forall m, rounds_within w (Q2R x - t) (Q2R x + t) (gn m)) ->
  (forall v, A v = true -> t + w < Rabs (Q2R v - Q2R x)) ->
  prob (add_noise (with_laplace_trees gn gv gs gq decode py) c b i qt x) A <= exp (- (t * (Q2R e / Q2R l))).
Proof.
  intros Fc Gb Ei Nk He Hl Sg Ht Rw Far.
  destruct (laplace_mechanism c b (with_laplace_trees gn gv gs gq decode py) col i cb qt e l Fc Gb Ei Nk He Hl) as [e' [l' [Ee [El [Pe [Pl An]]]]]].
  rewrite An. change (py_noise (with_laplace_trees gn gv gs gq decode py) (Laplace e' l') x) with (py_noise (with_laplace gn gv gs py) (Laplace e' l') x).
  rewrite (proj1 (C83_what_is_drawn gn gv gs py e' l' Pe Pl)). rewrite <- (Qeq_eqR _ _ Ee), <- (Qeq_eqR _ _ El).
  rewrite Rmult_comm. apply C83_accuracy with (w := w); try assumption; [|apply Sg | apply Rw].
  apply Rdiv_lt_0_compat; rewrite <- RMicromega.Q2R_0; apply Qlt_Rlt; assumption.
Qed.

Lemma exact_value {U P} `{EqDec U} `{EqDec P} (c : call U P) col i cb qt k :
  valid_call c -> call_facts c col -> within_bounds (c_params c) (c_rows c) -> nth_error (c_combiners c) i = Some cb -> In k (c_keys c) ->
  (forall lo hi, cb = CSum true lo hi -> (lo <= 0 <= hi)%Q) ->
  Q2R (raw_value (quantity_of qt) i k col) = Q2R (truth cb qt k (c_rows c)).
Proof.
  intros Hv Fc W Ei Ik Hs. apply Qeq_eqR.
  apply (C73_exact_within_bounds (c_params c) (c_combiners c) (c_sampling c) (c_public c) (c_rows c) (c_keys c) col);
    [exact (f_run _ _ Fc) | exact W | exact Ei | |].
  - destruct Hv as [_ [Hk _]]. destruct (c_public c) as [pub|]; [|exact Logic.I]. intros _. apply (proj1 Hk). exact Ik.
  - intros lo hi E. split; [|exact (Hs lo hi E)].
    destruct (contribution_bounds_already_enforced (c_params c)) eqn:Eb; [|reflexivity]. exfalso. subst cb. exact (f_sum _ _ Fc Eb i lo hi Ei).
Qed.

(** ** COUNT, PRIVACY_ID_COUNT and SUM *)

(** Data within the bounds, Laplace noise rounded in any way ([w]: the size of the rounding
    around the true value): a value that is further than [t] + [w] from the truth is released
    with probability at most exp(-t * eps / l1), where [l1] is what a privacy id may change
    over all the partitions; for public and private partitions and with thresholding. *)
Theorem C85_far_values_are_rare {U P} `{EqDec U} `{EqDec P} (c : call U P) b bs gn gv gs gq decode py0 N X T k i cb n qt e l t w E :
  valid_call c -> Forall2 granted_ok (call_requests c) bs -> divide [c] bs = [b] -> pydp_keeps_promises py0 ->
  (forall m, sorted_grid (gn m)) -> (forall m, sorted_grid (gv m)) -> (forall s, sorted_grid (gs s)) -> (forall q, sorted_grid (gq q)) ->
  large_enough N X T c -> within_bounds (c_params c) (c_rows c) -> noise_kind (c_params c) = LaplaceNoise ->
  In k (c_keys c) -> nth_error (c_combiners c) i = Some cb -> In n (names_of cb) -> stands_for cb n = Some qt ->
  (forall lo hi, cb = CSum true lo hi -> (lo <= 0 <= hi)%Q) ->
  epsilon_for cb qt (own c b i) = Some e -> influence (c_params c) cb qt = Some l ->
  let true_value := Q2R (truth cb qt k (c_rows c)) in
  0 <= t -> (forall m, rounds_within w (true_value - t) (true_value + t) (gn m)) ->
  (forall v, E v = true -> t + w < Rabs (Q2R v - true_value)) ->
  prob (run_call (with_laplace_trees gn gv gs gq decode py0) N X T c b) (released_as (c_keys c) k n E) <= exp (- (t * (Q2R e / Q2R l))).
Proof.
  intros Hv G Hb Hp0 S1 S2 S3 S4 L W Nk Ik Ei In_n Sf Hs He Hl true_value Ht Rw Far.
  assert (Hpy := C83_all_promises_hold gn gv gs gq decode py0 S1 S2 S3 S4 Hp0). set (py := with_laplace_trees gn gv gs gq decode py0) in *.
  assert (Nq : forall ps, cb <> CQuantile ps) by (intros ps ->; destruct n; discriminate).
  assert (Nv : forall m, cb <> CVector m) by (intros m ->; destruct n; discriminate).
  assert (Nt : cb <> CThresh) by (intros ->; destruct n; discriminate).
  destruct (valid_call_facts c Hv) as [col Fc]. destruct (call_setup c b bs py col i cb) as [_ [Gb [Fb Cc]]]; try assumption; [exact (f_raw _ _ Fc)|].
  eapply Rle_trans; [apply (released_at_most py c b bs N X T col k i cb n E); try assumption; exact (f_raw _ _ Fc)|].
  assert (Ev := exact_value c col i cb qt k Hv Fc W Ei Ik Hs).
  assert (Q1 : prob (add_noise py c b i qt (raw_value (quantity_of qt) i k col)) E <= exp (- (t * (Q2R e / Q2R l)))).
  { apply (noise_beyond c b col i cb qt e l gn gv gs gq decode py0 _ t w E); try assumption; rewrite Ev; assumption. }
  assert (Cases : (qt = QCount /\ forall x y z, of_noised cb n 0 x y z = Some x) \/ (qt = QSum /\ forall x y z, of_noised cb n 0 x y z = Some y)).
  { destruct cb, n; cbn [stands_for] in Sf; try discriminate; inversion Sf; subst; cbn [of_noised]; [left | left | right | left | left]; (split; [reflexivity | intros; reflexivity]). }
  eapply Rle_trans; [|exact Q1]. unfold prob. destruct Cases as [[-> Eo]|[-> Eo]]; cbn [quantity_of].
  - rewrite <- (noised_count py c b i k col _ Fb). apply noised_le; [exact Fb|]. intros x y z. rewrite Eo. right. reflexivity.
  - rewrite <- (noised_total py c b i k col _ Fb). apply noised_le; [exact Fb|]. intros x y z. rewrite Eo. right. reflexivity.
Qed.
Print Assumptions C85_far_values_are_rare.

(** Public partitions without thresholding: a value within [t] + [w] of the truth is released
    with at least the remaining probability. *)
Theorem C85_public_values_are_close {U P} `{EqDec U} `{EqDec P} (c : call U P) b bs gn gv gs gq decode py0 N X T pub k i cb n qt e l t w E :
  valid_call c -> Forall2 granted_ok (call_requests c) bs -> divide [c] bs = [b] -> pydp_keeps_promises py0 ->
  (forall m, sorted_grid (gn m)) -> (forall m, sorted_grid (gv m)) -> (forall s, sorted_grid (gs s)) -> (forall q, sorted_grid (gq q)) ->
  large_enough N X T c -> within_bounds (c_params c) (c_rows c) -> noise_kind (c_params c) = LaplaceNoise ->
  c_public c = Some pub -> post_aggregation_thresholding (c_params c) = false ->
  In k pub -> nth_error (c_combiners c) i = Some cb -> In n (names_of cb) -> stands_for cb n = Some qt ->
  (forall lo hi, cb = CSum true lo hi -> (lo <= 0 <= hi)%Q) ->
  epsilon_for cb qt (own c b i) = Some e -> influence (c_params c) cb qt = Some l ->
  let true_value := Q2R (truth cb qt k (c_rows c)) in
  0 <= t -> (forall m, rounds_within w (true_value - t) (true_value + t) (gn m)) ->
  (forall v, Rabs (Q2R v - true_value) <= t + w -> E v = true) ->
  1 - exp (- (t * (Q2R e / Q2R l))) <= prob (run_call (with_laplace_trees gn gv gs gq decode py0) N X T c b) (released_as (c_keys c) k n E).
Proof.
  intros Hv G Hb Hp0 S1 S2 S3 S4 L W Nk Pb Tp Ik Ei In_n Sf Hs He Hl true_value Ht Rw Near.
  assert (Ik' : In k (c_keys c)).
  { destruct Hv as [_ [Hk _]]. rewrite Pb in Hk. apply (proj1 Hk). exact Ik. }
  assert (Sp : selects_privately (c_params c) (c_public c) = false) by (rewrite Pb; reflexivity).
  assert (Far := C85_far_values_are_rare c b bs gn gv gs gq decode py0 N X T k i cb n qt e l t w (fun v => negb (E v)) Hv G Hb Hp0 S1 S2 S3 S4 L W Nk Ik' Ei In_n Sf Hs He Hl Ht Rw).
  assert (Hpy := C83_all_promises_hold gn gv gs gq decode py0 S1 S2 S3 S4 Hp0). set (py := with_laplace_trees gn gv gs gq decode py0) in *.
  assert (Nq : forall ps, cb <> CQuantile ps) by (intros ps ->; destruct n; discriminate).
  assert (Nv : forall m, cb <> CVector m) by (intros m ->; destruct n; discriminate).
  destruct (valid_call_facts c Hv) as [col Fc]. destruct (call_setup c b bs py col i cb) as [_ [Gb [Fb Cc]]]; try assumption; [exact (f_raw _ _ Fc)|].
  assert (Fv : forall v, negb (E v) = true -> t + w < Rabs (Q2R v - true_value)).
  { intros v Nv'. apply negb_true_iff in Nv'. apply Rnot_le_lt. intro X0. rewrite (Near v X0) in Nv'. discriminate. }
  specialize (Far Fv). unfold prob, released_as in *.
  rewrite (C73_public_law c b bs py N X T col k i cb n (fun m => indicator (match m with Some v => negb (E v) | None => false end))) in Far
    by (try assumption; exact (f_raw _ _ Fc)).
  rewrite (C73_public_law c b bs py N X T col k i cb n (fun m => indicator (match m with Some v => E v | None => false end)))
    by (try assumption; exact (f_raw _ _ Fc)).
  assert (One : noised_values py c b i k col (fun x y z => indicator (match of_noised cb n 0 x y z with Some v => E v | None => false end))
    + noised_values py c b i k col (fun x y z => indicator (match of_noised cb n 0 x y z with Some v => negb (E v) | None => false end)) = 1).
  { rewrite <- noised_sum, <- (noised_const py c b i k col 1 Fb).
    apply Rle_antisym; apply noised_le; try exact Fb; intros x y z;
      (assert (Y : exists v, of_noised cb n 0 x y z = Some v) by (destruct cb, n; cbn [stands_for] in Sf; try discriminate; cbn; eauto); destruct Y as [v ->];
       unfold indicator; destruct (E v); cbn [negb]; lra). }
  lra.
Qed.
Print Assumptions C85_public_values_are_close.

(** ** MEAN *)

Lemma quotient_close N S h X Y a d : 1 <= N -> 0 <= h -> 0 <= a -> 0 <= d -> Rabs S <= h * N -> Rabs (X - N) <= a -> Rabs (Y - S) <= d ->
  Rabs (Y / Rmax 1 X - S / N) <= (d + h * a) / Rmax 1 (N - a).
Proof.
  intros HN Hh Ha Hd HS HX HY. set (D := Rmax 1 X). set (M := Rmax 1 (N - a)).
  assert (X1 : - a <= X - N <= a) by (apply Rabs_le_inv || (unfold Rabs in HX; destruct (Rcase_abs _) in HX; lra); exact HX).
  assert (D1 : 1 <= D) by apply Rmax_l. assert (M1 : 1 <= M) by apply Rmax_l.
  assert (MD : M <= D) by (unfold M, D, Rmax; repeat destruct (Rle_dec _ _); lra).
  assert (ND : Rabs (N - D) <= a) by (apply Rabs_le; unfold D, Rmax; destruct (Rle_dec _ _); lra).
  replace (Y / D - S / N) with ((Y - S + S / N * (N - D)) / D) by (field; lra).
  unfold Rdiv at 1. rewrite Rabs_mult, (Rabs_pos_eq (/ D)) by (left; apply Rinv_0_lt_compat; lra).
  assert (SN : Rabs (S / N) <= h).
  { unfold Rdiv. rewrite Rabs_mult, (Rabs_pos_eq (/ N)) by (left; apply Rinv_0_lt_compat; lra).
    apply Rmult_le_reg_r with N; [lra|]. rewrite Rmult_assoc, Rinv_l, Rmult_1_r by lra. exact HS. }
  assert (Num : Rabs (Y - S + S / N * (N - D)) <= d + h * a).
  { eapply Rle_trans; [apply Rabs_triang|]. rewrite Rabs_mult. apply Rplus_le_compat; [exact HY|]. apply Rmult_le_compat; auto using Rabs_pos. }
  assert (P0 : 0 <= d + h * a) by (apply Rplus_le_le_0_compat; [exact Hd | apply Rmult_le_pos; assumption]).
  unfold Rdiv. apply Rmult_le_compat; [apply Rabs_pos | left; apply Rinv_0_lt_compat; lra | exact Num | apply Rinv_le_contravar; lra].
Qed.

Lemma clip_between lo hi x : (lo <= hi)%Q -> (lo <= clip lo hi x <= hi)%Q.
Proof.
  intro L. unfold clip. split; [|apply Q.le_min_r]. apply Q.min_glb; [apply Q.le_max_r | exact L].
Qed.
Lemma distances_bounded {A} (f : A -> Q) lo hi (rows : list A) : (lo <= hi)%Q ->
  Rabs (Q2R (sumQ (map (fun r => clip lo hi (f r) - middle lo hi)%Q rows))) <= Q2R ((hi - lo) / 2) * INR (length rows).
Proof.
  intro L. induction rows as [|r rows IH].
  - cbn [map length INR]. change (sumQ []) with 0%Q. rewrite RMicromega.Q2R_0, Rabs_R0. lra.
  - cbn [map]. change (sumQ (?x :: ?l)) with (x + sumQ l)%Q. rewrite Q2R_plus. eapply Rle_trans; [apply Rabs_triang|].
    change (length (r :: rows)) with (S (length rows)). rewrite S_INR. assert (C := clip_between lo hi (f r) L). set (x := clip lo hi (f r)) in *.
    assert (B : Rabs (Q2R (x - middle lo hi)) <= Q2R ((hi - lo) / 2)).
    { apply Rabs_le. rewrite <- Q2R_opp. split; apply Qle_Rle; unfold middle, Qdiv; change (/ 2)%Q with (1 # 2)%Q; destruct C; Lqa.lra. }
    rewrite Rmult_plus_distr_l, Rmult_1_r. lra.
Qed.
Lemma mean_from_distances {A} (f : A -> Q) lo hi (rows : list A) :
  (sumQ (map (fun r => clip lo hi (f r)) rows) == sumQ (map (fun r => clip lo hi (f r) - middle lo hi) rows) + middle lo hi * inject_Z (Z.of_nat (length rows)))%Q.
Proof.
  induction rows as [|r rows IH]; [cbn; ring|]. cbn [map]. change (sumQ (?x :: ?l)) with (x + sumQ l)%Q. rewrite IH.
  change (length (r :: rows)) with (S (length rows)). rewrite Nat2Z.inj_succ, <- Z.add_1_l, inject_Z_plus. change (inject_Z 1) with 1%Q. ring.
Qed.
Lemma Q2R_max1 x : Q2R (Qmax 1 x) = Rmax 1 (Q2R x).
Proof.
  rewrite <- RMicromega.Q2R_1. destruct (Q.max_spec 1 x) as [[L ->]|[L ->]].
  - apply Qlt_le_weak, Qle_Rle in L. rewrite Rmax_right; [reflexivity | exact L].
  - apply Qle_Rle in L. rewrite Rmax_left; [reflexivity | exact L].
Qed.

(** MEAN of a partition with [N] rows: noise of at most [t1] on the count and at most [t2]
    on the sum of the distances from the middle of the range, except with the probabilities
    of such noises, gives this distance from the mean of the clipped values. *)
Theorem C85_far_means_are_rare {U P} `{EqDec U} `{EqDec P} (c : call U P) b bs gn gv gs gq decode py0 N X T k i lo hi names e1 d1 e2 d2 t1 t2 w E :
  valid_call c -> Forall2 granted_ok (call_requests c) bs -> divide [c] bs = [b] -> pydp_keeps_promises py0 ->
  (forall m, sorted_grid (gn m)) -> (forall m, sorted_grid (gv m)) -> (forall s, sorted_grid (gs s)) -> (forall q, sorted_grid (gq q)) ->
  large_enough N X T c -> within_bounds (c_params c) (c_rows c) -> noise_kind (c_params c) = LaplaceNoise ->
  In k (c_keys c) -> nth_error (c_combiners c) i = Some (CMean lo hi names) -> In NMean names -> rows_in k (c_rows c) <> [] ->
  own c b i = [(e1, d1); (e2, d2)] ->
  let rows := rows_allowed (c_params c) in
  let half := ((hi - lo) / 2)%Q in
  let count := Q2R (truth (CMean lo hi names) QCount k (c_rows c)) in
  let distances := Q2R (truth (CMean lo hi names) QSum k (c_rows c)) in
  0 <= t1 -> 0 <= t2 -> 0 <= w ->
  (forall m, rounds_within w (count - t1) (count + t1) (gn m)) -> (forall m, rounds_within w (distances - t2) (distances + t2) (gn m)) ->
  (forall v, E v = true ->
     (t2 + w + Q2R half * (t1 + w)) / Rmax 1 (count - (t1 + w)) < Rabs (Q2R v - Q2R (true_mean lo hi k (c_rows c)))) ->
  prob (run_call (with_laplace_trees gn gv gs gq decode py0) N X T c b) (released_as (c_keys c) k NMean E) <=
  exp (- (t1 * (Q2R e1 / Q2R rows))) + exp (- (t2 * (Q2R e2 / Q2R (rows * half)))).
Proof.
  intros Hv G Hb Hp0 S1 S2 S3 S4 L W Nk Ik Ei In_n Ne Ow rows half count distances Ht1 Ht2 Hw Rw1 Rw2 Far. set (cb := CMean lo hi names) in *.
  assert (Hpy := C83_all_promises_hold gn gv gs gq decode py0 S1 S2 S3 S4 Hp0). set (py := with_laplace_trees gn gv gs gq decode py0) in *.
  destruct (valid_call_facts c Hv) as [col Fc]. destruct (call_setup c b bs py col i cb) as [_ [Gb [Fb Cc]]]; try assumption; try (intros; discriminate); [exact (f_raw _ _ Fc)|].
  eapply Rle_trans; [apply (released_at_most py c b bs N X T col k i cb NMean E); try assumption; try (intros; discriminate); try discriminate; exact (f_raw _ _ Fc)|].
  assert (Ev1 := exact_value c col i cb QCount k Hv Fc W Ei Ik ltac:(discriminate)).
  assert (Ev2 := exact_value c col i cb QSum k Hv Fc W Ei Ik ltac:(discriminate)). cbn [quantity_of] in Ev1, Ev2.
  assert (Ol : (lo <= hi)%Q).
  { assert (Hk := nth_constructed _ _ _ _ (f_combiners _ _ Fc) Ei). cbn [constructed cb] in Hk. unfold new_mean in Hk.
    destruct (accepted_facts _ (f_accepted _ _ Fc)) as [O1 _].
    destruct (min_value _) as [a|]; [|discriminate]. destruct (max_value _) as [a'|]; [|discriminate].
    destruct (sens_count _); cbn [rbind] in Hk; [|discriminate]. destruct (sens_normalized_sum _); cbn [rmap] in Hk; [|discriminate].
    injection Hk as -> ->. exact O1. }
  assert (Hh : 0 <= Q2R half) by (rewrite <- RMicromega.Q2R_0; apply Qle_Rle; unfold half, Qdiv; change (/ 2)%Q with (1 # 2)%Q; Lqa.lra).
  assert (Cn : count = INR (length (rows_in k (c_rows c)))).
  { unfold count, cb. cbn [truth]. unfold Q2R. cbn [inject_Z Qnum Qden]. rewrite INR_IZR_INZ. change (IZR (Z.pos 1)) with 1. lra. }
  assert (C1 : 1 <= count).
  { rewrite Cn. destruct (rows_in k (c_rows c)) as [|r l]; [congruence|]. change (length (r :: l)) with (S (length l)). rewrite S_INR. assert (Y := pos_INR (length l)). lra. }
  assert (Ds : Rabs distances <= Q2R half * count).
  { rewrite Cn. unfold distances, cb. cbn [truth]. apply (distances_bounded (fun r => num_of (snd r))). exact Ol. }
  assert (Tm : Q2R (true_mean lo hi k (c_rows c)) = Q2R (middle lo hi) + distances / count).
  { assert (Nz : ~ (inject_Z (Z.of_nat (length (rows_in k (c_rows c)))) == 0)%Q).
    { change 0%Q with (inject_Z 0). rewrite inject_Z_injective. destruct (rows_in k (c_rows c)); [congruence|]. cbn [length]. lia. }
    unfold distances, count, cb. cbn [truth]. rewrite <- Q2R_div by exact Nz. rewrite <- Q2R_plus. apply Qeq_eqR. unfold true_mean.
    rewrite (mean_from_distances (fun r => num_of (snd r))). field. exact Nz. }
  set (A := fun x : Q => if Rlt_dec (t1 + w) (Rabs (Q2R x - count)) then true else false).
  set (B := fun y : Q => if Rlt_dec (t2 + w) (Rabs (Q2R y - distances)) then true else false).
  assert (Q1 : prob (add_noise py c b i QCount (raw_value count_of i k col)) A <= exp (- (t1 * (Q2R e1 / Q2R rows)))).
  { apply (noise_beyond c b col i cb QCount e1 rows gn gv gs gq decode py0 _ t1 w A); try assumption; try reflexivity.
    - unfold cb. rewrite Ow. reflexivity.
    - rewrite Ev1. exact Rw1.
    - rewrite Ev1. unfold A. intros v Av. fold count. destruct (Rlt_dec _ _); [assumption | discriminate]. }
  assert (Q2 : prob (add_noise py c b i QSum (raw_value sum_of i k col)) B <= exp (- (t2 * (Q2R e2 / Q2R (rows * half))))).
  { apply (noise_beyond c b col i cb QSum e2 (rows * half)%Q gn gv gs gq decode py0 _ t2 w B); try assumption; try reflexivity.
    - unfold cb. rewrite Ow. reflexivity.
    - rewrite Ev2. exact Rw2.
    - rewrite Ev2. unfold B. intros v Bv. fold distances. destruct (Rlt_dec _ _); [assumption | discriminate]. }
  eapply Rle_trans; [|exact (Rplus_le_compat _ _ _ _ Q1 Q2)]. unfold prob.
  rewrite <- (noised_count py c b i k col _ Fb), <- (noised_total py c b i k col _ Fb), <- noised_sum. apply noised_le; [exact Fb|].
  intros x y z. unfold cb. cbn [of_noised]. destruct (E _) eqn:Ee.
  2: { unfold indicator. destruct (A x), (B y); lra. }
  apply Far in Ee. rewrite Q2R_plus, Q2R_div, Q2R_max1, Tm in Ee.
  2: { assert (X0 := Q.le_max_l 1 x). intro Y. rewrite Y in X0. Lqa.lra. }
  assert (O : A x = true \/ B y = true).
  { unfold A, B. destruct (Rlt_dec (t1 + w) _) as [Lx|Lx]; [left; reflexivity|]. right. destruct (Rlt_dec (t2 + w) _) as [Ly|Ly]; [reflexivity|]. exfalso.
    apply Rnot_lt_le in Lx, Ly.
    assert (Z1 := quotient_close count distances (Q2R half) (Q2R x) (Q2R y) (t1 + w) (t2 + w) C1 Hh ltac:(lra) ltac:(lra) Ds Lx Ly).
    replace (Q2R (middle lo hi) + Q2R y / Rmax 1 (Q2R x) - (Q2R (middle lo hi) + distances / count)) with (Q2R y / Rmax 1 (Q2R x) - distances / count) in Ee by ring.
    lra. }
  unfold indicator. destruct O as [-> | ->]; [destruct (B y) | destruct (A x)]; lra.
Qed.
Print Assumptions C85_far_means_are_rare.

(** ** The hypotheses are met *)

(** Whole numbers from 0 to 5. *)
Definition count_grid : grid := Grid [(/ 2, 0%Q); (3 / 2, 1%Q); (5 / 2, 2%Q); (7 / 2, 3%Q); (9 / 2, 4%Q)] 5%Q.
Example count_grid_sorted : sorted_grid count_grid.
Proof. unfold sorted_grid, count_grid. cbn [g_cells map fst]. repeat constructor; lra. Qed.
Example count_grid_rounds : rounds_within (/ 2) 0 5 count_grid.
Proof.
  intros y L. unfold count_grid. cbn [g_cells g_top rounded].
  assert (Q2R 0 = 0) by (unfold Q2R; cbn; lra). assert (Q2R 1 = 1) by (unfold Q2R; cbn; lra). assert (Q2R 2 = 2) by (unfold Q2R; cbn; lra).
  assert (Q2R 3 = 3) by (unfold Q2R; cbn; lra). assert (Q2R 4 = 4) by (unfold Q2R; cbn; lra). assert (Q2R 5 = 5) by (unfold Q2R; cbn; lra).
  repeat destruct (Rlt_dec y _); apply Rabs_le; lra.
Qed.
Definition count_pydp : pydp :=
  with_laplace_trees (fun _ => count_grid) (fun _ => count_grid) (fun _ => count_grid) (fun _ => count_grid) (fun q noisy => map (fun _ => hd 0%Q noisy) (qq_quantiles q)) toy_pydp.
Lemma within_grid w lo hi lo' hi' g : rounds_within w lo hi g -> lo <= lo' -> hi' <= hi -> rounds_within w lo' hi' g.
Proof. intros R0 L1 L2 y Hy. apply R0. lra. Qed.

(** COUNT of partition 20 is 3; with epsilon 1 and at most 4 rows for a privacy id, the released count is 0
    with probability at most exp(-2/4), and is from 1 to 5 with probability at least 1 - exp(-2/4). *)
Example C85_hypotheses_met : exists N X T,
  large_enough N X T law_call /\
  prob (run_call count_pydp N X T law_call law_budget) (released_as (c_keys law_call) 20%Z NCount (fun v => Qle_bool v 0)) <= exp (- (2 * (1 / 4))) /\
  1 - exp (- (2 * (1 / 4))) <=
    prob (run_call count_pydp N X T law_call law_budget) (released_as (c_keys law_call) 20%Z NCount (fun v => Qle_bool (1 # 2) v && Qle_bool v (11 # 2))).
Proof.
  destruct (C61_large_enough_exists [law_call] 1%Z) as [N [X [T L]]]. inversion L as [|? ? [L1 _] _]; subst. exists N, X, T. split; [exact L1|].
  assert (T3 : Q2R (truth CCount QCount 20%Z (c_rows law_call)) = 3) by (vm_compute; lra).
  assert (E4 : 1 / 4 = Q2R 1 / Q2R (rows_allowed (c_params law_call))) by (vm_compute; lra).
  assert (So : forall A : Type, A -> sorted_grid count_grid) by (intros; apply count_grid_sorted).
  assert (Q6 : Q2R (1 # 2) = / 2 /\ Q2R (11 # 2) = 11 / 2) by (split; vm_compute; lra).
  rewrite E4. split.
  - eapply (C85_far_values_are_rare law_call law_budget law_budgets _ _ _ _ _ _ N X T 20%Z 0%nat CCount NCount QCount 1%Q _ 2 (/ 2));
      try exact law_call_valid; try exact law_budgets_ok; try reflexivity; try exact toy_pydp_keeps_promises; try (intros; apply count_grid_sorted);
      try exact L1; try exact enforced_rows_within; try (left; reflexivity); try discriminate.
    + lra.
    + intros _. rewrite T3. eapply within_grid; [exact count_grid_rounds | lra | lra].
    + intros v Ev. rewrite T3. apply Qle_bool_iff, Qle_Rle in Ev. rewrite RMicromega.Q2R_0 in Ev. unfold Rabs. destruct (Rcase_abs _); lra.
  - eapply (C85_public_values_are_close law_call law_budget law_budgets _ _ _ _ _ _ N X T [20; 10]%Z 20%Z 0%nat CCount NCount QCount 1%Q _ 2 (/ 2));
      try exact law_call_valid; try exact law_budgets_ok; try reflexivity; try exact toy_pydp_keeps_promises; try (intros; apply count_grid_sorted);
      try exact L1; try exact enforced_rows_within; try (left; reflexivity); try discriminate.
    + lra.
    + intros _. rewrite T3. eapply within_grid; [exact count_grid_rounds | lra | lra].
    + intros v Ev. rewrite T3 in Ev. destruct Q6 as [Qa Qb]. apply andb_true_iff.
      assert (Q2R v - 3 <= 2 + / 2 /\ - (Q2R v - 3) <= 2 + / 2).
      { split; eapply Rle_trans; try exact Ev; [apply Rle_abs | rewrite <- Rabs_Ropp; apply Rle_abs]. }
      split; apply Qle_bool_iff, Rle_Qle; lra.
Qed.

(** MEAN of the same partition is 7/3, in the range from -1 to 5. *)
Definition mean_call : call Z Z :=
  Call (demo_call_params [MEAN] LaplaceNoise false false) [CMean (-1) 5 [NMean]] (first_sampling 2 2) (Some [20; 10]%Z) [20; 10]%Z enforced_rows.
Lemma mean_call_valid : valid_call mean_call.
Proof.
  split; [apply demo_params_valid; [cbn; intuition discriminate | reflexivity]|].
  split; [split; [tauto | discriminate]|]. split; [cbn; intuition discriminate|]. eexists. left.
  split; [exists (raw_of (c_params mean_call)); vm_compute; reflexivity|]. split; [vm_compute; reflexivity|]. split; [reflexivity|].
  split. { unfold valid_sampling. cbn -[Z.to_nat]. split; intros x Ex; inversion Ex; subst; apply first_n_valid. }
  split; [discriminate|]. split; [repeat constructor; cbn; intuition discriminate | vm_compute; reflexivity].
Qed.
Definition mean_budgets : list (Q * Q) := [(12, 0); (12, 0)]%Q.
Example C85_mean_hypotheses_met : exists N X T,
  large_enough N X T mean_call /\ (true_mean (-1) 5 20%Z (c_rows mean_call) == 7 # 3)%Q /\
  prob (run_call count_pydp N X T mean_call (Budgets mean_budgets (0, 0)%Q)) (released_as (c_keys mean_call) 20%Z NMean (fun v => Qle_bool v (-7))) <=
  exp (- (2 * (Q2R 12 / 4))) + exp (- (1 * (Q2R 12 / 12))).
Proof.
  destruct (C61_large_enough_exists [mean_call] 1%Z) as [N [X [T L]]]. inversion L as [|? ? [L1 _] _]; subst. exists N, X, T. split; [exact L1|].
  assert (M : (true_mean (-1) 5 20%Z (c_rows mean_call) == 7 # 3)%Q) by (vm_compute; reflexivity). split; [exact M|].
  assert (T3 : Q2R (truth (CMean (-1) 5 [NMean]) QCount 20%Z (c_rows mean_call)) = 3) by (vm_compute; lra).
  assert (T1 : Q2R (truth (CMean (-1) 5 [NMean]) QSum 20%Z (c_rows mean_call)) = 1) by (vm_compute; lra).
  assert (E4 : 4 = Q2R (rows_allowed (c_params mean_call))) by (vm_compute; lra).
  assert (E12 : 12 = Q2R (rows_allowed (c_params mean_call) * ((5 - -1) / 2))) by (vm_compute; lra).
  rewrite E4, E12.
  eapply (C85_far_means_are_rare mean_call (Budgets mean_budgets (0, 0)%Q) mean_budgets _ _ _ _ _ _ N X T 20%Z 0%nat (-1) 5 [NMean] 12%Q 0%Q 12%Q 0%Q 2 1 (/ 2));
    try exact mean_call_valid; try reflexivity; try exact toy_pydp_keeps_promises; try (intros; apply count_grid_sorted);
    try exact L1; try exact enforced_rows_within; try (left; reflexivity); try discriminate; try lra.
  - repeat constructor; cbn; try discriminate; reflexivity.
  - intros _. rewrite T3. eapply within_grid; [exact count_grid_rounds | lra | lra].
  - intros _. rewrite T1. eapply within_grid; [exact count_grid_rounds | lra | lra].
  - intros v Ev. rewrite T3, (Qeq_eqR _ _ M). apply Qle_bool_iff, Qle_Rle in Ev.
    assert (Q7 : Q2R (-7) = -7) by (vm_compute; lra). assert (Q73 : Q2R (7 # 3) = 7 / 3) by (vm_compute; lra). assert (Q3 : Q2R ((5 - -1) / 2) = 3) by (vm_compute; lra).
    rewrite Q3, Q73. rewrite Q7 in Ev. rewrite Rmax_left by lra. unfold Rabs. destruct (Rcase_abs _); lra.
Qed.
