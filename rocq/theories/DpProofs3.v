(** Lemmas for C61: a call as a stage of partition selection and one of noise. *)
From Coq Require Import List ZArith QArith Reals Bool Permutation Lia Lqa Lra.
From Verif Require Import Base BaseLemmas BackendModel ListLemmas BackendSpec BackendProofs ParamsModel SensModel CombinerModel CombinerProofs3 EngineModel EngineSpec
  EngineProofs EngineProofs2 EngineProofs3 EngineProofs4 EngineProofs5 EngineProps EngineProps2 BudgetModel VectorModel LaplaceModel LaplaceSpec LaplaceProofs
  SelectModel SelectSpec SelectProofs3 EnforcedSpec EnforcedProofs EnforcedProofs2 QuantileModel QuantileProps DistSpec DistProofs DpModel DpSpec DpProofs DpProofs2.
Import ListNotations.
Local Open Scope R_scope.
Local Close Scope Q_scope.

(** Counts of a thresholding combiner. *)
Lemma thresh_raw {U P} `{EqDec U} `{EqDec P} p cs (sm : sampling U P) public rows col j k :
  raw_accumulators p cs sm public rows = Ok col -> nth_error cs j = Some CThresh ->
  exists z, (0 <= z)%Z /\ raw_value count_of j k col = inject_Z z /\ (~ In k (map fst col) -> z = 0%Z).
Proof.
  intros E Ej. assert (N := proj1 (raw_keys _ _ _ _ _ _ E)). destruct (in_dec eq_dec k (map fst col)) as [I|I].
  2: { exists 0%Z. split; [lia|]. split; [|auto]. unfold raw_value. rewrite find_none_keys by exact I. reflexivity. }
  destruct (in_fst _ _ I) as [a Ia]. assert (Ia' := Ia).
  destruct (raw_pairs _ _ _ _ _ _ E) as [pairs ->]. apply (proj1 (in_combine_per_key _ _ _ _)) in Ia.
  unfold with_accs in Ia. rewrite values_of_map_values in Ia. destruct (values_of k pairs) as [|g gs]; cbn in Ia; [discriminate|].
  inversion Ia as [Ea]. change (compound_create cs g) with (1%Z, map (fun c => create c g) cs) in Ea. rewrite compound_fold in Ea.
  assert (exists z, (0 <= z)%Z /\ nth_error (snd a) j = Some (AInt z)) as [z [Hz Ez]].
  { rewrite <- Ea. cbn [snd]. rewrite (map_nth_error _ j cs Ej). clear.
    assert (G : forall l z, (0 <= z)%Z -> exists z', (0 <= z')%Z /\ fold_left (merge CThresh) (map (create CThresh) l) (AInt z) = AInt z').
    { induction l as [|x l IH]; intros z Hz; [exists z; auto|]. cbn [map fold_left].
      assert (exists y, (0 <= y)%Z /\ create CThresh x = AInt y) as [y [Hy Ey]] by (cbn; eexists; split; [|reflexivity]; destruct x; lia).
      rewrite Ey. cbn [merge]. apply IH. lia. }
    assert (exists y, (0 <= y)%Z /\ create CThresh g = AInt y) as [y [Hy Ey]] by (cbn; eexists; split; [|reflexivity]; destruct g; lia).
    rewrite Ey. destruct (G gs y Hy) as [z [Hz Ez]]. exists z. rewrite Ez. auto. }
  exists z. split; [exact Hz|]. split; [|intro X; contradiction].
  rewrite (raw_value_at _ count_of j k a (AInt z) N Ia' Ez). reflexivity.
Qed.

Section Stages.
Context {U P : Type} `{EqDec U} `{EqDec P} (py : pydp).

Definition noise_law (c : call U P) (b : budgets) (s : nat * quantity * P * Q) : dist Q :=
  match s with (i, qt, k, x) => add_noise py c b i qt x end.
Definition thresh_law (c : call U P) (b : budgets) (s : nat * P * Z) : dist (option Q) :=
  match s with (i, k, n) => threshold py c b i n end.
Definition group (c : call U P) (b : budgets) (col : list (P * cacc)) (en : nat * quantity * result sens * (Q * Q)) : dist (list Q) :=
  independent (noise_law c b) (map (fun s => (s, value_at col s)) (map (pair (fst (fst en))) (c_keys c))).
Definition noise_stage (c : call U P) (b : budgets) (col : list (P * cacc)) : dist (list Q) :=
  stacked (map (group c b col) (used c b)).
Definition tree_law (c : call U P) (b : budgets) (s : nat * P * (list Q * list Q)) : dist (list Q) :=
  match s with (i, k, (l, qs)) => ask_tree py c b i l qs end.
Definition tree_group (c : call U P) (b : budgets) (col : list (P * cacc)) (en : nat * list Q) : dist (list (list Q)) :=
  independent (tree_law c b) (map (question_at c col) (map (pair en) (c_keys c))).
Definition tree_stage (c : call U P) (b : budgets) (col : list (P * cacc)) : dist (list (list Q)) :=
  stacked (map (tree_group c b col) (trees c)).
Definition as_option (b : bool) : option Q := if b then Some 0%Q else None.
Definition stage (c : call U P) (b : budgets) (col : list (P * cacc)) : dist (list (option Q)) :=
  if selects_privately (c_params c) (c_public c)
  then dbind (independent (should_keep py c b) (map (fun k => estimate (c_params c) k col) (c_keys c))) (fun bs => dret (map as_option bs))
  else if post_aggregation_thresholding (c_params c)
  then independent (threshold py c b (thresh_index (c_combiners c))) (map (thresh_count c col) (c_keys c))
  else dret (map (fun _ => Some 0%Q) (c_keys c)).

(** What is needed of PyDP for a call. *)
Record fair (c : call U P) (b : budgets) : Prop := Fair {
  fair_length : enough_budgets c b;
  fair_noise : forall m x, is_dist (py_noise py m x);
  fair_noised : forall sel n, is_dist (py_noised py sel n);
  fair_quantiles : forall q l, is_dist (py_quantiles py q l);
  fair_vector : forall m x, is_dist (py_vector py m x);
  fair_keep : selects_privately (c_params c) (c_public c) = true ->
    let keep := py_keep py (aggregate_selector (c_params c) (fst (b_selection b)) (snd (b_selection b))) in
    (forall n, 0 <= keep n <= 1) /\ (forall n, (n <= 0)%Z -> keep n = 0);
  fair_thresh : post_aggregation_thresholding (c_params c) = true -> forall n w o, (n <= 0)%Z ->
    In (w, o) (threshold py c b (thresh_index (c_combiners c)) n) -> w = 0 \/ o = None }.

Lemma add_noise_dist c b i qt x : fair c b -> is_dist (add_noise py c b i qt x).
Proof.
  intro F. unfold add_noise. destruct (budget_of c b i qt) as [[s [e d]]|]; [|apply is_dist_ret].
  destruct (rbind _ _); [apply (fair_noise _ _ F) | apply is_dist_ret].
Qed.
Lemma threshold_dist c b i n : fair c b -> is_dist (threshold py c b i n).
Proof.
  intro F. unfold threshold. destruct (budget_of c b i QCount) as [[s [e d]]|]; [|apply is_dist_ret].
  destruct (thresholding_mechanism _ _ _); [apply (fair_noised _ _ F) | apply is_dist_ret].
Qed.
Lemma noise_law_dist c b s : fair c b -> is_dist (noise_law c b s).
Proof. intro F. destruct s as [[[i qt] k] x]. apply add_noise_dist. exact F. Qed.
Lemma thresh_law_dist c b s : fair c b -> is_dist (thresh_law c b s).
Proof. intro F. destruct s as [[i k] n]. apply threshold_dist. exact F. Qed.
Lemma tree_law_dist c b s : fair c b -> is_dist (tree_law c b s).
Proof.
  intro F. destruct s as [[i k] [l qs]]. cbn [tree_law]. unfold ask_tree.
  destruct (nth_error (c_combiners c) i) as [cb|]; [|apply is_dist_ret].
  destruct cb; try (apply is_dist_ret); destruct (own c b i) as [|[e d] [|]]; try (apply is_dist_ret); [apply (fair_quantiles _ _ F)|].
  unfold noised_vector. destruct (vector_size _); [|apply is_dist_ret]. destruct (vector_norm_kind _); [|apply is_dist_ret].
  destruct (vector_max_norm _); [|apply is_dist_ret]. destruct (vector_mechanism _ _ _); [|apply is_dist_ret].
  destruct (clip_vector _ _ _); [|apply is_dist_ret]. apply is_dist_independent. intros j _. apply (fair_vector _ _ F).
Qed.
Lemma tree_group_dist c b col en : fair c b -> is_dist (tree_group c b col en).
Proof. intro F. apply is_dist_independent. intros s _. apply tree_law_dist. exact F. Qed.
Lemma tree_stage_dist c b col : fair c b -> is_dist (tree_stage c b col).
Proof. intro F. apply stacked_dist. apply Forall_map. apply Forall_forall. intros en _. apply tree_group_dist. exact F. Qed.
Lemma should_keep_dist c b n : selects_privately (c_params c) (c_public c) = true -> fair c b -> is_dist (should_keep py c b n).
Proof.
  intros Sp F. destruct (fair_keep _ _ F Sp) as [K _]. specialize (K n). unfold should_keep. split.
  - constructor; [cbn in *; lra|]. constructor; [cbn in *; lra | constructor].
  - cbn. lra.
Qed.
Lemma group_dist c b col en : fair c b -> is_dist (group c b col en).
Proof. intro F. apply is_dist_independent. intros s _. apply noise_law_dist. exact F. Qed.
Lemma noise_stage_dist c b col : fair c b -> is_dist (noise_stage c b col).
Proof. intro F. apply stacked_dist. apply Forall_map. apply Forall_forall. intros en _. apply group_dist. exact F. Qed.
Lemma stage_dist c b col : fair c b -> is_dist (stage c b col).
Proof.
  intro F. unfold stage. destruct (selects_privately (c_params c) (c_public c)) eqn:Sp.
  - apply is_dist_bind; [|intro; apply is_dist_ret]. apply is_dist_independent. intros n _. apply should_keep_dist; assumption.
  - destruct (post_aggregation_thresholding (c_params c)); [|apply is_dist_ret].
    apply is_dist_independent. intros n _. apply threshold_dist. exact F.
Qed.

Lemma counts_in N n : (0 <= n <= Z.of_nat N)%Z -> In n (counts N).
Proof. intro L. unfold counts. apply in_map_iff. exists (Z.to_nat n). split; [lia|]. apply in_seq. lia. Qed.

Lemma ledger_in (c : call U P) b i qt s eb : In (i, qt, s, eb) (ledger c b) ->
  In (i, qt, s) (noised_quantities (c_params c) (c_combiners c)) /\ budget_of c b i qt = Some (s, eb).
Proof.
  unfold ledger. intro I. apply in_flat_map in I. destruct I as [[[i' qt'] s'] [I J]]. cbn [fst snd] in J.
  destruct (budget_of c b i' qt') as [[s2 eb2]|] eqn:B; [|destruct J]. destruct J as [J|[]]. inversion J; subst. split; [|exact B].
  destruct (noised_in _ _ _ _ _ I) as [cb [Ei Ip]]. unfold budget_of in B. rewrite Ei, (found_once _ _ _ (plan_quantities _ _) Ip) in B.
  destruct (find _ (shares _ _)) as [[? ?]|]; [|discriminate]. inversion B; subst. exact I.
Qed.

Lemma tree_base_in (c : call U P) i ps k : In (i, ps, k) (tree_base c) -> asks c i ps /\ In k (c_keys c).
Proof.
  unfold tree_base. intro I. apply in_concat in I. destruct I as [g [G I]]. apply in_map_iff in G. destruct G as [[i' ps'] [<- G]].
  apply in_map_iff in I. destruct I as [k' [E Ik]]. inversion E; subst. split; [apply in_trees; exact G | exact Ik].
Qed.

Lemma NoDup_map_in {A B} (f : A -> B) l : (forall x y, In x l -> In y l -> f x = f y -> x = y) -> NoDup l -> NoDup (map f l).
Proof.
  induction l as [|x l IH]; intros I N; [constructor|]. inversion N; subst. cbn [map]. constructor.
  - intro X. apply in_map_iff in X. destruct X as [y [E Iy]]. rewrite (I y x) in Iy; [contradiction | right; exact Iy | left; reflexivity | exact E].
  - apply IH; [|assumption]. intros a b Ia Ib. apply I; right; assumption.
Qed.

Lemma noise_values (c : call U P) b col N X T F : call_facts c col -> fair c b -> large_enough N X T c ->
  mixture (random_function (noise_law c b) 0%Q
     (list_prod (list_prod (list_prod (seq 0 (length (c_combiners c))) [QCount; QSum; QSquares]) (c_keys c)) X))
     (fun noise => F (map (fun s => noise (s, value_at col s)) (base c b))) =
  mixture (noise_stage c b col) F.
Proof.
  intros Fc Fb Le. assert (Nk := f_distinct _ _ Fc). assert (E := f_raw _ _ Fc).
  pose (qs := map (fun s => (s, value_at col s)) (base c b)).
  transitivity (mixture (independent (noise_law c b) qs) F).
  - rewrite <- (random_values (noise_law c b) 0%Q qs
       (list_prod (list_prod (list_prod (seq 0 (length (c_combiners c))) [QCount; QSum; QSquares]) (c_keys c)) X)).
    + apply mixture_ext. intro g. unfold qs. rewrite map_map. reflexivity.
    + unfold qs. apply FinFun.Injective_map_NoDup; [intros x y Exy; congruence|]. apply base_NoDup. exact Nk.
    + intros q Iq. unfold qs in Iq. apply in_map_iff in Iq. destruct Iq as [[[i qt] k] [<- Is]].
      unfold base in Is. apply in_concat in Is. destruct Is as [g [Ig Is]]. apply in_map_iff in Ig. destruct Ig as [[[[i' qt'] s'] eb] [<- Ie]].
      apply in_map_iff in Is. destruct Is as [k' [Ek Ik]]. cbn in Ek. inversion Ek; subst i' qt' k'. clear Ek.
      unfold used in Ie. apply filter_In in Ie. destruct Ie as [Ie _]. apply ledger_in in Ie. destruct Ie as [Ie _]. apply noised_in in Ie.
      destruct Ie as [cb [Ei _]].
      apply in_prod; [apply in_prod; [apply in_prod|]|].
      * apply in_seq. assert (Nn : nth_error (c_combiners c) i <> None) by congruence. apply nth_error_Some in Nn. lia.
      * destruct qt; cbn; tauto.
      * exact Ik.
      * unfold value_at. cbn [fst snd]. destruct (Le col E k Ik) as [_ B]. apply B.
    + intros s _. apply noise_law_dist. exact Fb.
  - unfold qs, base, noise_stage. rewrite concat_map, map_map. rewrite mixture_independent_concat, map_map. reflexivity.
Qed.

Lemma tree_values (c : call U P) b col N X T F : call_facts c col -> fair c b -> large_enough N X T c ->
  mixture (random_function (tree_law c b) []
     (list_prod (list_prod (seq 0 (length (c_combiners c))) (c_keys c)) T))
     (fun answers => F (map (fun s => answers (question_at c col s)) (tree_base c))) =
  mixture (tree_stage c b col) F.
Proof.
  intros Fc Fb Le. assert (Nk := f_distinct _ _ Fc). assert (E := f_raw _ _ Fc).
  pose (qs := map (question_at c col) (tree_base c)).
  transitivity (mixture (independent (tree_law c b) qs) F).
  - rewrite <- (random_values (tree_law c b) [] qs (list_prod (list_prod (seq 0 (length (c_combiners c))) (c_keys c)) T)).
    + apply mixture_ext. intro g. unfold qs. rewrite map_map. reflexivity.
    + unfold qs. apply NoDup_map_in; [|apply tree_base_NoDup; exact Nk].
      intros [[i ps] k] [[i' ps'] k'] I I' Eq. unfold question_at in Eq. cbn [fst snd] in Eq. inversion Eq; subst i' k'.
      apply tree_base_in in I, I'. destruct I as [[I|[[n I] ->]] _], I' as [[I'|[[n' I'] ->]] _]; congruence.
    + intros q Iq. unfold qs in Iq. apply in_map_iff in Iq. destruct Iq as [[[i ps] k] [<- Is]]. apply tree_base_in in Is. destruct Is as [Ei Ik].
      unfold question_at. cbn [fst snd]. apply in_prod; [apply in_prod|].
      * apply in_seq. assert (Nn : nth_error (c_combiners c) i <> None) by (destruct Ei as [Ei|[[n Ei] _]]; congruence). apply nth_error_Some in Nn. lia.
      * exact Ik.
      * destruct (Le col E k Ik) as [_ B]. destruct (B i) as [_ [_ [B2 B3]]]. unfold list_at.
        destruct Ei as [Ei|[[n Ei] ->]]; rewrite Ei; [exact (B2 ps Ei) | exact (B3 n Ei)].
    + intros s _. apply tree_law_dist. exact Fb.
  - unfold qs, tree_base, tree_stage. rewrite concat_map, map_map. rewrite mixture_independent_concat, map_map. reflexivity.
Qed.

Lemma Forall2_map_eq {A B C} (f : A -> C) (g : B -> C) l l' : Forall2 (fun x y => f x = g y) l l' -> map f l = map g l'.
Proof. induction 1 as [|x y l l' E _ IH]; [reflexivity|]. cbn. f_equal; assumption. Qed.

Lemma forall2_map_l {A B C} (R : B -> C -> Prop) (h : A -> B) l l' : Forall2 R (map h l) l' <-> Forall2 (fun a => R (h a)) l l'.
Proof.
  split.
  - revert l'. induction l as [|x l IH]; intros l' F; inversion F; subst; constructor; auto.
  - induction 1; cbn; constructor; auto.
Qed.

Lemma estimate_facts (c : call U P) col k : call_facts c col -> selects_privately (c_params c) (c_public c) = true ->
  (0 <= estimate (c_params c) k col <= row_count k col)%Z /\ (~ In k (map fst col) -> estimate (c_params c) k col = 0%Z).
Proof.
  intros Fc Sp. destruct (f_private _ _ Fc Sp) as [Pn [Tp Fp]]. assert (E := f_raw _ _ Fc).
  assert (Rz : ~ In k (map fst col) -> row_count k col = 0%Z) by (intro I; unfold row_count; rewrite find_none_keys by exact I; reflexivity).
  assert (R0 : (0 <= row_count k col)%Z).
  { destruct (f_run _ _ Fc) as [[Ha [Hcs [Hb [Hv [Hp [Nk _]]]]]]|[Ha [Hcs [Hb _]]]].
    - rewrite Pn in E. destruct (counts_of_run _ _ _ _ _ Ha Hcs Tp Fp Hb Hv E) as [B _]. apply B.
    - rewrite Pn in E. rewrite (proj1 (row_count_enforced _ _ _ _ _ k Hb E)). lia. }
  assert (M : exists m, max_rows_per_privacy_id (c_params c) = Some m /\ (0 < m)%Z).
  { unfold max_rows_per_privacy_id. destruct (contribution_bounds_already_enforced (c_params c)); [|exists 1%Z; split; [reflexivity | lia]].
    destruct (accepted_facts _ (f_accepted _ _ Fc)) as [_ [_ [_ Hf]]]. destruct (max_contributions (c_params c)) as [m|].
    - destruct Hf as [Pm _]. destruct (Z.eqb_spec m 0); [lia|]. eauto.
    - destruct Hf as [l0 [linf [_ [-> [_ Pl]]]]]. eauto. }
  destruct M as [m [M Pm]]. unfold estimate. rewrite M. unfold divide_and_round_up. split.
  - split; [apply Z.div_pos; lia|]. destruct (Z.eq_dec (row_count k col) 0) as [->|]; [rewrite Z.div_small; lia|].
    apply Z.div_le_upper_bound; [exact Pm|]. nia.
  - intro I. rewrite (Rz I). apply Z.div_small. lia.
Qed.

Lemma stage_values (c : call U P) b col N X T G : call_facts c col -> fair c b -> large_enough N X T c ->
  mixture (random_function (fun kn : P * Z => should_keep py c b (snd kn)) false
           (if selects_privately (c_params c) (c_public c) then list_prod (c_keys c) (counts N) else [])) (fun keep =>
  mixture (random_function (thresh_law c b) None
           (list_prod (list_prod (seq 0 (length (c_combiners c))) (c_keys c)) (counts N))) (fun noised =>
  G (map (fun k => if mem k (map fst col) then chosen c col keep noised k else None) (c_keys c)))) =
  mixture (stage c b col) G.
Proof.
  intros Fc Fb Le. assert (Nk := f_distinct _ _ Fc). assert (E := f_raw _ _ Fc).
  unfold stage, chosen. destruct (selects_privately (c_params c) (c_public c)) eqn:Sp.
  - rewrite mixture_bind.
    pose (qs := map (fun k => (k, estimate (c_params c) k col)) (c_keys c)).
    pose (G' := fun bs => G (map (fun kb => if mem (fst kb) (map fst col) then as_option (snd kb) else None) (combine (c_keys c) bs))).
    transitivity (mixture (random_function (fun kn : P * Z => should_keep py c b (snd kn)) false (list_prod (c_keys c) (counts N)))
                    (fun keep => G' (map keep qs))).
    { apply mixture_ext. intro keep. rewrite mixture_const.
      - unfold G', qs. f_equal. rewrite map_map, combine_map_self, map_map. apply map_ext. intro k. reflexivity.
      - apply is_dist_random_function. intros s _. apply thresh_law_dist. exact Fb. }
    rewrite random_values.
    2: { unfold qs. apply FinFun.Injective_map_NoDup; [intros x y Exy; congruence | exact Nk]. }
    2: { intros q Iq. unfold qs in Iq. apply in_map_iff in Iq. destruct Iq as [k [<- Ik]]. apply in_prod; [exact Ik|].
         apply counts_in. destruct (Le col E k Ik) as [B _]. destruct (estimate_facts c col k Fc Sp) as [B0 _]. lia. }
    2: { intros q _. apply should_keep_dist; assumption. }
    unfold qs. rewrite mixture_independent_map. cbn [snd]. rewrite mixture_independent_map.
    apply (mixture_independent_support _ (fun k b => ~ In k (map fst col) -> b = false)).
    + intros k w y Ik I. destruct (in_dec eq_dec k (map fst col)) as [D|D]; [right; intro D2; contradiction|].
      destruct (estimate_facts c col k Fc Sp) as [_ R0]. rewrite (R0 D) in I.
      destruct (fair_keep _ _ Fb Sp) as [_ Z0]. unfold should_keep in I. rewrite (Z0 0%Z) in I by lia.
      destruct I as [I|[I|[]]]; inversion I; subst; [left; reflexivity | right; reflexivity].
    + intros bs F2. rewrite mixture_ret. unfold G'. f_equal.
      clear -F2. induction F2 as [|k x l l' R _ IH]; [reflexivity|]. cbn [combine map fst snd]. rewrite IH. f_equal.
      destruct (mem k (map fst col)) eqn:M; [reflexivity|]. apply mem_false_iff in M. rewrite (R M). reflexivity.
  - cbn [random_function]. rewrite mixture_ret. destruct (post_aggregation_thresholding (c_params c)) eqn:Tp.
    + destruct (f_thresh _ _ Fc Tp) as [j [Ej Un]]. assert (Ji := thresh_index_spec _ j Ej Un).
      assert (Tz : forall k, exists z, (0 <= z)%Z /\ thresh_count c col k = z /\ raw_value count_of j k col = inject_Z z /\ (~ In k (map fst col) -> z = 0%Z)).
      { intro k. destruct (thresh_raw _ _ _ _ _ _ j k E Ej) as [z [A [B C]]]. exists z. split; [exact A|]. split; [|auto].
        unfold thresh_count. rewrite Ji, B. reflexivity. }
      pose (qs := map (fun k => (thresh_index (c_combiners c), k, thresh_count c col k)) (c_keys c)).
      pose (G' := fun os => G (map (fun ko => if mem (fst ko) (map fst col) then snd ko else None) (combine (c_keys c) os))).
      transitivity (mixture (random_function (thresh_law c b) None (list_prod (list_prod (seq 0 (length (c_combiners c))) (c_keys c)) (counts N)))
                      (fun noised => G' (map noised qs))).
      { apply mixture_ext. intro noised. unfold G', qs. f_equal. rewrite map_map, combine_map_self, map_map. apply map_ext. intro k. reflexivity. }
      rewrite random_values.
      2: { unfold qs. apply FinFun.Injective_map_NoDup; [intros x y Exy; congruence | exact Nk]. }
      2: { intros q Iq. unfold qs in Iq. apply in_map_iff in Iq. destruct Iq as [k [<- Ik]]. apply in_prod; [apply in_prod|].
           - apply in_seq. rewrite Ji. assert (Nn : nth_error (c_combiners c) j <> None) by congruence. apply nth_error_Some in Nn. lia.
           - exact Ik.
           - apply counts_in. destruct (Le col E k Ik) as [_ B]. destruct (B j) as [B1 _]. destruct (Tz k) as [z [A1 [A2 [A3 _]]]].
             rewrite A3 in B1. rewrite A2. split; [exact A1|]. rewrite Zle_Qle. exact B1. }
      2: { intros q _. apply thresh_law_dist. exact Fb. }
      unfold qs. rewrite mixture_independent_map. cbn [thresh_law]. rewrite mixture_independent_map.
      apply (mixture_independent_support _ (fun k o => ~ In k (map fst col) -> o = None)).
      * intros k w y Ik I. destruct (in_dec eq_dec k (map fst col)) as [D|D]; [right; intro D2; contradiction|].
        destruct (Tz k) as [z [_ [A2 [_ A4]]]]. rewrite A2, (A4 D) in I.
        destruct (fair_thresh _ _ Fb Tp 0%Z w y) as [D2|D2]; [lia | exact I | left; exact D2 | right; intros _; exact D2].
      * intros bs F2. unfold G'. f_equal.
        clear -F2. induction F2 as [|k x l l' R _ IH]; [reflexivity|]. cbn [combine map fst snd]. rewrite IH. f_equal.
        destruct (mem k (map fst col)) eqn:M; [reflexivity|]. apply mem_false_iff in M. rewrite (R M). reflexivity.
    + rewrite mixture_const by (apply is_dist_random_function; intros s _; apply thresh_law_dist; exact Fb).
      rewrite mixture_ret. f_equal. apply map_ext_in. intros k Ik. assert (M : mem k (map fst col) = true) by (apply mem_true_iff; apply (f_public _ _ Fc Sp Tp); exact Ik).
      rewrite M. reflexivity.
Qed.

Lemma run_call_stages (c : call U P) b col N X T F : call_facts c col -> fair c b -> large_enough N X T c ->
  mixture (run_call py N X T c b) F =
  mixture (dbind (stage c b col) (fun sel => dbind (noise_stage c b col) (fun ys => dbind (tree_stage c b col) (fun zs => dret (shape c b sel ys zs))))) F.
Proof.
  intros Fc Fb Le. unfold run_call. cbv zeta. rewrite !mixture_bind.
  rewrite <- (stage_values c b col N X T (fun sel => mixture (dbind (noise_stage c b col) (fun ys => dbind (tree_stage c b col) (fun zs => dret (shape c b sel ys zs)))) F) Fc Fb Le).
  apply mixture_ext. intro keep. rewrite mixture_bind.
  pose (sel := fun noised => map (fun k => if mem k (map fst col) then chosen c col keep noised k else None) (c_keys c)).
  transitivity (mixture (random_function (noise_law c b) 0%Q
     (list_prod (list_prod (list_prod (seq 0 (length (c_combiners c))) [QCount; QSum; QSquares]) (c_keys c)) X)) (fun noise =>
     mixture (random_function (thresh_law c b) None (list_prod (list_prod (seq 0 (length (c_combiners c))) (c_keys c)) (counts N))) (fun noised =>
     mixture (random_function (tree_law c b) [] (list_prod (list_prod (seq 0 (length (c_combiners c))) (c_keys c)) T)) (fun answers =>
       F (shape c b (sel noised)
            (map (fun s => noise (s, value_at col s)) (base c b))
            (map (fun s => answers (question_at c col s)) (tree_base c))))))).
  { apply mixture_ext. intro noise. rewrite mixture_bind. apply mixture_ext. intro noised. rewrite mixture_bind. apply mixture_ext. intro answers.
    rewrite mixture_ret. f_equal. apply aggregate_seen; [exact Fc | apply (fair_length _ _ Fb)]. }
  rewrite mixture_swap. apply mixture_ext. intro noised. fold (sel noised). rewrite mixture_bind.
  rewrite <- (noise_values c b col N X T (fun ys => mixture (dbind (tree_stage c b col) (fun zs => dret (shape c b (sel noised) ys zs))) F) Fc Fb Le).
  apply mixture_ext. intro noise. rewrite mixture_bind.
  rewrite <- (tree_values c b col N X T (fun zs => mixture (dret (shape c b (sel noised) (map (fun s => noise (s, value_at col s)) (base c b)) zs)) F) Fc Fb Le).
  apply mixture_ext. intro answers. rewrite mixture_ret. reflexivity.
Qed.
End Stages.
