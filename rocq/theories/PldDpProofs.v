(** Lemmas for C71: a call with a PLD accountant as independent releases. *)
From Coq Require Import String List ZArith QArith Qreals Qabs Reals Bool Permutation Lia Lqa Lra.
From Verif Require Import Base BaseLemmas BackendModel ListLemmas BackendSpec BackendProofs ParamsModel SensModel CombinerModel CombinerProofs3 EngineModel EngineSpec
  EngineProofs EngineProofs2 EngineProofs3 EngineProofs4 EngineProofs5 EngineProps EngineProps2 BudgetModel VectorModel ExpMechProofs LaplaceModel LaplaceSpec LaplaceProofs
  SelectModel SelectSpec SelectProofs SelectProofs2 SelectProofs3 SelectProps WrapperModel EnforcedSpec EnforcedProofs EnforcedProofs2 EnforcedProps QuantileModel QuantileProps DistSpec DistProofs DpModel DpSpec DpProofs DpProofs2 DpProofs3 DpProofs4 DpProofs5
  PldModel PldProofs PldDpModel PldDpSpec.
Import ListNotations.
Local Open Scope R_scope.
Local Close Scope Q_scope.

(** ** Distributions *)
Lemma independent_same {A A' B} (f : A -> dist B) (g : A' -> dist B) {T} (h : T -> A) (h' : T -> A') ts :
  (forall t, In t ts -> f (h t) = g (h' t)) -> independent f (map h ts) = independent g (map h' ts).
Proof.
  induction ts as [|t ts IH]; intro E; [reflexivity|]. cbn [map independent]. rewrite (E t) by (left; reflexivity).
  rewrite IH by (intros; apply E; right; assumption). reflexivity.
Qed.

Lemma mixture_stacked {B} (ds : list (dist (list B))) : forall F,
  mixture (stacked ds) F = mixture (independent (fun d => d) ds) (fun yss => F (concat yss)).
Proof.
  induction ds as [|d ds IH]; intro F; [reflexivity|]. rewrite mixture_stacked_cons, mixture_independent_cons.
  apply mixture_ext. intro ys. rewrite IH. reflexivity.
Qed.

Lemma independent_lengths {A B} (f : A -> dist B) xs F G : (forall ys, length ys = length xs -> F ys = G ys) ->
  mixture (independent f xs) F = mixture (independent f xs) G.
Proof.
  intro E. apply (mixture_independent_support f (fun _ _ => True)); [right; exact I|].
  intros ys F2. apply E. symmetry. exact (forall2_len _ _ _ F2).
Qed.

Section Parts.
Context {U P : Type} `{EqDec U} `{EqDec P} (rp : real_pydp).

Definition dummy (c : call U P) : budgets := Budgets (repeat (0, 0)%Q (list_sum (map requests (c_combiners c)))) (0, 0)%Q.
Lemma dummy_enough c : enough_budgets c (dummy c).
Proof. unfold enough_budgets, dummy. cbn. apply repeat_length. Qed.

(** The combiners of a call. *)
Definition four (cb : combiner) : Prop :=
  match cb with CCount | CPidCount | CSum _ _ _ | CMean _ _ _ => True | _ => False end.
Lemma four_combiners (c : call U P) col : valid_pld_call c -> call_facts c col -> Forall four (c_combiners c).
Proof.
  intros [_ [M Tp]] F. apply Forall_forall. intros cb I. apply In_nth_error in I. destruct I as [i Ei]. rewrite Forall_forall in M.
  assert (Or := nth_origin _ _ _ _ (f_combiners _ _ F) Ei). assert (K := nth_constructed _ _ _ _ (f_combiners _ _ F) Ei).
  destruct cb as [| | |b lo hi|lo hi names|lo hi names|ps|n]; try exact Logic.I.
  - exact (f_no_thresh _ _ F Tp _ Ei).
  - cbn [origin] in Or. apply has_In in Or; [|discriminate]. apply M in Or. cbn in Or. intuition discriminate.
  - cbn [origin constructed] in Or, K. destruct ps as [|x ps]; [congruence|].
    assert (I : In x (percentiles (metrics (c_params c)))) by (rewrite <- K; left; reflexivity).
    unfold percentiles in I. apply in_flat_map in I. destruct I as [m [Im I]]. destruct m; try (exfalso; exact I).
    apply M in Im. cbn in Im. intuition discriminate.
  - cbn [origin] in Or. apply has_In in Or; [|discriminate]. apply M in Or. cbn in Or. intuition discriminate.
Qed.

Lemma no_trees (c : call U P) : Forall four (c_combiners c) -> tree_base c = [].
Proof.
  intro F. unfold tree_base. enough (trees c = []) as -> by reflexivity. unfold trees.
  destruct (flat_map _ _) as [|[i ps] l] eqn:E; [reflexivity|]. exfalso.
  assert (I : In (i, ps) (trees c)) by (unfold trees; rewrite E; left; reflexivity). apply in_trees in I.
  rewrite Forall_forall in F. destruct I as [I|[[n I] _]]; apply nth_error_In, F in I; exact I.
Qed.

(** The quantities with noise, one for each budget request of the combiners. *)
Definition quantities (c : call U P) : list (nat * quantity) := map fst (noised_quantities (c_params c) (c_combiners c)).

Lemma used_quantities (c : call U P) : Forall four (c_combiners c) -> map (fun en => fst (fst en)) (used c (dummy c)) = quantities c.
Proof.
  intro Fo. unfold used.
  assert (L : map (fun en => fst (fst en)) (ledger c (dummy c)) = quantities c).
  { unfold ledger, quantities.
    assert (G : forall i qt s, In (i, qt, s) (noised_quantities (c_params c) (c_combiners c)) -> exists eb, budget_of c (dummy c) i qt = Some (s, eb)).
    { intros i qt s I. destruct (noised_in _ _ _ _ _ I) as [cb [Ei Ip]]. eapply budget_of_some; [apply dummy_enough | exact Ei | exact Ip]. }
    induction (noised_quantities (c_params c) (c_combiners c)) as [|[[i qt] s] l IH]; [reflexivity|].
    cbn [flat_map fst snd]. destruct (G i qt s) as [eb ->]; [left; reflexivity|]. cbn [app map fst]. f_equal. apply IH.
    intros i' qt' s' I. apply G. right. exact I. }
  rewrite <- L. f_equal. apply filter_all. intros [[[i qt] s] eb] I. cbn [fst]. apply ledger_in in I. destruct I as [I _].
  apply noised_in in I. destruct I as [cb [Ei _]]. unfold is_thresh. rewrite Ei. apply nth_error_In in Ei. rewrite Forall_forall in Fo. apply Fo in Ei.
  destruct cb; try reflexivity. destruct Ei.
Qed.

Lemma positions cs p : forall pre, Forall four cs ->
  map (fun iq => position (pre ++ cs) (fst iq) (snd iq))
      (flat_map (fun ic => map (fun qs : quantity * result sens => (fst ic, fst qs)) (noise_plan p (snd ic))) (combine (seq (length pre) (length cs)) cs)) =
  seq (list_sum (map requests pre)) (list_sum (map requests cs)).
Proof.
  induction cs as [|cb cs IH]; intros pre F; [reflexivity|]. inversion F as [|? ? F1 F2]; subst.
  cbn [length seq combine flat_map fst snd]. rewrite map_app.
  assert (Hpre : position (pre ++ cb :: cs) (length pre) QCount = list_sum (map requests pre)).
  { unfold position. rewrite firstn_app, Nat.sub_diag, firstn_all, app_nil_r, nth_error_app2, Nat.sub_diag by lia. cbn [nth_error]. destruct cb; lia. }
  assert (Hsum : position (pre ++ cb :: cs) (length pre) QSum = (list_sum (map requests pre) + match cb with CMean _ _ _ => 1 | _ => 0 end)%nat).
  { unfold position. rewrite firstn_app, Nat.sub_diag, firstn_all, app_nil_r, nth_error_app2, Nat.sub_diag by lia. cbn [nth_error]. destruct cb; lia. }
  specialize (IH (pre ++ [cb]) F2). rewrite <- app_assoc in IH. cbn [app] in IH. rewrite app_length in IH. cbn [length] in IH.
  replace (length pre + 1)%nat with (S (length pre)) in IH by lia. rewrite IH, map_app, list_sum_app. clear IH.
  change (list_sum (map requests (cb :: cs))) with (requests cb + list_sum (map requests cs))%nat. rewrite seq_app.
  f_equal.
  - destruct cb; try (exfalso; exact F1); cbn [noise_plan map fst snd requests seq]; rewrite ?Hpre, ?Hsum; repeat (f_equal; try lia).
  - f_equal. cbn. destruct cb; cbn [requests]; lia.
Qed.

Lemma quantity_positions (c : call U P) : Forall four (c_combiners c) ->
  map (fun iq => position (c_combiners c) (fst iq) (snd iq)) (quantities c) = seq 0 (list_sum (map requests (c_combiners c))).
Proof.
  intro F. etransitivity; [|exact (positions (c_combiners c) (c_params c) [] F)]. cbn [app length]. f_equal.
  unfold quantities, noised_quantities. rewrite flat_map_concat_map, concat_map, map_map, flat_map_concat_map. f_equal.
  apply map_ext. intros [i cb]. rewrite map_map. reflexivity.
Qed.

(** ** What is released *)
Definition std_law (c : call U P) (ms : list pmech) (s : nat * quantity * P * Q) : dist Q :=
  match s with (i, qt, k, x) => add_std_noise rp c ms i qt x end.
Definition coin (c : call U P) (ms : list pmech) (n : Z) : dist bool :=
  let p := keep_probability rp c ms n in [(p, true); (1 - p, false)].
Definition noise_part (c : call U P) (ms : list pmech) (col : list (P * cacc)) (iq : nat * quantity) : dist (list Q) :=
  independent (std_law c ms) (map (fun k => (iq, k, value_at col (iq, k))) (c_keys c)).
Definition bit (b : bool) : Q := if b then 1%Q else 0%Q.
Definition unbit (q : Q) : option Q := if Qeq_bool q 0 then None else Some 0%Q.
Definition keep_part (c : call U P) (ms : list pmech) (col : list (P * cacc)) : dist (list Q) :=
  dbind (independent (coin c ms) (map (fun k => estimate (c_params c) k col) (c_keys c))) (fun bs => dret (map bit bs)).
Definition parts (c : call U P) (ms : list pmech) (col : list (P * cacc)) : list (dist (list Q)) :=
  (map (noise_part c ms col) (quantities c) ++ if selects_privately (c_params c) (c_public c) then [keep_part c ms col] else [])%list.
Definition finish (c : call U P) (yss : list (list Q)) : outcome P :=
  let n := length (quantities c) in
  shape c (dummy c)
    (if selects_privately (c_params c) (c_public c) then map unbit (nth n yss []) else map (fun _ => Some 0%Q) (c_keys c))
    (concat (firstn n yss)) [].

Definition sane (c : call U P) (ms : list pmech) : Prop :=
  distributions rp /\
  (selects_privately (c_params c) (c_public c) = true ->
     (forall n, 0 <= keep_probability rp c ms n <= 1) /\ (forall n, (n <= 0)%Z -> keep_probability rp c ms n = 0)).

Lemma std_law_dist c ms s : distributions rp -> is_dist (std_law c ms s).
Proof.
  intros [D1 D2]. destruct s as [[[i qt] k] x]. cbn [std_law]. unfold add_std_noise.
  destruct (mechanism_of c ms i qt) as [[eps l1|std]|]; [apply D1 | apply D2 | apply is_dist_ret].
Qed.
Lemma coin_dist c ms n : selects_privately (c_params c) (c_public c) = true -> sane c ms -> is_dist (coin c ms n).
Proof.
  intros Sp [_ Hk]. destruct (Hk Sp) as [K _]. specialize (K n). unfold coin. split.
  - constructor; [cbn in *; lra|]. constructor; [cbn in *; lra | constructor].
  - cbn. lra.
Qed.

Lemma pld_run_parts (c : call U P) ms col N X F : valid_pld_call c -> call_facts c col -> sane c ms -> large_enough N X [] c ->
  mixture (run_pld_call rp N X c ms) F = mixture (independent (fun d => d) (parts c ms col)) (fun yss => F (finish c yss)).
Proof.
  intros V Fc Sa Le. assert (Fo := four_combiners c col V Fc). assert (Nk := f_distinct _ _ Fc). assert (E := f_raw _ _ Fc).
  assert (Tp : post_aggregation_thresholding (c_params c) = false) by apply V.
  assert (Bq : base c (dummy c) = concat (map (fun iq => map (pair iq) (c_keys c)) (quantities c))).
  { unfold base. rewrite <- (used_quantities c Fo), map_map. reflexivity. }
  (* the noise *)
  assert (Hn : forall G, mixture (random_function (std_law c ms) 0%Q
     (list_prod (list_prod (list_prod (seq 0 (length (c_combiners c))) [QCount; QSum; QSquares]) (c_keys c)) X))
     (fun noise => G (map (fun s => noise (s, value_at col s)) (base c (dummy c)))) =
     mixture (independent (fun d => d) (map (noise_part c ms col) (quantities c))) (fun yss => G (concat yss))).
  { intro G. pose (qs := map (fun s => (s, value_at col s)) (base c (dummy c))).
    transitivity (mixture (independent (std_law c ms) qs) G).
    - rewrite <- (random_values (std_law c ms) 0%Q qs
         (list_prod (list_prod (list_prod (seq 0 (length (c_combiners c))) [QCount; QSum; QSquares]) (c_keys c)) X)).
      + apply mixture_ext. intro g. unfold qs. rewrite map_map. reflexivity.
      + unfold qs. apply FinFun.Injective_map_NoDup; [intros x y Exy; congruence|]. apply base_NoDup. exact Nk.
      + intros q Iq. unfold qs in Iq. rewrite Bq in Iq. apply in_map_iff in Iq. destruct Iq as [[[i qt] k] [<- Is]].
        apply in_concat in Is. destruct Is as [g [Ig Is]]. apply in_map_iff in Ig. destruct Ig as [[i' qt'] [<- Ie]].
        apply in_map_iff in Is. destruct Is as [k' [Ek Ik]]. inversion Ek; subst i' qt' k'. clear Ek.
        unfold quantities in Ie. apply in_map_iff in Ie. destruct Ie as [[[i' qt'] s] [Ee Ie]]. cbn in Ee. inversion Ee; subst i' qt'.
        apply noised_in in Ie. destruct Ie as [cb [Ei _]].
        apply in_prod; [apply in_prod; [apply in_prod|]|].
        * apply in_seq. assert (Nn : nth_error (c_combiners c) i <> None) by congruence. apply nth_error_Some in Nn. lia.
        * destruct qt; cbn; tauto.
        * exact Ik.
        * unfold value_at. cbn [fst snd]. destruct (Le col E k Ik) as [_ B]. apply B.
      + intros s _. apply std_law_dist. apply Sa.
    - unfold qs. rewrite Bq, concat_map, map_map. rewrite mixture_independent_concat, mixture_stacked, map_map.
      rewrite !mixture_independent_map. apply mixture_independent_ext. intros iq _. unfold noise_part. rewrite map_map. reflexivity. }
  (* partition selection *)
  assert (Hs : forall G, mixture (random_function (fun kn : P * Z => coin c ms (snd kn)) false
           (if selects_privately (c_params c) (c_public c) then list_prod (c_keys c) (counts N) else []))
           (fun keep => G (map (fun k => if mem k (map fst col) then chosen c col keep (fun _ => None) k else None) (c_keys c))) =
     mixture (independent (fun d => d) (if selects_privately (c_params c) (c_public c) then [keep_part c ms col] else []))
       (fun yss => G (if selects_privately (c_params c) (c_public c) then map unbit (nth 0 yss []) else map (fun _ => Some 0%Q) (c_keys c)))).
  { intro G. unfold chosen. destruct (selects_privately (c_params c) (c_public c)) eqn:Sp.
    - rewrite mixture_independent_cons. change (independent (fun d : dist (list Q) => d) []) with (dret ([] : list (list Q))).
      unfold keep_part. rewrite mixture_bind.
      pose (qs := map (fun k => (k, estimate (c_params c) k col)) (c_keys c)).
      pose (G' := fun bs => G (map (fun kb => if mem (fst kb) (map fst col) then as_option (snd kb) else None) (combine (c_keys c) bs))).
      transitivity (mixture (random_function (fun kn : P * Z => coin c ms (snd kn)) false (list_prod (c_keys c) (counts N)))
                      (fun keep => G' (map keep qs))).
      { apply mixture_ext. intro keep. unfold G', qs. f_equal. rewrite map_map, combine_map_self, map_map. apply map_ext. intro k. reflexivity. }
      rewrite random_values.
      2: { unfold qs. apply FinFun.Injective_map_NoDup; [intros x y Exy; congruence | exact Nk]. }
      2: { intros q Iq. unfold qs in Iq. apply in_map_iff in Iq. destruct Iq as [k [<- Ik]]. apply in_prod; [exact Ik|].
           apply counts_in. destruct (Le col E k Ik) as [B _]. destruct (estimate_facts c col k Fc Sp) as [B0 _]. lia. }
      2: { intros q _. apply coin_dist; assumption. }
      unfold qs. rewrite mixture_independent_map. cbn [snd]. rewrite mixture_independent_map.
      apply (mixture_independent_support _ (fun k b => ~ In k (map fst col) -> b = false)).
      + intros k w y Ik I. destruct (in_dec eq_dec k (map fst col)) as [D|D]; [right; intro D2; contradiction|].
        destruct (estimate_facts c col k Fc Sp) as [_ R0]. rewrite (R0 D) in I.
        destruct (proj2 Sa Sp) as [_ Z0]. unfold coin in I. rewrite (Z0 0%Z) in I by lia.
        destruct I as [I|[I|[]]]; inversion I; subst; [left; reflexivity | right; reflexivity].
      + intros bs F2. rewrite !mixture_ret. unfold G'. f_equal. cbn [nth]. rewrite map_map.
        clear -F2. induction F2 as [|k x l l' R _ IH]; [reflexivity|]. cbn [combine map fst snd]. rewrite IH. f_equal.
        destruct (mem k (map fst col)) eqn:M; [destruct x; reflexivity|]. apply mem_false_iff in M. rewrite (R M). reflexivity.
    - cbn [random_function independent]. rewrite !mixture_ret. f_equal. apply map_ext_in. intros k Ik.
      assert (M : mem k (map fst col) = true) by (apply mem_true_iff; apply (f_public _ _ Fc Sp Tp); exact Ik).
      rewrite M, Tp. reflexivity. }
  unfold run_pld_call. cbv zeta. rewrite mixture_bind.
  pose (sel := fun yss : list (list Q) => if selects_privately (c_params c) (c_public c) then map unbit (nth 0 yss []) else map (fun _ => Some 0%Q) (c_keys c)).
  transitivity (mixture (independent (fun d => d) (map (noise_part c ms col) (quantities c))) (fun yss =>
     mixture (independent (fun d => d) (if selects_privately (c_params c) (c_public c) then [keep_part c ms col] else [])) (fun zss =>
       F (shape c (dummy c) (sel zss) (concat yss) [])))).
  - rewrite mixture_swap. unfold sel.
    rewrite <- (Hs (fun s => mixture (independent (fun d => d) (map (noise_part c ms col) (quantities c))) (fun yss => F (shape c (dummy c) s (concat yss) [])))).
    apply mixture_ext. intro keep. rewrite mixture_bind.
    rewrite <- (Hn (fun ys => F (shape c (dummy c) (map (fun k => if mem k (map fst col) then chosen c col keep (fun _ => None) k else None) (c_keys c)) ys []))).
    apply mixture_ext. intro noise. rewrite mixture_ret. f_equal.
    assert (A := aggregate_seen c (dummy c) col keep noise (fun _ => None) (fun _ => []) Fc (dummy_enough c)).
    rewrite (no_trees c Fo) in A. exact A.
  - unfold parts. rewrite mixture_independent_app. apply independent_lengths. intros yss Ly. rewrite map_length in Ly.
    apply mixture_ext. intro zss. f_equal. unfold finish, sel. rewrite <- Ly, app_nth2, Nat.sub_diag by lia.
    rewrite firstn_app, Nat.sub_diag, firstn_all, app_nil_r. reflexivity.
Qed.
End Parts.
