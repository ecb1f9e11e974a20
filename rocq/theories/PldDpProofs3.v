(** Lemmas for C71: all the calls together. *)
From Coq Require Import String List ZArith QArith Qreals Qabs Reals Bool Permutation Lia Lqa Lra.
From Verif Require Import Base BaseLemmas BackendModel ListLemmas BackendSpec BackendProofs ParamsModel SensModel CombinerModel CombinerProofs3 EngineModel EngineSpec
  EngineProofs EngineProofs2 EngineProofs3 EngineProofs4 EngineProofs5 EngineProps EngineProps2 BudgetModel VectorModel ExpMechProofs BudgetSpec LaplaceModel LaplaceSpec LaplaceProofs
  SelectModel SelectSpec SelectProofs SelectProofs2 SelectProofs3 SelectProps WrapperModel EnforcedSpec EnforcedProofs EnforcedProofs2 EnforcedProps QuantileModel QuantileProps DistSpec DistProofs DpModel DpSpec DpProofs DpProofs2 DpProofs3 DpProofs4 DpProofs5
  PldModel PldProofs PldDpModel PldDpSpec PldDpProofs PldDpProofs2.
Import ListNotations.
Local Open Scope R_scope.
Local Close Scope Q_scope.

Section Calls.
Context {U P : Type} `{EqDec U} `{EqDec P} (rp : real_pydp).

Lemma valid_pld_forget (u : U) (c : call U P) : valid_pld_call c -> valid_pld_call (forget u c).
Proof. intros [V [M T]]. split; [apply forget_valid; exact V|]. split; assumption. Qed.

Lemma quantities_length (c : call U P) : Forall four (c_combiners c) -> length (quantities c) = list_sum (map requests (c_combiners c)).
Proof.
  intro F. assert (Q := quantity_positions c F). apply (f_equal (@length nat)) in Q. rewrite map_length, seq_length in Q. exact Q.
Qed.

Lemma nth_repeat_some {A} (a x : A) n i : nth_error (repeat a n) i = Some x -> x = a.
Proof. intro E. apply nth_error_In in E. apply repeat_spec in E. exact E. Qed.

Lemma types_at (c : call U P) (l : list mech) i m : Forall four (c_combiners c) -> map m_type l = map req_type (call_requests c) ->
  nth_error l i = Some m ->
  (i < list_sum (map requests (c_combiners c)) /\ m_type m = mech_of (noise_kind (c_params c)) \/
   i = list_sum (map requests (c_combiners c)) /\ selects_privately (c_params c) (c_public c) = true /\ m_type m = GENERIC)%nat.
Proof.
  intros F T E. rewrite (request_types c F) in T. assert (Et := map_nth_error m_type i l E). rewrite T in Et.
  set (n := list_sum (map requests (c_combiners c))) in *. destruct (Nat.lt_ge_cases i n) as [L|L].
  - left. split; [exact L|]. rewrite nth_error_app1 in Et by (rewrite repeat_length; exact L). exact (nth_repeat_some _ _ _ _ Et).
  - right. rewrite nth_error_app2, repeat_length in Et by (rewrite repeat_length; exact L).
    destruct (selects_privately (c_params c) (c_public c)); [|destruct (i - n)%nat; discriminate].
    destruct (i - n)%nat as [|j] eqn:D; cbn in Et; [|destruct j; discriminate]. split; [lia|]. split; [reflexivity|]. congruence.
Qed.

Lemma requests_length (c : call U P) : Forall four (c_combiners c) ->
  length (call_requests c) = (list_sum (map requests (c_combiners c)) + if selects_privately (c_params c) (c_public c) then 1 else 0)%nat.
Proof.
  intro F. assert (T := request_types c F). apply (f_equal (@length mech_type)) in T. rewrite map_length, app_length, repeat_length in T.
  rewrite T. destruct (selects_privately _ _); reflexivity.
Qed.

Lemma is_sane (c : call U P) col te td h l : distributions rp -> keep_private rp -> 0 < te -> 0 <= td -> 0 < h -> Forall usable l ->
  call_facts c col -> Forall four (c_combiners c) -> map m_type l = map req_type (call_requests c) ->
  sane rp c (map (final te td h) l).
Proof.
  intros D Hk Pt Pd Ph Us Fc Fo T. split; [exact D|]. intro Sp.
  assert (Ln := f_equal (@length mech_type) T). rewrite !map_length, (requests_length c Fo), Sp in Ln.
  destruct (nth_error l (list_sum (map requests (c_combiners c)))) as [m|] eqn:Em; [|apply nth_error_None in Em; lia].
  assert (Um : usable m) by (rewrite Forall_forall in Us; apply Us; apply nth_error_In in Em; exact Em).
  destruct (types_at c l _ m Fo T Em) as [[X _]|[_ [_ Tm]]]; [lia|].
  destruct (keep_strategy rp c col te td h (map (final te td h) l) m Hk Pt Pd Ph Um Tm Fc Sp (map_nth_error _ _ _ Em)) as [l0 [_ [_ [K1 [K2 _]]]]].
  split; assumption.
Qed.

Lemma prob_bits (d : dist (list bool)) E : prob (dbind d (fun bs => dret (map bit bs))) E = prob d (fun bs => E (map bit bs)).
Proof. unfold prob. rewrite mixture_bind. apply mixture_ext. intro bs. rewrite mixture_ret. reflexivity. Qed.

Lemma nth_parts (c : call U P) ms col i a : nth_error (parts rp c ms col) i = Some a ->
  (exists iq, nth_error (quantities c) i = Some iq /\ a = noise_part rp c ms col iq) \/
  (i = length (quantities c) /\ selects_privately (c_params c) (c_public c) = true /\ a = keep_part rp c ms col).
Proof.
  unfold parts. intro E. destruct (Nat.lt_ge_cases i (length (quantities c))) as [L|L].
  - left. rewrite nth_error_app1 in E by (rewrite map_length; exact L). destruct (nth_error (quantities c) i) as [iq|] eqn:Q.
    + rewrite (map_nth_error _ _ _ Q) in E. exists iq. split; [reflexivity | congruence].
    + apply nth_error_None in Q. lia.
  - right. rewrite nth_error_app2, map_length in E by (rewrite map_length; exact L).
    destruct (selects_privately (c_params c) (c_public c)); [|destruct (i - length (quantities c))%nat; discriminate].
    destruct (i - length (quantities c))%nat as [|j] eqn:D; cbn in E; [|destruct j; discriminate]. split; [lia|]. split; [reflexivity | congruence].
Qed.

Lemma parts_served (c : call U P) u col col' te td h l i m a b : distributions rp -> keep_private rp -> 0 < te -> 0 <= td -> 0 < h -> Forall usable l ->
  call_facts c col -> call_facts (forget u c) col' -> Forall four (c_combiners c) -> map m_type l = map req_type (call_requests c) ->
  nth_error l i = Some m -> nth_error (parts rp c (map (final te td h) l) col) i = Some a ->
  nth_error (parts rp (forget u c) (map (final te td h) l) col') i = Some b ->
  served rp te td h m a b.
Proof.
  intros D Hk Pt Pd Ph Us Fc Fc' Fo T Em Ea Eb. assert (Um : usable m) by (rewrite Forall_forall in Us; apply Us; apply nth_error_In in Em; exact Em).
  assert (Sa := is_sane c col te td h l D Hk Pt Pd Ph Us Fc Fo T).
  assert (Sa' := is_sane (forget u c) col' te td h l D Hk Pt Pd Ph Us Fc' Fo T).
  assert (Ql := quantities_length c Fo).
  destruct (types_at c l i m Fo T Em) as [[Li Tm]|[Li [Sp Tm]]].
  - apply nth_parts in Ea, Eb. destruct Ea as [[iq [Eq ->]]|[X _]]; [|lia]. destruct Eb as [[iq' [Eq' ->]]|[X _]]; [|change (quantities (forget u c)) with (quantities c) in X; lia].
    change (quantities (forget u c)) with (quantities c) in Eq'. rewrite Eq in Eq'. inversion Eq'; subst iq'. clear Eq'. destruct iq as [i0 qt].
    assert (Po : position (c_combiners c) i0 qt = i).
    { assert (Q := quantity_positions c Fo). assert (N := map_nth_error (fun iq => position (c_combiners c) (fst iq) (snd iq)) _ _ Eq). rewrite Q in N.
      cbn [fst snd] in N. apply (nth_error_nth _ _ 0%nat) in N. rewrite seq_nth in N by exact Li. cbn in N. congruence. }
    assert (Iq := nth_error_In _ _ Eq). unfold quantities in Iq. apply in_map_iff in Iq. destruct Iq as [[[i1 qt1] s] [E1 Iq]]. cbn in E1. inversion E1; subst i1 qt1.
    apply (noise_served rp c u col col' te td h (map (final te td h) l) m i0 qt s); try assumption.
    rewrite Po. apply map_nth_error. exact Em.
  - apply nth_parts in Ea, Eb. destruct Ea as [[iq [Eq _]]|[_ [_ ->]]]; [assert (X : nth_error (quantities c) i <> None) by congruence; apply nth_error_Some in X; lia|].
    destruct Eb as [[iq [Eq _]]|[_ [_ ->]]];
      [change (quantities (forget u c)) with (quantities c) in Eq; assert (X : nth_error (quantities c) i <> None) by congruence; apply nth_error_Some in X; lia|].
    subst i. destruct (keep_strategy rp c col te td h (map (final te td h) l) m Hk Pt Pd Ph Um Tm Fc Sp (map_nth_error _ _ _ Em)) as [l0 [E0 [Hm [K1 [K2 K3]]]]].
    unfold served. rewrite Tm. unfold keep_part. split; [|split].
    + apply is_dist_bind; [|intro; apply is_dist_ret]. apply is_dist_independent. intros n _. apply coin_dist; assumption.
    + apply is_dist_bind; [|intro; apply is_dist_ret]. apply is_dist_independent. intros n _. apply coin_dist; assumption.
    + intro E. rewrite !prob_bits. change (coin rp (forget u c) (map (final te td h) l)) with (coin rp c (map (final te td h) l)).
      unfold coin. cbv zeta. rewrite !kept_prob. apply K3. cbn [forget c_params c_keys]. apply neighbouring_counts.
      * intro k. apply (estimate_facts (forget u c) col' k Fc' Sp).
      * apply (estimate_influence c u col col' l0 Fc Fc' Hm E0).
      * apply (estimate_influence c u col col' l0 Fc Fc' Hm E0).
Qed.

(** Requests with what is released with them, on both datasets. *)
Definition releases := list (mech * (dist (list Q) * dist (list Q))).
Definition left_of (e : mech * (dist (list Q) * dist (list Q))) : dist (list Q) := fst (snd e).
Definition right_of (e : mech * (dist (list Q) * dist (list Q))) : dist (list Q) := snd (snd e).
Definition all_served (te td h : R) (L : releases) : Prop := Forall (fun e => served rp te td h (fst e) (left_of e) (right_of e)) L.

Lemma map_snd_combine {A B} (l : list A) (l' : list B) : length l = length l' -> map snd (combine l l') = l'.
Proof. revert l'. induction l as [|x l IH]; intros [|y l'] L; try discriminate; [reflexivity|]. cbn. f_equal. apply IH. cbn in L. lia. Qed.

Lemma call_served (c : call U P) u N X te td h l : distributions rp -> keep_private rp -> 0 < te -> 0 <= td -> 0 < h -> Forall usable l ->
  valid_pld_call c -> large_enough N X [] c -> large_enough N X [] (forget u c) -> map m_type l = map req_type (call_requests c) ->
  exists (L : releases) (fin : list (list Q) -> outcome P), map fst L = l /\ all_served te td h L /\
    (forall F, mixture (run_pld_call rp N X c (map (final te td h) l)) F = mixture (independent left_of L) (fun yss => F (fin yss))) /\
    (forall F, mixture (run_pld_call rp N X (forget u c) (map (final te td h) l)) F = mixture (independent right_of L) (fun yss => F (fin yss))).
Proof.
  intros D Hk Pt Pd Ph Us V Le Le' T. assert (V' := valid_pld_forget u c V).
  destruct (valid_call_facts c (proj1 V)) as [col Fc]. destruct (valid_call_facts (forget u c) (proj1 V')) as [col' Fc'].
  assert (Fo := four_combiners c col V Fc). assert (Ql := quantities_length c Fo).
  assert (Ln := f_equal (@length mech_type) T). rewrite !map_length, (requests_length c Fo) in Ln.
  set (ms := map (final te td h) l). set (ps := parts rp c ms col). set (ps' := parts rp (forget u c) ms col').
  assert (Lp : length ps = length l). { unfold ps, parts. rewrite app_length, map_length, Ql, Ln. destruct (selects_privately _ _); reflexivity. }
  assert (Lp' : length ps' = length l).
  { unfold ps', parts. change (quantities (forget u c)) with (quantities c). cbn [forget c_params c_public].
    rewrite app_length, map_length, Ql, Ln. destruct (selects_privately _ _); reflexivity. }
  exists (combine l (combine ps ps')), (finish c).
  assert (Lc : length (combine ps ps') = length l) by (rewrite combine_length; lia).
  split; [apply combine_fst; exact Lc|]. split; [|split].
  - apply Forall_forall. intros e I. apply In_nth_error in I. destruct I as [i I]. destruct e as [m [a b]].
    apply nth_combine in I. destruct I as [Em I]. apply nth_combine in I. destruct I as [Ea Eb].
    cbn [fst]. exact (parts_served c u col col' te td h l i m a b D Hk Pt Pd Ph Us Fc Fc' Fo T Em Ea Eb).
  - intro F. rewrite (pld_run_parts rp c ms col N X F V Fc (is_sane c col te td h l D Hk Pt Pd Ph Us Fc Fo T) Le). fold ps.
    transitivity (mixture (independent (fun d => d) (map left_of (combine l (combine ps ps')))) (fun yss => F (finish c yss))).
    + f_equal. f_equal. unfold left_of. rewrite <- (map_map snd fst), map_snd_combine by (symmetry; exact Lc). symmetry. apply combine_fst. lia.
    + rewrite mixture_independent_map. reflexivity.
  - intro F. rewrite (pld_run_parts rp (forget u c) ms col' N X F V' Fc' (is_sane (forget u c) col' te td h l D Hk Pt Pd Ph Us Fc' Fo T) Le'). fold ps'.
    change (finish (forget u c)) with (finish c).
    transitivity (mixture (independent (fun d => d) (map right_of (combine l (combine ps ps')))) (fun yss => F (finish c yss))).
    + f_equal. f_equal. unfold right_of. rewrite <- (map_map snd snd), map_snd_combine by (symmetry; exact Lc). symmetry. apply map_snd_combine. lia.
    + rewrite mixture_independent_map. reflexivity.
Qed.

Lemma calls_served u N X te td h : distributions rp -> keep_private rp -> 0 < te -> 0 <= td -> 0 < h ->
  forall (calls : list (call U P)) l, Forall usable l -> Forall valid_pld_call calls ->
  Forall (fun c => large_enough N X [] c /\ large_enough N X [] (forget u c)) calls ->
  map m_type l = map req_type (flat_map call_requests calls) ->
  exists (L : releases) (fin : list (list Q) -> list (outcome P)), map fst L = l /\ all_served te td h L /\
    (forall F, mixture (run_pld_calls rp N X (combine calls (divide_specs calls (map (final te td h) l)))) F =
               mixture (independent left_of L) (fun yss => F (fin yss))) /\
    (forall F, mixture (run_pld_calls rp N X (combine (map (forget u) calls) (divide_specs (map (forget u) calls) (map (final te td h) l)))) F =
               mixture (independent right_of L) (fun yss => F (fin yss))).
Proof.
  intros D Hk Pt Pd Ph. induction calls as [|c calls IH]; intros l Us V Le T.
  - destruct l as [|m l]; [|discriminate]. exists [], (fun _ => []). split; [reflexivity|]. split; [constructor|]. split; intro F; reflexivity.
  - inversion V as [|? ? V1 V2]; subst. inversion Le as [|? ? [Le1 Le1'] Le2]; subst. cbn [flat_map] in T. rewrite map_app in T.
    set (n := length (call_requests c)).
    assert (T1 : map m_type (firstn n l) = map req_type (call_requests c)).
    { rewrite <- firstn_map, T, firstn_app, map_length. fold n. rewrite Nat.sub_diag, firstn_O, app_nil_r. apply firstn_all2. rewrite map_length. reflexivity. }
    assert (T2 : map m_type (skipn n l) = map req_type (flat_map call_requests calls)).
    { rewrite <- skipn_map, T, skipn_app, map_length. fold n. rewrite Nat.sub_diag, skipn_all2 by (rewrite map_length; reflexivity). reflexivity. }
    assert (Us1 : Forall usable (firstn n l)) by (rewrite <- (firstn_skipn n l) in Us; apply Forall_app in Us; apply Us).
    assert (Us2 : Forall usable (skipn n l)) by (rewrite <- (firstn_skipn n l) in Us; apply Forall_app in Us; apply Us).
    destruct (call_served c u N X te td h (firstn n l) D Hk Pt Pd Ph Us1 V1 Le1 Le1' T1) as [L1 [f1 [E1 [S1 [R1 R1']]]]].
    destruct (IH (skipn n l) Us2 V2 Le2 T2) as [L2 [f2 [E2 [S2 [R2 R2']]]]].
    exists (L1 ++ L2)%list, (fun yss => f1 (firstn (length L1) yss) :: f2 (skipn (length L1) yss)).
    split; [rewrite map_app, E1, E2; apply firstn_skipn|]. split; [apply Forall_app; split; assumption|].
    assert (G : forall side F, mixture (independent side L1) (fun us => mixture (independent side L2) (fun vs => F (f1 us :: f2 vs))) =
       mixture (independent side (L1 ++ L2)) (fun yss => F (f1 (firstn (length L1) yss) :: f2 (skipn (length L1) yss)))).
    { intros side F. rewrite mixture_independent_app. apply independent_lengths. intros us Lu. apply mixture_ext. intro vs. rewrite <- Lu.
      rewrite firstn_app, Nat.sub_diag, firstn_all, app_nil_r, skipn_app, Nat.sub_diag, skipn_all. reflexivity. }
    split; intro F.
    + cbn [divide_specs combine run_pld_calls]. fold n. rewrite firstn_map, skipn_map, mixture_bind, R1, <- G.
      apply mixture_ext. intro us. rewrite mixture_bind, R2. apply mixture_ext. intro vs. apply mixture_ret.
    + cbn [map divide_specs combine run_pld_calls]. change (call_requests (forget u c)) with (call_requests c). fold n.
      rewrite firstn_map, skipn_map, mixture_bind, R1', <- G.
      apply mixture_ext. intro us. rewrite mixture_bind, R2'. apply mixture_ext. intro vs. apply mixture_ret.
Qed.

(** ** The total budget *)
Lemma both_independent te h (L : releases) : distributions rp -> laplace_private rp -> 0 < te -> 0 < h ->
  all_served te 0 h L -> Forall usable (map fst L) -> Forall (fun m => m_type m <> GAUSSIAN) (map fst L) ->
  is_dist (independent left_of L) /\ is_dist (independent right_of L) /\
  both (sumR (map (strength h) (map fst L))) 0 (independent left_of L) (independent right_of L).
Proof.
  intros D La Pt Ph S Us Ng. induction S as [|[m [a b]] L S1 S IH].
  - split; [apply is_dist_ret|]. split; [apply is_dist_ret|]. change (sumR (map (strength h) (map fst []))) with 0. apply both_same.
  - cbn [map fst] in Us, Ng. inversion Us as [|? ? U1 U2]; subst. inversion Ng as [|? ? N1 N2]; subst. destruct (IH U2 N2) as [DA [DB B]].
    destruct (served_both rp te h m a b D La Pt Ph (proj1 U1) N1 S1) as [B1 [Da Db]].
    cbn [independent map fst]. unfold left_of at 1 3, right_of at 1 3. cbn [fst snd].
    split; [|split].
    + apply is_dist_bind; [exact Da|]. intro. apply is_dist_bind; [exact DA | intro; apply is_dist_ret].
    + apply is_dist_bind; [exact Db|]. intro. apply is_dist_bind; [exact DB | intro; apply is_dist_ret].
    + rewrite sumR_cons. replace 0 with (0 + 0) by ring. apply both_bind; try assumption; [lra | | |].
      * intro. apply is_dist_bind; [exact DA | intro; apply is_dist_ret].
      * intro. apply is_dist_bind; [exact DB | intro; apply is_dist_ret].
      * intro ys. apply both_post. exact B.
Qed.

Lemma both_indistinguishable {A} e d (x y : dist A) E : both e d x y -> indistinguishable e d (prob x E) (prob y E).
Proof. intros [A1 A2]. split; apply below_prob; assumption. Qed.

Lemma total_budget inf fuel lib u N X s (calls : list (call U P)) ms' : keeps_promises inf lib rp -> Q2R (total_eps s) < inf ->
  0 < Q2R (total_eps s) -> 0 <= Q2R (total_delta s) -> Forall usable (mechs s) ->
  (Q2R (total_delta s) = 0 -> Forall (fun m => m_type m <> GAUSSIAN) (mechs s)) ->
  (0 < Q2R (total_delta s) -> selection_weights (mechs s)) ->
  pld_compute fuel lib s = Some (Ok ms') ->
  map m_type (mechs s) = map req_type (flat_map call_requests calls) ->
  Forall valid_pld_call calls -> Forall (fun c => large_enough N X [] c /\ large_enough N X [] (forget u c)) calls ->
  forall E, indistinguishable (Q2R (total_eps s)) (Q2R (total_delta s))
    (prob (run_pld_calls rp N X (combine calls (divide_specs calls ms'))) E)
    (prob (run_pld_calls rp N X (combine (map (forget u) calls) (divide_specs (map (forget u) calls) ms'))) E).
Proof.
  intros [D [La [Hk Co]]] Fin Pt Pd Us Ng Sw Ec T V Le E. destruct (computed fuel lib s ms' Pt Pd Us Ec) as [h [Ph [-> [Hl Hz]]]].
  set (te := Q2R (total_eps s)) in *. set (td := Q2R (total_delta s)) in *.
  destruct (calls_served u N X te td h D Hk Pt Pd Ph calls (mechs s) Us V Le T) as [L [fin [El [S [R1 R2]]]]].
  unfold prob. rewrite R1, R2. change (indistinguishable te td (prob (independent left_of L) (fun yss => E (fin yss))) (prob (independent right_of L) (fun yss => E (fin yss)))).
  generalize (fun yss => E (fin yss)). clear R1 R2 E. intro E.
  destruct (mechs s) as [|m0 l0] eqn:Em.
  { apply map_eq_nil in El. subst L. cbn [independent]. assert (0 <= prob (dret ([] : list (list Q))) E <= 1) by (apply prob_range; apply is_dist_ret).
    assert (1 <= exp te) by (rewrite <- exp_0; left; apply exp_increasing; exact Pt). split; nra. }
  assert (Ne : m0 :: l0 <> []) by discriminate. rewrite <- Em in *. clear Em.
  destruct Pd as [Pd|Z0].
  - pose (K := map (fun e : mech * (dist (list Q) * dist (list Q)) => (composed_pld te td h (fst e), snd e)) L).
    assert (X1 : prob (independent left_of L) E = prob (independent (fun m => fst (snd m)) K) E).
    { unfold prob, K. rewrite mixture_independent_map. reflexivity. }
    assert (X2 : prob (independent right_of L) E = prob (independent (fun m => snd (snd m)) K) E).
    { unfold prob, K. rewrite mixture_independent_map. reflexivity. }
    rewrite X1, X2. apply Co; [| exact Pd | | exact Fin].
    + unfold K. apply Forall_map. apply Forall_forall. intros e I. cbn [fst snd].
      unfold all_served in S. rewrite Forall_forall in S. specialize (S e I).
      assert (Im : In (fst e) (mechs s)) by (rewrite <- El; apply in_map; exact I).
      specialize (Sw Pd). unfold selection_weights in Sw. rewrite Forall_forall in Us, Sw. destruct (Us _ Im) as [W _].
      apply served_stands; try assumption. intro Tm. apply Sw in Tm; [|exact Im]. apply Qle_Rle in Tm. rewrite RMicromega.Q2R_1 in Tm. exact Tm.
    + unfold K. rewrite map_map. cbn [fst]. rewrite <- (map_map fst (composed_pld te td h)), El. exact (Hl Ne Pd).
  - symmetry in Z0. rewrite Z0 in S. rewrite Z0. rewrite <- (Hz Ne Z0), <- El.
    apply both_indistinguishable. apply (both_independent te h L D La Pt Ph S); rewrite El; [exact Us | exact (Ng Z0)].
Qed.
End Calls.
