(** C81: the privacy theorems hold when the choices of contribution bounding are drawn. *)
From Coq Require Import String List ZArith QArith Qreals Qabs Reals Bool Permutation Lia Lqa Lra.
From Verif Require Import Base BaseLemmas BackendModel BackendSpec ListLemmas ParamsModel SensModel CombinerModel EngineModel EngineSpec EngineProps
  BudgetModel BudgetSpec BudgetProofs VectorModel LaplaceModel LaplaceSpec LaplaceProofs
  SelectModel SelectSpec WrapperModel DistSpec DistProofs DpModel DpSpec
  DpProofs DpProofs2 DpProofs3 DpProofs4 DpProofs5 DpProps ProgSpec ProgProofs ProgProofs2 DrawSpec DrawProofs.
From Verif Require PipelineSpec PipelineProps FrameSpec FrameProps PldModel PldDpModel PldDpSpec PldDpProps.
Import ListNotations.
Local Open Scope R_scope.
Local Close Scope Q_scope.

(** *** C81 *)

(** Programs of calls of DPEngine and draws: any event, even about the draws, has
    (e + x, d)-indistinguishable probabilities with and without the rows of [u]. *)
Theorem C81_programs_with_draws {U P} `{EqDec U} `{EqDec P}
    (e d : Q) num ws s0 ops s2 es ds (g : game U P) rs x (u : U) (py : pydp) :
  new_accountant e d num ws = Ok s0 ->
  Forall op_pos ops ->
  granted ops (outs s0 ops) = rs -> rs <> [] ->
  step (run s0 ops) Compute = (s2, Ok OutUnit) ->
  read_eps s2 es -> read_delta s2 ds ->
  fair_game u g rs x ->
  pydp_keeps_promises py ->
  forall E, indistinguishable (Q2R e + Q2R x) (Q2R d)
    (prob (run_game py g (combine es ds)) E)
    (prob (run_game py (forget_game u g) (combine es ds)) E).
Proof.
  intros Hnew Hpos Hg Hne Hc Hes Hds W Hpy E. assert (One := game_requests u g rs x W). rewrite <- Hg in One, Hne.
  destruct (accountant_grants e d num ws s0 ops s2 es ds Hnew Hpos Hne One Hc Hes Hds) as [G [Te Td]]. rewrite Hg in G.
  destruct (game_both py u g rs x W Hpy (combine es ds) G) as [_ [_ B]]. rewrite Te in B.
  apply (both_weaken _ _ _ _ _ Td) in B. destruct B as [B1 B2]. split; apply below_prob; assumption.
Qed.
Print Assumptions C81_programs_with_draws.

(** The same with any usable budgets. *)
Theorem C81_composition {U P} `{EqDec U} `{EqDec P} (g : game U P) rs x bs (u : U) (py : pydp) :
  fair_game u g rs x -> Forall2 granted_ok rs bs -> pydp_keeps_promises py ->
  forall E, indistinguishable (Q2R (sumQ (map fst bs)) + Q2R x) (Q2R (sumQ (map snd bs)))
    (prob (run_game py g bs) E) (prob (run_game py (forget_game u g) bs) E).
Proof.
  intros W G Hpy E. destruct (game_both py u g rs x W Hpy bs G) as [_ [_ [B1 B2]]]. split; apply below_prob; assumption.
Qed.
Print Assumptions C81_composition.

Lemma indistinguishable_random {A B} e d (D : dist A) (k k' : A -> dist B) E : is_dist D ->
  (forall w a, In (w, a) D -> indistinguishable e d (prob (k a) E) (prob (k' a) E)) ->
  indistinguishable e d (prob (dbind D k) E) (prob (dbind D k') E).
Proof.
  intros HD Hk.
  assert (G : forall h h' : A -> dist B, (forall w a, In (w, a) D -> prob (h a) E <= exp e * prob (h' a) E + d) ->
              prob (dbind D h) E <= exp e * prob (dbind D h') E + d).
  { intros h h' Hh. unfold prob in *. rewrite !mixture_bind. rewrite <- (mixture_const D d HD), <- mixture_scale, <- mixture_add.
    apply mixture_le_in; [apply HD | exact Hh]. }
  split; apply G; intros w a I; apply (Hk w a I).
Qed.

(** Pipelines of Beam and Spark wrappers: [choices] is any distribution of pipelines that make
    the same calls on the accountant, for example the same pipeline with the samplings of its
    queries drawn, or a pipeline that the analyst has drawn. *)
Theorem C81_pipelines {U E P} `{EqDec U} `{EqDec P} (fw : PipelineSpec.framework) (extractor : E -> U) (source : list E) (u : U)
    (choices : dist (PipelineSpec.pipeline U E P)) ops (e d : Q) num ws s0 calls s2 es ds (py : pydp) :
  is_dist choices ->
  (forall w g, In (w, g) choices -> PipelineSpec.honest fw extractor source u g ops) ->
  new_accountant e d num ws = Ok s0 ->
  Forall op_pos calls ->
  PipelineSpec.requested calls = PipelineSpec.requested ops ->
  Forall (fun r => exists o, r = Ok o) (outs s0 calls) ->
  step (run s0 calls) Compute = (s2, Ok OutUnit) ->
  read_eps s2 es -> read_delta s2 ds ->
  pydp_keeps_promises py ->
  let execution data := dbind choices (fun g => PipelineSpec.run_pipeline py fw extractor data g (combine es ds)) in
  forall Ev, indistinguishable (Q2R e) (Q2R d)
    (prob (execution source) Ev) (prob (execution (PipelineSpec.source_without extractor u source)) Ev).
Proof.
  intros Hd Hh Hnew Hpos Hr Hok Hc Hes Hds Hpy execution Ev. unfold execution. apply indistinguishable_random; [exact Hd|].
  intros w g I. apply (PipelineProps.C74_private_collections fw extractor source u g ops e d num ws s0 calls s2 es ds py); try assumption. apply (Hh w g I).
Qed.
Print Assumptions C81_pipelines.

(** Sessions of queries over Spark data frames. *)
Theorem C81_sessions {C} `{EqDec C} (py : pydp) (zero : C) chars number columns privacy rows u (choices : dist (FrameSpec.session C)) e d :
  is_dist choices -> pydp_keeps_promises py ->
  (forall w s, In (w, s) choices -> FrameSpec.within number zero columns privacy rows u s e d) ->
  let execution data := dbind choices (fun s => FrameSpec.run_session py zero chars number columns data s) in
  forall E, FrameSpec.orders_blind E ->
  indistinguishable (Q2R e) (Q2R d) (prob (execution rows) E) (prob (execution (FrameSpec.rows_without columns privacy u rows)) E).
Proof.
  intros Hd Hpy Hw execution E HE. unfold execution. apply indistinguishable_random; [exact Hd|].
  intros w s I. apply FrameProps.C78_session_is_private; [exact Hpy | apply (Hw w s I) | exact HE].
Qed.
Print Assumptions C81_sessions.

(** Aggregations with a PLDBudgetAccountant: [choices] is any distribution of lists of calls with
    the same requests, for example the same calls with their samplings drawn. *)
Theorem C81_pld {U P} `{EqDec U} `{EqDec P} (choices : dist (list (call U P)))
    (e d : Q) num ws s0 ops fuel infinity lib ms (u : U) (rp : PldDpSpec.real_pydp) N X :
  is_dist choices ->
  new_accountant e d num ws = Ok s0 ->
  Forall op_pos ops ->
  PldDpModel.pld_compute fuel lib (run s0 ops) = Some (Ok ms) ->
  (forall w calls, In (w, calls) choices ->
     granted ops (outs s0 ops) = flat_map call_requests calls /\
     Forall (fun c => valid_call c /\ PldDpSpec.engine_accepts c /\ post_aggregation_thresholding (c_params c) = false) calls /\
     Forall (fun c => large_enough N X [] c /\ large_enough N X [] (forget u c)) calls) ->
  PldDpSpec.keeps_promises infinity lib rp -> Q2R e < infinity ->
  let execution (data : call U P -> call U P) :=
    dbind choices (fun calls => PldDpSpec.run_pld_calls rp N X (combine (map data calls) (PldDpSpec.divide_specs (map data calls) ms))) in
  forall E, indistinguishable (Q2R e) (Q2R d) (prob (execution (fun c => c)) E) (prob (execution (forget u)) E).
Proof.
  intros Hd Hn Hp Hc Hch K Fin execution E. unfold execution. apply indistinguishable_random; [exact Hd|].
  intros w calls I. destruct (Hch w calls I) as [Hg [V Le]]. rewrite map_id.
  apply (PldDpProps.C71_total_budget_differential_privacy e d num ws s0 ops fuel infinity lib calls ms u rp N X); assumption.
Qed.
Print Assumptions C81_pld.

(** ** The hypotheses are met *)

(** A coin decides which of the partitions of each privacy id select_partitions looks at; what
    is counted next depends on what was selected. *)
Definition drawn_selection (c : nat) : selection Z Z :=
  Selection 1 TruncatedGeometric None (fun _ _ => [c]) [10; 20]%Z [(1, 10); (1, 20); (2, 10)]%Z.
Definition drawn_addition : addition Z Z :=
  Addition LaplaceNoise 1 1%Q 1%Q [10; 20]%Z (fun rows => [(10, 0%Q); (20, inject_Z (Z.of_nat (length rows)))]%Z) [((1, 20), Num 1)]%Z.
Definition drawn_game : game Z Z :=
  Draw [(1 / 2, 0%nat); (1 / 2, 1%nat)] (fun c => Play (SelectPartitions (drawn_selection c)) (fun _ => Play (AddNoise drawn_addition) (fun _ => Over))).
Definition drawn_requests : list (mech_type * Q * Z) := [(GENERIC, 1%Q, 1%Z); (LAPLACE, 1%Q, 1%Z)].
Definition drawn_ops : list op := [Request GENERIC 1%Q 1%Z None; Request LAPLACE 1%Q 1%Z None].

Example C81_hypotheses_met : exists s0 s2 es ds,
  new_accountant 1 (1 # 10) None None = Ok s0 /\ Forall op_pos drawn_ops /\
  granted drawn_ops (outs s0 drawn_ops) = drawn_requests /\
  step (run s0 drawn_ops) Compute = (s2, Ok OutUnit) /\
  read_eps s2 es /\ read_delta s2 ds /\ fair_game 1%Z drawn_game drawn_requests 0 /\ pydp_keeps_promises toy_pydp.
Proof.
  pose (s0 := Acct 1 (1 # 10) None None [] [] [] false).
  pose (s2 := fst (step (run s0 drawn_ops) Compute)).
  pose (es := map (fun m => match get_eps m with Ok x => x | Err _ => 0%Q end) (mechs s2)).
  pose (ds := map (fun m => match get_delta m with Ok x => x | Err _ => 0%Q end) (mechs s2)).
  exists s0, s2, es, ds.
  split; [reflexivity|]. split; [repeat constructor; vm_compute; reflexivity|].
  split; [vm_compute; reflexivity|]. split; [vm_compute; reflexivity|].
  split; [vm_compute; repeat constructor|]. split; [vm_compute; repeat constructor|]. split; [|exact toy_pydp_keeps_promises].
  apply fair_draw; [split; [repeat constructor; cbn; lra | cbn; lra]|]. intros w c I.
  assert (L : (c <= 1)%nat) by (destruct I as [I|[I|[]]]; injection I as _ <-; lia).
  change drawn_requests with ([(GENERIC, 1%Q, 1%Z)] ++ [(LAPLACE, 1%Q, 1%Z)] ++ [])%list.
  apply (fair_play 1%Z (SelectPartitions (drawn_selection c)) _ _ 0%Q); [| |cbn; unfold Qle; cbn; lia].
  { split; [vm_compute; reflexivity|]. split; [|split; [repeat constructor; cbn; intuition discriminate | intros k Ik; cbn in Ik |- *; tauto]].
    intros k m Lm. change (Z.to_nat (s_bound (drawn_selection c))) with 1%nat in *. cbn [s_choices drawn_selection].
    split; [repeat constructor; intros [] |]. split; [reflexivity | repeat constructor; lia]. }
  intros a _. apply (fair_play 1%Z (AddNoise drawn_addition) _ _ 0%Q); [| |cbn; unfold Qle; cbn; lia].
  { split; [vm_compute; reflexivity|]. split; [repeat constructor; cbn; intuition discriminate|]. cbv zeta.
    split; [apply Permutation_refl|]. split; [apply Permutation_refl|]. split; [intros k [<-|[<-|[]]]; vm_compute; discriminate | vm_compute; discriminate]. }
  intros b _. constructor. apply Qle_refl.
Qed.

(** A coin decides between the first and the last rows and partitions of each privacy id in
    both aggregations. *)
Definition redrawn_pld (sm : sampling Z Z) : list (call Z Z) := map (fun c => redraw c sm) PldDpProps.pld_calls.
Example C81_pld_hypotheses_met : exists s0 fuel ms N X,
  let choices := [(1 / 2, redrawn_pld (first_sampling 2 2)); (1 / 2, redrawn_pld (last_sampling 2 2))] in
  is_dist choices /\ new_accountant 1 (1 # 10) None None = Ok s0 /\ Forall op_pos PldDpProps.pld_ops /\
  PldDpModel.pld_compute fuel PldDpProps.toy_lib (run s0 PldDpProps.pld_ops) = Some (Ok ms) /\
  (forall w calls, In (w, calls) choices ->
     granted PldDpProps.pld_ops (outs s0 PldDpProps.pld_ops) = flat_map call_requests calls /\
     Forall (fun c => valid_call c /\ PldDpSpec.engine_accepts c /\ post_aggregation_thresholding (c_params c) = false) calls /\
     Forall (fun c => large_enough N X [] c /\ large_enough N X [] (forget 1%Z c)) calls) /\
  PldDpSpec.keeps_promises 1000 PldDpProps.toy_lib PldDpProps.toy_real /\ Q2R 1 < 1000.
Proof.
  destruct PldDpProps.pld_ops_computed as [fuel [ms Ec]].
  assert (V1 : Forall (fun c => valid_call c /\ PldDpSpec.engine_accepts c /\ post_aggregation_thresholding (c_params c) = false) (redrawn_pld (first_sampling 2 2))).
  { repeat (apply Forall_cons; [split; [eapply (demo_valid _ _ _ _ _ (first_sampling 2 2));
      [cbn; intuition discriminate | reflexivity | tauto | split; apply first_n_valid | vm_compute; reflexivity ..] | split; reflexivity]|]). apply Forall_nil. }
  assert (V2 : Forall (fun c => valid_call c /\ PldDpSpec.engine_accepts c /\ post_aggregation_thresholding (c_params c) = false) (redrawn_pld (last_sampling 2 2))).
  { repeat (apply Forall_cons; [split; [eapply (demo_valid _ _ _ _ _ (last_sampling 2 2));
      [cbn; intuition discriminate | reflexivity | tauto | split; apply last_n_valid | vm_compute; reflexivity ..] | split; reflexivity]|]). apply Forall_nil. }
  destruct (PldDpProps.C71_large_enough_exists (redrawn_pld (first_sampling 2 2) ++ redrawn_pld (last_sampling 2 2)) 1%Z) as [N [X L]].
  { apply Forall_app. split; assumption. }
  apply Forall_app in L. destruct L as [L1 L2].
  exists (Acct 1 (1 # 10) None None [] [] [] false), fuel, ms, N, X. cbv zeta.
  split; [split; [repeat constructor; cbn; lra | cbn; lra]|]. split; [reflexivity|]. split; [repeat constructor; vm_compute; reflexivity|].
  split; [exact Ec|]. split; [|split; [exact PldDpProps.toy_real_keeps_promises | rewrite RMicromega.Q2R_1; lra]].
  intros w calls [I|[I|[]]]; injection I as _ <-; (split; [vm_compute; reflexivity|]; split; assumption).
Qed.
