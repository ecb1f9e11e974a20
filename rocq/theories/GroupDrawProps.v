(** C72, continued: several people, and people with other data, in the programs, pipelines and
    sessions of C81, with their random choices. *)
From Coq Require Import String List ZArith QArith Qreals Reals Bool Permutation Lia Lqa Lra.
From Verif Require Import Base BaseLemmas BackendModel BackendSpec ListLemmas ParamsModel CombinerModel EngineModel EngineSpec EngineProps
  BudgetModel BudgetSpec BudgetProofs LaplaceSpec SelectModel SelectSpec DistSpec DpModel DpSpec DpProofs5 DpProps ProgSpec DataframeModel FrameModel
  DrawSpec DrawProps GroupSpec GroupProofs.
From Verif Require PipelineSpec FrameSpec FrameProps.
Import ListNotations.
Local Open Scope R_scope.
Local Close Scope Q_scope.

(** [x] without all of [us], one after the other. *)
Lemma group_chain {U D} (remove : U -> D -> D) (Pr : D -> R) e d (x : D) us : 0 <= e -> 0 <= d ->
  (forall before u after, us = (before ++ u :: after)%list ->
     indistinguishable e d (Pr (fold_right remove x after)) (Pr (remove u (fold_right remove x after)))) ->
  indistinguishable (INR (length us) * e) (group_delta (length us) e d) (Pr x) (Pr (fold_right remove x us)).
Proof.
  intros Pe Pd. induction us as [|u us IH]; intro St.
  - cbn. rewrite Rmult_0_l. split; rewrite exp_0; lra.
  - assert (I1 := IH (fun b v a E => St (u :: b) v a (f_equal (cons u) E))). assert (I2 := St [] u us eq_refl).
    destruct (indistinguishable_chain _ _ _ _ _ _ _ I1 I2) as [A B]. change (length (u :: us)) with (S (length us)).
    rewrite S_INR. replace ((INR (length us) + 1) * e) with (INR (length us) * e + e) by ring. split.
    + rewrite group_delta_last. exact A.
    + cbn [group_delta]. exact B.
Qed.
Lemma two_steps e d a b c : indistinguishable e d a b -> indistinguishable e d c b -> indistinguishable (2 * e) (d + exp e * d) a c.
Proof.
  intros I1 [A B]. replace (2 * e) with (e + e) by ring. apply (indistinguishable_chain e d e d a b c I1). split; assumption.
Qed.
Lemma new_accountant_nonneg e d num ws s0 : new_accountant e d num ws = Ok s0 -> 0 <= Q2R e /\ 0 <= Q2R d.
Proof.
  intro Hn. destruct (new_accountant_inv _ _ _ _ _ Hn) as [_ [Pe [Pd _]]].
  apply Qlt_le_weak, Qle_Rle in Pe. apply Qle_Rle in Pd. rewrite RMicromega.Q2R_0 in Pe, Pd. split; assumption.
Qed.

(** *** Programs that draw between their calls *)
Definition forget_games {U P} `{EqDec U} (us : list U) (g : game U P) : game U P := fold_right forget_game g us.

Theorem C72_programs_with_draws {U P} `{EqDec U} `{EqDec P}
    (e d : Q) num ws s0 ops s2 es ds (g : game U P) rs x (us : list U) (py : pydp) :
  new_accountant e d num ws = Ok s0 ->
  Forall op_pos ops ->
  granted ops (outs s0 ops) = rs -> rs <> [] ->
  step (run s0 ops) Compute = (s2, Ok OutUnit) ->
  read_eps s2 es -> read_delta s2 ds ->
  (0 <= x)%Q ->
  (forall before u after, us = (before ++ u :: after)%list -> fair_game u (forget_games after g) rs x) ->
  pydp_keeps_promises py ->
  forall E, indistinguishable (INR (length us) * (Q2R e + Q2R x)) (group_delta (length us) (Q2R e + Q2R x) (Q2R d))
    (prob (run_game py g (combine es ds)) E)
    (prob (run_game py (forget_games us g) (combine es ds)) E).
Proof.
  intros Hn Hp Hg Hne Hc He Hd Hx W K E. destruct (new_accountant_nonneg _ _ _ _ _ Hn) as [Pe Pd].
  assert (Px : 0 <= Q2R x) by (rewrite <- RMicromega.Q2R_0; apply Qle_Rle; exact Hx).
  apply (group_chain forget_game (fun g => prob (run_game py g (combine es ds)) E)); [lra | exact Pd |].
  intros b u a Eu. apply (C81_programs_with_draws e d num ws s0 ops s2 es ds (fold_right forget_game g a) rs x u py); try assumption.
  exact (W b u a Eu).
Qed.
Print Assumptions C72_programs_with_draws.

(** *** Pipelines of private collections *)
Definition source_without_all {U E} `{EqDec U} (extractor : E -> U) (us : list U) (source : list E) : list E :=
  filter (fun x => negb (mem (extractor x) us)) source.
Lemma source_without_each {U E} `{EqDec U} (extractor : E -> U) us source :
  fold_right (PipelineSpec.source_without extractor) source us = source_without_all extractor us source.
Proof.
  induction us as [|u us IH]; cbn [fold_right].
  - symmetry. apply filter_all. reflexivity.
  - rewrite IH. unfold PipelineSpec.source_without, source_without_all. clear IH. induction source as [|y l IH]; [reflexivity|]. cbn [filter].
    assert (E0 : mem (extractor y) (u :: us) = eqb (extractor y) u || mem (extractor y) us) by reflexivity. rewrite E0.
    destruct (mem (extractor y) us); cbn [negb filter].
    + rewrite orb_true_r. exact IH.
    + rewrite orb_false_r. destruct (eqb (extractor y) u); cbn [negb]; [exact IH | f_equal; exact IH].
Qed.

Theorem C72_pipelines {U E P} `{EqDec U} `{EqDec P} (fw : PipelineSpec.framework) (extractor : E -> U) (source : list E) (us : list U)
    (choices : dist (PipelineSpec.pipeline U E P)) ops (e d : Q) num ws s0 calls s2 es ds (py : pydp) :
  is_dist choices ->
  (forall before u after w g, us = (before ++ u :: after)%list -> In (w, g) choices ->
     PipelineSpec.honest fw extractor (source_without_all extractor after source) u g ops) ->
  new_accountant e d num ws = Ok s0 ->
  Forall op_pos calls ->
  PipelineSpec.requested calls = PipelineSpec.requested ops ->
  Forall (fun r => exists o, r = Ok o) (outs s0 calls) ->
  step (run s0 calls) Compute = (s2, Ok OutUnit) ->
  read_eps s2 es -> read_delta s2 ds ->
  pydp_keeps_promises py ->
  let execution data := dbind choices (fun g => PipelineSpec.run_pipeline py fw extractor data g (combine es ds)) in
  forall Ev, indistinguishable (INR (length us) * Q2R e) (group_delta (length us) (Q2R e) (Q2R d))
    (prob (execution source) Ev) (prob (execution (source_without_all extractor us source)) Ev).
Proof.
  intros Hd Hh Hn Hp Hr Ho Hc He Hds K execution Ev. destruct (new_accountant_nonneg _ _ _ _ _ Hn) as [Pe Pd].
  rewrite <- source_without_each.
  apply (group_chain (PipelineSpec.source_without extractor) (fun data => prob (execution data) Ev)); [exact Pe | exact Pd |].
  intros b u a Eu. rewrite source_without_each.
  apply (C81_pipelines fw extractor (source_without_all extractor a source) u choices ops e d num ws s0 calls s2 es ds py); try assumption.
  intros w g I. exact (Hh b u a w g Eu I).
Qed.
Print Assumptions C72_pipelines.

(** A person with any other elements in the source. *)
Theorem C72_pipelines_replaced_data {U E P} `{EqDec U} `{EqDec P} (fw : PipelineSpec.framework) (extractor : E -> U) (source source' : list E) (u : U)
    (choices : dist (PipelineSpec.pipeline U E P)) ops (e d : Q) num ws s0 calls s2 es ds (py : pydp) :
  is_dist choices ->
  PipelineSpec.source_without extractor u source = PipelineSpec.source_without extractor u source' ->
  (forall w g, In (w, g) choices -> PipelineSpec.honest fw extractor source u g ops /\ PipelineSpec.honest fw extractor source' u g ops) ->
  new_accountant e d num ws = Ok s0 ->
  Forall op_pos calls ->
  PipelineSpec.requested calls = PipelineSpec.requested ops ->
  Forall (fun r => exists o, r = Ok o) (outs s0 calls) ->
  step (run s0 calls) Compute = (s2, Ok OutUnit) ->
  read_eps s2 es -> read_delta s2 ds ->
  pydp_keeps_promises py ->
  let execution data := dbind choices (fun g => PipelineSpec.run_pipeline py fw extractor data g (combine es ds)) in
  forall Ev, indistinguishable (2 * Q2R e) (Q2R d + exp (Q2R e) * Q2R d)
    (prob (execution source) Ev) (prob (execution source') Ev).
Proof.
  intros Hd Es Hh Hn Hp Hr Ho Hc He Hds K execution Ev.
  apply (two_steps _ _ _ (prob (execution (PipelineSpec.source_without extractor u source)) Ev)).
  - apply (C81_pipelines fw extractor source u choices ops e d num ws s0 calls s2 es ds py); try assumption.
    intros w g I. apply (Hh w g I).
  - rewrite Es. apply (C81_pipelines fw extractor source' u choices ops e d num ws s0 calls s2 es ds py); try assumption.
    intros w g I. apply (Hh w g I).
Qed.
Print Assumptions C72_pipelines_replaced_data.

(** *** Sessions of queries on data frames *)
Definition rows_without_all {C} `{EqDec C} (columns : list string) (privacy : string) (us : list C) (rows : list (list C)) : list (list C) :=
  filter (fun row => match cell_at columns row privacy with Some c => negb (mem c us) | None => true end) rows.
Lemma rows_without_each {C} `{EqDec C} columns privacy (us : list C) rows :
  fold_right (FrameSpec.rows_without columns privacy) rows us = rows_without_all columns privacy us rows.
Proof.
  induction us as [|u us IH]; cbn [fold_right].
  - symmetry. apply filter_all. intros row _. destruct (cell_at columns row privacy); reflexivity.
  - rewrite IH. unfold FrameSpec.rows_without, rows_without_all. clear IH. induction rows as [|y l IH]; [reflexivity|]. cbn [filter].
    destruct (cell_at columns y privacy) as [c|] eqn:Ec.
    + assert (E0 : mem c (u :: us) = eqb c u || mem c us) by reflexivity. rewrite E0.
      destruct (mem c us); cbn [negb filter].
      * rewrite orb_true_r. exact IH.
      * rewrite orb_false_r, Ec. destruct (eqb c u); cbn [negb]; [exact IH | f_equal; exact IH].
    + cbn [filter]. rewrite Ec. f_equal. exact IH.
Qed.

Theorem C72_sessions {C} `{EqDec C} (py : pydp) (zero : C) chars number columns privacy rows us (choices : dist (FrameSpec.session C)) e d :
  is_dist choices -> pydp_keeps_promises py -> (0 <= e)%Q -> (0 <= d)%Q ->
  (forall before u after w s, us = (before ++ u :: after)%list -> In (w, s) choices ->
     FrameSpec.within number zero columns privacy (rows_without_all columns privacy after rows) u s e d) ->
  let execution data := dbind choices (fun s => FrameSpec.run_session py zero chars number columns data s) in
  forall E, FrameSpec.orders_blind E ->
  indistinguishable (INR (length us) * Q2R e) (group_delta (length us) (Q2R e) (Q2R d))
    (prob (execution rows) E) (prob (execution (rows_without_all columns privacy us rows)) E).
Proof.
  intros Hd Hpy Pe Pd Hw execution E HE. apply Qle_Rle in Pe. apply Qle_Rle in Pd. rewrite RMicromega.Q2R_0 in Pe, Pd.
  rewrite <- rows_without_each.
  apply (group_chain (FrameSpec.rows_without columns privacy) (fun data => prob (execution data) E)); [exact Pe | exact Pd |].
  intros b u a Eu. rewrite rows_without_each. apply C81_sessions; [exact Hd | exact Hpy | | exact HE].
  intros w s I. exact (Hw b u a w s Eu I).
Qed.
Print Assumptions C72_sessions.

Theorem C72_sessions_replaced_data {C} `{EqDec C} (py : pydp) (zero : C) chars number columns privacy rows rows' u (choices : dist (FrameSpec.session C)) e d :
  is_dist choices -> pydp_keeps_promises py ->
  FrameSpec.rows_without columns privacy u rows = FrameSpec.rows_without columns privacy u rows' ->
  (forall w s, In (w, s) choices ->
     FrameSpec.within number zero columns privacy rows u s e d /\ FrameSpec.within number zero columns privacy rows' u s e d) ->
  let execution data := dbind choices (fun s => FrameSpec.run_session py zero chars number columns data s) in
  forall E, FrameSpec.orders_blind E ->
  indistinguishable (2 * Q2R e) (Q2R d + exp (Q2R e) * Q2R d) (prob (execution rows) E) (prob (execution rows') E).
Proof.
  intros Hd Hpy Er Hw execution E HE.
  apply (two_steps _ _ _ (prob (execution (FrameSpec.rows_without columns privacy u rows)) E)).
  - apply C81_sessions; [exact Hd | exact Hpy | | exact HE]. intros w s I. apply (Hw w s I).
  - rewrite Er. apply C81_sessions; [exact Hd | exact Hpy | | exact HE]. intros w s I. apply (Hw w s I).
Qed.
Print Assumptions C72_sessions_replaced_data.

(** ** The hypotheses are met *)

(** Privacy ids 1 and 2 in the program of C81 with a draw. *)
Example C72_draws_hypotheses_met : exists s0 s2 es ds,
  new_accountant 1 (1 # 10) None None = Ok s0 /\ Forall op_pos drawn_ops /\
  granted drawn_ops (outs s0 drawn_ops) = drawn_requests /\
  step (run s0 drawn_ops) Compute = (s2, Ok OutUnit) /\
  read_eps s2 es /\ read_delta s2 ds /\
  (forall before u after, [1; 2]%Z = (before ++ u :: after)%list -> fair_game u (forget_games after drawn_game) drawn_requests 0) /\
  pydp_keeps_promises toy_pydp.
Proof.
  destruct C81_hypotheses_met as (s0 & s2 & es & ds & A1 & A2 & A3 & A4 & A5 & A6 & _ & A8). exists s0, s2, es, ds.
  repeat (split; [assumption|]). split; [|exact A8].
  intros before u after Eu.
  assert (Cases : (u = 1 /\ after = [2])%Z \/ (u = 2 /\ after = [])%Z).
  { destruct before as [|b1 [|b2 [|]]]; cbn in Eu; inversion Eu; subst; auto. }
  destruct Cases as [[-> ->]|[-> ->]]; (apply fair_draw; [split; [repeat constructor; cbn; lra | cbn; lra]|]); intros w c I;
    (assert (L : (c <= 1)%nat) by (destruct I as [I|[I|[]]]; injection I as _ <-; lia));
    change drawn_requests with ([(GENERIC, 1%Q, 1%Z)] ++ [(LAPLACE, 1%Q, 1%Z)] ++ [])%list.
  - apply (fair_play 1%Z (forget_op 2%Z (SelectPartitions (drawn_selection c))) _ _ 0%Q); [| |cbn; unfold Qle; cbn; lia].
    { split; [vm_compute; reflexivity|]. split; [|split; [repeat constructor; cbn; intuition discriminate | intros k Ik; cbn in Ik |- *; tauto]].
      intros k m Lm. change (Z.to_nat _) with 1%nat in *. cbn [s_choices drawn_selection].
      split; [repeat constructor; intros [] |]. split; [reflexivity | repeat constructor; lia]. }
    intros a _. apply (fair_play 1%Z (forget_op 2%Z (AddNoise drawn_addition)) _ _ 0%Q); [| |cbn; unfold Qle; cbn; lia].
    { split; [vm_compute; reflexivity|]. split; [repeat constructor; cbn; intuition discriminate|]. cbv zeta.
      split; [apply Permutation_refl|]. split; [apply Permutation_refl|]. split; [intros k [<-|[<-|[]]]; vm_compute; discriminate | vm_compute; discriminate]. }
    intros b _. constructor. apply Qle_refl.
  - apply (fair_play 2%Z (SelectPartitions (drawn_selection c)) _ _ 0%Q); [| |cbn; unfold Qle; cbn; lia].
    { split; [vm_compute; reflexivity|]. split; [|split; [repeat constructor; cbn; intuition discriminate | intros k Ik; cbn in Ik |- *; tauto]].
      intros k m Lm. change (Z.to_nat _) with 1%nat in *. cbn [s_choices drawn_selection].
      split; [repeat constructor; intros [] |]. split; [reflexivity | repeat constructor; lia]. }
    intros a _. apply (fair_play 2%Z (AddNoise drawn_addition) _ _ 0%Q); [| |cbn; unfold Qle; cbn; lia].
    { split; [vm_compute; reflexivity|]. split; [repeat constructor; cbn; intuition discriminate|]. cbv zeta.
      split; [apply Permutation_refl|]. split; [apply Permutation_refl|]. split; [intros k [<-|[<-|[]]]; vm_compute; discriminate | vm_compute; discriminate]. }
    intros b _. constructor. apply Qle_refl.
Qed.

(** A coin decides whether the query of C78 keeps the first or the last rows; privacy ids 1 and 2, and
    privacy id 1 with another row. *)
Local Open Scope string_scope.
Definition coin_job (sm : sampling Z (pkey Z)) limits : FrameSpec.job Z :=
  FrameSpec.Job FrameProps.visits_query 1 (1 # 10) LaplaceNoise (FrameSpec.Setting sm [One 10; One 20]%Z limits).
Definition coin_choices limits : dist (FrameSpec.session Z) :=
  [(1 / 2, FrameSpec.Ask (coin_job (Sampling Z (pkey Z) (fun _ => first_n 1) (fun _ => first_n 2)) limits) (fun _ => FrameSpec.Stop));
   (1 / 2, FrameSpec.Ask (coin_job (Sampling Z (pkey Z) (fun _ m => seq (m - 1) 1) (fun _ m => seq (m - 2) 2)) limits) (fun _ => FrameSpec.Stop))].
Definition other_cells : list (list Z) := ([1; 20; 3; 9] :: FrameProps.demo_cells)%Z.
Example C72_sessions_hypotheses_met : exists limits,
  let fits rows u := forall w s, In (w, s) (coin_choices limits) -> FrameSpec.within inject_Z 0%Z FrameProps.demo_columns "user" rows u s 1 (1 # 10) in
  is_dist (coin_choices limits) /\
  (forall before u after, [1; 2]%Z = (before ++ u :: after)%list -> fits (rows_without_all FrameProps.demo_columns "user" after FrameProps.demo_cells) u) /\
  fits other_cells 1%Z /\
  FrameSpec.rows_without FrameProps.demo_columns "user" 1%Z FrameProps.demo_cells = FrameSpec.rows_without FrameProps.demo_columns "user" 1%Z other_cells /\
  rows_without_all FrameProps.demo_columns "user" [1; 2]%Z FrameProps.demo_cells = [[3; 20; 2; 12]]%Z.
Proof.
  pose (sm1 := Sampling Z (pkey Z) (fun _ => first_n 1) (fun _ => first_n 2)).
  pose (sm2 := Sampling Z (pkey Z) (fun _ m => seq (m - 1) 1) (fun _ m => seq (m - 2) 2)).
  pose (els := fun rows => match to_collection 0%Z FrameProps.visits_query FrameProps.demo_columns rows with Ok e => e | Err _ => [] end).
  pose (cl := fun sm rows (u : Z) => match FrameSpec.job_call inject_Z (coin_job sm (0%nat, [], [])) (els rows) with Ok c => [c; forget u c] | Err _ => [] end).
  pose (cases := [(FrameProps.demo_cells, 1); (FrameProps.demo_cells, 2); (FrameSpec.rows_without FrameProps.demo_columns "user" 2 FrameProps.demo_cells, 1); (other_cells, 1)]%Z).
  destruct (all_enough (H0 := FrameSpec.EqDec_pkey) (flat_map (fun ru => (cl sm1 (fst ru) (snd ru) ++ cl sm2 (fst ru) (snd ru))%list) cases)) as (N & X & T & L).
  exists (N, X, T). cbv zeta. rewrite Forall_forall in L.
  assert (F : forall rows u sm, In (rows, u) cases -> sm = sm1 \/ sm = sm2 -> FrameSpec.fit inject_Z 0%Z FrameProps.demo_columns "user" rows u (coin_job sm (N, X, T))).
  { intros rows u sm Iru Hsm.
    assert (Hcl : forall c, In c (cl sm rows u) -> large_enough (H0 := FrameSpec.EqDec_pkey) N X T c).
    { intros c Ic. apply L. apply in_flat_map. exists (rows, u). split; [exact Iru|]. apply in_app_iff. cbn [fst snd]. destruct Hsm as [-> | ->]; [left | right]; exact Ic. }
    split; [exists (Builder FrameProps.demo_columns "user" None None [] None None), FrameProps.visits_calls; eexists; split; [reflexivity|]; split; reflexivity|].
    split; [reflexivity|].
    split; [intros l E; injection E as <-; destruct Hsm as [-> | ->]; [apply first_n_valid | apply last_n_valid]|].
    split; [intros l E; injection E as <-; destruct Hsm as [-> | ->]; [apply first_n_valid | apply last_n_valid]|].
    split; [repeat constructor; cbn; intuition discriminate|]. exists (els rows).
    split; [destruct Iru as [I|[I|[I|[I|[]]]]]; injection I as <- _; reflexivity|].
    split; [destruct Iru as [I|[I|[I|[I|[]]]]]; injection I as <- _; vm_compute; tauto|].
    cbn [FrameSpec.t_limits FrameSpec.j_setting coin_job]. intros c Ec. unfold cl in Hcl.
    change (FrameSpec.job_call inject_Z (coin_job sm (0%nat, [], []))) with (FrameSpec.job_call inject_Z (coin_job sm (N, X, T))) in Hcl. rewrite Ec in Hcl.
    split; apply Hcl; [left; reflexivity | right; left; reflexivity]. }
  assert (W : forall rows u w s, In (rows, u) cases -> In (w, s) (coin_choices (N, X, T)) -> FrameSpec.within inject_Z 0%Z FrameProps.demo_columns "user" rows u s 1 (1 # 10)).
  { intros rows u w s Iru [I|[I|[]]]; injection I as _ <-;
      (apply (FrameSpec.within_ask _ _ _ _ _ _ _ _ _ _ 0 0); [apply F; [exact Iru | tauto] | reflexivity | intro f; constructor; discriminate | discriminate | discriminate]). }
  split; [split; [repeat constructor; cbn; lra | cbn; lra]|]. split; [|split; [|split; reflexivity]].
  - intros before u after Eu w s I.
    assert (Cases : (u = 1 /\ after = [2])%Z \/ (u = 2 /\ after = [])%Z).
    { destruct before as [|b1 [|b2 [|]]]; cbn in Eu; inversion Eu; subst; auto. }
    destruct Cases as [[-> ->]|[-> ->]]; apply (W _ _ w); try exact I; [right; right; left; reflexivity | right; left; reflexivity].
  - intros w s I. apply (W _ _ w); [right; right; right; left; reflexivity | exact I].
Qed.
