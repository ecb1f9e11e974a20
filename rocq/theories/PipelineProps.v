(** C74: what leaves the private collections of Beam and Spark is differentially private
    in the source data, with the total budget of the accountant. *)
From Coq Require Import String List ZArith QArith Qreals Reals Bool Lia Lqa Lra.
From Verif Require Import Base BaseLemmas ListLemmas BackendModel BackendSpec BounderSpec ParamsModel SensModel CombinerModel CombinerSpec EngineModel EngineSpec
  EnforcedSpec EngineProofs EngineProofs3 EngineProofs4 EngineProofs5 EngineProps BudgetModel BudgetSpec BudgetProofs LaplaceSpec LaplaceProofs ExpMechProofs SelectModel SelectSpec WrapperModel WrapperSpec WrapperProofs
  DistSpec DistProofs DpModel DpSpec DpProofs DpProofs2 DpProofs3 DpProofs4 DpProofs5 DpProps ProgSpec ProgProofs ProgProofs2 ProgProps GroupProofs
  PipelineSpec PipelineProofs PipelineProofs2.
Import ListNotations.
Local Open Scope R_scope.
Local Close Scope Q_scope.

(** The promise of PrivatePCollection (private_beam.py:71-75): "only data that has been
    aggregated in a DP manner, using no more than the specified privacy budget, can be
    extracted".  A program makes a private collection from [source], transforms it in any
    ways with Map and FlatMap, asks for any numbers of aggregations and partitions, and
    may use the replies in later queries.  [calls] are all the calls on the accountant of
    total ([e], [d]): those of the queries, and any scopes that the user opens.  Any event
    has (e, d)-indistinguishable probabilities with and without the elements of [u]. *)
Theorem C74_private_collections {U E P} `{EqDec U} `{EqDec P} (fw : framework) (extractor : E -> U) (source : list E) (u : U)
    (g : pipeline U E P) ops (e d : Q) num ws s0 calls s2 es ds (py : pydp) :
  honest fw extractor source u g ops ->
  new_accountant e d num ws = Ok s0 ->
  Forall op_pos calls ->
  requested calls = requested ops ->
  Forall (fun r => exists o, r = Ok o) (outs s0 calls) ->
  step (run s0 calls) Compute = (s2, Ok OutUnit) ->
  read_eps s2 es -> read_delta s2 ds ->
  pydp_keeps_promises py ->
  forall Ev, indistinguishable (Q2R e) (Q2R d)
    (prob (run_pipeline py fw extractor source g (combine es ds)) Ev)
    (prob (run_pipeline py fw extractor (source_without extractor u source) g (combine es ds)) Ev).
Proof.
  intros Hg Hnew Hpos Hr Hok Hc Hes Hds Hpy Ev.
  assert (W := honest_well_formed fw extractor source u g ops Hg). rewrite <- Hr in W.
  unfold prob. rewrite !run_pipeline_is, forgotten_pipeline_is.
  destruct (requested calls) as [|r0 rs] eqn:Er.
  - rewrite (honest_asks fw extractor source u g ops Hg (eq_sym Hr)). cbn [to_program forget_program run_program].
    destruct (new_accountant_inv _ _ _ _ _ Hnew) as [_ [Pe [Pd _]]].
    apply Qlt_Rlt in Pe. apply Qle_Rle in Pd. rewrite RMicromega.Q2R_0 in Pe, Pd. rewrite mixture_ret.
    assert (1 <= exp (Q2R e)) by (rewrite <- exp_0; apply exp_le; lra).
    assert (0 <= indicator (Ev (replies fw (@Finish U E P) []))) by (destruct (Ev _); cbn; lra). split; nra.
  - assert (G : granted calls (outs s0 calls) = r0 :: rs) by (rewrite granted_all; assumption).
    destruct (C63_total_budget_of_programs e d num ws s0 calls s2 es ds (to_program fw extractor source g) (r0 :: rs) 0 (Some u) py
       Hnew Hpos G ltac:(discriminate) Hc Hes Hds W Hpy (fun l => Ev (replies fw g l))) as [I1 I2].
    rewrite RMicromega.Q2R_0, Rplus_0_r in I1, I2. split; assumption.
Qed.
Print Assumptions C74_private_collections.

(** The same with any usable budgets. *)
Theorem C74_composition {U E P} `{EqDec U} `{EqDec P} (fw : framework) (extractor : E -> U) (source : list E) (u : U)
    (g : pipeline U E P) ops bs (py : pydp) :
  honest fw extractor source u g ops ->
  Forall2 granted_ok (requested ops) bs ->
  pydp_keeps_promises py ->
  forall Ev, indistinguishable (Q2R (sumQ (map fst bs))) (Q2R (sumQ (map snd bs)))
    (prob (run_pipeline py fw extractor source g bs) Ev)
    (prob (run_pipeline py fw extractor (source_without extractor u source) g bs) Ev).
Proof.
  intros Hg G Hpy Ev. unfold prob. rewrite !run_pipeline_is, forgotten_pipeline_is.
  destruct (C63_composition_of_programs _ _ _ bs (Some u) py (honest_well_formed fw extractor source u g ops Hg) G Hpy (fun l => Ev (replies fw g l))) as [I1 I2].
  rewrite RMicromega.Q2R_0, Rplus_0_r in I1, I2. split; assumption.
Qed.
Print Assumptions C74_composition.

(** Two sources that differ only in the elements of [u], for example because these were
    replaced by others. *)
Theorem C74_replaced_data {U E P} `{EqDec U} `{EqDec P} (fw : framework) (extractor : E -> U) (source source' : list E) (u : U)
    (g : pipeline U E P) ops ops' (e d : Q) num ws s0 calls s2 es ds (py : pydp) :
  source_without extractor u source = source_without extractor u source' ->
  honest fw extractor source u g ops -> honest fw extractor source' u g ops' ->
  new_accountant e d num ws = Ok s0 ->
  Forall op_pos calls ->
  requested calls = requested ops -> requested calls = requested ops' ->
  Forall (fun r => exists o, r = Ok o) (outs s0 calls) ->
  step (run s0 calls) Compute = (s2, Ok OutUnit) ->
  read_eps s2 es -> read_delta s2 ds ->
  pydp_keeps_promises py ->
  forall Ev, indistinguishable (2 * Q2R e) (Q2R d + exp (Q2R e) * Q2R d)
    (prob (run_pipeline py fw extractor source g (combine es ds)) Ev)
    (prob (run_pipeline py fw extractor source' g (combine es ds)) Ev).
Proof.
  intros D Hg Hg' Hnew Hpos Hr Hr' Hok Hc Hes Hds Hpy Ev.
  assert (I1 := C74_private_collections fw extractor source u g ops e d num ws s0 calls s2 es ds py Hg Hnew Hpos Hr Hok Hc Hes Hds Hpy Ev).
  assert (I2 := C74_private_collections fw extractor source' u g ops' e d num ws s0 calls s2 es ds py Hg' Hnew Hpos Hr' Hok Hc Hes Hds Hpy Ev).
  rewrite <- D in I2.
  assert (I3 : indistinguishable (Q2R e) (Q2R d) (prob (run_pipeline py fw extractor (source_without extractor u source) g (combine es ds)) Ev)
                 (prob (run_pipeline py fw extractor source' g (combine es ds)) Ev)) by (destruct I2; split; assumption).
  replace (2 * Q2R e) with (Q2R e + Q2R e) by ring. exact (indistinguishable_chain _ _ _ _ _ _ _ I1 I3).
Qed.
Print Assumptions C74_replaced_data.

(** With probability one, every query gets a reply of the right kind: one number for each
    of the partitions that are kept, and no other partitions; no exception. *)
Theorem C74_every_query_is_answered {U E P} `{EqDec U} `{EqDec P} (fw : framework) (extractor : E -> U) (source : list E) (u : U)
    (g : pipeline U E P) ops bs (py : pydp) :
  honest fw extractor source u g ops ->
  Forall2 granted_ok (requested ops) bs ->
  pydp_keeps_promises py ->
  forall Ev, (forall rs, replies_to g rs -> Ev rs = true) -> prob (run_pipeline py fw extractor source g bs) Ev = 1.
Proof.
  intros Hg G Hpy Ev Hev. unfold prob. rewrite run_pipeline_is.
  destruct (C63_every_call_answers _ _ _ bs (Some u) py (honest_well_formed fw extractor source u g ops Hg) G Hpy) as [D F].
  rewrite (mixture_ext_in _ _ (fun _ => 1)); [apply mixture_const; exact D|].
  intros w l I. right. rewrite (Hev _ (follows_replies fw extractor source g l (F w l I) ops u Hg)). reflexivity.
Qed.
Print Assumptions C74_every_query_is_answered.

(** The calls on the accountant depend neither on the data nor on the randomness. *)
Theorem C74_calls_do_not_depend_on_data {U E P} `{EqDec U} `{EqDec P} (fw : framework) (k : ask U E P) (w : world (option U) P) (col : list (U * E)) :
  ask_calls fw k =
  match k_query k with
  | AskMetric c public => rmap fst (wrapper_run fw w c public col)
  | AskPartitions r partition => rmap fst (wrapper_select fw w r partition col)
  end.
Proof.
  unfold ask_calls. destruct (k_query k) as [c public|r partition].
  - rewrite !wrapper_run_is. destruct (post_init (wrapper_params fw c)) as [p|]; cbn [rbind rmap]; [|reflexivity].
    destruct (check_aggregate_params true true p); cbn [rbind rmap]; [|reflexivity]. destruct (create_compound_combiner p); reflexivity.
  - rewrite !wrapper_select_is. unfold run_select. destruct (check_select_params true true _); cbn [rbind rmap]; [|reflexivity].
    destruct (int_of _); reflexivity.
Qed.
Print Assumptions C74_calls_do_not_depend_on_data.

(** Limits as needed in [honest_ask] exist for every query. *)
Theorem C74_limits_exist {U E P} `{EqDec U} `{EqDec P} (fw : framework) (k : ask U E P) c public col (u : U) :
  exists N X T, forall cl, engine_call fw k c public col = Ok cl -> large_enough N X T cl /\ large_enough N X T (forget (Some u) cl).
Proof.
  destruct (engine_call fw k c public col) as [cl|] eqn:Ec; [|exists 0%nat, [], []; discriminate].
  destruct (C61_large_enough_exists [cl] (Some u)) as [N [X [T F]]]. exists N, X, T. intros cl' E0. injection E0 as <-. inversion F. assumption.
Qed.
Print Assumptions C74_limits_exist.

(** ** The hypotheses are met *)

(** Elements (user, day, amount).  Negative amounts are dropped and the others
    increased; days are selected; the mean is asked for on a day and the selected
    ones, and the count on privately selected days.  The mean has
    contribution_bounds_already_enforced, which Spark uses and Beam does not. *)
Definition demo_source : list (Z * Z * Z) :=
  [(1, 10, 3); (1, 20, -4); (1, 20, 5); (2, 10, 7); (2, 20, -1); (3, 10, 2); (4, 20, 6)]%Z.
Definition demo_user (x : Z * Z * Z) : Z := fst (fst x).
Definition demo_steps : list (transform Z (Z * Z * Z) unit) :=
  [TFlatMap (fun x => if (snd x <? 0)%Z then [] else [x]); TMap (fun x => (fst x, (snd x + 1)%Z))].
Definition demo_choices : sampling (option Z) Z := Sampling _ _ (fun _ => first_n 1) (fun _ => first_n 2).
Definition demo_mean : request (Z * Z * Z) Z :=
  RMean (ValueParams _ _ (Some (PInt 2)) (Some (PInt 1)) (Some (Fin 0)) (Some (Fin 5)) (fun x => snd (fst x)) (fun x => inject_Z (snd x)) 2 LaplaceNoise true None).
Definition demo_number : request (Z * Z * Z) Z :=
  RCount (CountParams _ _ GaussianNoise (Some (PInt 2)) (Some (PInt 1)) (fun x => snd (fst x)) 1 false (Some (PInt 2))).
Definition demo_days (a : reply Z) : list Z :=
  match a with
  | Partitions bs [] => 10%Z :: map fst (filter (fun kb => snd kb) (combine [10; 20]%Z bs))
  | _ => [10%Z]
  end.
Definition ask_mean (days : list Z) (limits : nat * list Q * list (list Q * list Q)) : ask Z (Z * Z * Z) Z :=
  Ask demo_steps (AskMetric demo_mean (Some days)) demo_choices (distinct days) limits.
Definition ask_number (limits : nat * list Q * list (list Q * list Q)) : ask Z (Z * Z * Z) Z :=
  Ask demo_steps (AskMetric demo_number None) demo_choices [10; 20]%Z limits.
Definition demo_pipeline (limits : nat * list Q * list (list Q * list Q)) : pipeline Z (Z * Z * Z) Z :=
  Query (Ask demo_steps (AskPartitions (RawSelect (Some (PInt 2)) 1 LaplaceThresholding (Some (PInt 2))) (fun x => snd (fst x))) demo_choices [10; 20]%Z limits)
    (fun a => Query (ask_mean (demo_days a) limits) (fun _ => Query (ask_number limits) (fun _ => Finish))).
Definition demo_ops (fw : framework) : list op :=
  match ask_calls (U := Z) fw (Ask (E := Z * Z * Z) (P := Z) demo_steps (AskPartitions (RawSelect (Some (PInt 2)) 1 LaplaceThresholding (Some (PInt 2))) (fun x => snd (fst x))) demo_choices [10; 20]%Z (0%nat, [], [])),
        ask_calls fw (ask_mean [10%Z] (0%nat, [], [])), ask_calls fw (ask_number (0%nat, [], [])) with
  | Ok a, Ok b, Ok c => (a ++ b ++ c ++ [])%list
  | _, _, _ => []
  end.

Lemma demo_days_cases k a : k_keys k = [10; 20]%Z -> (exists r f, k_query k = AskPartitions r f) -> possible_reply (U := Z) (E := Z * Z * Z) k a ->
  In (demo_days a) [[10]; [10; 10]; [10; 20]; [10; 10; 20]]%Z.
Proof.
  intros Ek [r [f Eq]]. unfold possible_reply. rewrite Eq, Ek. destruct a as [o|bs [|x xs]|e]; try contradiction. cbn [length]. intro L.
  destruct bs as [|b1 [|b2 [|]]]; try discriminate. destruct b1, b2; cbn; tauto.
Qed.

Example C74_hypotheses_met : forall fw,
  exists limits s0 s2 es ds,
    honest fw demo_user demo_source 1%Z (demo_pipeline limits) (demo_ops fw) /\
    new_accountant 1 (1 # 10) None None = Ok s0 /\
    (let calls := ([Enter 3] ++ demo_ops fw ++ [Exit])%list in
     Forall op_pos calls /\ requested calls = requested (demo_ops fw) /\ Forall (fun r => exists o, r = Ok o) (outs s0 calls) /\
     step (run s0 calls) Compute = (s2, Ok OutUnit)) /\
    read_eps s2 es /\ read_delta s2 ds /\ pydp_keeps_promises toy_pydp /\
    map req_type (requested (demo_ops fw)) = [GENERIC; LAPLACE; LAPLACE; GAUSSIAN; GENERIC] /\
    Forall2 granted_ok (requested (demo_ops fw)) (repeat (1, 1 # 100)%Q 5) /\
    collection demo_user demo_source demo_steps = [(1, (1, 10, 4)); (1, (1, 20, 6)); (2, (2, 10, 8)); (3, (3, 10, 3)); (4, (4, 20, 7))]%Z.
Proof.
  intro fw.
  pose (sets := [[10]; [10; 10]; [10; 20]; [10; 10; 20]]%Z).
  pose (col := collection demo_user demo_source demo_steps).
  pose (cl := fun r : result (call (option Z) Z) => match r with Ok c => [c] | Err _ => [] end).
  destruct (C61_large_enough_exists
     (flat_map (fun days => cl (engine_call fw (ask_mean days (0%nat, [], [])) demo_mean (Some days) col)) sets
      ++ cl (engine_call fw (ask_number (0%nat, [], [])) demo_number None col)) (Some 1%Z)) as [N [X [T L]]].
  apply Forall_app in L. destruct L as [L1 L2].
  pose (s0 := Acct 1 (1 # 10) None None [] [] [] false).
  pose (s2 := fst (step (run s0 ([Enter 3] ++ demo_ops fw ++ [Exit])%list) Compute)).
  pose (es := map (fun m => match get_eps m with Ok x => x | Err _ => 0%Q end) (mechs s2)).
  pose (ds := map (fun m => match get_delta m with Ok x => x | Err _ => 0%Q end) (mechs s2)).
  exists (N, X, T), s0, s2, es, ds.
  split; [|split; [reflexivity|]; split; [cbv zeta; split; [|split; [|split]]|split; [|split; [|split; [exact toy_pydp_keeps_promises|split; [|split; [|vm_compute; reflexivity]]]]]]].
  2: { destruct fw; repeat constructor; vm_compute; reflexivity. }
  2: { destruct fw; vm_compute; reflexivity. }
  2: { destruct fw; vm_compute; repeat (apply Forall_cons; [eexists; reflexivity|]); apply Forall_nil. }
  2: { destruct fw; vm_compute; reflexivity. }
  2: { destruct fw; vm_compute; repeat constructor. }
  2: { destruct fw; vm_compute; repeat constructor. }
  2: { destruct fw; vm_compute; reflexivity. }
  2: { assert (G : forall l, Forall2 granted_ok l (repeat (1, 1 # 100)%Q (length l))).
       { induction l as [|r l IH]; [constructor|]. cbn [length repeat]. constructor; [|exact IH].
         split; [reflexivity|]. split; [split; [discriminate | reflexivity] | intros _; reflexivity]. }
       assert (L5 : length (requested (demo_ops fw)) = 5%nat) by (destruct fw; vm_compute; reflexivity). rewrite <- L5. apply G. }
  unfold demo_ops.
  destruct (ask_calls fw (Ask demo_steps (AskPartitions _ _) demo_choices _ _)) as [a|] eqn:Ea; [|destruct fw; discriminate].
  destruct (ask_calls fw (ask_mean [10%Z] _)) as [b|] eqn:Eb; [|destruct fw; discriminate].
  destruct (ask_calls fw (ask_number _)) as [c|] eqn:Ec; [|destruct fw; discriminate].
  assert (Pi : forall (A : Type) (x y : A) l, ~ In x l -> NoDup l -> NoDup (x :: l)) by (intros; constructor; assumption).
  unfold demo_pipeline. apply honest_query; [exact Ea| |].
  { unfold honest_ask. cbn [k_limits k_steps k_keys k_query k_sampling]. split; [repeat constructor|]. split; [repeat constructor; cbn; intuition discriminate|].
    split; [vm_compute; tauto|]. intros l0 E0. assert (l0 = 2%Z) by (destruct fw; cbn in E0; congruence). subst. apply first_n_valid. }
  intros r Pr. assert (Id : In (demo_days r) sets) by (eapply demo_days_cases; [| |exact Pr]; [reflexivity|eexists; eexists; reflexivity]).
  set (days := demo_days r) in *. clearbody days. clear Pr r.
  apply honest_query.
  { rewrite <- Eb. rewrite (C74_calls_do_not_depend_on_data fw (ask_mean days _) no_world []), (C74_calls_do_not_depend_on_data fw (ask_mean [10%Z] _) no_world []).
    cbn [k_query ask_mean]. rewrite !wrapper_run_is. destruct fw; reflexivity. }
  { unfold honest_ask. cbn [k_limits k_steps k_keys k_query k_sampling ask_mean]. split; [repeat constructor|]. split; [apply NoDup_distinct|].
    split; [intro pk; apply in_distinct|]. split.
    - intros p Hp. assert (Ep : p = match post_init (wrapper_params fw demo_mean) with Ok p => p | Err _ => p end) by (rewrite Hp; reflexivity).
      destruct fw; vm_compute in Ep; subst p; (split; [split; intros z Ez; injection Ez as <-; apply first_n_valid|]); (split; [cbn; intuition discriminate|]).
      + discriminate.
      + intros _. split; [discriminate|]. split.
        * intros z Ez u. injection Ez as <-. unfold partitions_of.
          match goal with |- context [filter _ ?l] => let l' := eval vm_compute in l in change l with l' end. cbn.
          repeat match goal with |- context [eqb ?x ?y] => destruct (eqb x y) eqn:? end; cbn; try lia;
          repeat match goal with H : eqb _ _ = true |- _ => apply eqb_eq in H end; subst; try discriminate; try lia.
        * intros z Ez u k. injection Ez as <-. unfold values_of.
          match goal with |- context [filter _ ?l] => let l' := eval vm_compute in l in change l with l' end. cbn.
          repeat match goal with |- context [eqb ?x ?y] => destruct (eqb x y) eqn:? end; cbn; try lia;
          repeat match goal with H : eqb _ _ = true |- _ => apply eqb_eq in H; inversion H; clear H end; subst; try discriminate; try lia.
    - intros c0 E0. rewrite Forall_forall in L1. apply L1. apply in_flat_map. exists days. split; [exact Id|].
      change (engine_call fw (ask_mean days (0%nat, [], [])) demo_mean (Some days) col) with (engine_call fw (ask_mean days (N, X, T)) demo_mean (Some days) col).
      fold col in E0. rewrite E0. left. reflexivity. }
  intros r _. apply honest_query; [exact Ec| |intros; apply honest_finish].
  unfold honest_ask. cbn [k_limits k_steps k_keys k_query k_sampling ask_number]. split; [repeat constructor|]. split; [repeat constructor; cbn; intuition discriminate|].
  split; [vm_compute; tauto|]. split.
  - intros p Hp. assert (Ep : p = match post_init (wrapper_params fw demo_number) with Ok p => p | Err _ => p end) by (rewrite Hp; reflexivity).
    destruct fw; vm_compute in Ep; subst p; (split; [split; intros z Ez; injection Ez as <-; apply first_n_valid|]); (split; [cbn; intuition discriminate | discriminate]).
  - intros c0 E0. rewrite Forall_forall in L2. apply L2. fold col in E0.
    change (engine_call fw (ask_number (0%nat, [], [])) demo_number None col) with (engine_call fw (ask_number (N, X, T)) demo_number None col).
    rewrite E0. left. reflexivity.
Qed.
