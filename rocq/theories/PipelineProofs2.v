(** Lemmas for C74: a pipeline is a program of engine calls. *)
From Coq Require Import String List ZArith QArith Qreals Reals Bool Lia Lqa Lra.
From Verif Require Import Base BaseLemmas ListLemmas BackendModel BackendSpec ParamsModel SensModel CombinerModel CombinerSpec EngineModel EngineSpec
  EnforcedSpec EngineProofs EngineProofs3 EngineProofs4 EngineProofs5 BudgetModel BudgetSpec LaplaceSpec SelectModel SelectSpec WrapperModel WrapperSpec WrapperProofs
  DistSpec DistProofs DpModel DpSpec DpProofs DpProofs2 DpProofs3 DpProofs4 DpProofs5 ProgSpec ProgProofs ProgProofs2 PipelineSpec PipelineProofs.
Import ListNotations.
Local Open Scope R_scope.
Local Close Scope Q_scope.

Lemma granted_all ops : forall s, Forall (fun r => exists o, r = Ok o) (outs s ops) -> granted ops (outs s ops) = requested ops.
Proof.
  induction ops as [|o ops IH]; intros s F; [reflexivity|]. cbn [outs] in *. inversion F as [|? ? [x Ex] Fr]; subst. rewrite Ex.
  unfold requested. cbn [flat_map granted]. fold (requested ops). destruct o; cbn [app]; rewrite (IH _ Fr); reflexivity.
Qed.
Lemma requested_app a b : requested (a ++ b) = (requested a ++ requested b)%list.
Proof. apply flat_map_app. Qed.
Lemma requested_metric {P} p (public : option (list P)) cs : requested (aggregate_ops p public cs) =
  (flat_map (fun cb => repeat (request_type p cb, budget_weight p, 1%Z) (requests cb)) cs
   ++ if selects_privately p public then [selection_request] else [])%list.
Proof.
  unfold aggregate_ops. rewrite !requested_app. cbn [requested flat_map app]. rewrite app_nil_r. f_equal.
  - unfold combiner_requests. induction cs as [|cb cs IH]; [reflexivity|]. cbn [flat_map]. rewrite requested_app, IH. f_equal.
    induction (requests cb) as [|n IHn]; [reflexivity|]. cbn [repeat]. unfold requested. cbn [flat_map app]. fold (requested (repeat (Request (request_type p cb) (budget_weight p) 1 None) n)).
    rewrite IHn. reflexivity.
  - destruct (selects_privately p public); reflexivity.
Qed.

Section Translation.
Context {U E P : Type} `{EqDec U} `{EqDec P} (fw : framework) (extractor : E -> U).

Definition op_of (source : list E) (k : ask U E P) : option (operation (option U) P) :=
  let col := collection extractor source (k_steps k) in
  match k_query k with
  | AskMetric c public =>
      match engine_call fw k c public col with
      | Ok cl => Some (Aggregate cl (fst (fst (k_limits k))) (snd (fst (k_limits k))) (snd (k_limits k)))
      | Err _ => None
      end
  | AskPartitions r partition =>
      let r' := wrapper_select_params fw r in
      match int_of (rs_max_partitions_contributed r') with
      | Some l0 => Some (SelectPartitions (Selection l0 (rs_strategy r') (int_of (rs_pre_threshold r')) (ch_pid (k_sampling k)) (k_keys k)
                                             (map (fun x => (Some (fst x), partition (snd x))) col)))
      | None => None
      end
  end.
Definition reply_of (k : ask U E P) (a : answer P) : reply P :=
  match k_query k, a with
  | AskMetric c _, Aggregated o => Metrics (extracted (field c) o)
  | AskPartitions _ _, Selected bs others => Partitions bs others
  | _, _ => Raised ValueError
  end.

Fixpoint to_program (source : list E) (g : pipeline U E P) : program (option U) P :=
  match g with
  | Finish => Done
  | Query k next =>
      match ask_calls fw k, op_of source k with
      | Ok _, Some o => Then o (fun a => to_program source (next (reply_of k a)))
      | _, _ => Done
      end
  end.
Fixpoint replies (g : pipeline U E P) (answers : list (answer P)) : list (reply P) :=
  match g with
  | Finish => []
  | Query k next =>
      match ask_calls fw k, answers with
      | Ok _, a :: rest => reply_of k a :: replies (next (reply_of k a)) rest
      | Ok _, [] => []
      | Err e, _ => [Raised e]
      end
  end.

Lemma op_exists source k ops : ask_calls fw k = Ok ops -> exists o, op_of source k = Some o /\ op_requests o = requested ops.
Proof.
  intro Ea. unfold op_of. destruct (k_query k) as [c public|r partition] eqn:Ek.
  - destruct (calls_metric fw k c public ops Ek Ea) as [p [cs [Hp [Hk [Hc ->]]]]]. unfold engine_call. rewrite Hp. cbn [rbind]. rewrite Hc. cbn [rmap].
    eexists. split; [reflexivity|]. cbn [op_requests]. unfold call_requests. cbn [c_params c_combiners c_public]. symmetry. apply requested_metric.
  - destruct (calls_select fw k r partition ops Ek Ea) as [_ [[l0 El] ->]]. rewrite El. eexists. split; reflexivity.
Qed.

Lemma op_forget source u k o : op_of source k = Some o ->
  op_of (source_without extractor u source) k = Some (forget_op (Some u) o).
Proof.
  unfold op_of. rewrite (collection_without extractor source u (k_steps k)). destruct (k_query k) as [c public|r partition].
  - unfold engine_call. destruct (post_init (wrapper_params fw c)) as [p|]; cbn [rbind]; [|discriminate].
    destruct (create_compound_combiner p) as [cs|]; cbn [rmap]; [|discriminate]. intro X. injection X as <-.
    cbn [forget_op]. unfold forget. cbn [c_params c_combiners c_sampling c_public c_keys c_rows]. rewrite rows_metric. reflexivity.
  - destruct (int_of (rs_max_partitions_contributed (wrapper_select_params fw r))) as [l0|]; [|discriminate]. intro X. injection X as <-.
    cbn [forget_op s_bound s_strategy s_pre s_choices s_keys s_rows]. rewrite rows_select. reflexivity.
Qed.

(** The random execution of a query is that of the engine call. *)
Lemma run_ask_is py source k ops o bs F : ask_calls fw k = Ok ops -> op_of source k = Some o ->
  mixture (run_ask py fw extractor source k bs) F = mixture (run_op py o bs) (fun a => F (reply_of k a)).
Proof.
  intros Ea. unfold op_of, run_ask, reply_of. destruct (k_limits k) as [[N X] T]. cbn [fst snd].
  destruct (k_query k) as [c public|r partition] eqn:Ek.
  - destruct (calls_metric fw k c public ops Ek Ea) as [p [cs [Hp [Hk [Hc ->]]]]]. unfold engine_call. rewrite Hp. cbn [rbind]. rewrite Hc. cbn [rmap].
    intro X0. injection X0 as <-. cbn [run_op c_combiners]. rewrite mixture_bind.
    rewrite (mixture_ext (run_call py N X T _ _) _ (fun r => F (Metrics (extracted (field c) r)))) by (intro; rewrite mixture_ret; reflexivity).
    unfold random_world, run_call. cbn [c_combiners c_keys c_params c_public c_sampling c_rows].
    rewrite !mixture_bind. apply mixture_ext. intro keep. rewrite !mixture_bind. apply mixture_ext. intro noise. rewrite !mixture_bind.
    apply mixture_ext. intro noised. rewrite !mixture_bind. apply mixture_ext. intro answers. rewrite !mixture_ret. f_equal. f_equal.
    rewrite wrapper_run_is, Hp. cbn [rbind]. rewrite Hk. cbn [rbind]. rewrite Hc. cbn [rbind snd w_sampling w_keep w_noise].
    destruct (wrapper_result fw c p cs (k_sampling k) (fun (k0 : P) (n : Z) => keep (k0, n))
       (fun (k0 : P) (i : nat) => Noises (fun x => noise (i, QCount, k0, x)) (fun x => noise (i, QSum, k0, x)) (fun x => noise (i, QSquares, k0, x))
                          (fun n => noised (i, k0, n)) (fun l qs => answers (i, k0, (l, qs))) (fun v => answers (i, k0, (v, []))))
       public (map (beam_row c) (collection extractor source (k_steps k))) Hp Hc) as [out [Eo Fo]].
    rewrite Eo. apply extracted_seen. exact Fo.
  - destruct (calls_select fw k r partition ops Ek Ea) as [Hk [[l0 El] ->]]. cbv zeta. rewrite El. intro X0. injection X0 as <-.
    cbn [run_op]. unfold run_selection. cbn [s_bound s_strategy s_pre s_choices s_keys s_rows]. cbv zeta. rewrite map_length.
    rewrite !mixture_bind. apply mixture_ext. intro answers. rewrite !mixture_ret.
    rewrite wrapper_select_is. unfold run_select. rewrite Hk. cbn [rbind]. rewrite El. reflexivity.
Qed.

Lemma run_pipeline_is py source g : forall bs F,
  mixture (run_pipeline py fw extractor source g bs) F = mixture (run_program py (to_program source g) bs) (fun l => F (replies g l)).
Proof.
  induction g as [|k next IH]; intros bs F; [reflexivity|]. cbn [run_pipeline to_program replies].
  destruct (ask_calls fw k) as [ops|e] eqn:Ea; [|reflexivity].
  destruct (op_exists source k ops Ea) as [o [Eo Er]]. rewrite Eo. cbn [run_program]. rewrite Er. cbv zeta.
  rewrite !mixture_bind. rewrite (run_ask_is py source k ops o _ _ Ea Eo). apply mixture_ext. intro a.
  rewrite !mixture_bind, IH. apply mixture_ext. intro rest. rewrite !mixture_ret. reflexivity.
Qed.

(** Without [u]. *)
Lemma forgotten_pipeline_is py source u g : forall bs F,
  mixture (run_program py (to_program (source_without extractor u source) g) bs) F
  = mixture (run_program py (forget_program (Some u) (to_program source g)) bs) F.
Proof.
  induction g as [|k next IH]; intros bs F; [reflexivity|]. cbn [to_program].
  destruct (ask_calls fw k) as [ops|e] eqn:Ea; [|reflexivity].
  destruct (op_exists source k ops Ea) as [o [Eo Er]]. rewrite Eo, (op_forget source u k o Eo). cbn [forget_program run_program]. cbv zeta.
  rewrite !mixture_bind. apply mixture_ext. intro a. rewrite !mixture_bind. apply IH.
Qed.

(** ** The engine calls are valid *)
Lemma metric_valid source u k c public ops o : k_query k = AskMetric c public -> ask_calls fw k = Ok ops ->
  honest_ask fw extractor source u k -> op_of source k = Some o -> valid_op (Some u) o.
Proof.
  intros Ek Ea Ha. unfold op_of. unfold honest_ask in Ha. rewrite Ek in *. destruct (k_limits k) as [[N X] T]. cbn [fst snd].
  destruct Ha as [_ [Nk [Hpub [Hh Hl]]]].
  destruct (engine_call fw k c public (collection extractor source (k_steps k))) as [cl|] eqn:Ec; [|discriminate]. intro X0. injection X0 as <-.
  cbn [valid_op]. split; [|apply Hl; reflexivity].
  destruct (calls_metric fw k c public ops Ek Ea) as [p [cs [Hp [Hk [Hc ->]]]]]. unfold engine_call in Ec. rewrite Hp in Ec. cbn [rbind] in Ec.
  rewrite Hc in Ec. cbn [rmap] in Ec. injection Ec as <-.
  destruct (Hh p Hp) as [Hs [Hv Hw]]. destruct (wrapper_fields fw c p Hp) as [[m [Em [_ [Nv Nq]]]] [Mc [Ms [Mf [Mt [Mp _]]]]]].
  unfold valid_call. cbv zeta. cbn [c_params c_combiners c_sampling c_public c_keys c_rows].
  split; [|split; [|split]].
  - split; [exact Hk|]. rewrite Em. cbn [In]. split; [intros [X1|[]]; congruence|]. split; [intros _; exact Mc|].
    split; [intros X1; apply Hv; rewrite Em; exact X1|]. split; [intros x [X1|[]]; destruct (Nq x X1) | intros _; exact Ms].
  - destruct public as [pub|]; [split; [exact Hpub|]; rewrite Mf; discriminate|]. split; [exact Mf|].
    unfold row_keys. rewrite map_map. exact Hpub.
  - rewrite Em. cbn [In]. intros [X1|[]]. congruence.
  - assert (A : accepted p) by (exists (wrapper_params fw c); exact Hp).
    destruct (selected_ok p cs (k_sampling k) (fun _ _ => true) public (map (beam_row c) (collection extractor source (k_steps k))) A) as [col' Es].
    unfold selected_accumulators in Es.
    destruct (raw_accumulators p cs (k_sampling k) public (map (beam_row c) (collection extractor source (k_steps k)))) as [col|] eqn:Er; [|discriminate].
    exists col. destruct (contribution_bounds_already_enforced p) eqn:Ee.
    + right. repeat split; auto; apply (Hw eq_refl).
    + left. split; [exact A|]. split; [exact Hc|]. split; [exact Ee|]. split; [exact Hs|]. split; [intro X1; congruence|]. split; [exact Nk | exact Er].
Qed.

Lemma select_valid source u k r partition ops o : k_query k = AskPartitions r partition -> ask_calls fw k = Ok ops ->
  honest_ask fw extractor source u k -> op_of source k = Some o -> valid_op (Some u) o.
Proof.
  intros Ek Ea Ha. unfold op_of. unfold honest_ask in Ha. rewrite Ek in *. destruct (k_limits k) as [[N X] T].
  destruct Ha as [_ [Nk [Hi Hs]]]. destruct (calls_select fw k r partition ops Ek Ea) as [Hc [[l0 El] _]]. rewrite El. intro X0. injection X0 as <-.
  cbn [valid_op]. unfold valid_selection. cbn [s_bound s_strategy s_pre s_choices s_keys s_rows].
  split; [|split; [apply Hs; exact El|]; split; [exact Nk|]; rewrite map_map; exact Hi].
  clear -Hc El. destruct (wrapper_select_params fw r) as [mp wt st pre]. unfold check_select_params in *. cbn [rs_max_partitions_contributed rs_pre_threshold rs_strategy] in *.
  destruct mp as [[z|]|]; cbn in El; try discriminate. injection El as ->.
  destruct pre as [[z|]|]; cbn [option_map int_of]; exact Hc || (cbn in Hc; discriminate) || idtac.
Qed.

Lemma reply_possible source k ops o a : ask_calls fw k = Ok ops -> op_of source k = Some o -> possible o a -> possible_reply k (reply_of k a).
Proof.
  intros Ea. unfold op_of, possible_reply, reply_of. destruct (k_query k) as [c public|r partition] eqn:Ek.
  - destruct (engine_call fw k c public (collection extractor source (k_steps k))) as [cl|] eqn:Ec; [|discriminate]. intro X0. injection X0 as <-.
    destruct a as [o|bs ks|o|o]; cbn [possible]; try contradiction. destruct o as [[ms others]|]; [|contradiction]. destruct others; [|contradiction].
    intro L. cbn [extracted rmap fst snd]. rewrite map_length, L.
    unfold engine_call in Ec. destruct (post_init (wrapper_params fw c)) as [p|]; cbn [rbind] in Ec; [|discriminate].
    destruct (create_compound_combiner p); cbn [rmap] in Ec; [|discriminate]. injection Ec as <-. reflexivity.
  - destruct (int_of (rs_max_partitions_contributed (wrapper_select_params fw r))) as [l0|]; [|discriminate]. intro X0. injection X0 as <-.
    destruct a as [o|bs ks|o|o]; cbn [possible s_keys]; try contradiction. destruct ks; [|contradiction]. auto.
Qed.

Lemma no_extra source k o : op_of source k = Some o -> op_extra o = 0%Q.
Proof.
  unfold op_of. destruct (k_query k) as [c public|r partition].
  - destruct (engine_call _ _ _ _ _); [|discriminate]. intro X. injection X as <-. reflexivity.
  - cbv zeta. destruct (int_of _); [|discriminate]. intro X. injection X as <-. reflexivity.
Qed.

Lemma honest_well_formed source u g ops : honest fw extractor source u g ops ->
  well_formed (Some u) (to_program source g) (requested ops) 0.
Proof.
  induction 1 as [|k next ops ops' Ea Ha Hn IH]; [constructor; apply Qle_refl|].
  cbn [to_program]. rewrite Ea. destruct (op_exists source k ops Ea) as [o [Eo Er]]. rewrite Eo, requested_app, <- Er.
  apply well_formed_then with (x := 0%Q).
  - destruct (k_query k) as [c public|r partition] eqn:Ek; [apply (metric_valid source u k c public ops o Ek Ea Ha Eo) | apply (select_valid source u k r partition ops o Ek Ea Ha Eo)].
  - intros a Pa. apply IH. apply (reply_possible source k ops o a Ea Eo Pa).
  - rewrite (no_extra source k o Eo). unfold Qle. cbn. lia.
Qed.

Lemma honest_asks source u g ops : honest fw extractor source u g ops -> requested ops = [] -> g = Finish.
Proof.
  intro Hg. inversion Hg as [|k next ops1 ops2 Ea _ _]; subst; [reflexivity|]. rewrite requested_app. intro X. apply app_eq_nil in X. destruct X as [X _]. exfalso.
  destruct (k_query k) as [c public|r partition] eqn:Ek.
  - destruct (calls_metric fw k c public ops1 Ek Ea) as [p [cs [Hp [_ [Hc ->]]]]]. rewrite requested_metric in X. apply app_eq_nil in X. destruct X as [X _].
    destruct (wrapper_combiners fw c p cs Hp Hc) as [_ N]. destruct cs as [|cb cs]; [congruence|]. destruct cb; discriminate.
  - destruct (calls_select fw k r partition ops1 Ek Ea) as [_ [_ ->]]. discriminate.
Qed.

Lemma follows_replies source g l : follows (to_program source g) l -> (forall ops u, honest fw extractor source u g ops -> replies_to g (replies g l)).
Proof.
  revert l. induction g as [|k next IH]; intros l Fl ops u Hg; [constructor|].
  inversion Hg as [|? ? ops1 ops2 Ea Ha Hn]; subst. cbn [to_program replies] in *. rewrite Ea in *.
  destruct (op_exists source k ops1 Ea) as [o [Eo Er]]. rewrite Eo in Fl. inversion Fl as [|? ? a rest Pa Fr]; subst.
  assert (Pr := reply_possible source k ops1 o a Ea Eo Pa). constructor; [exact Pr|].
  apply (IH _ rest Fr ops2 u). apply Hn. exact Pr.
Qed.
End Translation.
