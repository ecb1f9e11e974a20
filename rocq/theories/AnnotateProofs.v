(** Proofs for C84. *)
From Coq Require Import String List ZArith QArith Bool Lia Lqa.
From Verif Require Import Base BaseLemmas BudgetModel BudgetSpec BudgetProofs BudgetTreeProofs
  LabelModel LabelProofs AnnotateModel AnnotateSpec.
Import ListNotations.
Local Open Scope Q_scope.

(** ** Labels *)
Lemma next_label_spec n g : exists l,
  next_label n g = (l, mkGen (l :: g_labels g) (g_suffix g)) /\ ~ In l (g_labels g) /\
  exists i, l = (stage_name n ++ i ++ g_suffix g)%string.
Proof.
  unfold next_label.
  destruct (unique_result (S (List.length (g_labels g))) n g ltac:(lia)) as (l & E & N & F).
  exists l. rewrite E. split; [reflexivity|]. split; [exact N|].
  destruct F as [-> | (_ & i & _ & -> & _)]; [exists ""%string; reflexivity|].
  exists ("_" ++ decimal i)%string. unfold candidate. rewrite !append_assoc. reflexivity.
Qed.

Lemma next_labels_spec names : forall g, NoDup (g_labels g) -> exists ls,
  next_labels names g = (ls, mkGen (rev ls ++ g_labels g) (g_suffix g)) /\
  List.length ls = List.length names /\ NoDup (rev ls ++ g_labels g).
Proof.
  induction names as [|n names IH]; intros g D.
  - exists []. cbn. destruct g; auto.
  - cbn [next_labels]. destruct (next_label_spec n g) as (l & -> & N & _).
    destruct (IH (mkGen (l :: g_labels g) (g_suffix g))) as (ls & E & L & D').
    { cbn. constructor; assumption. }
    rewrite E. exists (l :: ls). cbn [g_labels g_suffix rev List.length] in *.
    rewrite <- app_assoc. cbn. auto.
Qed.

Definition from_stage (stage suffix l : string) : Prop := exists i, l = (stage ++ i ++ suffix)%string.

Lemma annotate_loop_spec {C Pm} (annotators : list (annotator C Pm)) stage params budget :
  stage <> ""%string -> forall col g, NoDup (g_labels g) -> exists ls,
  annotate_loop annotators col stage params budget g =
    (annotated annotators ls params budget col, ls, mkGen (rev ls ++ g_labels g) (g_suffix g)) /\
  List.length ls = List.length annotators /\ NoDup (rev ls ++ g_labels g) /\
  Forall (from_stage stage (g_suffix g)) ls.
Proof.
  intros Hs. induction annotators as [|a rest IH]; intros col g D.
  - exists []. cbn. destruct g; auto.
  - cbn [annotate_loop]. destruct (next_label_spec (Some stage) g) as (l & -> & N & i & Hl).
    destruct (IH (a col l params budget) (mkGen (l :: g_labels g) (g_suffix g))) as (ls & E & L & D' & F).
    { cbn. constructor; assumption. }
    rewrite E. exists (l :: ls). cbn [g_labels g_suffix rev List.length] in *.
    rewrite <- app_assoc. split; [reflexivity|]. split; [lia|]. split; [exact D'|].
    constructor; [|exact F]. exists i. rewrite Hl. f_equal.
    unfold stage_name. destruct stage; [contradiction|reflexivity].
Qed.

Lemma beam_annotate_spec {C Pm} (annotators : list (annotator C Pm)) stage params budget :
  stage <> ""%string -> forall col g, NoDup (g_labels g) -> exists ls,
  beam_annotate annotators col stage params budget g =
    (annotated annotators ls params budget col, ls, mkGen (rev ls ++ g_labels g) (g_suffix g)) /\
  List.length ls = List.length annotators /\ NoDup (rev ls ++ g_labels g) /\
  Forall (from_stage stage (g_suffix g)) ls.
Proof.
  intros Hs col g D. destruct (annotate_loop_spec annotators stage params budget Hs col g D) as (ls & E & R).
  exists ls. split; [|exact R]. rewrite <- E. unfold beam_annotate. destruct annotators; reflexivity.
Qed.

(** ** The accountant *)
Lemma perform_app ops1 ops2 : forall s r, perform s (ops1 ++ ops2) r =
  rbind (perform s ops1 r) (fun sr => perform (fst sr) ops2 (snd sr)).
Proof.
  induction ops1 as [|o ops1 IH]; intros s r; cbn [app perform]; [reflexivity|].
  destruct (step s o) as [s' [r'|x]]; [apply IH|reflexivity].
Qed.

Lemma perform_run ops : forall s r s' r', perform s ops r = Ok (s', r') -> s' = run s ops.
Proof.
  induction ops as [|o ops IH]; intros s r s' r' E; cbn in *; [injection E; auto|].
  destruct (step s o) as [s1 [r1|x]]; [|discriminate]. apply IH in E. exact E.
Qed.

Lemma perform_ok ops : forall s r, all_ok (outs s ops) -> exists r', perform s ops r = Ok (run s ops, r').
Proof.
  induction ops as [|o ops IH]; intros s r A; cbn [perform run outs fold_left] in *; [eauto|].
  inversion A as [|x l A1 A2]; subst. destruct (step s o) as [s1 [r1|x]]; cbn [fst snd is_ok] in *; [|discriminate].
  apply IH. exact A2.
Qed.

Definition told (s : acct) : Q * Q * option Z * option (list Q) :=
  (total_eps s, total_delta s, exp_num s, exp_weights s).

Lemma run_told ops s : told (run s ops) = told s.
Proof. unfold told. destruct (run_totals ops s) as (-> & -> & -> & ->). reflexivity. Qed.

Definition good_num (num : option Z) : Prop := match num with Some n => (0 < n)%Z | None => True end.

Lemma start_agg_due s w s' r : good_num (exp_num s) -> step s (StartAgg w) = (s', Ok r) ->
  r = OutBudget (due (total_eps s) (total_delta s) (exp_num s) (exp_weights s) w).
Proof.
  cbn [step]. unfold start_agg, due, good_num. destruct (exp_num s) as [n|].
  - intros Hn. assert ((n =? 0)%Z = false) as -> by (apply Z.eqb_neq; lia). cbn. congruence.
  - intros _. destruct (exp_weights s) as [[|x l]|]; try congruence.
    destruct (Qeq_bool _ _); congruence.
Qed.

Lemma perform_before m s s' r : good_num (exp_num s) -> perform s (before m) OutUnit = Ok (s', r) ->
  budget_of r = due (total_eps s) (total_delta s) (exp_num s) (exp_weights s)
                  (match m with Scoped w _ => w | AddNoise _ w => w end).
Proof.
  intros Hn E.
  assert (G : exists ops w, before m = ops ++ [StartAgg w] /\
     w = match m with Scoped w _ => w | AddNoise _ w => w end).
  { destruct m as [w rs|t w]; cbn [before].
    - exists (Enter w :: rs), w. split; reflexivity.
    - exists [Request t 1 1 None], w. split; reflexivity. }
  destruct G as (ops & w & Eb & <-). rewrite Eb, perform_app in E.
  destruct (perform s ops OutUnit) as [[s1 r1]|] eqn:E1; [|discriminate]. cbn [rbind fst snd] in E.
  cbn [perform] in E. destruct (step s1 (StartAgg w)) as [s2 [r2|]] eqn:E2; [|discriminate].
  injection E as _ <-. apply perform_run in E1. pose proof (run_told ops s) as T. rewrite <- E1 in T.
  unfold told in T. injection T as T1 T2 T3 T4. rewrite <- T3 in Hn.
  apply start_agg_due in E2; auto. subst r2. cbn. congruence.
Qed.

Lemma build_spec {C Pm} (annotators : list (annotator C Pm)) calls : forall s g rs s' g',
  good_num (exp_num s) -> NoDup (g_labels g) ->
  build annotators calls s g = Ok (rs, s', g') ->
  g_labels g' = rev (flat_map (fun r => r_stages r ++ r_annotations r) rs) ++ g_labels g /\
  NoDup (g_labels g') /\
  s' = run s (flat_map (fun c => method_ops (c_method c)) calls) /\
  Forall2 (fun c r =>
    List.length (r_stages r) = List.length (c_stages c) /\
    List.length (r_annotations r) = List.length annotators /\
    Forall (from_stage "annotation" (g_suffix g)) (r_annotations r) /\
    r_col r = annotated annotators (r_annotations r) (c_params c)
      (due (total_eps s) (total_delta s) (exp_num s) (exp_weights s)
         (match c_method c with Scoped w _ => w | AddNoise _ w => w end)) (c_col c)) calls rs.
Proof.
  induction calls as [|c calls IH]; intros s g rs s' g' Hn D E; cbn [build] in E.
  - injection E as <- <- <-. cbn. auto.
  - destruct (perform s (before (c_method c)) OutUnit) as [[s1 r1]|] eqn:E1; [|discriminate].
    cbn [rbind fst snd] in E.
    destruct (next_labels_spec (c_stages c) g D) as (ls & El & L & D1). rewrite El in E.
    destruct (beam_annotate_spec annotators "annotation" (c_params c) (budget_of r1) ltac:(discriminate) (c_col c)
                (mkGen (rev ls ++ g_labels g) (g_suffix g)) D1) as (la & Ea & La & D2 & F2).
    rewrite Ea in E. clear El Ea. cbn [g_labels g_suffix] in *.
    destruct (perform s1 (after (c_method c)) OutUnit) as [[s2 r2]|] eqn:E2; [|discriminate].
    cbn [rbind fst snd] in E.
    destruct (build annotators calls s2 _) as [[[rs3 s3] g3]|] eqn:E3 in E; [|discriminate].
    cbn [rbind] in E. injection E as <- <- <-.
    pose proof (perform_before _ _ _ _ Hn E1) as B.
    apply perform_run in E1. apply perform_run in E2.
    assert (T : told s2 = told s) by (rewrite E2, E1, !run_told; reflexivity).
    unfold told in T. injection T as T1 T2 T3 T4.
    apply IH in E3; [|rewrite T3; exact Hn|exact D2]. rewrite T1, T2, T3, T4 in E3.
    destruct E3 as (G1 & G2 & G3 & G4). cbn [g_labels g_suffix] in *. split; [|split; [exact G2|split]].
    + rewrite G1. cbn [flat_map r_stages r_annotations]. rewrite !rev_app_distr, <- !app_assoc. reflexivity.
    + rewrite G3, E2, E1. cbn [flat_map]. unfold method_ops at 2. rewrite !run_app. reflexivity.
    + constructor; [|exact G4]. cbn [r_stages r_annotations r_col].
      split; [exact L|]. split; [exact La|]. split; [exact F2|]. rewrite B. reflexivity.
Qed.

(** ** Programs *)
Definition cfw (c : engine_call) : list (mech_type * Q) :=
  match c with Aggregation w l => agg_fw (w, l) | Noise t _ => [(t, 1)] end.

Lemma scoped_ops w l : method_ops (as_method (Aggregation w l)) = agg_ops (w, l).
Proof. unfold method_ops, agg_ops. cbn. rewrite <- app_assoc. reflexivity. Qed.

(** _compute_budget_for_aggregation does not raise. *)
Definition told_ok (s : acct) : Prop :=
  match exp_num s, exp_weights s with
  | None, Some (x :: l) => ~ sumQ (x :: l) == 0
  | _, _ => True
  end.

Lemma start_ok s w : told_ok s -> is_ok (snd (start_agg s w)) = true.
Proof.
  unfold told_ok, start_agg. destruct (exp_num s) as [n|].
  - intros _. destruct (negb _); reflexivity.
  - destruct (exp_weights s) as [[|x l]|]; try reflexivity. intros N. cbv zeta.
    destruct (Qeq_bool _ _) eqn:E; [|reflexivity]. apply Qeq_bool_iff in E. contradiction.
Qed.

Lemma start_fst s w : step s (StartAgg w) = (add_actual s w, snd (start_agg s w)).
Proof. cbn [step]. rewrite <- (start_agg_state s w). destruct (start_agg s w); reflexivity. Qed.

Lemma run_call d c s : finalized s = false -> total_delta s = d -> usable d c ->
  run s (method_ops (as_method c)) = extend s (cfw c) [asked_weight c] /\
  (told_ok s -> all_ok (outs s (method_ops (as_method c)))).
Proof.
  intros Hf Hd [Hw Hu]. destruct c as [w l|t w].
  - destruct Hu as [Hl _]. rewrite scoped_ops. unfold agg_ops. cbn [fst snd].
    set (s1 := set_scopes s ((w, []) :: scopes s)).
    destruct (run_items (negb (Qeq_bool d 0)) l s1) as (A & B & _); auto.
    { cbn. rewrite Hd. destruct (Qeq_bool d 0); [discriminate|reflexivity]. }
    set (s2 := extend s1 (flat_map fw l) []) in *.
    assert (Ex : step (add_actual s2 w) Exit = (extend s (agg_fw (w, l)) [w], Ok OutUnit)).
    { simpl. unfold exit_scope. simpl.
      rewrite normalise_seq by (eapply fw_list_pos; eauto).
      unfold set_mechs, set_scopes, extend, agg_fw; simpl. f_equal. f_equal.
      - rewrite app_nil_r. reflexivity.
      - unfold rescale. rewrite map_length. reflexivity. }
    change (Enter w :: flat_map item_ops l ++ [StartAgg w; Exit])
      with ([Enter w] ++ flat_map item_ops l ++ [StartAgg w; Exit]).
    split.
    + rewrite !run_app. change (run s [Enter w]) with s1. rewrite A.
      change (run s2 [StartAgg w; Exit]) with (fst (step (fst (step s2 (StartAgg w))) Exit)).
      rewrite start_fst. cbn [fst]. rewrite Ex. reflexivity.
    + intros T. rewrite !outs_app. change (run s [Enter w]) with s1. rewrite A.
      apply Forall_app. split; [repeat constructor|]. apply Forall_app. split; [exact B|].
      change (outs s2 [StartAgg w; Exit]) with
        [snd (step s2 (StartAgg w)); snd (step (fst (step s2 (StartAgg w))) Exit)].
      rewrite start_fst. cbn [fst snd]. rewrite Ex. constructor; [apply start_ok; exact T|repeat constructor].
  - change (method_ops (as_method (Noise t w))) with ([Request t 1 1 None] ++ [StartAgg w]).
    destruct (run_item (negb (Qeq_bool d 0)) (IMech t 1) s) as (A & B & _); auto.
    { rewrite Hd. destruct (Qeq_bool d 0); [discriminate|reflexivity]. }
    { cbn. split; [reflexivity|]. intros E. rewrite (Hu E). reflexivity. }
    cbn [item_ops] in A, B. split.
    + rewrite run_app, A. unfold run. cbn [fold_left]. rewrite start_fst. cbn [fst].
      unfold add_actual, extend. cbn. rewrite app_nil_r. reflexivity.
    + intros T. rewrite outs_app, A. apply Forall_app. split; [exact B|].
      cbn [outs]. rewrite start_fst. constructor; [apply start_ok; exact T|constructor].
Qed.

Lemma run_calls d cs : forall s, finalized s = false -> total_delta s = d -> Forall (usable d) cs ->
  run s (program_ops cs) = extend s (flat_map cfw cs) (map asked_weight cs) /\
  (told_ok s -> all_ok (outs s (program_ops cs))).
Proof.
  unfold program_ops. induction cs as [|c cs IH]; intros s Hf Hd Hu; cbn [flat_map map].
  - split; [symmetry; apply extend_nil|constructor].
  - inversion Hu as [|x y U1 U2]; subst. destruct (run_call _ c s Hf eq_refl U1) as [A B].
    destruct (IH (extend s (cfw c) [asked_weight c])) as [A' B']; auto.
    split.
    + rewrite run_app, A, A', extend_extend. reflexivity.
    + intros T. rewrite outs_app, A. apply Forall_app. split; [apply B; exact T|apply B'; exact T].
Qed.

Lemma announced_call d c s : finalized s = false -> total_delta s = d -> usable d c ->
  decl_ok (exp_num s) (exp_weights s) -> exists b,
  declared_budget (total_eps s) (total_delta s) (exp_num s) (exp_weights s) (asked_weight c) = Some b /\
  announced (method_ops (as_method c)) (outs s (method_ops (as_method c))) = [b].
Proof.
  intros Hf Hd [Hw Hu] Dk. destruct c as [w l|t w].
  - rewrite scoped_ops. destruct Hu as [Hl _].
    destruct (run_agg (negb (Qeq_bool d 0)) (w, l) s) as (_ & b & Hb & Ab); auto.
    { rewrite Hd. destruct (Qeq_bool d 0); [discriminate|reflexivity]. }
    eauto.
  - change (method_ops (as_method (Noise t w))) with ([Request t 1 1 None] ++ [StartAgg w]).
    destruct (run_item (negb (Qeq_bool d 0)) (IMech t 1) s) as (A & _ & _); auto.
    { rewrite Hd. destruct (Qeq_bool d 0); [discriminate|reflexivity]. }
    { cbn. split; [reflexivity|]. intros E. rewrite (Hu E). reflexivity. }
    cbn [item_ops] in A. destruct (declared_some (total_eps s) (total_delta s) _ _ w Dk) as (b & Hb).
    exists b. split; [exact Hb|]. rewrite announced_app, A.
    change (announced [Request t 1 1 None] (outs s [Request t 1 1 None])) with (@nil (Q * Q)). cbn [app outs step].
    rewrite start_agg_ok by exact Dk. cbn [snd announced].
    change (declared_budget (total_eps (extend s (fw (IMech t 1)) [])) (total_delta (extend s (fw (IMech t 1)) []))
              (exp_num (extend s (fw (IMech t 1)) [])) (exp_weights (extend s (fw (IMech t 1)) [])) w)
      with (declared_budget (total_eps s) (total_delta s) (exp_num s) (exp_weights s) w).
    rewrite Hb. reflexivity.
Qed.

Lemma announced_calls d cs : forall s, finalized s = false -> total_delta s = d -> Forall (usable d) cs ->
  decl_ok (exp_num s) (exp_weights s) ->
  Forall2 (fun c b => declared_budget (total_eps s) (total_delta s) (exp_num s) (exp_weights s) (asked_weight c) = Some b)
    cs (announced (program_ops cs) (outs s (program_ops cs))).
Proof.
  unfold program_ops. induction cs as [|c cs IH]; intros s Hf Hd Hu Dk; cbn [flat_map]; [constructor|].
  inversion Hu as [|x y U1 U2]; subst. destruct (run_call _ c s Hf eq_refl U1) as [A _].
  destruct (announced_call _ c s Hf eq_refl U1 Dk) as (b & Hb & Ab).
  rewrite announced_app, A, Ab. constructor; [exact Hb|].
  apply (IH (extend s (cfw c) [asked_weight c])); auto.
Qed.

Lemma performed_program cs : performed (program_ops cs) = map asked_weight cs.
Proof.
  unfold program_ops. induction cs as [|c cs IH]; [reflexivity|]. cbn [flat_map map].
  unfold performed in *. rewrite flat_map_app, IH. change (asked_weight c :: map asked_weight cs) with ([asked_weight c] ++ map asked_weight cs). f_equal.
  destruct c as [w l|t w]; [|reflexivity]. rewrite scoped_ops.
  pose proof (performed_aggs [(w, l)]) as P. cbn [flat_map] in P. rewrite app_nil_r in P. exact P.
Qed.

Lemma cfw_spec d c : usable d c ->
  Forall (fun tx => 0 < snd tx) (cfw c) /\ wsum (cfw c) == counted_weight c /\
  List.length (cfw c) = mechanisms_of c /\ 0 < counted_weight c.
Proof.
  intros [Hw Hu]. destruct c as [w l|t w]; cbn [asked_weight counted_weight mechanisms_of] in *.
  - destruct Hu as [Hl Hn]. change (cfw (Aggregation w l)) with (fw (IScope w l)).
    assert (K : item_ok (negb (Qeq_bool d 0)) (IScope w l)) by (split; [exact Hw|apply item_ok_list; exact Hl]).
    destruct (fw_spec _ _ K) as [F1 F2]. split; [exact F1|]. split; [apply F2; exact Hn|].
    split; [apply fw_length|exact Hw].
  - cbn. repeat split; repeat constructor.
Qed.

Lemma what_calls_get e d num ws s0 cs s2 :
  new_accountant e d num ws = Ok s0 -> cs <> [] -> Forall (usable d) cs ->
  step (run s0 (program_ops cs)) Compute = (s2, Ok OutUnit) ->
  exists ess : list (list Q),
    read_eps s2 (concat ess) /\
    Forall2 (fun es c => List.length es = mechanisms_of c) ess cs /\
    Forall2 (fun es c => sumQ es == e * counted_weight c / sumQ (map counted_weight cs)) ess cs.
Proof.
  intros Hnew Hne Hu Hc.
  pose proof (new_accountant_inv _ _ _ _ _ Hnew) as (E & He & _ & _ & _ & _).
  destruct (run_calls d cs s0) as [A _]; auto. { subst; reflexivity. } { subst; reflexivity. }
  rewrite A in Hc.
  assert (Hm0 : mechs s0 = []) by (subst; auto). assert (Te : total_eps s0 = e) by (subst; auto).
  assert (Hsum : wsum (flat_map cfw cs) == sumQ (map counted_weight cs)).
  { clear -Hu. induction Hu as [|c cs U Hu IH]; [reflexivity|]. cbn [flat_map map].
    rewrite wsum_app, IH. destruct (cfw_spec d c U) as (_ & F & _). rewrite F. reflexivity. }
  assert (Hpos : 0 < sumQ (map counted_weight cs)).
  { apply sumQ_pos; [destruct cs; [contradiction|discriminate]|]. apply Forall_forall. intros x Hx.
    apply in_map_iff in Hx as (c & <- & Hx). rewrite Forall_forall in Hu. apply (cfw_spec d c (Hu c Hx)). }
  apply compute_ok in Hc as (_ & _ & [[Hnil _] | (Hnn & Hsc & E2)]).
  { exfalso. simpl in Hnil. rewrite Hm0 in Hnil. simpl in Hnil. apply map_nil_inv in Hnil.
    rewrite Hnil in Hsum. unfold wsum in Hsum. simpl in Hsum. lra. }
  simpl in E2. rewrite Hm0 in E2. simpl in E2. rewrite Te in E2.
  set (tw := total_weight_eps (map mk (flat_map cfw cs))) in *.
  assert (Htw : tw == sumQ (map counted_weight cs)) by (unfold tw; rewrite total_weight_mk; auto).
  assert (Hb : Qeq_bool tw 0 = false) by (apply Qeq_bool_false; lra).
  set (fe := fun tx : mech_type * Q => if Qeq_bool tw 0 then 0 else e * snd tx / tw).
  exists (map (fun c => map fe (cfw c)) cs). split; [|split].
  - unfold read_eps. subst s2. simpl mechs.
    assert (Ec : concat (map (fun c => map fe (cfw c)) cs) = map fe (flat_map cfw cs)).
    { rewrite flat_map_map, flat_map_concat_map. reflexivity. }
    rewrite Ec, map_map. apply Forall2_map_same. intros m _. reflexivity.
  - apply Forall2_map_l. apply Forall2_same. intros c Hin. rewrite map_length.
    rewrite Forall_forall in Hu. apply (cfw_spec d c (Hu c Hin)).
  - apply Forall2_map_l. apply Forall2_same. intros c Hin. unfold fe. rewrite Hb.
    rewrite (sumQ_ext _ (fun tx => (e / tw) * snd tx)) by (intros; field; lra).
    rewrite sumQ_scale. fold (wsum (cfw c)). rewrite Forall_forall in Hu.
    destruct (cfw_spec d c (Hu c Hin)) as (_ & F & _). rewrite F, Htw. field. lra.
Qed.

Lemma what_is_announced e d num ws s0 cs s2 :
  new_accountant e d num ws = Ok s0 -> (num <> None \/ exists l, ws = Some l /\ l <> []) ->
  cs <> [] -> Forall (usable d) cs ->
  step (run s0 (program_ops cs)) Compute = (s2, Ok OutUnit) ->
  Forall2 (fun c b => fst b == e * asked_weight c / sumQ (map asked_weight cs))
    cs (announced (program_ops cs) (outs s0 (program_ops cs))) /\
  0 < sumQ (map asked_weight cs).
Proof.
  intros Hnew Hdecl Hne Hu Hc.
  pose proof (new_accountant_inv _ _ _ _ _ Hnew) as (E & He & _ & _ & Hexcl & Hn).
  assert (M : matches_declaration num ws (map asked_weight cs)).
  { rewrite <- performed_program.
    pose proof (run_totals (program_ops cs) s0) as (_ & _ & En & Ew).
    pose proof (run_actual (program_ops cs) s0) as Ea.
    pose proof (check_spec (run s0 (program_ops cs))) as C. rewrite En, Ew, Ea in C. subst s0. simpl in C.
    apply C; auto. apply compute_ok in Hc. tauto. }
  assert (Hwtot : 0 < sumQ (map asked_weight cs)).
  { apply sumQ_pos; [destruct cs; [contradiction|discriminate]|]. apply Forall_forall. intros x Hx.
    apply in_map_iff in Hx as (c & <- & Hx). rewrite Forall_forall in Hu. destruct (Hu c Hx); assumption. }
  destruct M as [M1 M2].
  assert (Hd : decl_ok num ws).
  { unfold decl_ok. destruct num as [n|]; [apply Hn; auto|].
    destruct Hdecl as [X|(l & -> & Hl)]; [congruence|]. destruct l as [|x l]; [congruence|].
    specialize (M2 _ eq_refl Hl). apply sumQ_Forall2 in M2. rewrite <- M2. auto. }
  split; [|exact Hwtot].
  assert (B : Forall2 (fun c b => declared_budget e d num ws (asked_weight c) = Some b)
    cs (announced (program_ops cs) (outs s0 (program_ops cs)))).
  { pose proof (announced_calls d cs s0) as B. subst s0. apply B; auto. }
  assert (G : forall l bs, incl l cs -> Forall2 (fun c b => declared_budget e d num ws (asked_weight c) = Some b) l bs ->
    Forall2 (fun c b => fst b == e * asked_weight c / sumQ (map asked_weight cs)) l bs).
  { intros l bs Hin F. induction F as [|c b l bs Hb F IH]; constructor.
    - assert (Ic : In c cs) by (apply Hin; left; reflexivity). unfold declared_budget in Hb.
      destruct num as [n|].
      + injection Hb as <-. cbn [fst]. destruct (M1 n eq_refl) as [L1 L2].
        pose proof (sumQ_const_one _ L2) as S1. rewrite L1 in S1. rewrite S1.
        assert (asked_weight c == 1) as ->.
        { rewrite Forall_forall in L2. apply L2. apply in_map; auto. }
        rewrite Qmult_1_r. reflexivity.
      + destruct ws as [[|x k]|]; try discriminate. injection Hb as <-. cbn [fst].
        assert (M2' : Forall2 Qeq (map asked_weight cs) (x :: k)) by (apply M2; [reflexivity|discriminate]).
        apply sumQ_Forall2 in M2'. rewrite <- M2'. field. lra.
    - apply IH. intros y Hy. apply Hin. right. exact Hy. }
  apply G; [apply incl_refl|exact B].
Qed.
