(** C50: the explain-computation report. *)
From Coq Require Import List ZArith QArith String Bool Sorted Lia.
From Verif Require Import Base BackendModel BounderModel ParamsModel CombinerModel EngineModel LabelModel LabelProofs ReportModel ReportProofs.
Import ListNotations.
Local Open Scope string_scope.

(** The calls of the engine's methods that make reports: each opens one report and adds its stages. *)
Record call (S : Type) := Call { c_params : string; c_method : string; c_stages : list (stage S) }.
Arguments Call {S} _ _ _.
Arguments c_params {S} _.
Arguments c_method {S} _.
Arguments c_stages {S} _.
Definition ops_of {S} (c : call S) : list (report_op S) :=
  NewReport (Some (c_params c)) (c_method c) :: map AddStage (c_stages c).

(** The text of a report: header, parameters, title, then one line per stage: number from 1 in order, and
    the description as it reads in state [st]. *)
Definition is_report {S} (st : S) (c : call S) (t : string) : Prop :=
  exists lines,
    t = String.concat newline (("DPEngine method: " ++ c_method c) :: c_params c :: "Computation graph:" :: lines) /\
    List.length lines = List.length (c_stages c) /\
    forall k s, nth_error (c_stages c) k = Some s ->
      exists d, (match s with Text d' => d = d' | Deferred f => f st = Ok d | NoDescription => d = "None" end) /\
                nth_error lines k = Some (" " ++ decimal (k + 1) ++ ". " ++ d).

Definition describable {S} (st : S) (s : stage S) : Prop :=
  match s with Deferred f => exists d, f st = Ok d | _ => True end.

Lemma describable_text {S} (st : S) s : describable st s -> exists t, stage_text st s = Ok t.
Proof. destruct s; cbn; intro H; [eexists; reflexivity | exact H | eexists; reflexivity]. Qed.

Lemma report_is {S} (st : S) (c : call S) : c_params c <> "" -> Forall (describable st) (c_stages c) ->
  exists t, report st (Generator (Some (c_params c)) (c_method c) (c_stages c)) = Ok t /\ is_report st c t.
Proof.
  intros N F. unfold report. cbn [g_params g_method g_stages]. destruct (String.eqb_spec (c_params c) ""); [contradiction|].
  destruct (stage_lines_ok st (c_stages c) 0) as (lines & E); [eapply Forall_impl; [|exact F]; apply describable_text|].
  rewrite E. cbn [rmap]. eexists. split; [reflexivity|]. exists lines. destruct (stage_lines_spec _ _ _ _ E) as (L & X).
  split; [reflexivity|]. split; [exact L|]. intros k s Es. destruct (X k s Es) as (d & Ed & Nd). exists d. split; [|exact Nd].
  destruct s; cbn in Ed; congruence.
Qed.

(** After any sequence of calls, the report object handed to call [k] (its generator is the one appended by the
    call) reads as the report of call [k] alone, in the state of reading. *)
Theorem C50_reports {S} (calls : list (call S)) (st : S) :
  Forall (fun c => c_params c <> "" /\ Forall (describable st) (c_stages c)) calls ->
  exists gs texts, run_reports [] (flat_map ops_of calls) = Ok gs /\
    all_reports st gs = Ok texts /\ Forall2 (is_report st) calls texts /\
    forall k c, nth_error calls k = Some c -> exists t, text st (nth_error gs k) = Ok t /\ nth_error texts k = Some t /\ is_report st c t.
Proof.
  intro F.
  assert (R := run_calls (map (fun c : call S => (Some (c_params c), c_method c, c_stages c)) calls) []).
  rewrite flat_map_concat_map, map_map, <- flat_map_concat_map in R. cbn [fst snd app] in R. rewrite map_map in R. cbn [fst snd] in R.
  eexists. exists (map (fun c => match report st (Generator (Some (c_params c)) (c_method c) (c_stages c)) with Ok t => t | Err _ => "" end) calls).
  split; [exact R|].
  assert (Fr : Forall (fun c => exists t, report st (Generator (Some (c_params c)) (c_method c) (c_stages c)) = Ok t /\ is_report st c t) calls).
  { eapply Forall_impl; [|exact F]. intros c (N & D). apply report_is; assumption. }
  split; [|split].
  - clear R F. induction Fr as [|c l (t & E & _) Fr IH]; [reflexivity|]. cbn [map all_reports]. rewrite E. cbn [rbind]. rewrite IH. reflexivity.
  - clear R F. induction Fr as [|c l (t & E & I) Fr IH]; cbn [map]; constructor; [rewrite E; exact I | exact IH].
  - intros k c Ek. rewrite Forall_forall in Fr. destruct (Fr c (nth_error_In _ _ Ek)) as (t & E & I). exists t.
    rewrite (map_nth_error _ _ _ Ek). cbn [text]. rewrite E. split; [reflexivity|]. split; [|exact I].
    erewrite map_nth_error by exact Ek. rewrite E. reflexivity.
Qed.

Example C50_reports_case : exists gs,
  run_reports [] (flat_map ops_of [Call "P" "aggregate" [Text "bound"; Deferred (fun b : bool => if b then Ok "eps=1" else Err AssertionError)];
                                   Call "Q" "select_partitions" [Text "select"]]) = Ok gs /\
  all_reports true gs = Ok ["DPEngine method: aggregate" ++ newline ++ "P" ++ newline ++ "Computation graph:" ++ newline ++ " 1. bound" ++ newline ++ " 2. eps=1";
                            "DPEngine method: select_partitions" ++ newline ++ "Q" ++ newline ++ "Computation graph:" ++ newline ++ " 1. select"].
Proof. eexists. split; reflexivity. Qed.

(** Without params the report is empty, whatever the stages. *)
Theorem C50_empty_without_params {S} (st : S) method stages : report st (Generator None method stages) = Ok "".
Proof. reflexivity. Qed.

(** An object never passed to an aggregation: ValueError. *)
Theorem C50_not_passed {S} (st : S) : text st (@None (report_generator S)) = Err ValueError.
Proof. reflexivity. Qed.

(** A stage whose description cannot be computed yet: the promised ValueError never arrives, it is a
    NameError. *)
Theorem C50_before_budgets {S} (st : S) (g : report_generator S) (f : S -> result string) e :
  g_params g <> None -> g_params g <> Some "" -> In (Deferred f) (g_stages g) -> f st = Err e ->
  text st (Some g) = Err NameError.
Proof.
  intros N N' I E. unfold text, report. destruct (g_params g) as [p|]; [|congruence].
  destruct (String.eqb_spec p ""); [congruence|].
  destruct (stage_lines_err st (g_stages g) 0) as (e' & ->); [exists (Deferred f), e; auto | reflexivity].
Qed.
Theorem C50_clear_error_refuted : exists (g : report_generator bool),
  report false g = Err AssertionError /\ text false (Some g) <> Err ValueError /\ exists t, text true (Some g) = Ok t.
Proof.
  exists (Generator (Some "P") "aggregate" [Deferred (fun b : bool => if b then Ok "eps=1" else Err AssertionError)]).
  split; [reflexivity|]. split; [discriminate | eexists; reflexivity].
Qed.

(** ** The stages of an aggregation *)
Definition metric_stages (l : list stage_kind) : list combiner :=
  flat_map (fun s => match s with Metric c => [c] | _ => [] end) l.

(** Every combiner has its line, in the order of the combiners; whatever else is listed. *)
Theorem C50_metrics_listed p public cs : metric_stages (aggregate_stages p public cs) = cs.
Proof.
  unfold aggregate_stages, metric_stages. rewrite !flat_map_app.
  assert (M : flat_map (fun s => match s with Metric c => [c] | _ => [] end) (map Metric cs) = cs).
  { induction cs as [|c cs IH]; cbn; [reflexivity | f_equal; exact IH]. }
  rewrite M. clear M.
  assert (B : flat_map (fun s => match s with Metric c => [c] | _ => [] end)
               (if contribution_bounds_already_enforced p then [] else bounding_stages p (existsb expects_sampling cs)) = []).
  { destruct (contribution_bounds_already_enforced p); [reflexivity|]. unfold bounding_stages.
    destruct (max_contributions p); [reflexivity|].
    destruct (perform_cross_partition_contribution_bounding p), (existsb expects_sampling cs); reflexivity. }
  rewrite B. destruct public as [[|]|]; cbn [is_some andb negb flat_map app];
    destruct (public_partitions_already_filtered p), (post_aggregation_thresholding p); cbn; rewrite ?app_nil_r; reflexivity.
Qed.

(** A private partition selection is listed exactly when one is run (cf. EngineModel.selects_privately). *)
Theorem C50_selection_listed {P} p (public : option (list P)) cs :
  (exists s t, In (PrivateSelection s t) (aggregate_stages p (option_map (fun l => match l with [] => false | _ => true end) public) cs))
  <-> selects_privately p public = true.
Proof.
  unfold aggregate_stages, selects_privately. split.
  - intros (s & t & I). rewrite !in_app_iff in I. destruct I as [I|[I|[I|[I|[I|I]]]]].
    + destruct (is_some _ && _)%bool in I; [destruct I as [I|[]]; discriminate | destruct I].
    + destruct (contribution_bounds_already_enforced p); [destruct I|]. unfold bounding_stages in I.
      destruct (max_contributions p); [destruct I as [I|[]]; discriminate|].
      destruct (perform_cross_partition_contribution_bounding p), (existsb expects_sampling cs); cbn in I; intuition discriminate.
    + destruct (option_map _ public) as [[|]|]; cbn in I; intuition discriminate.
    + destruct public; cbn [option_map is_some negb andb] in *; [destruct I|].
      destruct (post_aggregation_thresholding p), (public_partitions_already_filtered p); cbn in *; tauto.
    + apply in_map_iff in I. destruct I as (c & X & _). discriminate.
    + destruct (post_aggregation_thresholding p); cbn in I; intuition discriminate.
  - intro H. exists (partition_selection_strategy p), (pre_threshold p). rewrite !in_app_iff. right. right. right. left.
    destruct public; cbn [option_map is_some negb andb] in *; [discriminate|].
    destruct (post_aggregation_thresholding p), (public_partitions_already_filtered p); cbn in *; try discriminate. left. reflexivity.
Qed.

(** Partitions outside of the public ones are listed as dropped exactly when they are dropped, empty public
    partitions as added exactly when there are public partitions to add, and partitions under the threshold as
    dropped exactly with post-aggregation thresholding. *)
Theorem C50_partition_stages_listed {P} p (public : option (list P)) cs :
  let stages := aggregate_stages p (option_map (fun l => match l with [] => false | _ => true end) public) cs in
  (In DroppedNonPublic stages <-> public <> None /\ public_partitions_already_filtered p = false) /\
  (In AddedEmptyPartitions stages <-> exists pub k, public = Some pub /\ In k pub) /\
  (In DroppedUnderThreshold stages <-> post_aggregation_thresholding p = true).
Proof.
  intro stages.
  assert (B : forall s, In s (if contribution_bounds_already_enforced p then [] else bounding_stages p (existsb expects_sampling cs)) ->
     s <> DroppedNonPublic /\ s <> AddedEmptyPartitions /\ s <> DroppedUnderThreshold).
  { intros s I. destruct (contribution_bounds_already_enforced p); [destruct I|]. unfold bounding_stages in I.
    destruct (max_contributions p); [destruct I as [<-|[]]; repeat split; discriminate|].
    destruct (perform_cross_partition_contribution_bounding p), (existsb expects_sampling cs); cbn in I; intuition (subst; discriminate). }
  assert (M : forall s, In s (map Metric cs) -> s <> DroppedNonPublic /\ s <> AddedEmptyPartitions /\ s <> DroppedUnderThreshold).
  { intros s I. apply in_map_iff in I. destruct I as (c & <- & _). repeat split; discriminate. }
  unfold stages, aggregate_stages. rewrite !in_app_iff.
  set (bs := if contribution_bounds_already_enforced p then [] else bounding_stages p (existsb expects_sampling cs)) in *.
  assert (B1 := B DroppedNonPublic). assert (B2 := B AddedEmptyPartitions). assert (B3 := B DroppedUnderThreshold).
  assert (M1 := M DroppedNonPublic). assert (M2 := M AddedEmptyPartitions). assert (M3 := M DroppedUnderThreshold). clear B M.
  destruct public as [[|k pub]|]; cbn [option_map is_some negb andb];
    destruct (public_partitions_already_filtered p), (post_aggregation_thresholding p); cbn [negb andb In];
    (split; [|split]); (split; [intros X; decompose [or] X; try discriminate; try tauto|intros X; try tauto]);
    try (split; congruence); try (eexists; eexists; split; [reflexivity|left; reflexivity]); try discriminate;
    try (destruct X as (pub' & k' & E & I); injection E as <-; destruct I); try (destruct X as (pub' & k' & E & I); discriminate E);
    try (destruct X; congruence).
Qed.

(** The stages are listed in the order in which they are executed. *)
Definition execution_rank (s : stage_kind) : nat :=
  match s with
  | DroppedNonPublic => 0 | PerPartitionBounding _ | UserBounding _ => 1 | CrossPartitionBounding _ => 2
  | AddedEmptyPartitions => 3 | PrivateSelection _ _ => 4 | Metric _ => 5 | DroppedUnderThreshold => 6
  end.
Theorem C50_stages_in_order p public cs :
  StronglySorted (fun a b => (execution_rank a < execution_rank b)%nat \/ (execution_rank a = 5%nat /\ execution_rank b = 5%nat)) (aggregate_stages p public cs).
Proof.
  set (R := fun a b => (execution_rank a < execution_rank b)%nat \/ (execution_rank a = 5%nat /\ execution_rank b = 5%nat)).
  assert (App : forall l l', StronglySorted R l -> StronglySorted R l' -> (forall a b, In a l -> In b l' -> R a b) -> StronglySorted R (l ++ l')%list).
  { induction l as [|a l IH]; intros l' Sl Sl' H; [exact Sl'|]. inversion Sl as [|? ? Sl1 F]; subst. cbn [app]. constructor.
    - apply IH; auto. intros x y Ix Iy. apply H; [right; exact Ix|exact Iy].
    - apply Forall_app. split; [exact F|]. apply Forall_forall. intros y Iy. apply H; [left; reflexivity|exact Iy]. }
  assert (B : StronglySorted R (if contribution_bounds_already_enforced p then [] else bounding_stages p (existsb expects_sampling cs)) /\
     forall s, In s (if contribution_bounds_already_enforced p then [] else bounding_stages p (existsb expects_sampling cs)) -> (1 <= execution_rank s <= 2)%nat).
  { destruct (contribution_bounds_already_enforced p); [split; [constructor|intros s []]|]. unfold bounding_stages, R.
    destruct (max_contributions p); [split; [repeat constructor|intros s [<-|[]]; cbn; lia]|].
    destruct (perform_cross_partition_contribution_bounding p), (existsb expects_sampling cs);
      (split; [repeat constructor; cbn; lia|cbn; intros s I; intuition (subst; cbn; lia)]). }
  assert (M : StronglySorted R (map Metric cs)).
  { clear. induction cs as [|c cs IH]; cbn [map]; constructor; [exact IH|]. apply Forall_forall. intros s I. apply in_map_iff in I. destruct I as (c' & <- & _). right. split; reflexivity. }
  destruct B as [B1 B2]. unfold aggregate_stages. repeat apply App; try assumption;
    try (destruct public as [[|]|]; destruct (public_partitions_already_filtered p); destruct (post_aggregation_thresholding p); cbn; repeat constructor; fail);
    try (destruct (post_aggregation_thresholding p); repeat constructor; fail);
    intros a b Ia Ib; rewrite ?in_app_iff in Ib;
    assert (Ra : forall s, In s (map Metric cs) -> execution_rank s = 5%nat) by (intros s Is; apply in_map_iff in Is; destruct Is as (c & <- & _); reflexivity);
    left;
    repeat match goal with
    | H : _ \/ _ |- _ => destruct H as [H|H]
    | H : In _ (map Metric cs) |- _ => apply Ra in H
    | H : In _ (if contribution_bounds_already_enforced p then _ else _) |- _ => apply B2 in H
    | H : In _ (if ?c then _ else _) |- _ => destruct c; cbn in H
    | H : In _ (match public with _ => _ end) |- _ => destruct public as [[|]|]; cbn in H
    | H : False |- _ => destruct H
    | H : _ = a |- _ => subst a
    | H : _ = b |- _ => subst b
    end; cbn in *; try lia.
Qed.

(** For metrics that expect per-partition sampling, or with max_contributions, the listed stages determine the
    contribution bounding that is run. *)
Theorem C50_bounding_listed {U P V A} `{EqDec U} `{EqDec P} (p p' : params) (sm : sampling U P) (agg : list V -> A) rows :
  bounding_stages p true = bounding_stages p' true ->
  bound_contributions p true sm agg rows = bound_contributions p' true sm agg rows.
Proof.
  unfold bounding_stages, bound_contributions.
  destruct (max_contributions p), (max_contributions p'), (perform_cross_partition_contribution_bounding p),
    (perform_cross_partition_contribution_bounding p'); intro E; try discriminate E; injection E; intros; subst; try congruence.
  - rewrite H2, H1. reflexivity.
  - rewrite H1. reflexivity.
Qed.

(** Otherwise cross-partition bounding is run but not listed: the report of PRIVACY_ID_COUNT is the
    same whether a privacy id keeps one partition or two. *)
Definition pid_count_params (l0 : Z) : params :=
  Params [PRIVACY_ID_COUNT] LaplaceNoise (Some l0) (Some 1%Z) None 1%Q None None None None false None None None
         false false TruncatedGeometric None false true.
Theorem C50_cross_partition_bounding_refuted : exists (p p' : params) (rows : list (Z * Z * Z)) (sm : sampling Z Z) (cs : list combiner),
  create_compound_combiner p = Ok cs /\ create_compound_combiner p' = Ok cs /\
  aggregate_stages p None cs = aggregate_stages p' None cs /\
  ~ (exists k, In (CrossPartitionBounding k) (aggregate_stages p None cs)) /\
  bound_contributions p false sm (@List.length Z) rows <> bound_contributions p' false sm (@List.length Z) rows.
Proof.
  exists (pid_count_params 1), (pid_count_params 2), [(1, 10, 0); (1, 20, 0)]%Z,
    (Sampling _ _ (fun _ _ => [0%nat]) (fun _ _ => [0%nat])), [CPidCount].
  split; [reflexivity|]. split; [reflexivity|]. split; [reflexivity|]. split.
  - intros (k & I). cbn in I. intuition discriminate.
  - vm_compute. discriminate.
Qed.

(** The line of VECTOR_SUM says "None". *)
Definition describe {S} (text_of : combiner -> S -> result string) (c : combiner) : stage S :=
  match c with CVector _ => NoDescription | _ => Deferred (text_of c) end.
Theorem C50_vector_sum_refuted {S} (text_of : combiner -> S -> result string) (st : S) size : exists t,
  report st (Generator (Some "P") "aggregate" (map (describe text_of) [CVector size])) = Ok t /\
  t = "DPEngine method: aggregate" ++ newline ++ "P" ++ newline ++ "Computation graph:" ++ newline ++ " 1. None".
Proof. eexists. split; [reflexivity|]. reflexivity. Qed.

Print Assumptions C50_reports.
Print Assumptions C50_before_budgets.
Print Assumptions C50_metrics_listed.
Print Assumptions C50_selection_listed.
Print Assumptions C50_bounding_listed.
Print Assumptions C50_cross_partition_bounding_refuted.
Print Assumptions C50_partition_stages_listed.
Print Assumptions C50_stages_in_order.
