(** Lemmas for the private collection wrappers. *)
From Coq Require Import List ZArith QArith Bool Lia.
From Verif Require Import Base ListLemmas BackendModel BackendSpec BounderModel ParamsModel SensModel CombinerModel
  CombinerSpec EngineModel EngineSpec EngineProofs3 EngineProofs4 EngineProofs5 EngineProps2 BudgetModel WrapperModel WrapperSpec.
Import ListNotations.

Lemma beam_params_asked {E P} (c : request E P) :
  beam_params c = asked (with_fields 1 false (pre_of c) c).
Proof. destruct c; reflexivity. Qed.

Lemma spark_params_asked {E P} (c : request E P) :
  spark_params c = asked (with_fields (if is_pid_count c then 1%Q else weight_of c) (enforced_of c) None c).
Proof. destruct c; reflexivity. Qed.

Lemma beam_row_asked {U E P} (c : request E P) (x : U * E) pre :
  beam_row c x = asked_row (with_fields 1 false pre c) x.
Proof. destruct c; reflexivity. Qed.

Lemma spark_row_asked {U E P} (c : request E P) (x : U * E) w pre :
  spark_row c x = asked_row (with_fields w (enforced_of c) pre c) x.
Proof. destruct c; reflexivity. Qed.

Lemma field_with {E P} w e pre (c : request E P) : field (with_fields w e pre c) = field c.
Proof. destruct c; reflexivity. Qed.

Lemma with_fields_same {E P} (c : request E P) :
  with_fields (weight_of c) (enforced_of c) (pre_of c) c = c.
Proof. destruct c as [v|v|v|n|i]; [destruct v|destruct v|destruct v|destruct n|destruct i]; reflexivity. Qed.

(** The parameters that the engine validates come from the request. *)
Lemma post_init_fields r p : post_init r = Ok p ->
  metrics p = r_metrics r /\ noise_kind p = r_noise_kind r /\
  budget_weight p = r_budget_weight r /\
  contribution_bounds_already_enforced p = r_contribution_bounds_already_enforced r /\
  public_partitions_already_filtered p = r_public_partitions_already_filtered r /\
  post_aggregation_thresholding p = r_post_aggregation_thresholding r /\
  pre_threshold p = int_of (r_pre_threshold r) /\
  max_partitions_contributed p = int_of (r_max_partitions_contributed r) /\
  max_contributions_per_partition p = int_of (r_max_contributions_per_partition r).
Proof.
  unfold post_init. intro E.
  repeat (apply raise_if_ok in E; destruct E as [_ E]). inversion E. repeat split; reflexivity.
Qed.

Lemma asked_metrics {E P} (c : request E P) :
  exists m, r_metrics (asked c) = [m] /\ name_of m = field c /\ m <> VECTOR_SUM /\ (forall q, m <> PERCENTILE q).
Proof. destruct c; eexists; (split; [reflexivity|]); (split; [reflexivity|]); split; congruence. Qed.

Lemma asked_defaults {E P} (c : request E P) :
  r_public_partitions_already_filtered (asked c) = false /\ r_post_aggregation_thresholding (asked c) = false /\
  r_contribution_bounds_already_enforced (asked c) = enforced_of c /\ r_budget_weight (asked c) = weight_of c /\
  r_pre_threshold (asked c) = pre_of c.
Proof. destruct c; repeat split. Qed.

Lemma singleton_dict {A} (d : list (mname * A)) n :
  NoDup (map fst d) -> (forall x, In x (map fst d) <-> In x [n]) -> exists v, d = [(n, v)].
Proof.
  intros N I. destruct d as [|[m v] [|[m' v'] d]].
  - exfalso. apply (proj2 (I n)). left. reflexivity.
  - assert (X := proj1 (I m) (or_introl eq_refl)). destruct X as [X|[]]. subst. eauto.
  - exfalso. assert (X := proj1 (I m) (or_introl eq_refl)). assert (Y := proj1 (I m') (or_intror (or_introl eq_refl))).
    destruct X as [X|[]], Y as [Y|[]]. subst. inversion N; subst. cbn in *. tauto.
Qed.

Lemma run_engine_inv {U P} `{EqDec U} `{EqDec P} (w : world U P) r public rows ops o :
  run_engine w r public rows = Ok (ops, o) ->
  exists p cs, post_init r = Ok p /\ create_compound_combiner p = Ok cs /\
    ops = aggregate_ops p public cs /\
    o = aggregate p (w_sampling w)
        (w_keep w (partition_selection_strategy p) (max_partitions_contributed p) (pre_threshold p))
        (w_noise w) public rows.
Proof.
  unfold run_engine. destruct (post_init r) as [p|]; cbn [rbind]; [|discriminate].
  destruct (check_aggregate_params true true p); cbn [rbind]; [|discriminate].
  destruct (create_compound_combiner p) as [cs|] eqn:Ec; cbn [rbind]; [|discriminate].
  intro X. inversion X; subst. exists p, cs. auto.
Qed.

Lemma extract_field_ok {P} n (out : list (P * list (mname * released))) :
  (forall k d, In (k, d) out -> exists v, d = [(n, v)]) ->
  exists vals, extract_field n out = Ok vals /\
    Forall2 (fun o v => fst o = fst v /\ snd o = [(n, snd v)]) out vals.
Proof.
  unfold extract_field. induction out as [|[k d] out IH]; intro F; [exists []; split; [reflexivity|constructor]|].
  destruct (F k d (or_introl eq_refl)) as [v ->]. destruct IH as [vals [E G]]; [intros; eapply F; right; eassumption|].
  exists ((k, v) :: vals). split.
  - cbn [map_result fst snd get_field]. rewrite eqb_refl. cbn [rmap rbind]. rewrite E. reflexivity.
  - constructor; [split; reflexivity|exact G].
Qed.

Lemma extract_field_keys {P} n (out : list (P * list (mname * released))) vals :
  extract_field n out = Ok vals -> map fst vals = map fst out.
Proof. apply map_result_keys. Qed.

(** ** Transformations *)
Definition apply_one {U E O} (t : transform U E O) (col : list (U * E)) : list (U * E) :=
  match t with TMap f => private_map f col | TFlatMap f => private_flat_map f col | _ => col end.

Lemma filter_flat_map_const {A B} (f : A -> list B) (p : A -> bool) (q : B -> bool) l :
  (forall x y, In y (f x) -> q y = p x) -> filter q (flat_map f l) = flat_map f (filter p l).
Proof.
  intro F. induction l as [|x l IH]; [reflexivity|]. cbn [flat_map filter]. rewrite filter_app, IH.
  assert (G : forall m, (forall y, In y m -> q y = p x) -> filter q m = if p x then m else []).
  { induction m as [|y m IHm]; intro Fm; cbn [filter]; [destruct (p x); reflexivity|].
    rewrite (Fm y (or_introl eq_refl)), IHm by (intros; apply Fm; right; assumption). destruct (p x); reflexivity. }
  rewrite (G (f x) (F x)). destruct (p x); reflexivity.
Qed.

Lemma apply_one_filter {U E O} (t : transform U E O) (q : U -> bool) col :
  filter (fun x => q (fst x)) (apply_one t col) = apply_one t (filter (fun x => q (fst x)) col).
Proof.
  destruct t as [f|f|a|]; cbn [apply_one]; try reflexivity.
  - unfold private_map, map_values. induction col as [|[u x] col IH]; [reflexivity|]. cbn.
    destruct (q u); cbn; rewrite IH; reflexivity.
  - unfold private_flat_map. apply filter_flat_map_const. intros [u x] y Hy. apply in_map_iff in Hy.
    destruct Hy as [v [<- _]]. reflexivity.
Qed.

Lemma make_private_filter {U X} (ext : X -> U) (q : U -> bool) col :
  filter (fun x => q (fst x)) (make_private ext col) = make_private ext (filter (fun x => q (ext x)) col).
Proof.
  unfold make_private. induction col as [|x col IH]; [reflexivity|]. cbn. destruct (q (ext x)); cbn; rewrite IH; reflexivity.
Qed.

Fixpoint apply_all {U E O} (ts : list (transform U E O)) (col : list (U * E)) : list (U * E) :=
  match ts with [] => col | t :: ts' => apply_all ts' (apply_one t col) end.

Lemma apply_all_filter {U E O} (ts : list (transform U E O)) (q : U -> bool) col :
  filter (fun x => q (fst x)) (apply_all ts col) = apply_all ts (filter (fun x => q (fst x)) col).
Proof.
  revert col. induction ts as [|t ts IH]; intro col; [reflexivity|]. cbn [apply_all]. rewrite IH, apply_one_filter. reflexivity.
Qed.

Lemma pipes_private {U E O} (ts : list (transform U E O)) col c :
  pipes col ts = Ok (Some (Private c)) -> Forall stays_private ts /\ c = apply_all ts col.
Proof.
  revert col. induction ts as [|t ts IH]; intro col; cbn [pipes].
  - intro X. inversion X. split; [constructor|reflexivity].
  - destruct t as [f|f|a|]; cbn [pipe rbind]; intro X.
    + destruct (IH _ X) as [F ->]. split; [constructor; [constructor|exact F]|reflexivity].
    + destruct (IH _ X) as [F ->]. split; [constructor; [constructor|exact F]|reflexivity].
    + destruct ts; discriminate.
    + discriminate.
Qed.

Lemma pipes_anonymous {U E O} (ts : list (transform U E O)) col o :
  pipes col ts = Ok (Some (Anonymous o)) ->
  exists ts' agg, ts = ts' ++ [TAnonymise agg] /\ Forall stays_private ts' /\ o = agg (apply_all ts' col).
Proof.
  revert col. induction ts as [|t ts IH]; intro col; cbn [pipes]; [discriminate|].
  destruct t as [f|f|a|]; cbn [pipe rbind]; intro X.
  - destruct (IH _ X) as [ts' [agg [-> [F ->]]]]. exists (TMap f :: ts'), agg.
    split; [reflexivity|]. split; [constructor; [constructor|exact F]|reflexivity].
  - destruct (IH _ X) as [ts' [agg [-> [F ->]]]]. exists (TFlatMap f :: ts'), agg.
    split; [reflexivity|]. split; [constructor; [constructor|exact F]|reflexivity].
  - destruct ts; [|discriminate]. inversion X. exists [], a. split; [reflexivity|]. split; [constructor|reflexivity].
  - discriminate.
Qed.

Lemma pipes_apply {U E O} (ts : list (transform U E O)) col :
  Forall stays_private ts -> pipes col ts = Ok (Some (Private (apply_all ts col))).
Proof.
  intro F. revert col. induction F as [|t ts Ht F IH]; intro col; [reflexivity|].
  destruct t; cbn in Ht; try contradiction; cbn [pipes pipe rbind apply_all apply_one]; apply IH.
Qed.

(** ** What every element becomes *)
Lemma apply_all_app {U E O} (ts : list (transform U E O)) (a b : list (U * E)) :
  apply_all ts (a ++ b) = apply_all ts a ++ apply_all ts b.
Proof.
  revert a b. induction ts as [|t ts IH]; intros a b; [reflexivity|]. cbn [apply_all].
  destruct t as [f|f|g|]; cbn [apply_one]; try apply IH.
  - unfold private_map, map_values. rewrite map_app. apply IH.
  - unfold private_flat_map. rewrite flat_map_app. apply IH.
Qed.
Lemma apply_all_nil {U E O} (ts : list (transform U E O)) : apply_all ts (@nil (U * E)) = [].
Proof. induction ts as [|t ts IH]; [reflexivity|]. destruct t; exact IH. Qed.

Lemma apply_all_one {U E O} (ts : list (transform U E O)) :
  Forall stays_private ts -> forall (u : U) x,
  exists ys, becomes ts x ys /\ apply_all ts [(u, x)] = map (fun y => (u, y)) ys.
Proof.
  induction 1 as [|t ts T F IH]; intros u x.
  - exists [x]. split; [constructor|reflexivity].
  - destruct t as [f|f|g|]; cbn in T; try contradiction; cbn [apply_all apply_one].
    + destruct (IH u (f x)) as (ys & B & E0). exists ys. split; [constructor; exact B|exact E0].
    + unfold private_flat_map. cbn [flat_map fst snd]. rewrite app_nil_r.
      enough (G : exists yss, Forall2 (becomes ts) (f x) yss /\
                  apply_all ts (map (fun v => (u, v)) (f x)) = map (fun y => (u, y)) (concat yss)).
      { destruct G as (yss & B & E0). exists (concat yss). split; [constructor; exact B|exact E0]. }
      induction (f x) as [|y l IHl].
      * exists []. split; [constructor|]. cbn. apply apply_all_nil.
      * destruct IHl as (yss & B & E0). destruct (IH u y) as (ys & By & Ey).
        exists (ys :: yss). split; [constructor; assumption|].
        cbn [map concat]. change ((u, y) :: map (fun v => (u, v)) l) with ([(u, y)] ++ map (fun v => (u, v)) l).
        rewrite apply_all_app, Ey, E0, map_app. reflexivity.
Qed.

Lemma apply_all_becomes {U X O} (extractor : X -> U) (ts : list (transform U X O)) (data : list X) :
  Forall stays_private ts ->
  exists yss, Forall2 (becomes ts) data yss /\
    apply_all ts (make_private extractor data)
    = concat (map (fun '(x, ys) => map (fun y => (extractor x, y)) ys) (combine data yss)).
Proof.
  intro F. induction data as [|x data IH].
  - exists []. split; [constructor|]. apply apply_all_nil.
  - destruct IH as (yss & B & E0). destruct (apply_all_one ts F (extractor x) x) as (ys & By & Ey).
    exists (ys :: yss). split; [constructor; assumption|].
    change (make_private extractor (x :: data)) with ([(extractor x, x)] ++ make_private extractor data).
    rewrite apply_all_app, Ey, E0. reflexivity.
Qed.
