(** C47, continued: the calls that an aggregation makes on the accountant. *)
From Coq Require Import List ZArith QArith Bool Lia.
From Verif Require Import Base ListLemmas BackendModel BounderModel ParamsModel SensModel CombinerModel
  EngineModel BudgetModel WrapperModel WrapperSpec WrapperProofs WrapperProps.
Import ListNotations.

(** An aggregation opens one scope with its budget_weight, makes its requests in it -
    one for private partition selection exactly if partitions are selected privately -, tells the
    accountant its budget_weight and closes the scope; a partition selection does the same with a
    single request. *)
Theorem C47_calls_on_the_accountant {U P} `{EqDec U} `{EqDec P} (w : world U P) r public rows ops o :
  run_engine w r public rows = Ok (ops, o) ->
  exists requests,
    ops = Enter (r_budget_weight r) :: requests ++ [StartAgg (r_budget_weight r); Exit] /\
    Forall (fun x => exists t weight, x = Request t weight 1 None) requests /\
    (In (Request GENERIC 1 1 None) requests <->
     public = None /\ r_post_aggregation_thresholding r = false /\ r_public_partitions_already_filtered r = false).
Proof.
  intro Hr. destruct (run_engine_inv w r public rows ops o Hr) as [p [cs [Ep [_ [-> _]]]]].
  destruct (post_init_fields r p Ep) as [_ [_ [Hw [_ [Hf [Ht _]]]]]]. unfold aggregate_ops. rewrite Hw, <- Hf, <- Ht.
  exists (combiner_requests p cs ++ (if selects_privately p public then [Request GENERIC 1 1 None] else [])).
  split; [cbn [app]; rewrite <- app_assoc; reflexivity|].
  assert (G : forall x, In x (combiner_requests p cs) -> exists t, x = Request t (budget_weight p) 1 None /\ t <> GENERIC).
  { intros x I. apply in_flat_map in I. destruct I as [c [_ I]]. apply repeat_spec in I. subst x. eexists. split; [reflexivity|].
    unfold request_type, noise_to_thresholding, mech_of. destruct c, (noise_kind p); discriminate. }
  split.
  - apply Forall_app. split; [apply Forall_forall; intros x I; destruct (G x I) as [t [-> _]]; eauto|].
    destruct (selects_privately p public); repeat constructor; eauto.
  - rewrite in_app_iff. unfold selects_privately. split.
    + intros [I|I]; [destruct (G _ I) as [t [Et Nt]]; injection Et as <- _; contradiction|].
      destruct public; cbn in I; [contradiction|]. destruct (post_aggregation_thresholding p); cbn in I; [contradiction|].
      destruct (public_partitions_already_filtered p); cbn in I; [contradiction | auto].
    + intros [-> [-> ->]]. right. left. reflexivity.
Qed.
Print Assumptions C47_calls_on_the_accountant.

Theorem C47_calls_of_select_partitions {U P} `{EqDec U} `{EqDec P} (w : world U P) r (rows : list (U * P)) ops keys :
  run_select w r rows = Ok (ops, keys) ->
  ops = [Enter (rs_budget_weight r); Request GENERIC 1 1 None; StartAgg (rs_budget_weight r); Exit].
Proof.
  unfold run_select. destruct (check_select_params true true r); cbn [rbind]; [|discriminate].
  destruct (int_of (rs_max_partitions_contributed r)); [|discriminate]. intro X. injection X as <- _. reflexivity.
Qed.
Print Assumptions C47_calls_of_select_partitions.

(** A COUNT with weight 3 on private partitions. *)
Example some_calls : exists o, run_engine (demo_world Z Z) (asked (demo_count 3 false None)) None [] =
  Ok ([Enter 3; Request LAPLACE 3 1 None; Request GENERIC 1 1 None; StartAgg 3; Exit], o).
Proof. eexists. vm_compute. reflexivity. Qed.
