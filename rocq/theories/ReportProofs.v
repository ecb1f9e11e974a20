(** Lemmas about reports. *)
From Coq Require Import List ZArith String Bool Lia.
From Verif Require Import Base ParamsModel CombinerModel LabelModel ReportModel.
Import ListNotations.
Local Open Scope string_scope.

Lemma stage_lines_spec {S} (st : S) l : forall i lines, stage_lines st i l = Ok lines ->
  List.length lines = List.length l /\
  forall k s, nth_error l k = Some s -> exists t, stage_text st s = Ok t /\ nth_error lines k = Some (" " ++ decimal (i + k + 1) ++ ". " ++ t).
Proof.
  induction l as [|s l IH]; cbn [stage_lines]; intros i lines E.
  - injection E as <-. split; [reflexivity|]. intros [|k] s X; discriminate.
  - destruct (stage_text st s) as [t|e] eqn:Et; [|discriminate]. cbn [rbind] in E.
    destruct (stage_lines st (i + 1) l) as [ls|e] eqn:El; [|discriminate]. cbn [rmap] in E. injection E as <-.
    destruct (IH _ _ El) as (L & N). split; [cbn; lia|]. intros [|k] s' X; cbn [nth_error] in *.
    + injection X as <-. exists t. split; [exact Et|]. rewrite Nat.add_0_r. reflexivity.
    + destruct (N k s' X) as (t' & Et' & Nt). exists t'. split; [exact Et'|]. rewrite Nt. replace (i + 1 + k + 1)%nat with (i + Datatypes.S k + 1)%nat by lia. reflexivity.
Qed.

Lemma stage_lines_ok {S} (st : S) l : forall i, Forall (fun s => exists t, stage_text st s = Ok t) l ->
  exists lines, stage_lines st i l = Ok lines.
Proof.
  induction l as [|s l IH]; intros i F; [eexists; reflexivity|]. cbn [stage_lines].
  destruct (Forall_inv F) as (t & ->). cbn [rbind]. destruct (IH (i + 1)%nat (Forall_inv_tail F)) as (ls & ->). eexists; reflexivity.
Qed.

Lemma stage_lines_err {S} (st : S) l : forall i, (exists s e, In s l /\ stage_text st s = Err e) ->
  exists e, stage_lines st i l = Err e.
Proof.
  induction l as [|s l IH]; intros i (s' & e & I & X); [destruct I|]. cbn [stage_lines].
  destruct (stage_text st s) as [t|e'] eqn:Et; [|exists e'; reflexivity]. cbn [rbind].
  destruct (IH (i + 1)%nat) as (e2 & E2); [|exists e2; rewrite E2; reflexivity].
  destruct I as [->|I]; [congruence | exists s', e; auto].
Qed.

Lemma add_to_last_app {S} (gs : list (report_generator S)) g s : add_to_last (gs ++ [g])%list s = Ok (gs ++ [add_stage g s])%list.
Proof.
  induction gs as [|h gs IH]; [reflexivity|]. cbn [app add_to_last]. rewrite IH. cbn [rmap].
  destruct (gs ++ [g])%list eqn:E; [destruct gs; discriminate | reflexivity].
Qed.

Lemma run_stages {S} (gs : list (report_generator S)) ss : forall g more,
  run_reports (gs ++ [g])%list (map AddStage ss ++ more)%list = run_reports (gs ++ [Generator (g_params g) (g_method g) (g_stages g ++ ss)%list])%list more.
Proof.
  induction ss as [|s ss IH]; intros g more; cbn [map app run_reports report_step].
  - rewrite app_nil_r. destruct g; reflexivity.
  - rewrite add_to_last_app. cbn [rbind]. rewrite IH. cbn [add_stage g_params g_method g_stages]. rewrite <- app_assoc. reflexivity.
Qed.

Lemma run_calls {S} (calls : list (option string * string * list (stage S))) : forall gs,
  run_reports gs (flat_map (fun c => NewReport (fst (fst c)) (snd (fst c)) :: map AddStage (snd c)) calls) =
  Ok (gs ++ map (fun c => Generator (fst (fst c)) (snd (fst c)) (snd c)) calls)%list.
Proof.
  induction calls as [|[[p m] ss] calls IH]; intro gs; cbn [flat_map map].
  - rewrite app_nil_r. reflexivity.
  - cbn [app fst snd run_reports report_step rbind].
    rewrite run_stages. cbn [new_report g_params g_method g_stages app]. rewrite IH, <- app_assoc. reflexivity.
Qed.
