(** Model of /repo/pipeline_dp/report_generator.py and of the stages that
    /repo/pipeline_dp/dp_engine.py adds to the report.  [S] is the type of the states in
    which a report is read (budgets computed or not). *)
From Coq Require Import List ZArith String Bool.
From Verif Require Import Base ParamsModel CombinerModel LabelModel.
Import ListNotations.
Local Open Scope string_scope.

(** A stage description: a string, a callable evaluated when the report is read, or
    None (VectorSumCombiner.explain_computation has no return: combiners.py:841-843). *)
Inductive stage (S : Type) :=
| Text (s : string)
| Deferred (f : S -> result string)
| NoDescription.
Arguments Text {S} s.
Arguments Deferred {S} f.
Arguments NoDescription {S}.

(** ReportGenerator.__init__: report_generator.py:54-64.  The params are already the string of
    parameters_to_readable_string, which is never empty; None: no params. *)
Record report_generator (S : Type) := Generator {
  g_params : option string;
  g_method : string;
  g_stages : list (stage S)
}.
Arguments Generator {S} _ _ _.
Arguments g_params {S} _.
Arguments g_method {S} _.
Arguments g_stages {S} _.
Definition new_report {S} (params : option string) (method : string) : report_generator S :=
  Generator params method [].

(** add_stage: report_generator.py:66-75. *)
Definition add_stage {S} (g : report_generator S) (s : stage S) : report_generator S :=
  Generator (g_params g) (g_method g) (g_stages g ++ [s])%list.

(** What an f-string makes of the stage: report_generator.py:84-88. *)
Definition stage_text {S} (st : S) (s : stage S) : result string :=
  match s with
  | Text t => Ok t
  | Deferred f => f st
  | NoDescription => Ok "None"
  end.

(** The loop over enumerate(self._stages): report_generator.py:84-88. *)
Fixpoint stage_lines {S} (st : S) (i : nat) (l : list (stage S)) : result (list string) :=
  match l with
  | [] => Ok []
  | s :: l' => rbind (stage_text st s) (fun t =>
               rmap (cons (" " ++ decimal (i + 1) ++ ". " ++ t)) (stage_lines st (i + 1) l'))
  end.

Definition newline : string := String (Ascii.ascii_of_nat 10) EmptyString.

(** report: report_generator.py:77-89. *)
Definition report {S} (st : S) (g : report_generator S) : result string :=
  match g_params g with
  | None => Ok ""
  | Some p =>
      if String.eqb p "" then Ok ""
      else rmap (fun lines => String.concat newline (("DPEngine method: " ++ g_method g) :: p :: "Computation graph:" :: lines))
                (stage_lines st 0 (g_stages g))
  end.

(** ExplainComputationReport.text: report_generator.py:101-115.  `except e:` evaluates the unbound
    name e when an exception arrives: NameError. *)
Definition text {S} (st : S) (g : option (report_generator S)) : result string :=
  match g with
  | None => Err ValueError
  | Some g => match report st g with
              | Ok t => Ok t
              | Err _ => Err NameError
              end
  end.

(** ** The engine's reports: dp_engine.py:38-63 *)
Inductive report_op (S : Type) :=
| NewReport (params : option string) (method : string)  (* dp_engine.py:44-50, 98, 230, 587 *)
| AddStage (s : stage S).                               (* dp_engine.py:52-57 *)
Arguments NewReport {S} params method.
Arguments AddStage {S} s.

(** add_stage of the last generator; IndexError if there is none. *)
Fixpoint add_to_last {S} (gs : list (report_generator S)) (s : stage S) : result (list (report_generator S)) :=
  match gs with
  | [] => Err IndexError
  | [g] => Ok [add_stage g s]
  | g :: gs' => rmap (cons g) (add_to_last gs' s)
  end.
Definition report_step {S} (gs : list (report_generator S)) (o : report_op S) : result (list (report_generator S)) :=
  match o with
  | NewReport p m => Ok (gs ++ [new_report p m])%list
  | AddStage s => add_to_last gs s
  end.
Fixpoint run_reports {S} (gs : list (report_generator S)) (ops : list (report_op S)) : result (list (report_generator S)) :=
  match ops with
  | [] => Ok gs
  | o :: ops' => rbind (report_step gs o) (fun gs' => run_reports gs' ops')
  end.

(** explain_computations_report: dp_engine.py:59-63. *)
Fixpoint all_reports {S} (st : S) (gs : list (report_generator S)) : result (list string) :=
  match gs with
  | [] => Ok []
  | g :: gs' => rbind (report st g) (fun t => rmap (cons t) (all_reports st gs'))
  end.

(** ** Stages of one aggregation: dp_engine.py:106-188 and contribution_bounders.py *)
Inductive stage_kind :=
| DroppedNonPublic                     (* dp_engine.py:130-131 *)
| PerPartitionBounding (k : option Z)  (* contribution_bounders.py:83-86, 223-226 *)
| CrossPartitionBounding (k : option Z) (* contribution_bounders.py:100-103 *)
| UserBounding (k : option Z)          (* contribution_bounders.py:131-133 *)
| AddedEmptyPartitions                 (* dp_engine.py:304-306 *)
| PrivateSelection (s : strategy) (pre_threshold : option Z) (* dp_engine.py:367-371 *)
| Metric (c : combiner)                (* combiners.py:793-794 *)
| DroppedUnderThreshold.               (* dp_engine.py:547-548 *)

(** Stages added by the contribution bounder that _create_contribution_bounder
    (dp_engine.py:382-402) picks; SamplingCrossPartitionContributionBounder and
    NoOpSampler add none. *)
Definition bounding_stages (p : params) (expects_sampling : bool) : list stage_kind :=
  match max_contributions p with
  | Some m => [UserBounding (Some m)]
  | None =>
      if perform_cross_partition_contribution_bounding p
      then if expects_sampling
           then [PerPartitionBounding (max_contributions_per_partition p);
                 CrossPartitionBounding (max_partitions_contributed p)]
           else []
      else if expects_sampling
           then [PerPartitionBounding (max_contributions_per_partition p)]
           else []
  end.

(** Stages of _aggregate, in the order in which they are added; [public]: None, or
    whether the given public partitions are non-empty ("if public_partitions:"). *)
Definition aggregate_stages (p : params) (public : option bool) (cs : list combiner) : list stage_kind :=
  (  (if is_some public && negb (public_partitions_already_filtered p) then [DroppedNonPublic] else [])
  ++ (if contribution_bounds_already_enforced p then [] else bounding_stages p (existsb expects_sampling cs))
  ++ (match public with Some true => [AddedEmptyPartitions] | _ => [] end)
  ++ (if negb (is_some public) && negb (post_aggregation_thresholding p) && negb (public_partitions_already_filtered p)
      then [PrivateSelection (partition_selection_strategy p) (pre_threshold p)] else [])
  ++ map Metric cs
  ++ (if post_aggregation_thresholding p then [DroppedUnderThreshold] else []))%list.
