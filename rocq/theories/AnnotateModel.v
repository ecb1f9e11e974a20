(** Model of annotations: PipelineBackend.annotate and register_annotator
    (pipeline_dp/pipeline_backend.py), and the calls by which DPEngine announces budgets
    to annotators (pipeline_dp/dp_engine.py). *)
From Coq Require Import String List ZArith QArith Bool.
From Verif Require Import Base BudgetModel LabelModel.
Import ListNotations.

(** Annotator.annotate (pipeline_backend.py:826-845): any function of the collection, the
    stage name and the keyword arguments params and budget (dp_engine.py:611-618).
    Simplification: the argument [backend] is left out; annotators do not raise and do not
    use the accountant. *)
Definition annotator (C Pm : Type) := C -> string -> Pm -> option (Q * Q) -> C.

(** register_annotator (pipeline_backend.py:847-851): the global list _annotators. *)
Definition register_annotator {C Pm} (annotators : list (annotator C Pm)) (a : annotator C Pm) :=
  (annotators ++ [a])%list.

(** self._ulg.unique(name) (pipeline_backend.py:211-220).  The bound on the rounds is never
    reached, see C37_unique_call; [None] does not occur. *)
Definition next_label (name : option string) (g : generator) : string * generator :=
  match unique (S (List.length (g_labels g))) name g with
  | Some r => r
  | None => (""%string, g)
  end.

(** The labels of a sequence of stages (BeamBackend, pipeline_backend.py:223-366: every
    operation asks for one label). *)
Fixpoint next_labels (names : list (option string)) (g : generator) : list string * generator :=
  match names with
  | [] => ([], g)
  | n :: ns => let (l, g1) := next_label n g in
               let (ls, g2) := next_labels ns g1 in (l :: ls, g2)
  end.

(** The loop of BeamBackend.annotate (pipeline_backend.py:371-374); the labels that were
    passed to the annotators are recorded. *)
Fixpoint annotate_loop {C Pm} (annotators : list (annotator C Pm)) (col : C) (stage : string)
    (params : Pm) (budget : option (Q * Q)) (g : generator) : C * list string * generator :=
  match annotators with
  | [] => (col, [], g)
  | a :: rest =>
      let (l, g1) := next_label (Some stage) g in
      let '(c, ls, g2) := annotate_loop rest (a col l params budget) stage params budget g1 in
      (c, l :: ls, g2)
  end.

(** BeamBackend.annotate (pipeline_backend.py:368-375). *)
Definition beam_annotate {C Pm} (annotators : list (annotator C Pm)) (col : C) (stage : string)
    (params : Pm) (budget : option (Q * Q)) (g : generator) : C * list string * generator :=
  match annotators with
  | [] => (col, [], g)
  | _ => annotate_loop annotators col stage params budget g
  end.

(** PipelineBackend.annotate (pipeline_backend.py:183-195), which the other backends
    inherit: the collection itself. *)
Definition default_annotate {C Pm} (annotators : list (annotator C Pm)) (col : C) (stage : string)
    (params : Pm) (budget : option (Q * Q)) : C := col.

(** What a method of DPEngine does on the accountant before it annotates, and after.
    aggregate (dp_engine.py:97-107) and select_partitions (228-234): a scope around the
    requests, the announcement and the annotation.  add_dp_noise (581-609): a request
    without a scope, with the default weight 1; params.budget_weight goes only to the
    announcement.
    [before] and [after] are the calls before and after the annotation. *)
Inductive method :=
| Scoped (weight : Q) (requests : list op)
| AddNoise (kind : mech_type) (weight : Q).

Definition before (m : method) : list op :=
  match m with
  | Scoped w rs => Enter w :: rs ++ [StartAgg w]
  | AddNoise t w => [Request t 1 1 None; StartAgg w]
  end.
Definition after (m : method) : list op :=
  match m with
  | Scoped _ _ => [Exit]
  | AddNoise _ _ => []
  end.

(** Calls on the accountant where an exception ends the program; the last result. *)
Fixpoint perform (s : acct) (ops : list op) (last : out) : result (acct * out) :=
  match ops with
  | [] => Ok (s, last)
  | o :: ops' => match step s o with
                 | (s', Ok r) => perform s' ops' r
                 | (_, Err x) => Err x
                 end
  end.

(** The budget returned by _compute_budget_for_aggregation (budget_accounting.py:189-213). *)
Definition budget_of (o : out) : option (Q * Q) :=
  match o with OutBudget b => b | _ => None end.

(** One call of a method of DPEngine on Beam: the calls on the accountant, the stages of
    the computation (any list of stage names) whose last collection is [c_col], and
    _annotate (dp_engine.py:611-618). *)
Record api_call (C Pm : Type) := Call {
  c_method : method;
  c_stages : list (option string);
  c_col : C;
  c_params : Pm }.
Arguments Call {C Pm}. Arguments c_method {C Pm}. Arguments c_stages {C Pm}.
Arguments c_col {C Pm}. Arguments c_params {C Pm}.

(** What a call returns, with the labels of its stages and those given to annotators. *)
Record released (C : Type) := Released {
  r_col : C;
  r_stages : list string;
  r_annotations : list string }.
Arguments Released {C}. Arguments r_col {C}. Arguments r_stages {C}. Arguments r_annotations {C}.

(** A program: calls in order, on one accountant and one BeamBackend. *)
Fixpoint build {C Pm} (annotators : list (annotator C Pm)) (calls : list (api_call C Pm))
    (s : acct) (g : generator) : result (list (released C) * acct * generator) :=
  match calls with
  | [] => Ok ([], s, g)
  | c :: rest =>
      rbind (perform s (before (c_method c)) OutUnit) (fun sb =>
      let (stages, g1) := next_labels (c_stages c) g in
      let '(col, labels, g2) :=
        beam_annotate annotators (c_col c) "annotation" (c_params c) (budget_of (snd sb)) g1 in
      rbind (perform (fst sb) (after (c_method c)) OutUnit) (fun sa =>
      rbind (build annotators rest (fst sa) g2) (fun r =>
      let '(outs, s', g') := r in Ok (Released col stages labels :: outs, s', g'))))
  end.
