(** Specification for C75: the released records. *)
From Coq Require Import String List ZArith QArith Bool.
From Verif Require Import Base ParamsModel CombinerModel EngineModel RecordModel.
Import ListNotations.

(** What Python can hold: the digits of a float are decimal, at most 17, without zeros at
    either end; zero is [0] with the point after it. *)
Definition canonical (p : number) : Prop :=
  match p with
  | PyInt _ => True
  | PyFloat _ ds point =>
      Forall (fun d => (d < 10)%nat) ds /\ (length ds <= 17)%nat /\
      ((ds = [0%nat] /\ point = 1%Z) \/ (ds <> [] /\ hd 0%nat ds <> 0%nat /\ last ds 1%nat <> 0%nat))
  | PyNan | PyInf => False
  end.

Definition is_integer (q : Q) : Prop := exists z, (q == inject_Z z)%Q.

(** A metric as the caller asks for it. *)
Inductive asked := Plain (m : metric) | Percentile (p : number).
Definition metric_of (a : asked) : metric :=
  match a with Plain m => m | Percentile p => PERCENTILE (value_of p) end.
Definition proper (a : asked) : Prop :=
  match a with Plain (PERCENTILE _) => False | Plain _ => True | Percentile p => canonical p end.
Definition numbers (asks : list asked) : list number :=
  flat_map (fun a => match a with Percentile p => [p] | Plain _ => [] end) asks.

(** The documented name of the field of a metric. *)
Definition field_of (a : asked) : result string :=
  match a with
  | Plain COUNT => Ok "count" | Plain PRIVACY_ID_COUNT => Ok "privacy_id_count" | Plain SUM => Ok "sum"
  | Plain MEAN => Ok "mean" | Plain VARIANCE => Ok "variance" | Plain VECTOR_SUM => Ok "vector_sum"
  | Plain (PERCENTILE _) => Err ValueError
  | Percentile p => format_metric_name p
  end%string.

(** The states of a Python process that only _get_or_create_named_tuple changes; [later]
    is the order of time in one process. *)
Inductive later : process -> process -> Prop :=
| later_refl s : later s s
| later_step s s' type_name fields i s'' :
    later s s' -> get_or_create type_name fields s' = Ok (i, s'') -> later s s''.
Definition some_process (s : process) : Prop := later fresh_process s.

(** [x] was made in this process. *)
Definition made_in (s : process) (x : instance) : Prop :=
  exists s1 s2 type_name fields vs,
    some_process s1 /\ create_instance type_name fields vs s1 = Ok (x, s2) /\ later s2 s.

(** [a] if [c], and [b] otherwise. *)
Definition if_then_else (c a b : Prop) : Prop := (c -> a) /\ (~ c -> b).
