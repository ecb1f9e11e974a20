(** Model of the stage label generator of the Beam backend
    (pipeline_dp/pipeline_backend.py:198-220). *)
From Coq Require Import List String Decimal DecimalString DecimalNat.
From Verif Require Import Base.
Import ListNotations.
Local Open Scope string_scope.

(** str(i) for i >= 0: decimal digits without leading zeros (the format of an
    int in an f-string, pipeline_backend.py:218). *)
Definition decimal (i : nat) : string := NilZero.string_of_uint (Nat.to_uint i).

(** UniqueLabelsGenerator (pipeline_backend.py:198-203).  [g_labels] is the set
    self._labels (order irrelevant), [g_suffix] is self._suffix. *)
Record generator := mkGen { g_labels : list string; g_suffix : string }.

(** __init__ (pipeline_backend.py:201-203); [None] and [""] are falsy. *)
Definition new_generator (suffix : option string) : generator :=
  mkGen [] (match suffix with
            | None => ""
            | Some s => if String.eqb s "" then "" else "_" ++ s
            end).

Definition mem_label (l : string) (ls : list string) : bool := existsb (String.eqb l) ls.

(** _add_if_unique (pipeline_backend.py:205-209). *)
Definition add_if_unique (g : generator) (l : string) : bool * generator :=
  if mem_label l (g_labels g) then (false, g)
  else (true, mkGen (l :: g_labels g) (g_suffix g)).

(** The loop over itertools.count (pipeline_backend.py:217-220).  The Python
    loop has no bound; here it is cut off after [fuel] rounds ([None]). *)
Fixpoint count_loop (fuel i : nat) (label : string) (g : generator) : option (string * generator) :=
  match fuel with
  | O => None
  | S fuel =>
      let candidate := label ++ "_" ++ decimal i ++ g_suffix g in
      match add_if_unique g candidate with
      | (true, g') => Some (candidate, g')
      | (false, _) => count_loop fuel (S i) label g
      end
  end.

(** unique (pipeline_backend.py:211-220). *)
Definition unique (fuel : nat) (name : option string) (g : generator) : option (string * generator) :=
  let label := match name with
               | None => "UNDEFINED_STAGE_NAME"
               | Some s => if String.eqb s "" then "UNDEFINED_STAGE_NAME" else s
               end in
  let suffix_label := label ++ g_suffix g in
  match add_if_unique g suffix_label with
  | (true, g') => Some (suffix_label, g')
  | (false, _) => count_loop fuel 1 label g
  end.

(** A sequence of calls of [unique], in the same generator: the labels returned,
    or [None] if some call ran out of fuel. *)
Fixpoint unique_all (fuel : nat) (names : list (option string)) (g : generator)
  : option (list string * generator) :=
  match names with
  | [] => Some ([], g)
  | n :: ns => match unique fuel n g with
               | None => None
               | Some (l, g') => match unique_all fuel ns g' with
                                 | None => None
                                 | Some (ls, g'') => Some (l :: ls, g'')
                                 end
               end
  end.
