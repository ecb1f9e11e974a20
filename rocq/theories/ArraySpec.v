(** Specification vocabulary for aggregations over arrays. *)
From Coq Require Import List ZArith QArith.
From Verif Require Import Base BackendModel ArrayModel.
Import ListNotations.
Local Open Scope nat_scope.

(** The arrays that a list of values refers to, with repetitions. *)
Definition arrays_of (vs : list aval) : list nat :=
  flat_map (fun v => match v with Arr a => [a] | Lit _ => [] end) vs.

(** The arrays of a dataset, with repetitions: no array occurs twice when every
    row has an array of its own. *)
Definition arrays_of_rows {K} (rows : list (K * aval)) : list nat := arrays_of (map snd rows).

(** All arrays of the dataset exist. *)
Definition in_memory {K} (m : memory) (rows : list (K * aval)) : Prop :=
  forall a, In a (arrays_of_rows rows) -> a < length m.
