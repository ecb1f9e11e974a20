(** Specification vocabulary for contribution bounding. *)
From Coq Require Import List ZArith Bool Permutation PeanoNat.
From Verif Require Import Base BackendModel BackendSpec.
Import ListNotations.

(** The distinct partitions in which privacy id [u] has rows. *)
Definition partitions_of {U P V} `{EqDec U} `{EqDec P} (u : U) (rows : list (U * P * V)) : list P :=
  distinct (map (fun r => snd (fst r)) (filter (fun r => eqb (fst (fst r)) u) rows)).

(** All rows of privacy id [u]. *)
Definition rows_of {U P V} `{EqDec U} (u : U) (rows : list (U * P * V)) : list (U * P * V) :=
  filter (fun r => eqb (fst (fst r)) u) rows.

(** What the bounding kept of privacy id [u]: one entry per partition. *)
Definition kept_of {U P A} `{EqDec U} (u : U) (out : list ((U * P) * A)) : list ((U * P) * A) :=
  filter (fun e => eqb (fst (fst e)) u) out.

(** Flatten kept value lists back to rows. *)
Definition as_rows {U P V} (kept : list ((U * P) * list V)) : list (U * P * V) :=
  flat_map (fun e => map (fun v => (fst e, v)) (snd e)) kept.
