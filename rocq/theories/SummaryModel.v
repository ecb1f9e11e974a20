(** Model of compute_public_partitions_summary: /repo/analysis/dataset_summary.py. *)
From Coq Require Import List ZArith Bool.
From Verif Require Import Base BackendModel.
Import ListNotations.
Local Open Scope Z_scope.

(** PublicPartitionsSummary: dataset_summary.py:20-24. *)
Record summary := Summary {
  num_dataset_public : Z;
  num_dataset_non_public : Z;
  num_empty_public : Z
}.

(** _DATASET_PUBLIC, _EMPTY_PUBLIC, _DATASET_NONPUBLIC: dataset_summary.py:27-29. *)
Definition DATASET_PUBLIC : Z := 1.
Definition EMPTY_PUBLIC : Z := 2.
Definition DATASET_NONPUBLIC : Z := 3.

(** The rows before grouping: (partition, is_from_dataset), dataset_summary.py:50-67.
    [data] is the collection of extracted partitions. *)
Definition partition_rows {K} `{EqDec K} (data public : list K) : list (K * bool) :=
  map (fun k => (k, true)) (distinct data) ++ map (fun k => (k, false)) public.

(** process_fn: dataset_summary.py:73-82.  (A group is never empty; a[0] of an empty
    group would raise IndexError.) *)
Definition process_fn (a : list bool) : Z :=
  if Nat.eqb (length a) 2 then DATASET_PUBLIC
  else if hd false a then DATASET_NONPUBLIC else EMPTY_PUBLIC.

(** to_summary: dataset_summary.py:94-105. *)
Definition to_summary (counts : list (Z * Z)) : summary :=
  fold_left (fun s tc =>
    if fst tc =? DATASET_PUBLIC then Summary (snd tc) (num_dataset_non_public s) (num_empty_public s)
    else if fst tc =? DATASET_NONPUBLIC then Summary (num_dataset_public s) (snd tc) (num_empty_public s)
    else Summary (num_dataset_public s) (num_dataset_non_public s) (snd tc)) counts (Summary 0 0 0).

(** The rest of the pipeline for the groups built by group_by_key, with the order [perm]
    in which the backend returns the counts: dataset_summary.py:69-107. *)
Definition types_of_groups {K} (groups : list (K * list bool)) : list Z :=
  map (fun kg => process_fn (snd kg)) groups.

(** compute_public_partitions_summary on the local backend: dataset_summary.py:32-107. *)
Definition compute_summary {K} `{EqDec K} (data public : list K) : summary :=
  to_summary (count_per_element (types_of_groups (group_by_key (partition_rows data public)))).
