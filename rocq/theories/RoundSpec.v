(** Vocabulary for C83: grids of floating point numbers. *)
From Coq Require Import List ZArith QArith Qreals Reals Sorted.
From Verif Require Import Base CombinerModel SelectModel RoundModel.
Import ListNotations.
Local Open Scope R_scope.

(** The cells are listed from the lowest to the highest. *)
Definition sorted_grid (g : grid) : Prop := StronglySorted Rle (map fst (g_cells g)).

(** Rounding moves reals between [lo] and [hi] by at most [w]. *)
Definition rounds_within (w lo hi : R) (g : grid) : Prop :=
  forall y, lo <= y <= hi -> Rabs (Q2R (rounded (g_cells g) (g_top g) y) - y) <= w.
