(** Vocabulary for the exponential mechanism. *)
From Coq Require Import List ZArith Reals.
From Verif Require Import Base VectorModel.
Import ListNotations.
Local Open Scope R_scope.

(** A distribution on a finite list: (value, probability). *)
Definition distribution {A} (d : list (A * R)) : Prop :=
  Forall (fun e => 0 <= snd e) d /\ sumR (map snd d) = 1.

(** The probability that the value chosen is in the set [S]. *)
Definition probability {A} (S : A -> bool) (d : list (A * R)) : R :=
  sumR (map snd (filter (fun e => S (fst e)) d)).

(** The two distributions are indistinguishable up to [eps] (pure differential
    privacy), for every event. *)
Definition indistinguishable {A} (eps : R) (d d' : list (A * R)) : Prop :=
  forall S, probability S d <= exp eps * probability S d' /\
            probability S d' <= exp eps * probability S d.
