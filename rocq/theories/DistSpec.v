(** Vocabulary for C61: finite probability distributions and random programs. *)
From Coq Require Import List ZArith QArith Reals.
From Verif Require Import Base VectorModel LaplaceSpec SelectSpec.
Import ListNotations.
Local Open Scope R_scope.

(** A finite distribution: outcomes with their probabilities. *)
Definition dist (A : Type) := list (R * A).
Definition is_dist {A} (d : dist A) : Prop := Forall (fun wa => 0 <= fst wa) d /\ sumR (map fst d) = 1.

(** The probability of an event; [mixture d F] is the expectation of [F]. *)
Definition prob {A} (d : dist A) (E : A -> bool) : R := mixture d (fun a => indicator (E a)).

(** A program that returns [a], and a program that goes on with the outcome of another. *)
Definition dret {A} (a : A) : dist A := [(1, a)].
Definition dbind {A B} (d : dist A) (k : A -> dist B) : dist B :=
  flat_map (fun wa => map (fun wb => (fst wa * fst wb, snd wb)) (k (snd wa))) d.

(** Independent draws, one for each of [xs]. *)
Fixpoint independent {A B} (f : A -> dist B) (xs : list A) : dist (list B) :=
  match xs with
  | [] => dret []
  | x :: xs' => dbind (f x) (fun y => dbind (independent f xs') (fun ys => dret (y :: ys)))
  end.

(** A random function: its values at [xs] are drawn independently from [f]; everywhere
    else it is [default]. *)
Fixpoint random_function {A B} `{EqDec A} (f : A -> dist B) (default : B) (xs : list A) : dist (A -> B) :=
  match xs with
  | [] => dret (fun _ => default)
  | x :: xs' =>
      dbind (f x) (fun y => dbind (random_function f default xs') (fun g =>
        dret (fun a => if eqb x a then y else g a)))
  end.
