(** Specification of C65: collections in memory. *)
From Coq Require Import List.
From Verif Require Import Base BackendModel LazyModel LazyEngineModel.
Import ListNotations.

Section Spec.
Context {U P : Type} `{EqDec U} `{EqDec P}.
Notation interp := (@interp U P).

(** What the user gives: a list, or an iterator of which nothing was read. *)
Definition user_collection (h : heap interp) {t} (c : col t) (l : list (interp t)) : Prop :=
  lookup interp h c t = Some (LList t l) \/ lookup interp h c t = Some (GItems t l).
Definition user_list (h : heap interp) {t} (c : col t) (l : list (interp t)) : Prop :=
  lookup interp h c t = Some (LList t l).
Definition user_iterator (h : heap interp) {t} (c : col t) (l : list (interp t)) : Prop :=
  lookup interp h c t = Some (GItems t l).
(** Public partitions: None, or a list. *)
Definition partitions_at (h : heap interp) (pub : option (col TP)) (public : option (list P)) : Prop :=
  match pub, public with
  | Some c, Some ks => user_list h c ks
  | None, None => True
  | _, _ => False
  end.
(** With enough fuel the program ends with [x]. *)
Definition ends {A} (e : M interp A) (h : heap interp) (x : A) (h' : heap interp) : Prop :=
  exists n, forall m, n <= m -> e m h = Some (x, h').
(** With any fuel, large enough, the program raises. *)
Definition raises {A} (e : M interp A) (h : heap interp) : Prop := exists n, forall m, n <= m -> e m h = None.
(** New objects are created, no object that was there has changed. *)
Definition only_adds (h h' : heap interp) : Prop := exists added, h' = h ++ added.
End Spec.
