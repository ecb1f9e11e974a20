(** Common vocabulary: decidable equality, Python exceptions as values, sums.
    Nothing in this file models PipelineDP code. *)
From Coq Require String.
From Coq Require Import List ZArith QArith Lia Bool Permutation.
Import ListNotations.

(** Python "hashable" keys: types with decidable equality. *)
Class EqDec (A : Type) := eq_dec : forall x y : A, {x = y} + {x <> y}.
#[export] Instance EqDec_Z : EqDec Z := Z.eq_dec.
#[export] Instance EqDec_nat : EqDec nat := PeanoNat.Nat.eq_dec.
#[export] Instance EqDec_string : EqDec String.string := String.string_dec.
#[export] Instance EqDec_bool : EqDec bool := bool_dec.
#[export] Instance EqDec_unit : EqDec unit.
Proof. intros [] []. left. reflexivity. Defined.
#[export] Instance EqDec_pair {A B} `{EqDec A} `{EqDec B} : EqDec (A * B).
Proof.
  intros [a b] [a' b'].
  destruct (eq_dec a a') as [->|Ha].
  - destruct (eq_dec b b') as [->|Hb].
    + left. reflexivity.
    + right. intro E. apply Hb. congruence.
  - right. intro E. apply Ha. congruence.
Defined.
#[export] Instance EqDec_option {A} `{EqDec A} : EqDec (option A).
Proof.
  intros [a|] [b|].
  - destruct (eq_dec a b) as [->|Hn]; [left; reflexivity | right; congruence].
  - right; discriminate.
  - right; discriminate.
  - left; reflexivity.
Defined.
#[export] Instance EqDec_list {A} `{EqDec A} : EqDec (list A) := list_eq_dec eq_dec.

Definition eqb {A} `{EqDec A} (x y : A) : bool := if eq_dec x y then true else false.

(** Python exceptions. *)
Inductive exn :=
| ValueError | TypeError | AssertionError | NotImplementedError
| ZeroDivisionError | AttributeError | KeyError | IndexError | NameError
| GenericException.

Inductive result (A : Type) :=
| Ok (a : A)
| Err (e : exn).
Arguments Ok {A} a.
Arguments Err {A} e.

Definition is_ok {A} (r : result A) : bool :=
  match r with Ok _ => true | Err _ => false end.

Definition rbind {A B} (r : result A) (f : A -> result B) : result B :=
  match r with Ok a => f a | Err e => Err e end.

Definition rmap {A B} (f : A -> B) (r : result A) : result B :=
  match r with Ok a => Ok (f a) | Err e => Err e end.

(** Sums. *)
Definition sumQ (l : list Q) : Q := fold_right Qplus 0%Q l.
Definition sumZ (l : list Z) : Z := fold_right Z.add 0%Z l.
Definition sumN (l : list nat) : nat := fold_right Nat.add 0%nat l.

(** Number of elements satisfying a test. *)
Definition count_if {A} (p : A -> bool) (l : list A) : nat := length (filter p l).

(** Number of occurrences of [x] in [l]. *)
Fixpoint occ {A} `{EqDec A} (x : A) (l : list A) : nat :=
  match l with
  | [] => 0
  | y :: l' => (if eq_dec x y then 1 else 0) + occ x l'
  end.

(** [submset l l'] : [l] is a sub-multiset of [l'] (each element occurs in [l]
    at most as often as in [l']), i.e. [l'] is a permutation of [l] plus some
    rest. *)
Definition submset {A} (l l' : list A) : Prop :=
  exists rest, Permutation l' (l ++ rest).

(** The smaller of two naturals etc. are taken from the standard library. *)
