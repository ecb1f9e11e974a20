(** Specification vocabulary for the backend primitives. *)
From Coq Require Import List ZArith Bool Permutation PeanoNat.
From Verif Require Import Base BackendModel.
Import ListNotations.

(** A random source is valid for sample size [n] if, whenever a choice has to be
    made among more than [n] elements, it returns [n] distinct positions within
    range.  This is the contract of numpy.random.choice(range(m), n,
    replace=False) and of random.sample. *)
Definition valid_draw (n m : nat) (idx : list nat) : Prop :=
  NoDup idx /\ length idx = n /\ Forall (fun i => i < m) idx.

Definition valid_source {K} (n : nat) (ch : source K) : Prop :=
  forall k m, n < m -> valid_draw n m (ch k m).

(** The values of key [k] in a keyed collection, in order. *)
Definition values_of {K V} `{EqDec K} (k : K) (col : list (K * V)) : list V :=
  map snd (filter (fun kv => eqb (fst kv) k) col).

(** A reduce tree with draws is valid for [n] when each draw is a legal result
    of random.sample(x + y, min(len(x) + len(y), n)). *)
Fixpoint valid_stree {A} (n : nat) (t : stree A) : Prop :=
  match t with
  | SLeaf _ => True
  | SNode idx l r =>
      valid_stree n l /\ valid_stree n r /\
      let m := length (spark_sample l) + length (spark_sample r) in
      valid_draw (Nat.min m n) m idx
  end.

(** [plan] is a legal execution of a keyed reduce over [col]: every key of the
    collection once, its tree having exactly the key's values as leaves, in any
    order. *)
Definition reduce_plan {K A} `{EqDec K} (col : list (K * A)) (plan : list (K * tree A)) : Prop :=
  NoDup (map fst plan) /\
  (forall k, In k (map fst plan) <-> In k (map fst col)) /\
  (forall k t, In (k, t) plan -> Permutation (leaves t) (values_of k col)).

(** Every application of the combine function is to a non-empty list. *)
Fixpoint bexp_ok {A} (e : bexp A) : Prop :=
  match e with
  | BElem _ => True
  | BApp l => l <> [] /\ fold_right (fun e P => bexp_ok e /\ P) True l
  end.

Definition beam_plan {K A} `{EqDec K} (col : list (K * A)) (plan : list (K * bexp A)) : Prop :=
  NoDup (map fst plan) /\
  (forall k, In k (map fst plan) <-> In k (map fst col)) /\
  (forall k e, In (k, e) plan -> bexp_ok e /\ Permutation (belems e) (values_of k col)).

(** A relational formulation: [R] is an equivalence for which [merge] is a
    commutative semigroup. *)
Record comm_semigroup {A} (R : A -> A -> Prop) (merge : A -> A -> A) : Prop := {
  cs_refl : forall x, R x x;
  cs_sym : forall x y, R x y -> R y x;
  cs_trans : forall x y z, R x y -> R y z -> R x z;
  cs_cong : forall x x' y y', R x x' -> R y y' -> R (merge x y) (merge x' y');
  cs_assoc : forall x y z, R (merge (merge x y) z) (merge x (merge y z));
  cs_comm : forall x y, R (merge x y) (merge y x)
}.
