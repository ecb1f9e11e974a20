(** Model of how LocalBackend executes (/repo/pipeline_dp/pipeline_backend.py:476-583):
    its operations return Python iterators (map, filter, itertools.chain, generators),
    which pull elements from each other on demand and can be read only once.

    The memory is a list of objects, an address is a position in it.  An object is a list,
    which can be read any number of times, or an iterator with its state.  [next] is
    Python's next(), [drain] is list(), [contains] is the operator [in].  They take fuel,
    the number of nested steps; None is lack of fuel or a TypeError.

    Exceptions raised by the functions given to the operations are not modelled here; a
    function that may raise returns a [result], and the reader of the last collection
    raises at the first Err (LazyEngineModel). *)
From Coq Require Import List Bool PeanoNat.
From Verif Require Import Base BackendModel.
Import ListNotations.

Section Lazy.
(** The types of elements. *)
Context {ty : Type} `{EqDec ty} (interp : ty -> Type).

(** The objects with elements of type [t]. *)
Inductive gen : ty -> Type :=
(* a list, a tuple, a set *)
| LList t (l : list (interp t)) : gen t
(* an iterator over a list or a generator of the user: the elements that are left *)
| GItems t (l : list (interp t)) : gen t
(* map(fn, col), ((k, fn(v)) for k, v in col), (k for k, v in col): 483-484, 495-501, 525-529 *)
| GMap s t (f : interp s -> interp t) (src : nat) : gen t
(* (x for el in col for x in fn(el)): 492-493; [buf] is what is left of the last fn(el) *)
| GFlat s t (f : interp s -> list (interp t)) (src : nat) (buf : list (interp t)) : gen t
(* filter(fn, col): 513-514 *)
| GFilter t (p : interp t -> bool) (src : nat) : gen t
(* (kv for kv in col if kv[0] in keys_to_keep): 516-523 *)
| GIn t k (dec : EqDec (interp k)) (key : interp t -> interp k) (src keys : nat) : gen t
(* generators that first read the whole of col: group_by_key, sample_fixed_per_key,
   count_per_element, distinct, to_list: 503-511, 531-550, 574-583 *)
| GLater s t (d : list (interp s) -> list (interp t)) (src : nat) : gen t
(* itertools.chain: 571-572 *)
| GChain t (srcs : list nat) : gen t.

(** Is it a list. *)
Definition as_list {t} (g : gen t) : option (list (interp t)) :=
  match g in gen t0 return option (list (interp t0)) with LList _ l => Some l | _ => None end.

Definition heap := list {t : ty & gen t}.
Definition lookup (h : heap) (a : nat) (t : ty) : option (gen t) :=
  match nth_error h a with
  | Some (existT _ t' g) => match eq_dec t' t with left e => Some (eq_rect t' gen g t e) | right _ => None end
  | None => None
  end.
Fixpoint store (h : heap) (a : nat) (o : {t : ty & gen t}) : heap :=
  match h, a with
  | [], _ => []
  | _ :: h', O => o :: h'
  | x :: h', S a' => x :: store h' a' o
  end.

Fixpoint next (n : nat) (h : heap) (a : nat) (t : ty) {struct n} : option (option (interp t) * heap) :=
  match n with
  | O => None
  | S n' =>
    match lookup h a t with
    | None => None
    | Some g =>
      match g in gen t0 return option (option (interp t0) * heap) with
      | LList _ _ => None
      | GItems t0 l =>
          match l with
          | [] => Some (None, h)
          | x :: l' => Some (Some x, store h a (existT _ t0 (GItems t0 l')))
          end
      | GMap s t0 f src =>
          match next n' h src s with
          | None => None
          | Some (None, h1) => Some (None, h1)
          | Some (Some x, h1) => Some (Some (f x), h1)
          end
      | GFlat s t0 f src buf =>
          match buf with
          | y :: buf' => Some (Some y, store h a (existT _ t0 (GFlat s t0 f src buf')))
          | [] => match next n' h src s with
                  | None => None
                  | Some (None, h1) => Some (None, h1)
                  | Some (Some x, h1) => next n' (store h1 a (existT _ t0 (GFlat s t0 f src (f x)))) a t0
                  end
          end
      | GFilter t0 p src =>
          match next n' h src t0 with
          | None => None
          | Some (None, h1) => Some (None, h1)
          | Some (Some x, h1) => if p x then Some (Some x, h1) else next n' h1 a t0
          end
      | GIn t0 k dec key src keys =>
          match next n' h src t0 with
          | None => None
          | Some (None, h1) => Some (None, h1)
          | Some (Some x, h1) =>
              match contains n' h1 keys k dec (key x) with
              | None => None
              | Some (b, h2) => if b then Some (Some x, h2) else next n' h2 a t0
              end
          end
      | GLater s t0 d src =>
          match drain n' h src s with
          | None => None
          | Some (l, h1) => next n' (store h1 a (existT _ t0 (GItems t0 (d l)))) a t0
          end
      | GChain t0 srcs =>
          match srcs with
          | [] => Some (None, h)
          | s :: ss => match next n' h s t0 with
                       | None => None
                       | Some (None, h1) => next n' (store h1 a (existT _ t0 (GChain t0 ss))) a t0
                       | Some (Some x, h1) => Some (Some x, h1)
                       end
          end
      end
    end
  end
(* all that is left in the iterator *)
with drain (n : nat) (h : heap) (a : nat) (t : ty) {struct n} : option (list (interp t) * heap) :=
  match n with
  | O => None
  | S n' =>
    match next n' h a t with
    | None => None
    | Some (None, h1) => Some ([], h1)
    | Some (Some x, h1) => match drain n' h1 a t with
                           | None => None
                           | Some (l, h2) => Some (x :: l, h2)
                           end
    end
  end
(* x in keys: an iterator is read until x is found *)
with contains (n : nat) (h : heap) (a : nat) (k : ty) (dec : EqDec (interp k)) (x : interp k) {struct n} : option (bool * heap) :=
  match n with
  | O => None
  | S n' =>
    match lookup h a k with
    | None => None
    | Some g =>
      match as_list g with
      | Some l => Some (mem x l, h)
      | None => match next n' h a k with
                | None => None
                | Some (None, h1) => Some (false, h1)
                | Some (Some y, h1) => if eqb x y then Some (true, h1) else contains n' h1 a k dec x
                end
      end
    end
  end.

(** ** Programs that build collections *)

Definition M (A : Type) := nat -> heap -> option (A * heap).
Definition ret {A} (x : A) : M A := fun _ h => Some (x, h).
Definition bind {A B} (e : M A) (k : A -> M B) : M B :=
  fun n h => match e n h with None => None | Some (x, h1) => k x n h1 end.
(** A collection with elements of type [t]: an address. *)
Definition col (t : ty) := nat.
Definition new {t} (g : gen t) : M (col t) := fun _ h => Some (length h, h ++ [existT _ t g]).
(** iter(col): an iterator is its own iterator. *)
Definition iter {t} (c : col t) : M nat := fun n h =>
  match lookup h c t with
  | None => None
  | Some g => match as_list g with
              | Some l => new (GItems t l) n h
              | None => Some (c, h)
              end
  end.
(** list(col). *)
Definition force {t} (c : col t) : M (list (interp t)) := fun n h =>
  match lookup h c t with
  | None => None
  | Some g => match as_list g with
              | Some l => Some (l, h)
              | None => drain n h c t
              end
  end.

(** The operations of LocalBackend: 480-583. *)
Definition b_map {s t} (f : interp s -> interp t) (c : col s) : M (col t) :=
  bind (iter c) (fun i => new (GMap s t f i)).
Definition b_flat_map {s t} (f : interp s -> list (interp t)) (c : col s) : M (col t) :=
  bind (iter c) (fun i => new (GFlat s t f i [])).
Definition b_filter {t} (p : interp t -> bool) (c : col t) : M (col t) :=
  bind (iter c) (fun i => new (GFilter t p i)).
Definition b_filter_by_key {t k} (dec : EqDec (interp k)) (key : interp t -> interp k) (c : col t) (keys : col k) : M (col t) :=
  bind (iter c) (fun i => new (GIn t k dec key i keys)).
Definition b_later {s t} (d : list (interp s) -> list (interp t)) (c : col s) : M (col t) :=
  bind (iter c) (fun i => new (GLater s t d i)).
Fixpoint iters {t} (cs : list (col t)) : M (list nat) :=
  match cs with
  | [] => ret []
  | c :: cs' => bind (iter c) (fun i => bind (iters cs') (fun is => ret (i :: is)))
  end.
Definition b_flatten {t} (cs : list (col t)) : M (col t) :=
  bind (iters cs) (fun is => new (GChain t is)).
(** to_multi_transformable_collection: 480-481. *)
Definition b_to_multi {t} (c : col t) : M (col t) :=
  bind (force c) (fun l => new (LList t l)).
End Lazy.
Arguments LList {ty interp} t l.
Arguments GItems {ty interp} t l.
Arguments GMap {ty interp} s t f src.
Arguments GFlat {ty interp} s t f src buf.
Arguments GFilter {ty interp} t p src.
Arguments GIn {ty interp} t k dec key src keys.
Arguments GLater {ty interp} s t d src.
Arguments GChain {ty interp} t srcs.
Notation "x <- e ;; k" := (bind _ e (fun x => k)) (at level 61, e at next level, right associativity).
