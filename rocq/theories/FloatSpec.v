(** Vocabulary for C80. *)
From Coq Require Import List ZArith QArith Bool.
From Verif Require Import Base CombinerModel FloatModel.
Import ListNotations.

(** Values where infinity is [m] and minus infinity is [-m]. *)
Definition large (m : Q) (a : num) : value :=
  match a with Fin q => Num q | PosInf => Num m | NegInf => Num (- m) | NaN => Num 0 end.
Definition large_rows {K} (m : Q) (rows : list (K * num)) : list (K * value) := map (fun r => (fst r, large m (snd r))) rows.

Definition no_nan {K} (rows : list (K * num)) : Prop := forall k, ~ In (k, NaN) rows.
(** No privacy id has both infinities in one partition. *)
Definition no_opposites {K} (rows : list (K * num)) : Prop := forall k, ~ (In (k, PosInf) rows /\ In (k, NegInf) rows).

Definition of_numbers (c : combiner) : bool := match c with CQuantile _ | CVector _ => false | _ => true end.

(** A released value that is a number or None, seen as a float; vectors do not occur. *)
Definition as_float (r : released) : option num := match r with RNum q => Some (Fin q) | RNone => None | RVec _ => Some NaN end.
Definition as_floats (m : list (mname * released)) : list (mname * option num) := map (fun kv => (fst kv, as_float (snd kv))) m.

(** Somewhere in the result the metric [n] is nan. *)
Definition shows_nan {P} (n : mname) (out : result (list (P * list (mname * option num)))) : bool :=
  match out with
  | Ok rows => existsb (fun row => existsb (fun kv => match kv with (n', Some NaN) => eqb n n' | _ => false end) (snd row)) rows
  | Err _ => false
  end.
