(** Vocabulary for C72: several privacy ids, and privacy ids with other data. *)
From Coq Require Import List ZArith QArith Reals.
From Verif Require Import Base BackendModel ParamsModel CombinerModel EngineModel EngineSpec SelectSpec DpSpec.
Import ListNotations.
Local Open Scope R_scope.

(** The call without the rows of all of [us]. *)
Definition forget_group {U P} `{EqDec U} (us : list U) (c : call U P) : call U P :=
  Call (c_params c) (c_combiners c) (c_sampling c) (c_public c) (c_keys c)
       (filter (fun r => negb (mem (fst (fst r)) us)) (c_rows c)).

(** The calls differ only in the rows of [u]: the other rows are the same, in the same
    order, and so is everything else. *)
Definition differ_only_in {U P} `{EqDec U} (u : U) (c c' : call U P) : Prop := forget u c = forget u c'.

(** [k] steps of (eps, delta) each. *)
Fixpoint group_delta (k : nat) (eps delta : R) : R :=
  match k with
  | O => 0
  | S k' => delta + exp eps * group_delta k' eps delta
  end.
