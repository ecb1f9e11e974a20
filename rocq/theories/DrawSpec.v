(** Vocabulary for C81: programs that draw at random between their calls.  The draws stand
    for the random choices of contribution bounding (the sampling of the next call is chosen
    by the draw) and for randomness of the analyst. *)
From Coq Require Import List ZArith QArith Reals Bool.
From Verif Require Import Base BackendModel BudgetModel BudgetSpec LaplaceSpec SelectModel DistSpec DpModel DpSpec ProgSpec.
Import ListNotations.
Local Open Scope R_scope.

Inductive game (U P : Type) :=
| Over
| Draw (coins : dist nat) (next : nat -> game U P)
| Play (o : operation U P) (next : answer P -> game U P).
Arguments Over {U P}. Arguments Draw {U P}. Arguments Play {U P}.

(** The same game on the data without privacy id [u]: the draws do not depend on the data. *)
Fixpoint forget_game {U P} `{EqDec U} (u : U) (g : game U P) : game U P :=
  match g with
  | Over => Over
  | Draw coins next => Draw coins (fun c => forget_game u (next c))
  | Play o next => Play (forget_op u o) (fun a => forget_game u (next a))
  end.

(** As [well_formed]: all the calls are accepted whatever was drawn, and the requests are
    [rs] whatever the draws and the answers. *)
Inductive fair_game {U P} `{EqDec U} `{EqDec P} (u : U) : game U P -> list (mech_type * Q * Z) -> Q -> Prop :=
| fair_over x : (0 <= x)%Q -> fair_game u Over [] x
| fair_draw coins next rs x : is_dist coins ->
    (forall w c, In (w, c) coins -> fair_game u (next c) rs x) ->
    fair_game u (Draw coins next) rs x
| fair_play o next rs x x' : valid_op u o ->
    (forall a, possible o a -> fair_game u (next a) rs x) ->
    (op_extra o + x <= x')%Q ->
    fair_game u (Play o next) (op_requests o ++ rs) x'.

(** Everything that happens; even the draws are shown. *)
Fixpoint run_game {U P} `{EqDec U} `{EqDec P} (py : pydp) (g : game U P) (bs : list (Q * Q)) : dist (list (nat + answer P)) :=
  match g with
  | Over => dret []
  | Draw coins next =>
      dbind coins (fun c => dbind (run_game py (next c) bs) (fun rest => dret (inl c :: rest)))
  | Play o next =>
      let n := length (op_requests o) in
      dbind (run_op py o (firstn n bs)) (fun a =>
      dbind (run_game py (next a) (skipn n bs)) (fun rest => dret (inr a :: rest)))
  end.
