(** Specification vocabulary for the chances of contributions (C77). *)
From Coq Require Import List ZArith QArith Bool PeanoNat.
From Verif Require Import Base BackendModel BackendSpec EngineModel ParamsModel BounderSpec AnalyzeSpec SampleModel.
Import ListNotations.
Local Open Scope Q_scope.

Definition num (n : nat) : Q := inject_Z (Z.of_nat n).

(** Expectation of [g] and what it is to be a distribution. *)
Definition expect {A} (d : dist A) (g : A -> Q) : Q := sumQ (map (fun wa => fst wa * g (snd wa)) d).
Definition is_distribution {A} (d : dist A) : Prop :=
  (forall w a, In (w, a) d -> 0 <= w) /\ expect d (fun _ => 1) == 1.
Definition possible {A} (d : dist A) (a : A) : Prop := exists w, In (w, a) d.
Definition indicator (b : bool) : Q := if b then 1 else 0.

(** The sum of [f] over a list. *)
Definition total {A} (f : A -> Q) (l : list A) : Q := sumQ (map f l).

(** The chance of one element when at most [n] of [m] are kept, all alike. *)
Definition chance (n m : nat) : Q := if n <? m then num n / num m else 1.

(** ** Chances along a reduction tree *)

(** How many values random.sample leaves at the root. *)
Fixpoint held {A} (n : nat) (t : tree A) : nat :=
  match t with
  | Leaf _ => 1
  | Node l r => Nat.min (held n l + held n r) n
  end.

(** The chance of each leaf to reach the root: one factor for every node above it. *)
Fixpoint spark_chances {A} (n : nat) (t : tree A) : list Q :=
  match t with
  | Leaf _ => [1]
  | Node l r => map (Qmult (num (held n t) / num (held n l + held n r))) (spark_chances n l ++ spark_chances n r)
  end.

(** A sum in which every element counts with its chance. *)
Definition weighted {A} (f : A -> Q) (cs : list Q) (l : list A) : Q :=
  sumQ (map (fun ca => fst ca * f (snd ca)) (combine cs l)).

(** The tree of a sequential reduction, values one after the other (Spark's
    map-side combine of a partition). *)
Definition one_by_one {A} (a : A) (rest : list A) : tree A := fold_left (fun t b => Node t (Leaf b)) rest (Leaf a).

Fixpoint pow (q : Q) (k : nat) : Q := match k with O => 1 | S k' => q * pow q k' end.

(** Every two lists merged have been built from the same number of values, unless nothing
    has been dropped from either. *)
Fixpoint balanced {A} (n : nat) (t : tree A) : Prop :=
  match t with
  | Leaf _ => True
  | Node l r =>
      balanced n l /\ balanced n r /\
      (length (leaves l) = length (leaves r) \/ (length (leaves l) <= n /\ length (leaves r) <= n)%nat)
  end.

(** ** Draws of a whole bounder *)

(** The groups a bounder samples from. *)
Definition pair_groups {U P V} `{EqDec U} `{EqDec P} (rows : list (U * P * V)) : list ((U * P) * nat) :=
  map (fun uk => (uk, length (values_in (fst uk) (snd uk) rows))) (distinct (map fst rows)).
(** By privacy id: its rows when max_contributions is given, its partitions otherwise. *)
Definition id_groups {U P V} `{EqDec U} `{EqDec P} (p : params) (rows : list (U * P * V)) : list (U * nat) :=
  map (fun u => (u, match max_contributions p with
                    | Some _ => length (rows_of u rows)
                    | None => length (partitions_of u rows)
                    end)) (distinct (map (fun r => fst (fst r)) rows)).

(** Draws that treat the positions of every group alike and draw from the values of a
    partition independently of drawing among the partitions.  This is all the theorem on
    bounders needs; it leaves the joint distribution of positions and of different privacy
    ids open. *)
Definition fair_draws {U P} (n1 n2 : nat) (g1 : list ((U * P) * nat)) (g2 : list (U * nat))
    (d : dist (sampling U P)) : Prop :=
  is_distribution d /\
  (forall sm, possible d sm ->
     (forall k m, In (k, m) g1 -> (n1 < m)%nat -> valid_draw n1 m (ch_pid_pk sm k m)) /\
     (forall u m, In (u, m) g2 -> (n2 < m)%nat -> valid_draw n2 m (ch_pid sm u m))) /\
  (forall k m j, In (k, m) g1 -> (n1 < m)%nat -> (j < m)%nat ->
     expect d (fun sm => indicator (mem j (ch_pid_pk sm k m))) == num n1 / num m) /\
  (forall u m j, In (u, m) g2 -> (n2 < m)%nat -> (j < m)%nat ->
     expect d (fun sm => indicator (mem j (ch_pid sm u m))) == num n2 / num m) /\
  (forall k m j u m' j', In (k, m) g1 -> (n1 < m)%nat -> (j < m)%nat -> In (u, m') g2 -> (n2 < m')%nat -> (j' < m')%nat ->
     expect d (fun sm => indicator (mem j (ch_pid_pk sm k m)) * indicator (mem j' (ch_pid sm u m'))) ==
     num n1 / num m * (num n2 / num m')).

Definition bound_of (o : option Z) : nat := match o with Some z => Z.to_nat z | None => 0 end.

(** The bounds of the two samplings. *)
Definition value_bound (p : params) : nat := bound_of (max_contributions_per_partition p).
Definition id_bound (p : params) : nat :=
  match max_contributions p with Some m => Z.to_nat m | None => bound_of (max_partitions_contributed p) end.

(** The chance of a row, from the documentation of the bounders: with max_contributions,
    the rows of the privacy id share max_contributions places; otherwise its partitions
    share max_partitions_contributed places, and the values of a partition share
    max_contributions_per_partition places when the combiners need sampling. *)
Definition row_chance {U P V} `{EqDec U} `{EqDec P} (p : params) (sampled : bool) (rows : list (U * P * V)) (r : U * P * V) : Q :=
  let u := fst (fst r) in
  match max_contributions p with
  | Some m => chance (Z.to_nat m) (length (rows_of u rows))
  | None =>
      (if perform_cross_partition_contribution_bounding p
       then chance (bound_of (max_partitions_contributed p)) (length (partitions_of u rows)) else 1) *
      (if sampled then chance (value_bound p) (length (values_in u (snd (fst r)) rows)) else 1)
  end.

(** The probability that the value [a] is in Spark's sample. *)
Definition survives {A} `{EqDec A} (n : nat) (t : tree A) (a : A) : Q :=
  expect (spark_draws n t) (fun x => indicator (mem a (spark_sample x))).
