(** The random draws of contribution bounding as probability distributions.

    BackendModel and BounderModel take the positions drawn by the random number
    generator as an argument; here the generator is modelled: a distribution over
    these positions.  Weights are rationals. *)
From Coq Require Import List ZArith QArith Bool.
From Verif Require Import Base BackendModel EngineModel AnalysisSpec.
Import ListNotations.

(** A finite distribution: (probability, outcome). *)
Definition dist (A : Type) := list (Q * A).
Definition ret {A} (a : A) : dist A := [(1, a)].
Definition bind {A B} (d : dist A) (f : A -> dist B) : dist B :=
  flat_map (fun wa => map (fun vb => (fst wa * fst vb, snd vb)) (f (snd wa))) d.

(** [np.random.choice(range(m), n, replace=False)] (pipeline_backend.py:541-543,
    sampling_utils.py:27) and the positions drawn by [random.sample(l, n)] with
    [len(l) = m] (pipeline_backend.py:449): every set of [n] positions below [m]
    with the same probability (numpy and Python documentation).  Both return the
    positions in a random order; the order does not matter to anything stated
    about the draws, so they are listed in increasing order here. *)
Definition draw (n m : nat) : dist (list nat) :=
  let all := subsets n (seq 0 m) in
  map (fun s => (1 / inject_Z (Z.of_nat (length all)), s)) all.

(** LocalBackend.sample_fixed_per_key (pipeline_backend.py:536-547) and
    choose_from_list_without_replacement (sampling_utils.py:19-29, applied to
    every group by contribution_bounders.py:179-183): one draw for every group of
    more than [n] elements, independent of the draws of the other groups.
    [groups] lists the keys with the sizes of their groups. *)
Fixpoint draw_all {K} `{EqDec K} (n : nat) (groups : list (K * nat)) : dist (source K) :=
  match groups with
  | [] => ret (fun _ _ => [])
  | (k, m) :: rest =>
      bind (draw (Nat.min n m) m) (fun idx =>
      bind (draw_all n rest) (fun s =>
      ret (fun k' m' => if eqb k' k then idx else s k' m')))
  end.

(** The two sources of a bounder: [n1] of the values of every (privacy id,
    partition), [n2] of what is grouped by privacy id. *)
Definition local_draws {U P} `{EqDec U} `{EqDec P} (n1 n2 : nat)
    (g1 : list ((U * P) * nat)) (g2 : list (U * nat)) : dist (sampling U P) :=
  bind (draw_all n1 g1) (fun s1 => bind (draw_all n2 g2) (fun s2 => ret (Sampling _ _ s1 s2))).

(** SparkRDDBackend.sample_fixed_per_key for one key whose values are reduced
    along [t]: pipeline_backend.py:446-449, with the draw of every
    [random.sample(x + y, min(len(x) + len(y), n))]. *)
Fixpoint spark_draws {A} (n : nat) (t : tree A) : dist (stree A) :=
  match t with
  | Leaf a => ret (SLeaf a)
  | Node l r =>
      bind (spark_draws n l) (fun x =>
      bind (spark_draws n r) (fun y =>
      let m := length (spark_sample x ++ spark_sample y) in
      bind (draw (Nat.min m n) m) (fun idx => ret (SNode idx x y))))
  end.
