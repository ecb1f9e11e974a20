(** PyDP's quantile trees with Laplace noise.

    QuantileTree is external; /repo/pipeline_dp/combiners.py:594-599 and 622-630 name the algorithm
    (Google's C++ library).  This file is a model of its documentation: the range is cut into
    branching_factor ^ height leaves, every node of the tree counts the entries below it, every
    count gets noise, and all the quantiles are computed from the noised counts.  How they are
    computed is left open ([decode]: any function of the noised counts), and so are the grids of
    floating point numbers.  Simplified: all counts are noised, also those that are not looked
    at; the noise is exact before rounding, as in RoundModel. *)
From Coq Require Import String List ZArith QArith Qround Qminmax Qreals Reals.
From Verif Require Import Base ParamsModel CombinerModel SensModel QuantileModel SelectModel DistSpec DpModel DpSpec RoundModel.
Import ListNotations.

(** add_entry: the leaf of a value, which is clamped to the range (QuantileTree(lower,
    upper, height, branching_factor), combiners.py:650-657). *)
Definition leaf (q : quantile_query) (v : Q) : nat :=
  match qq_lower q, qq_upper q with
  | Some lo, Some hi =>
      let leaves := (qq_branching q ^ qq_height q)%Z in
      let x := Qmax lo (Qmin hi v) in
      Z.to_nat (Z.min (leaves - 1) (Qfloor ((x - lo) / (hi - lo) * inject_Z leaves)))
  | _, _ => O
  end.
(** The node of a value at [level]: 1 below the root, height at the leaves. *)
Definition node_of (q : quantile_query) (level : nat) (v : Q) : nat :=
  (leaf q v / Z.to_nat (qq_branching q) ^ (Z.to_nat (qq_height q) - level))%nat.
(** All nodes but the root. *)
Definition nodes (q : quantile_query) : list (nat * nat) :=
  flat_map (fun level => map (pair level) (seq 0 (Z.to_nat (qq_branching q) ^ level))) (seq 1 (Z.to_nat (qq_height q))).
Definition node_count (q : quantile_query) (t : list Q) (n : nat * nat) : nat :=
  length (filter (fun v => Nat.eqb (node_of q (fst n) v) (snd n)) t).

Local Open Scope R_scope.

(** compute_quantiles with noise_type = "laplace": combiners.py:622-630.  One value changes one count
    of every level. *)
Definition laplace_tree (g : grid) (decode : list Q -> list Q) (q : quantile_query) (rate : R) (t : list Q) : dist (list Q) :=
  dbind (independent (rounded_laplace g rate) (map (fun n => INR (node_count q t n)) (nodes q)))
        (fun noisy => dret (decode noisy)).
Definition laplace_quantiles (g : quantile_query -> grid) (decode : quantile_query -> list Q -> list Q)
    (other : quantile_query -> list Q -> dist (list Q)) (q : quantile_query) (t : list Q) : dist (list Q) :=
  match qq_l0 q, qq_linf q with
  | Some l0, Some linf =>
      if String.eqb (qq_noise q) "laplace" then
        let rate := Q2R (qq_eps q) / IZR (qq_height q * (l0 * linf)) in
        if Rlt_dec 0 rate then laplace_tree (g q) (decode q) q rate t else other q t
      else other q t
  | _, _ => other q t
  end.

(** PyDP with Laplace noise for everything: numbers, vectors, thresholding and quantiles. *)
Definition with_laplace_trees (gn gv : mechanism -> grid) (gs : selector -> grid) (gq : quantile_query -> grid)
    (decode : quantile_query -> list Q -> list Q) (py : pydp) : pydp :=
  let py' := with_laplace gn gv gs py in
  Pydp (py_noise py') (py_keep py') (py_noised py') (laplace_quantiles gq decode (py_quantiles py)) (py_vector py').
