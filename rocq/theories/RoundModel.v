(** Laplace noise that is rounded to finitely many floating point numbers.

    PyDP is external and its source is not in /repo.  This file is a model of what its
    documentation describes: Laplace noise of scale sensitivity / epsilon is added
    (/repo/pipeline_dp/dp_computations.py:435-457), the result is rounded to a double, and
    thresholding releases it only if it is at least a threshold
    (/repo/pipeline_dp/dp_computations.py:777-810).  Simplified: the real number is drawn exactly
    and rounded afterwards, while PyDP draws on a grid; noise of given standard deviation
    and Gaussian noise are left as they are. *)
From Coq Require Import String List ZArith QArith Qreals Reals.
From Verif Require Import Base ParamsModel CombinerModel SensModel LaplaceModel SelectModel DistSpec DpModel DpSpec.
Import ListNotations.
Local Open Scope R_scope.

(** The probability that [x] + Laplace(1 / [r]) is at most [c] (dp_computations.py:456-457;
    the noise is symmetric). *)
Definition laplace_below (r x c : R) : R := laplace_tail r (x - c).

(** The floating point numbers: a real below the first number of a pair, and not below
    those of the pairs before, is rounded to the second number; all larger ones to
    [g_top].  Any rounding mode, overflow to the largest double, and any clamping. *)
Record grid := Grid { g_cells : list (R * Q); g_top : Q }.
Fixpoint rounded {A} (cells : list (R * A)) (top : A) (y : R) : A :=
  match cells with
  | [] => top
  | (c, v) :: rest => if Rlt_dec y c then v else rounded rest top y
  end.

(** The distribution of the rounded number; [F c] is the probability of being at most [c]
    and [low] is that of being in the cells before. *)
Fixpoint cell_probabilities {A} (F : R -> R) (low : R) (cells : list (R * A)) (top : A) : dist A :=
  match cells with
  | [] => [(1 - low, top)]
  | (c, v) :: rest => (F c - low, v) :: cell_probabilities F (F c) rest top
  end.

(** LaplaceMechanism.add_noise: dp_computations.py:456-457, with rate [r] = epsilon / sensitivity. *)
Definition rounded_laplace (g : grid) (r x : R) : dist Q :=
  cell_probabilities (laplace_below r x) 0 (g_cells g) (g_top g).

(** add_noise for a Laplace mechanism created from an epsilon and a sensitivity
    (dp_computations.py:435-440); PyDP refuses rates that are not positive. *)
Definition laplace_noise (grids : mechanism -> grid) (other : mechanism -> R -> dist Q) (m : mechanism) (x : R) : dist Q :=
  match m with
  | Laplace e l1 =>
      if Rlt_dec 0 (Q2R e / Q2R l1) then rounded_laplace (grids m) (Q2R e / Q2R l1) x else other m x
  | _ => other m x
  end.

(** The threshold for which a partition with one privacy id is released with probability
    [d] (PyDP's LaplacePartitionSelection). *)
Definition laplace_threshold (r d : R) : R :=
  if Rle_dec d (/ 2) then 1 - ln (2 * d) / r else 1 + ln (2 - 2 * d) / r.

(** noised_value_if_should_keep: dp_computations.py:782-788 and 807-810.  The noised count is
    released if it is at least the threshold; an empty partition is not; with a
    pre-threshold the count is reduced as in [pre_thresholded] (adding the reduction to the
    number released is part of [g]). *)
Definition released (g : grid) (r threshold : R) (n : nat) : dist (option Q) :=
  match n with
  | O => dret None
  | S _ => cell_probabilities (laplace_below r (INR n)) 0
             ((threshold, None) ::
              map (fun cv => (fst cv, Some (snd cv))) (filter (fun cv => if Rlt_dec threshold (fst cv) then true else false) (g_cells g)))
             (Some (g_top g))
  end.
Definition reduced (pre : option Z) (n : Z) : nat :=
  match pre with None => Z.to_nat n | Some t => Z.to_nat (n - (t - 1)) end.
Definition laplace_released (g : selector -> grid) (other : selector -> Z -> dist (option Q)) (sel : selector) (n : Z) : dist (option Q) :=
  match sel_l0 sel with
  | Some l0 =>
      if String.eqb (sel_name sel) "laplace" then
        let r := Q2R (sel_eps sel) / IZR l0 in
        let d := partition_delta l0 (Q2R (sel_delta sel)) in
        if Rlt_dec 0 r then
          if Rlt_dec 0 d then
            if Rlt_dec d 1 then released (g sel) r (laplace_threshold r d) (reduced (sel_pre sel) n)
            else other sel n
          else dret None
        else other sel n
      else other sel n
  | None => other sel n
  end.

(** PyDP with these algorithms for Laplace noise and Laplace thresholding; everything else
    is done as [py] does it. *)
Definition with_laplace (gn gv : mechanism -> grid) (gs : selector -> grid) (py : pydp) : pydp :=
  Pydp (fun m x => laplace_noise gn (fun m _ => py_noise py m x) m (Q2R x))
       (py_keep py)
       (laplace_released gs (py_noised py))
       (py_quantiles py)
       (laplace_noise gv (py_vector py)).
