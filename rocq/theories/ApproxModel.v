(** Model of the normal approximation of the Poisson binomial distribution and of its use:
    /repo/analysis/poisson_binomial.py:53-87, /repo/analysis/per_partition_combiners.py:122-151.
    Floats are real numbers. *)
From Coq Require Import List ZArith QArith Qreals Reals Bool.
From Verif Require Import Base VectorModel AnalysisModel.
Import ListNotations.
Local Open Scope R_scope.

(** np.round, round: half to even. *)
Definition round_half_even (x : R) : Z :=
  let f := Int_part x in
  if Rlt_dec (x - IZR f) (1 / 2) then f
  else if Rlt_dec (1 / 2) (x - IZR f) then (f + 1)%Z
  else if Z.even f then f else (f + 1)%Z.

(** np.arange(a, b), np.diff, np.clip(x, 0, 1). *)
Definition arange (a b : Z) : list Z := map (fun i => (a + Z.of_nat i)%Z) (seq 0 (Z.to_nat (b - a))).
Fixpoint diff (l : list R) : list R :=
  match l with
  | x :: ((y :: _) as l') => (y - x) :: diff l'
  | _ => []
  end.
Definition clip01 (x : R) : R := Rmin (Rmax x 0) 1.

(** G: poisson_binomial.py:75; [cdf] and [pdf] are norm.cdf and norm.pdf of SciPy. *)
Definition refined (cdf pdf : R -> R) (skewness x : R) : R := cdf x + skewness * (1 - x * x) * pdf x / 6.

(** compute_pmf_approximation: poisson_binomial.py:62-87; the start and the probabilities. *)
Definition compute_pmf_approximation (cdf pdf : R -> R) (mean sigma skewness : R) (n : Z) : Z * list R :=
  if Req_EM_T sigma 0 then (round_half_even mean, [1])
  else let start := Z.max 0 (Int_part (mean - 8 * sigma)) in
       let end_ := Z.min n (round_half_even (mean + 8 * sigma)) in
       (start, diff (map (fun x => clip01 (refined cdf pdf skewness ((IZR x + 1 / 2 - mean) / sigma))) (arange (start - 1) (end_ + 1)))).

(** The moments case of _compute_pmf: per_partition_combiners.py:147-151. *)
Definition moments_pmf (cdf pdf : R -> R) (m : moments) : Z * list R :=
  let std := sqrt (Q2R (m_var m)) in
  let skewness := if Req_EM_T std 0 then 0 else Q2R (m_third m) / (std * std * std) in
  compute_pmf_approximation cdf pdf (Q2R (m_exp m)) std skewness (m_count m).

(** The loop of compute_probability_to_keep: per_partition_combiners.py:136-140; [keep] is
    probability_of_keep of the strategy. *)
Definition keep_sum (keep : Z -> R) (pmf : Z * list R) : R :=
  fold_left (fun acc ip => acc + snd ip * keep (fst ip))
    (combine (map (fun i => (fst pmf + Z.of_nat i)%Z) (seq 0 (length (snd pmf)))) (snd pmf)) 0.
Definition approximate_keep (cdf pdf : R -> R) (keep : Z -> R) (m : moments) : R := keep_sum keep (moments_pmf cdf pdf m).
