(** Model of QuantileCombiner's use of PyDP's quantile trees:
    /repo/pipeline_dp/combiners.py:588-669. *)
From Coq Require Import String List ZArith QArith.
From Verif Require Import Base ParamsModel CombinerModel.
Import ListNotations.

(** A quantile tree and the arguments of its compute_quantiles.  The tree itself is kept
    as the list of its entries: what PyDP stores is a histogram of them. *)
Record quantile_query := QQuery {
  qq_lower : option Q;           (* QuantileTree(lower, upper, height, branching_factor) *)
  qq_upper : option Q;
  qq_height : Z;
  qq_branching : Z;
  qq_eps : Q;                    (* compute_quantiles(epsilon, delta, ...) *)
  qq_delta : Q;
  qq_l0 : option Z;              (* max_partitions_contributed *)
  qq_linf : option Z;            (* max_contributions_per_partition *)
  qq_quantiles : list Q;
  qq_noise : string }.

(** QuantileCombiner._noise_type: combiners.py:659-665. *)
Definition noise_type (p : params) : string :=
  match noise_kind p with LaplaceNoise => "laplace"%string | GaussianNoise => "gaussian"%string end.

(** QuantileCombiner.__init__, _create_empty_quantile_tree and the arguments of
    compute_metrics: combiners.py:601-604, 649-657, 622-630.  [eps] and [delta] are the
    budget of the combiner.  An argument that is None is passed on to PyDP. *)
Definition quantile_query_of (p : params) (eps delta : Q) (ps : list Q) : quantile_query :=
  QQuery (min_value p) (max_value p) 4 16 eps delta
    (max_partitions_contributed p) (max_contributions_per_partition p)
    (map (fun x => x / 100) ps) (noise_type p).
