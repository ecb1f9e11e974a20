(** Vocabulary for C64: the data of a partition, the exact result of the engine under
    random contribution bounding, uniform sampling of partitions. *)
From Coq Require Import List ZArith QArith Qreals Reals Bool.
From Verif Require Import Base BackendModel BackendSpec BounderSpec ParamsModel SensModel CombinerModel CombinerSpec EngineModel EngineSpec
  VectorModel LaplaceSpec AnalysisModel AnalysisSpec CrossModel TuningModel UtilityModel SelectSpec DistSpec.
Import ListNotations.
Local Open Scope R_scope.

(** ** The data *)

(** The rows that count: those in public partitions. *)
Definition counted {U P V} `{EqDec P} (p : params) (public : option (list P)) (rows : list (U * P * V)) : list (U * P * V) :=
  match public with
  | Some pub => if public_partitions_already_filtered p then rows else filter (fun r => mem (snd (fst r)) pub) rows
  | None => rows
  end.
(** The values of privacy id [u] in partition [k]. *)
Definition values_in {U P V} `{EqDec U} `{EqDec P} (u : U) (k : P) (rows : list (U * P * V)) : list V :=
  map snd (filter (fun r => eqb (fst (fst r)) u && eqb (snd (fst r)) k) rows).
Definition numeric_rows {U P} (rows : list (U * P * value)) : Prop := forall r, In r rows -> exists q, snd r = Num q.
(** The number of partitions from which contribution bounding chooses for [u]: 1 when it
    does not choose. *)
Definition n_choices {U P V} `{EqDec U} `{EqDec P} (cross : bool) (u : U) (rows : list (U * P * V)) : nat :=
  if cross then length (partitions_of u rows) else 1%nat.
(** What the analysis must know about privacy id [u] in partition [k]: the number and
    the sum of its values there, and the number of its partitions. *)
Definition data_spec {U P} `{EqDec U} `{EqDec P} (cross : bool) (rows : list (U * P * value)) (k : P) (u : U) (d : pre) : Prop :=
  fst (fst d) = Z.of_nat (length (values_in u k rows)) /\
  (exists q, snd (fst d) = Scalar q /\ q == sumQ (map num_of (values_in u k rows)))%Q /\
  snd d = Z.of_nat (n_choices cross u rows).
(** The number of None in the data of a partition. *)
Definition empties_number (l : list (option pre)) : nat := length (filter (fun d => negb (is_some d)) l).

(** ** The engine *)

(** The parameters of one configuration of the analysis (one column of sums). *)
Definition with_config (p : params) (ub : uparams * list (option Q * option Q)) : params :=
  let b := match snd ub with [b] => b | _ => (None, None) end in
  Params (metrics p) (u_noise (fst ub)) (u_l0 (fst ub)) (u_linf (fst ub)) (max_contributions p) (budget_weight p)
    (min_value p) (max_value p) (fst b) (snd b) (custom_combiners p) (vector_norm_kind p) (vector_max_norm p)
    (vector_size p) (contribution_bounds_already_enforced p) (public_partitions_already_filtered p)
    (u_strategy (fst ub)) (pre_threshold p) (post_aggregation_thresholding p)
    (perform_cross_partition_contribution_bounding p).

(** Mechanisms that add no noise. *)
Definition no_noise : noises :=
  Noises (fun q => q) (fun q => q) (fun q => q) (fun z => Some (inject_Z z)) (fun _ qs => qs) (fun l => l).

(** The metric [m] of partition [k] in the result of DPEngine.aggregate when no noise is
    added and no partition is dropped by partition selection; 0 if the partition is
    missing. *)
Definition exact {U P} `{EqDec U} `{EqDec P} (p : params) (public : option (list P)) (rows : list (U * P * value))
    (m : metric) (k : P) (sm : sampling U P) : R :=
  match aggregate p sm (fun _ _ => true) (fun _ _ => no_noise) public rows with
  | Ok out =>
      match find (fun e => eqb (fst e) k) out with
      | Some e => match find (fun nv => eqb (fst nv) (name_of m)) (snd e) with
                  | Some (_, RNum q) => Q2R q
                  | _ => 0
                  end
      | None => 0
      end
  | Err _ => 0
  end.

(** ** Uniform sampling *)

(** Each element of [l] with the same probability. *)
Definition uniform {A} (l : list A) : dist A := map (fun x => (1 / INR (length l), x)) l.

(** The positions of the partitions kept for privacy id [u], which has [n] partitions. *)
Definition kept_positions {U P} (sm : sampling U P) (l0 : nat) (u : U) (n : nat) : list nat :=
  filter (fun j => mem j (choose (ch_pid sm u n) l0 (seq 0 n))) (seq 0 n).

(** [D] is a distribution of the random choices for which the partitions kept for each
    privacy id of [rows] are a uniformly chosen subset, independently of the other
    privacy ids (np.random.choice without replacement). *)
Definition uniform_sampling {U P V} `{EqDec U} `{EqDec P} (p : params) (rows : list (U * P * V))
    (D : dist (sampling U P)) : Prop :=
  is_dist D /\ (forall w sm, In (w, sm) D -> valid_sampling p sm) /\
  forall l0, max_partitions_contributed p = Some l0 ->
  let ids := distinct (map (fun r => fst (fst r)) rows) in
  let n := fun u => length (partitions_of u rows) in
  forall F : list (list nat) -> R,
  mixture D (fun sm => F (map (fun u => kept_positions sm (Z.to_nat l0) u (n u)) ids)) =
  mixture (independent (fun u => uniform (subsets (Nat.min (Z.to_nat l0) (n u)) (seq 0 (n u)))) ids) F.

(** The average and the variance of [X]. *)
Definition mean {A} (D : dist A) (X : A -> R) : R := mixture D X.
Definition spread {A} (D : dist A) (X : A -> R) : R := mixture D (fun a => (X a - mean D X) * (X a - mean D X)).

(** What the analysis covers for the metric [m]: sums only when COUNT is not requested
    (COUNT makes the engine sample the rows of a privacy id in a partition before they
    are summed up), and when an empty public partition contributes 0 to the sum (the
    engine clips it). *)
Definition predictable {P} (ms : list metric) (public : option (list P)) (bounds : list (option Q * option Q)) (m : metric) : Prop :=
  m = SUM -> has COUNT ms = false /\
    (public = None \/ exists lo hi, bounds = [(Some lo, Some hi)] /\ (lo <= 0 <= hi)%Q).
