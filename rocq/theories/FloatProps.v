(** C80: infinities are harmless, nan is not. *)
From Coq Require Import List ZArith QArith Qminmax Bool Lia Reals Lqa Lra.
From Verif Require Import Base BaseLemmas ListLemmas BackendModel BackendSpec BackendProofs BounderModel BounderProofs ParamsModel SensModel CombinerModel EngineModel
  EngineSpec EngineProofs ArrayProofs2 LaplaceSpec SelectSpec DistSpec DistProofs EngineProps FloatModel FloatSpec FloatProofs FloatProofs2.
Import ListNotations.
Open Scope Q_scope.

(** *** C80 *)

(** A query over values with infinities is the query over values where infinity is a
    large number, for all large enough numbers, and so are both of a pair of neighbours. *)
Theorem C80_infinities_are_large_numbers : forall {U P} `{EqDec U} `{EqDec P} p (sm : sampling U P) keep nz public rows,
  has VECTOR_SUM (metrics p) = false -> percentiles (metrics p) = [] -> no_nan rows ->
  (bounds_per_partition_are_set p = true -> no_opposites rows) ->
  exists m0, forall m, m0 <= m ->
    x_aggregate p sm keep nz public rows = rmap (map_values as_floats) (aggregate p sm keep nz public (large_rows m rows)).
Proof. intros U P HU HP p sm keep nz public rows. apply aggregate_large. Qed.

Theorem C80_neighbours : forall {U P} `{EqDec U} `{EqDec P} p (sm : sampling U P) keep nz public rows u,
  has VECTOR_SUM (metrics p) = false -> percentiles (metrics p) = [] -> no_nan rows ->
  (bounds_per_partition_are_set p = true -> no_opposites rows) ->
  exists m, let without {V} (l : list (U * P * V)) := filter (fun r => negb (eqb (fst (fst r)) u)) l in
    x_aggregate p sm keep nz public rows = rmap (map_values as_floats) (aggregate p sm keep nz public (large_rows m rows)) /\
    x_aggregate p sm keep nz public (without rows) = rmap (map_values as_floats) (aggregate p sm keep nz public (without (large_rows m rows))).
Proof.
  intros U P HU HP p sm keep nz public rows u Hv Hp Nn No.
  destruct (aggregate_large p sm keep nz public rows Hv Hp Nn No) as [m0 H0].
  destruct (aggregate_large p sm keep nz public (filter (fun r => negb (eqb (fst (fst r)) u)) rows) Hv Hp) as [m1 H1].
  - intros k I. apply filter_In in I. apply (Nn k), I.
  - intros B k [I J]. apply filter_In in I, J. apply (No B k). tauto.
  - exists (Qmax m0 m1). split; [apply H0, Q.le_max_l|]. rewrite (H1 (Qmax m0 m1)) by apply Q.le_max_r. do 2 f_equal.
    unfold large_rows. rewrite filter_map. reflexivity.
Qed.

(** One nan among the values of a partition that contribution bounding keeps is in the
    accumulators of the partition ... *)
Definition is_nan_at (c : combiner) (a : xacc) : Prop :=
  match c, a with
  | CSum _ _ _, XFloat s => s = NaN
  | CMean _ _ _, XMean _ s => s = NaN
  | CVariance _ _ _, XVar _ s ss => s = NaN /\ ss = NaN
  | CSum _ _ _, _ | CMean _ _ _, _ | CVariance _ _ _, _ => False
  | _, _ => True
  end.
Definition kind_ok (c : combiner) (a : xacc) : Prop :=
  match c, a with
  | CSum _ _ _, XFloat _ | CMean _ _ _, XMean _ _ | CVariance _ _ _, XVar _ _ _ => True
  | CSum _ _ _, _ | CMean _ _ _, _ | CVariance _ _ _, _ => False
  | _, _ => True
  end.
Lemma add_nan_l a : add NaN a = NaN. Proof. destruct a; reflexivity. Qed.
Lemma add_nan_r a : add a NaN = NaN. Proof. destruct a; reflexivity. Qed.
Lemma sum_nan l : In NaN l -> sum_num l = NaN.
Proof. induction l as [|x l IH]; [intros []|]. change (sum_num (x :: l)) with (add x (sum_num l)). intros [-> | I]; [apply add_nan_l | rewrite (IH I); apply add_nan_r]. Qed.
Lemma create_kind c vs : kind_ok c (x_create c vs).
Proof. destruct c as [| | |[|] ? ?| | | |]; exact I. Qed.
Lemma create_nan c vs : In NaN vs -> is_nan_at c (x_create c vs).
Proof.
  intros I0. destruct c as [| | |[|] lo hi|lo hi nm|lo hi nm|ps|z]; try exact I; cbn [x_create is_nan_at].
  - rewrite sum_nan by exact I0. reflexivity.
  - apply sum_nan. apply (in_map (clip_num lo hi)) in I0. exact I0.
  - apply sum_nan. apply (in_map (fun v => sub (clip_num lo hi v) (Fin (middle lo hi)))) in I0. exact I0.
  - split; apply sum_nan.
    + apply (in_map (fun v => sub (clip_num lo hi v) (Fin (middle lo hi)))) in I0. exact I0.
    + apply (in_map (fun v => mul (sub (clip_num lo hi v) (Fin (middle lo hi))) (sub (clip_num lo hi v) (Fin (middle lo hi))))) in I0. exact I0.
Qed.
Lemma merge_kind c a b : kind_ok c a -> kind_ok c b -> kind_ok c (x_merge c a b).
Proof. destruct c, a, b; intros A B; try exact I; try destruct A; try destruct B. Qed.
Lemma merge_nan c a b : kind_ok c a -> kind_ok c b -> is_nan_at c a \/ is_nan_at c b -> is_nan_at c (x_merge c a b).
Proof.
  destruct c, a, b; intros A B; try (destruct A; fail); try (destruct B; fail); try (intros _; exact I); cbn.
  - intros [-> | ->]; [apply add_nan_l | apply add_nan_r].
  - intros [-> | ->]; [apply add_nan_l | apply add_nan_r].
  - intros [[-> ->] | [-> ->]]; split; (apply add_nan_l || apply add_nan_r).
Qed.

Definition every (Q : combiner -> xacc -> Prop) (cs : list combiner) (a : list xacc) : Prop := Forall2 Q cs a.
Lemma every_create (Q : combiner -> xacc -> Prop) cs vs : (forall c, Q c (x_create c vs)) -> every Q cs (snd (x_compound_create cs vs)).
Proof. intros A. unfold x_compound_create. cbn [snd]. induction cs; constructor; auto. Qed.
Lemma every_kind cs : forall a b, every kind_ok cs a -> every kind_ok cs b -> every kind_ok cs (x_merge_all cs a b).
Proof.
  induction cs as [|c cs IH]; intros a b A B; inversion A; inversion B; subst; cbn; constructor; [apply merge_kind; assumption | apply IH; assumption].
Qed.
Lemma every_nan cs : forall a b, every kind_ok cs a -> every kind_ok cs b -> every is_nan_at cs a \/ every is_nan_at cs b -> every is_nan_at cs (x_merge_all cs a b).
Proof.
  induction cs as [|c cs IH]; intros a b A B N; inversion A; inversion B; subst; cbn; constructor;
  [apply merge_nan | apply IH]; try assumption; (destruct N as [N|N]; inversion N; subst; [left | right]; assumption).
Qed.
Lemma fold_nan cs l : forall a, every kind_ok cs (snd a) -> Forall (fun x => every kind_ok cs (snd x)) l ->
  every is_nan_at cs (snd a) \/ Exists (fun x => every is_nan_at cs (snd x)) l -> every is_nan_at cs (snd (fold_left (x_compound_merge cs) l a)).
Proof.
  induction l as [|x l IH]; intros a Ka Kl N.
  - destruct N as [N|N]; [exact N | inversion N].
  - inversion Kl; subst. cbn [fold_left]. apply IH; [apply every_kind; assumption | assumption |].
    destruct N as [N|N]; [left; apply every_nan; auto|]. inversion N; subst; [left; apply every_nan; auto | right; assumption].
Qed.

Theorem C80_nan_spreads : forall {U P} `{EqDec U} `{EqDec P} p cs (sm : sampling U P) public rows contributed accs k vs acc,
  x_contributions p cs sm public rows = Ok contributed -> In (k, x_compound_create cs vs) contributed -> In NaN vs ->
  x_raw_accumulators p cs sm public rows = Ok accs -> In (k, acc) accs -> Forall2 is_nan_at cs (snd acc).
Proof.
  intros U P HU HP p cs sm public rows contributed accs k vs acc G Iv Nv E Ia. unfold x_raw_accumulators in E. rewrite G in E.
  cbn [rmap] in E. injection E as <-. set (col1 := match public with Some (_ :: _) => _ | _ => _ end) in Ia.
  assert (In1 : In (k, x_compound_create cs vs) col1).
  { unfold col1. destruct public as [[|k0 ks]|]; [exact Iv | | exact Iv]. unfold add_empty_public_partitions. apply in_or_app. left. exact Iv. }
  rewrite x_contributions_groups in G. destruct (groups p cs sm public rows) as [kept|]; [|discriminate]. cbn [rmap] in G. injection G as <-.
  assert (K1 : forall k' a, In (k', a) col1 -> every kind_ok cs (snd a)).
  { intros k' a Ha. assert (Y : exists ws, a = x_compound_create cs ws).
    { assert (X : forall b, In (k', b) (map (fun e : U * P * list num => (snd (fst e), x_compound_create cs (snd e))) kept) -> exists ws, b = x_compound_create cs ws).
      { intros b X. apply in_map_iff in X. destruct X as [e [X _]]. injection X as _ <-. eauto. }
      unfold col1 in Ha. destruct public as [[|k0 ks]|]; [apply X, Ha | | apply X, Ha]. unfold add_empty_public_partitions in Ha. apply in_app_or in Ha.
      destruct Ha as [Ha|Ha]; [apply X, Ha|]. apply in_map_iff in Ha. destruct Ha as [k1 [Y _]]. injection Y as _ <-. eauto. }
    destruct Y as [ws ->]. apply every_create. intros c. apply create_kind. }
  clearbody col1. unfold combine_per_key in Ia. apply in_flat_map in Ia. destruct Ia as [[k' l] [Il Ia]]. cbn [fst snd] in Ia.
  destruct l as [|a l]; [destruct Ia|]. destruct Ia as [Ia|[]]. injection Ia as -> <-.
  assert (Il' := Il). apply in_group_by_key in Il'. destruct Il' as [_ El].
  assert (Kl : Forall (fun x => every kind_ok cs (snd x)) (a :: l)).
  { apply Forall_forall. intros x Ix. apply (K1 k). apply (in_group_values _ _ _ _ Il Ix). }
  inversion Kl; subst. apply fold_nan; [assumption | assumption |].
  assert (X : In (x_compound_create cs vs) (a :: l)).
  { rewrite El. unfold values_of. apply in_map_iff. exists (k, x_compound_create cs vs). split; [reflexivity|]. apply filter_In. split; [exact In1 | apply eqb_refl]. }
  assert (N : every is_nan_at cs (snd (x_compound_create cs vs))) by (apply every_create; intros c; apply create_nan, Nv).
  destruct X as [->|X]; [left; exact N | right]. apply Exists_exists. eauto.
Qed.

(** ... and in what is released, whatever the noise. *)
Theorem C80_nan_is_released : forall nz c a m, is_nan_at c a -> x_compute_metrics nz c a = Ok m ->
  match c with
  | CSum _ _ _ => m = [(NSum, Some NaN)]
  | CMean _ _ _ => In (NMean, Some NaN) m
  | CVariance lo hi _ => lo < hi -> In (NVariance, Some NaN) m
  | _ => True
  end.
Proof.
  intros nz c a m N E. destruct c as [| | |b lo hi|lo hi nm|lo hi nm|ps|z]; try exact I; destruct a; try (destruct N; fail); cbn [is_nan_at] in N.
  - subst. injection E as <-. reflexivity.
  - subst. cbn in E. injection E as <-. left. reflexivity.
  - destruct N as [-> ->]. intros L. cbn [x_compute_metrics] in E. unfold x_compute_dp_var, x_mean_for_normalized_sum in E.
    assert (Q0 : Qeq_bool lo hi = false) by (destruct (Qeq_bool lo hi) eqn:X; [apply Qeq_bool_iff in X; exfalso; Lqa.lra | reflexivity]). rewrite Q0 in E.
    cbn [noised div_pos mul] in E. injection E as <-. left. do 2 f_equal.
    destruct (Qeq_bool (fst (squares_interval lo hi)) (snd (squares_interval lo hi))); reflexivity.
Qed.

(** With one nan whether a privacy id is in the data can be read off the released sums. *)
Definition nan_params : params :=
  Params [SUM] LaplaceNoise (Some 1%Z) (Some 1%Z) None 1 (Some 0) (Some 1) None None false None None None false false TruncatedGeometric None false true.
Definition nan_rows : list (Z * Z * num) := [((1, 10), Fin (1 # 2)); ((2, 10), NaN); ((3, 10), PosInf)]%Z.

Lemma prob_always {A} (d : dist A) E : is_dist d -> (forall a, E a = true) -> prob d E = 1%R.
Proof.
  intros [_ S1] T. unfold prob, mixture. rewrite <- S1. f_equal. apply map_ext. intros [w a]. cbn. rewrite T. unfold indicator. Lra.lra.
Qed.
Lemma prob_never {A} (d : dist A) E : (forall a, E a = false) -> prob d E = 0%R.
Proof.
  intros T. unfold prob, mixture. rewrite (map_ext _ (fun _ => 0%R)) by (intros [w a]; cbn; rewrite T; unfold indicator; Lra.lra).
  induction d as [|x d IH]; [reflexivity|]. cbn [map]. change (0 + VectorModel.sumR (map (fun _ : R * A => 0) d) = 0)%R. rewrite IH. Lra.lra.
Qed.

Theorem C80_private_nan_refuted : exists (p : params) (rows : list (Z * Z * num)) (u : Z) (public : list Z) sm,
  (exists r, post_init r = Ok p) /\ valid_sampling p sm /\
  forall keep (noise : dist (Z -> nat -> noises)) eps delta, is_dist noise -> (delta < 1)%R ->
    ~ indistinguishable eps delta
        (prob noise (fun nz => shows_nan NSum (x_aggregate p sm keep nz (Some public) rows)))
        (prob noise (fun nz => shows_nan NSum (x_aggregate p sm keep nz (Some public) (filter (fun r => negb (eqb (fst (fst r)) u)) rows)))).
Proof.
  exists nan_params, nan_rows, 2%Z, [10; 20]%Z, (first_sampling 1 1). split; [exists (raw_of nan_params); reflexivity|]. split.
  { split; intros x X; inversion X; subst; apply first_n_valid. }
  intros keep noise eps delta D Hd [X _].
  rewrite (prob_always noise) in X; [|exact D | intros nz; reflexivity].
  rewrite (prob_never noise) in X; [|intros nz; reflexivity]. Lra.lra.
Qed.

(** Opposite infinities of one privacy id in one partition are nan when the sums of
    partitions are clipped. *)
Definition sum_params : params :=
  Params [SUM] LaplaceNoise (Some 1%Z) (Some 2%Z) None 1 None None (Some 0) (Some 1) false None None None false false TruncatedGeometric None false true.
Definition opposite_rows : list (Z * Z * num) := [((1, 10), Fin (1 # 2)); ((2, 10), PosInf); ((2, 10), NegInf)]%Z.
Theorem C80_opposite_infinities_refuted : exists (p : params) (rows : list (Z * Z * num)) (u : Z) (public : list Z) sm,
  (exists r, post_init r = Ok p) /\ valid_sampling p sm /\ no_nan rows /\
  forall keep nz, shows_nan NSum (x_aggregate p sm keep nz (Some public) rows) = true /\
    shows_nan NSum (x_aggregate p sm keep nz (Some public) (filter (fun r => negb (eqb (fst (fst r)) u)) rows)) = false.
Proof.
  exists sum_params, opposite_rows, 2%Z, [10; 20]%Z, (first_sampling 1 2). split; [exists (raw_of sum_params); reflexivity|]. split.
  { split; intros x X; inversion X; subst; apply first_n_valid. }
  split; [intros k I; repeat destruct I as [I|I]; (discriminate || destruct I)|]. intros keep nz. split; reflexivity.
Qed.

(** A query with infinities: the hypotheses of the theorems are met and the infinities are
    the bounds of the values. *)
Definition infinite_rows : list (Z * Z * num) := [((1, 10), Fin (1 # 2)); ((2, 10), NegInf); ((3, 10), PosInf); ((4, 10), PosInf)]%Z.
Definition no_noises : Z -> nat -> noises := fun _ _ => Noises (fun x => x) (fun x => x) (fun x => x) (fun n => Some (inject_Z n)) (fun _ l => l) (fun l => l).
Example C80_hypotheses_met :
  (exists r, post_init r = Ok nan_params) /\ has VECTOR_SUM (metrics nan_params) = false /\ percentiles (metrics nan_params) = [] /\
  no_nan infinite_rows /\ no_opposites infinite_rows /\
  x_aggregate nan_params (first_sampling 1 1) (fun _ _ => true) no_noises (Some [10]%Z) infinite_rows = Ok [(10%Z, [(NSum, Some (Fin (5 # 2)))])] /\
  (exists contributed accs acc, x_contributions nan_params [CSum false 0 1] (first_sampling 1 1) None nan_rows = Ok contributed /\
     In (10%Z, x_compound_create [CSum false 0 1] [NaN]) contributed /\
     x_raw_accumulators nan_params [CSum false 0 1] (first_sampling 1 1) None nan_rows = Ok accs /\ In (10%Z, acc) accs /\ fst acc = 3%Z) /\
  is_dist [(1%R, no_noises)].
Proof.
  split; [exists (raw_of nan_params); reflexivity|]. do 2 (split; [reflexivity|]).
  split; [intros k I; repeat destruct I as [I|I]; (discriminate || destruct I)|].
  split; [intros k [I J]; repeat destruct I as [I|I]; try discriminate; try (destruct I; fail); injection I as <-; repeat destruct J as [J|J]; (discriminate || destruct J)|].
  split; [vm_compute; reflexivity|]. split.
  - do 3 eexists. split; [reflexivity|]. split; [right; left; reflexivity|]. split; [reflexivity|]. split; [left; reflexivity | reflexivity].
  - split; [repeat constructor; cbn; Lra.lra | cbn; Lra.lra].
Qed.

Print Assumptions C80_infinities_are_large_numbers.
Print Assumptions C80_neighbours.
Print Assumptions C80_nan_spreads.
Print Assumptions C80_nan_is_released.
Print Assumptions C80_private_nan_refuted.
Print Assumptions C80_opposite_infinities_refuted.
