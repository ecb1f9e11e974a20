(** Lemmas on the engine: effect of removing one privacy id. *)
From Coq Require Import List ZArith QArith Qabs Qminmax Bool Permutation Lia Lqa.
From Verif Require Import Base BaseLemmas BackendModel BackendSpec ListLemmas BackendProofs
  BounderModel BounderSpec BounderProofs ParamsModel SensModel CombinerModel CombinerSpec CombinerProofs
  EngineModel EngineSpec.
Import ListNotations.
Local Open Scope Q_scope.

(** ** Sums over partitions *)
Lemma sumQ_le {A} (f g : A -> Q) l :
  (forall x, In x l -> f x <= g x) -> sumQ (map f l) <= sumQ (map g l).
Proof.
  induction l as [|a l IH]; intro E; cbn; [lra|].
  assert (f a <= g a) by (apply E; left; reflexivity).
  assert (sumQ (map f l) <= sumQ (map g l)) by (apply IH; intros; apply E; right; assumption).
  unfold sumQ in *. lra.
Qed.

Lemma sumQ_zero {A} (f : A -> Q) l : (forall x, In x l -> f x == 0) -> sumQ (map f l) == 0.
Proof.
  intro E. rewrite (sumQ_ext f (fun _ => 0)) by exact E. clear E.
  induction l; cbn; [reflexivity|]. change (fold_right Qplus 0) with sumQ. rewrite IHl. ring.
Qed.

Lemma sumQ_indicator {P} `{EqDec P} (k0 : P) (c : Q) keys :
  0 <= c -> NoDup keys -> sumQ (map (fun k => if eqb k0 k then c else 0) keys) <= c.
Proof.
  intros Hc N. induction keys as [|k keys IH]; [exact Hc|]. inversion N as [|? ? Nk Nks]; subst.
  cbn [map sumQ fold_right]. change (fold_right Qplus 0) with sumQ.
  destruct (eqb k0 k) eqn:E.
  - apply eqb_eq in E. subst. rewrite sumQ_zero; [lra|]. intros x Hx.
    destruct (eqb k x) eqn:E; [|reflexivity]. apply eqb_eq in E. subst. contradiction.
  - specialize (IH Nks). lra.
Qed.

(** The change at partition [k]: [es] are the (partition, amount) entries of one
    privacy id. *)
Definition change {P} `{EqDec P} (es : list (P * Q)) (k : P) : Q := sumQ (values_of k es).

Lemma change_cons {P} `{EqDec P} (k0 : P) x es k :
  NoDup (k0 :: map fst es) -> change ((k0, x) :: es) k == if eqb k0 k then x else change es k.
Proof.
  intro N. unfold change, values_of. cbn [filter fst]. destruct (eqb k0 k) eqn:E; [|reflexivity].
  apply eqb_eq in E. subst. inversion N; subst. rewrite filter_key_none by assumption. cbn. ring.
Qed.

Lemma change_phi {P} `{EqDec P} (phi : Q -> Q) keys es :
  (forall x, 0 <= phi x) -> (forall x y, x == y -> phi x == phi y) -> phi 0 == 0 ->
  NoDup keys -> NoDup (map fst es) ->
  sumQ (map (fun k => phi (change es k)) keys) <= sumQ (map (fun e => phi (snd e)) es).
Proof.
  intros Pos Cong Zero Nk. induction es as [|[k0 x] es IH]; intro Ne.
  - rewrite sumQ_zero; [cbn; lra|]. intros k _. exact Zero.
  - cbn [map fst] in Ne. assert (Ne' : NoDup (map fst es)) by (inversion Ne; assumption).
    specialize (IH Ne'). cbn [map sumQ fold_right snd]. change (fold_right Qplus 0) with sumQ.
    assert (sumQ (map (fun k => phi (change ((k0, x) :: es) k)) keys) <=
            sumQ (map (fun k => if eqb k0 k then phi x else 0) keys) + sumQ (map (fun k => phi (change es k)) keys)).
    { clear IH Nk. induction keys as [|k keys IHk]; [cbn; lra|].
      cbn [map sumQ fold_right]. change (fold_right Qplus 0) with sumQ.
      assert (E := change_cons k0 x es k Ne). apply Cong in E. rewrite E.
      assert (0 <= phi (change es k)) by apply Pos.
      destruct (eqb k0 k); lra. }
    assert (sumQ (map (fun k => if eqb k0 k then phi x else 0) keys) <= phi x)
      by (apply sumQ_indicator; [apply Pos | exact Nk]).
    lra.
Qed.

Lemma change_bound {P} `{EqDec P} es k B :
  0 <= B -> NoDup (map fst es) -> (forall e, In e es -> Qabs (snd e) <= B) ->
  Qabs (@change P _ es k) <= B.
Proof.
  intros HB. induction es as [|[k0 x] es IH]; intros N F; [exact HB|].
  rewrite change_cons by exact N. destruct (eqb k0 k).
  - apply (F (k0, x)). left. reflexivity.
  - apply IH; [inversion N; assumption|]. intros; apply F; right; assumption.
Qed.

Lemma Qsq_nonneg x : 0 <= x * x.
Proof.
  destruct (Qlt_le_dec x 0).
  - setoid_replace (x * x) with ((- x) * (- x)) by ring. apply Qmult_le_0_compat; lra.
  - apply Qmult_le_0_compat; assumption.
Qed.

Lemma Qsq_abs x : x * x == Qabs x * Qabs x.
Proof. rewrite <- Qabs_Qmult. symmetry. apply Qabs_pos. apply Qsq_nonneg. Qed.

Lemma Qsq_le x b : Qabs x <= b -> x * x <= b * b.
Proof.
  intro E. rewrite Qsq_abs. assert (0 <= Qabs x) by apply Qabs_nonneg.
  apply Qmult_le_compat_nonneg; split; assumption.
Qed.

Lemma sumQ_upper {A} (f : A -> Q) b l :
  (forall x, In x l -> f x <= b) -> sumQ (map f l) <= inject_Z (Z.of_nat (length l)) * b.
Proof.
  induction l as [|a l IH]; intro F; [change (0 <= 0 * b); lra|].
  cbn [map sumQ fold_right length]. change (fold_right Qplus 0) with sumQ.
  rewrite Nat2Z.inj_succ, <- Z.add_1_r, inject_Z_plus.
  assert (f a <= b) by (apply F; left; reflexivity).
  assert (sumQ (map f l) <= inject_Z (Z.of_nat (length l)) * b) by (apply IH; intros; apply F; right; assumption).
  change (inject_Z 1) with 1. lra.
Qed.

Lemma changed_sum {P} (keys : list P) (d : P -> Q) :
  inject_Z (Z.of_nat (changed keys d)) == sumQ (map (fun k => if Qeq_bool (d k) 0 then 0 else 1) keys).
Proof.
  unfold changed. induction keys as [|k keys IH]; [reflexivity|].
  cbn [filter map sumQ fold_right]. change (fold_right Qplus 0) with sumQ.
  destruct (Qeq_bool (d k) 0); cbn [negb]; [rewrite IH; ring|].
  cbn [length]. rewrite Nat2Z.inj_succ, <- Z.add_1_r, inject_Z_plus, IH. change (inject_Z 1) with 1. ring.
Qed.

Lemma changed_change {P} `{EqDec P} keys (es : list (P * Q)) :
  NoDup keys -> NoDup (map fst es) -> (changed keys (change es) <= length es)%nat.
Proof.
  intros Nk Ne. apply Nat2Z.inj_le. rewrite Zle_Qle, changed_sum.
  eapply Qle_trans.
  - apply (change_phi (fun x => if Qeq_bool x 0 then 0 else 1)).
    + intro x. destruct (Qeq_bool x 0); lra.
    + intros x y E. destruct (Qeq_bool x 0) eqn:A, (Qeq_bool y 0) eqn:B; try reflexivity; exfalso.
      * apply Qeq_bool_iff in A. apply Qeq_bool_false in B. apply B. rewrite <- E. exact A.
      * apply Qeq_bool_iff in B. apply Qeq_bool_false in A. apply A. rewrite E. exact B.
    + reflexivity.
    + exact Nk.
    + exact Ne.
  - eapply Qle_trans; [apply (sumQ_upper _ 1)|]; [|lra].
    intros x _. destruct (Qeq_bool _ _); lra.
Qed.

Lemma l1_change {P} `{EqDec P} keys (es : list (P * Q)) :
  NoDup keys -> NoDup (map fst es) -> l1_norm keys (change es) <= sumQ (map (fun e => Qabs (snd e)) es).
Proof.
  intros Nk Ne. apply (change_phi Qabs); auto.
  - intro. apply Qabs_nonneg.
  - intros x y E. rewrite E. reflexivity.
  - reflexivity.
Qed.

Lemma l2_change {P} `{EqDec P} keys (es : list (P * Q)) :
  NoDup keys -> NoDup (map fst es) -> l2sq_norm keys (change es) <= sumQ (map (fun e => snd e * snd e) es).
Proof.
  intros Nk Ne. apply (change_phi (fun x => x * x)); auto.
  - intro. apply Qsq_nonneg.
  - intros x y E. rewrite E. reflexivity.
  - reflexivity.
Qed.

Lemma sumQ_squares {A} (f : A -> Q) l :
  sumQ (map (fun x => f x * f x) l) <= sumQ (map (fun x => Qabs (f x)) l) * sumQ (map (fun x => Qabs (f x)) l).
Proof.
  induction l as [|a l IH]; [cbn; lra|].
  cbn [map sumQ fold_right]. change (fold_right Qplus 0) with sumQ.
  rewrite (Qsq_abs (f a)). assert (0 <= Qabs (f a)) by apply Qabs_nonneg.
  assert (0 <= sumQ (map (fun x => Qabs (f x)) l)).
  { apply sumQ_nonneg, Forall_forall. intros y Hy. apply in_map_iff in Hy. destruct Hy as [? [<- _]]. apply Qabs_nonneg. }
  nra.
Qed.

(** ** Accumulators are additive *)
Definition kind_ok (c : combiner) (a : acc) : Prop :=
  match c, a with
  | (CCount | CPidCount | CThresh), AInt _ => True
  | CSum _ _ _, AFloat _ => True
  | CMean _ _ _, AMean _ _ => True
  | CVariance _ _ _, AVar _ _ _ => True
  | CQuantile _, ATree _ => True
  | CVector _, (ANone | AVec _ | AErr) => True
  | _, _ => False
  end.

Lemma vector_fold_kind size vs a : kind_ok (CVector size) a -> kind_ok (CVector size) (fold_left (vector_step size) vs a).
Proof.
  revert a. induction vs as [|v vs IH]; intros a Ka; [exact Ka|]. cbn [fold_left]. apply IH.
  destruct a, v; cbn in *; try tauto; try destruct (_ =? _)%Z; cbn; auto.
  destruct (vadd l l0); cbn; auto.
Qed.

Lemma create_kind c vs : kind_ok c (create c vs).
Proof. destruct c as [| | |[]| | | |]; cbn; auto. apply (vector_fold_kind size). exact I. Qed.

Lemma merge_kind c a b : kind_ok c a -> kind_ok c b -> kind_ok c (merge c a b).
Proof.
  destruct c, a; cbn; try tauto; destruct b; cbn; try tauto. intros _ _. destruct (vadd l l0); exact I.
Qed.

Definition additive (f : acc -> Q) : Prop :=
  forall c a b, kind_ok c a -> kind_ok c b -> f (merge c a b) == f a + f b.

Lemma count_additive : additive count_of.
Proof.
  intros c a b. destruct c, a; cbn; try tauto; destruct b; cbn; try tauto; intros _ _;
    try (rewrite inject_Z_plus; reflexivity); try (destruct (vadd l l0)); cbn; ring.
Qed.
Lemma sum_additive : additive sum_of.
Proof.
  intros c a b. destruct c, a; cbn; try tauto; destruct b; cbn; try tauto; intros _ _;
    try reflexivity; try (destruct (vadd l l0)); cbn; ring.
Qed.
Lemma squares_additive : additive squares_of.
Proof.
  intros c a b. destruct c, a; cbn; try tauto; destruct b; cbn; try tauto; intros _ _;
    try reflexivity; try (destruct (vadd l l0)); cbn; ring.
Qed.

Lemma fold_additive f c gs a : additive f -> kind_ok c a ->
  f (fold_left (merge c) (map (create c) gs) a) == f a + sumQ (map (fun g => f (create c g)) gs).
Proof.
  intro Af. revert a. induction gs as [|g gs IH]; intros a Ka; cbn [map fold_left sumQ fold_right]; [ring|].
  change (fold_right Qplus 0) with sumQ.
  rewrite IH by (apply merge_kind; [exact Ka | apply create_kind]).
  rewrite (Af c) by (try exact Ka; apply create_kind). ring.
Qed.

Lemma merge_all_same cs (h h' : combiner -> acc) :
  merge_all cs (map h cs) (map h' cs) = map (fun c => merge c (h c) (h' c)) cs.
Proof. induction cs as [|c cs IH]; [reflexivity|]. cbn. rewrite IH. reflexivity. Qed.

Lemma compound_fold cs gs z (h : combiner -> acc) :
  fold_left (compound_merge cs) (map (compound_create cs) gs) (z, map h cs) =
  ((z + Z.of_nat (length gs))%Z, map (fun c => fold_left (merge c) (map (create c) gs) (h c)) cs).
Proof.
  revert z h. induction gs as [|g gs IH]; intros z h; cbn [map fold_left].
  - rewrite Z.add_0_r. reflexivity.
  - change (compound_merge cs (z, map h cs) (compound_create cs g))
      with ((z + 1)%Z, merge_all cs (map h cs) (map (fun c => create c g) cs)).
    rewrite merge_all_same.
    rewrite (IH (z + 1)%Z (fun c => merge c (h c) (create c g))). f_equal. cbn [length]. lia.
Qed.

(** ** Raw values as sums of contributions *)
Lemma find_In_NoDup {K A} `{EqDec K} (col : list (K * A)) k :
  NoDup (map fst col) ->
  forall a, In (k, a) col -> find (fun e => eqb (fst e) k) col = Some (k, a).
Proof.
  induction col as [|[k' a'] col IH]; intros N a Hin; [destruct Hin|]. inversion N; subst. cbn [find fst].
  destruct (eqb k' k) eqn:E.
  - apply eqb_eq in E. subst. destruct Hin as [E|Hin]; [congruence|]. exfalso. apply H2. eapply in_keys. exact Hin.
  - destruct Hin as [E'|Hin]; [|auto]. inversion E'; subst. rewrite eqb_refl in E. discriminate.
Qed.

Lemma find_none_keys {K A} `{EqDec K} (col : list (K * A)) k :
  ~ In k (map fst col) -> find (fun e => eqb (fst e) k) col = None.
Proof.
  induction col as [|[k' a'] col IH]; intro N; [reflexivity|]. cbn [find fst map In] in *.
  destruct (eqb k' k) eqn:E; [apply eqb_eq in E; tauto|]. apply IH. tauto.
Qed.

Definition with_accs {P} (cs : list combiner) (pairs : list (P * list value)) : list (P * cacc) :=
  map_values (compound_create cs) pairs.

Lemma raw_value_sum {P} `{EqDec P} f cs i c (pairs : list (P * list value)) k :
  additive f -> nth_error cs i = Some c ->
  raw_value f i k (combine_per_key (compound_merge cs) (with_accs cs pairs)) ==
  sumQ (map (fun g => f (create c g)) (values_of k pairs)).
Proof.
  intros Af Hi. unfold raw_value.
  assert (N : NoDup (map fst (combine_per_key (compound_merge cs) (with_accs cs pairs))))
    by (rewrite combine_per_key_keys; apply NoDup_distinct).
  destruct (values_of k pairs) as [|g gs] eqn:E.
  - rewrite find_none_keys; [reflexivity|]. rewrite combine_per_key_keys, in_distinct.
    unfold with_accs. rewrite map_values_keys. apply values_of_nil_iff. exact E.
  - assert (Hin : In (k, fold_left (compound_merge cs) (map (compound_create cs) gs) (compound_create cs g))
                     (combine_per_key (compound_merge cs) (with_accs cs pairs))).
    { apply in_combine_per_key. unfold with_accs. rewrite values_of_map_values, E. reflexivity. }
    rewrite (find_In_NoDup _ _ N _ Hin). cbn [snd]. unfold compound_create at 2. rewrite compound_fold. cbn [snd].
    rewrite nth_error_map, Hi. cbn [option_map]. rewrite fold_additive by (try exact Af; apply create_kind).
    reflexivity.
Qed.

(** ** Naturality of bounding in the aggregation function *)
Lemma pick_map {A B} (f : A -> B) idx l : pick idx (map f l) = map f (pick idx l).
Proof.
  unfold pick. rewrite map_flat_map. apply flat_map_ext. intro i. rewrite nth_error_map.
  destruct (nth_error l i); reflexivity.
Qed.
Lemma choose_map {A B} (f : A -> B) idx n l : choose idx n (map f l) = map f (choose idx n l).
Proof. unfold choose. rewrite map_length. destruct (n <? length l); [apply pick_map | reflexivity]. Qed.

Lemma sample_map_values {K V W} `{EqDec K} ch n (f : V -> W) (col : list (K * V)) :
  sample_fixed_per_key ch n (map_values f col) = map_values (map f) (sample_fixed_per_key ch n col).
Proof.
  unfold sample_fixed_per_key. rewrite group_by_key_map_values. unfold map_values. rewrite !map_map.
  apply map_ext. intros [k vs]. cbn [fst snd]. rewrite map_length, choose_map. reflexivity.
Qed.

Lemma map_values_map_values {K A B C} (f : A -> B) (g : B -> C) (l : list (K * A)) :
  map_values g (map_values f l) = map_values (fun x => g (f x)) l.
Proof. unfold map_values. rewrite map_map. reflexivity. Qed.

Lemma map_values_id {K A} (l : list (K * A)) : map_values (fun x => x) l = l.
Proof. unfold map_values. rewrite (map_ext _ (fun x => x)); [apply map_id|]. intros []; reflexivity. Qed.

Lemma unnest_map {U P A B} (f : A -> B) (col : list (U * list (P * A))) :
  unnest (map_values (map_values f) col) = map_values f (unnest col).
Proof.
  unfold unnest, map_values. rewrite flat_map_map, map_flat_map. apply flat_map_ext. intros [u pas].
  cbn [fst snd]. rewrite !map_map. reflexivity.
Qed.

Lemma rekey_map {U P A B} (f : A -> B) (c : list ((U * P) * A)) :
  rekey_pid (map_values f c) = map_values (fun pa => (fst pa, f (snd pa))) (rekey_pid c).
Proof. unfold rekey_pid, map_values. rewrite !map_map. reflexivity. Qed.

Lemma bound_natural {U P V A} `{EqDec U} `{EqDec P} p ex (sm : sampling U P) (agg : list V -> A)
    (rows : list (U * P * V)) :
  bound_contributions p ex sm agg rows =
  rmap (map_values agg) (bound_contributions p ex sm (fun vs => vs) rows).
Proof.
  unfold bound_contributions. destruct (max_contributions p) as [m|].
  { destruct (m =? 0)%Z; [reflexivity|]. cbn [rmap]. f_equal. unfold bound_per_privacy_id.
    rewrite map_values_id. reflexivity. }
  destruct (perform_cross_partition_contribution_bounding p); destruct ex.
  - destruct (max_partitions_contributed p) as [l0|]; [|reflexivity].
    destruct (max_contributions_per_partition p) as [linf|]; [|reflexivity].
    cbn [rmap]. f_equal. unfold bound_cross_and_per.
    change (fun x : U * P * A => (fst (fst x), (snd (fst x), snd x)))
      with (fun x : (U * P) * A => (fst (fst x), (snd (fst x), snd x))).
    fold (@rekey_pid U P A (map_values agg (sample_fixed_per_key (ch_pid_pk sm) (Z.to_nat linf) (key_by_pid_pk rows)))).
    rewrite map_values_id. rewrite rekey_map, sample_map_values.
    change (map (fun pa : P * list V => (fst pa, agg (snd pa)))) with (@map_values P (list V) A agg).
    rewrite (unnest_map agg). reflexivity.
  - destruct (max_partitions_contributed p) as [l0|]; [|reflexivity].
    cbn [rmap]. f_equal. unfold bound_cross_partition. rewrite map_values_id. reflexivity.
  - destruct (max_contributions_per_partition p) as [linf|]; [|reflexivity].
    cbn [rmap]. f_equal. unfold bound_linf. rewrite map_values_id. reflexivity.
  - cbn [rmap]. f_equal. unfold bound_noop. rewrite map_values_id. reflexivity.
Qed.

Lemma bound_filter {U P V A} `{EqDec U} `{EqDec P} (q : U -> bool) p ex (sm : sampling U P) (agg : list V -> A)
    (rows : list (U * P * V)) :
  bound_contributions p ex sm agg (filter (fun r => q (fst (fst r))) rows) =
  rmap (filter (fun e => q (fst (fst e)))) (bound_contributions p ex sm agg rows).
Proof.
  unfold bound_contributions. destruct (max_contributions p) as [m|].
  { destruct (m =? 0)%Z; [reflexivity|]. cbn [rmap]. f_equal. apply per_privacy_id_filter. }
  destruct (perform_cross_partition_contribution_bounding p); destruct ex.
  - destruct (max_partitions_contributed p) as [l0|]; [|reflexivity].
    destruct (max_contributions_per_partition p) as [linf|]; [|reflexivity].
    cbn [rmap]. f_equal. apply cross_and_per_filter.
  - destruct (max_partitions_contributed p) as [l0|]; [|reflexivity].
    cbn [rmap]. f_equal. apply cross_partition_filter.
  - destruct (max_contributions_per_partition p) as [linf|]; [|reflexivity].
    cbn [rmap]. f_equal. apply linf_filter.
  - cbn [rmap]. f_equal. apply noop_filter.
Qed.
