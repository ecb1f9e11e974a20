(** Lemmas about vectors. *)
From Coq Require Import List ZArith QArith Qabs Qreals Reals Lia Lqa Lra Bool.
From Verif Require Import Base BaseLemmas BackendModel BackendSpec ListLemmas BackendProofs BounderModel BounderSpec BounderProofs
  ParamsModel SensModel CombinerModel EngineModel EngineSpec EngineProofs EngineProofs2 EngineProofs3 EngineProofs4 VectorModel VectorSpec.
Import ListNotations.
Local Open Scope R_scope.

(** ** Norms *)
Lemma sumR_nonneg {A} (f : A -> R) l : (forall x, 0 <= f x) -> 0 <= sumR (map f l).
Proof. intro F. induction l as [|x l IH]; cbn; [lra|]. specialize (F x). unfold sumR in IH. lra. Qed.

Lemma norm_l1_nonneg v : 0 <= norm_l1 v.
Proof. apply sumR_nonneg. apply Rabs_pos. Qed.
Lemma norm_linf_nonneg v : 0 <= norm_linf v.
Proof. unfold norm_linf. induction v as [|x v IH]; cbn; [lra|]. assert (X := Rmax_r (Rabs x) (fold_right Rmax 0 (map Rabs v))). lra. Qed.
Lemma norm_l2_nonneg v : 0 <= norm_l2 v.
Proof. apply sqrt_pos. Qed.

Lemma norm_l1_scale c v : 0 <= c -> norm_l1 (map (fun x => x * c) v) = norm_l1 v * c.
Proof.
  intro C. unfold norm_l1. rewrite map_map. induction v as [|x v IH]; cbn; [lra|].
  unfold sumR in IH. rewrite IH, Rabs_mult, (Rabs_pos_eq c C). lra.
Qed.
Lemma norm_l2_scale c v : 0 <= c -> norm_l2 (map (fun x => x * c) v) = norm_l2 v * c.
Proof.
  intro C. unfold norm_l2. rewrite map_map.
  assert (E : sumR (map (fun x => x * c * (x * c)) v) = sumR (map (fun x => x * x) v) * (c * c)).
  { induction v as [|x v IH]; cbn; [lra|]. unfold sumR in IH. rewrite IH. lra. }
  rewrite E, sqrt_mult; [rewrite sqrt_square by exact C; reflexivity | |].
  - apply sumR_nonneg. intro x. apply Rle_0_sqr.
  - apply Rle_0_sqr.
Qed.

Lemma linf_le_iff v m : 0 <= m -> (norm_linf v <= m <-> forall x, In x v -> Rabs x <= m).
Proof.
  intro M. unfold norm_linf. induction v as [|x v IH]; cbn.
  - split; [intros _ y [] | intros _; exact M].
  - split.
    + intros L y [<-|Hy]; [eapply Rle_trans; [apply Rmax_l | exact L]|]. apply IH; [|exact Hy].
      eapply Rle_trans; [apply Rmax_r | exact L].
    + intro F. apply Rmax_lub; [apply F; left; reflexivity|]. apply IH. intros y Hy. apply F. right. exact Hy.
Qed.

Lemma coord_l1 v x : In x v -> Rabs x <= norm_l1 v.
Proof.
  unfold norm_l1. induction v as [|y v IH]; [intros []|]. cbn. assert (N := norm_l1_nonneg v). unfold norm_l1, sumR in N.
  assert (Y := Rabs_pos y). intros [->|H]; [lra|]. specialize (IH H). unfold sumR in IH. lra.
Qed.
Lemma coord_l2 v x : In x v -> Rabs x <= norm_l2 v.
Proof.
  intro H. unfold norm_l2. rewrite <- sqrt_Rsqr_abs. apply sqrt_le_1_alt. induction v as [|y v IH]; [destruct H|]. cbn.
  assert (N : 0 <= sumR (map (fun x => x * x) v)) by (apply sumR_nonneg; intro z; apply Rle_0_sqr). unfold sumR in *.
  assert (Y := Rle_0_sqr y). unfold Rsqr in *. destruct H as [->|H]; [lra|]. specialize (IH H). lra.
Qed.

Lemma scale_norm m n v (N : list R -> R) :
  0 <= m -> 0 <= n -> n = N v -> (forall c w, 0 <= c -> N (map (fun x => x * c) w) = N w * c) ->
  N (scale_to m n v) <= m /\ (n <= m -> scale_to m n v = v).
Proof.
  intros M Nn E S. unfold scale_to. destruct (Req_EM_T n 0) as [Z|Z].
  - split; [rewrite <- E; lra | reflexivity].
  - assert (P : 0 < n) by lra. assert (C : 0 <= Rmin 1 (m / n)).
    { apply Rmin_glb; [lra|]. apply Rmult_le_pos; [exact M|]. left. apply Rinv_0_lt_compat. exact P. }
    split.
    + rewrite S by exact C. rewrite <- E. apply Rle_trans with (n * (m / n)); [apply Rmult_le_compat_l; [lra | apply Rmin_r]|].
      right. field. exact Z.
    + intro L. assert (X : 1 <= m / n). { apply Rmult_le_reg_r with n; [exact P|]. unfold Rdiv. rewrite Rmult_assoc, Rinv_l by exact Z. lra. }
      rewrite (Rmin_left _ _ X). rewrite <- (map_id v) at 2. apply map_ext. intro x. ring.
Qed.

Lemma clip_facts v m k w : 0 <= m -> clip_vector v m k = Ok w ->
  length w = length v /\ norm k w <= m /\ (norm k v <= m -> w = v).
Proof.
  intro M. destruct k; cbn [clip_vector norm]; intro E; inversion E; subst; clear E.
  - split; [apply map_length|]. split.
    + apply linf_le_iff; [exact M|]. intros x Hx. apply in_map_iff in Hx. destruct Hx as [y [<- _]].
      apply Rabs_le. split; [|apply Rmin_r]. apply Rmin_glb; [apply Rmax_r | lra].
    + intro L. rewrite <- (map_id v) at 2. apply map_ext_in. intros x Hx. rewrite (linf_le_iff v m M) in L. specialize (L x Hx).
      assert (X : - m <= x <= m) by (revert L; unfold Rabs; destruct Rcase_abs; lra).
      rewrite Rmax_left by lra. apply Rmin_left. lra.
  - destruct (scale_norm m (norm_l1 v) v norm_l1 M (norm_l1_nonneg v) eq_refl (fun c w => norm_l1_scale c w)) as [A B].
    split; [unfold scale_to; destruct (Req_EM_T (norm_l1 v) 0); [reflexivity | apply map_length]|]. auto.
  - destruct (scale_norm m (norm_l2 v) v norm_l2 M (norm_l2_nonneg v) eq_refl (fun c w => norm_l2_scale c w)) as [A B].
    split; [unfold scale_to; destruct (Req_EM_T (norm_l2 v) 0); [reflexivity | apply map_length]|]. auto.
Qed.

Lemma coord_norm k v x : In x v -> Rabs x <= norm k v.
Proof.
  destruct k; cbn [norm]; intro H.
  - apply (proj1 (linf_le_iff v (norm_linf v) (norm_linf_nonneg v)) (Rle_refl _) x H).
  - apply (proj1 (linf_le_iff v (norm_linf v) (norm_linf_nonneg v)) (Rle_refl _) x H).
  - apply coord_l1; exact H.
  - apply coord_l2; exact H.
Qed.

Lemma clip_R_distance m x y : Rabs (Rmin (Rmax x (- m)) m - Rmin (Rmax y (- m)) m) <= Rabs (x - y).
Proof.
  unfold Rmin, Rmax. repeat destruct Rle_dec; unfold Rabs; repeat destruct Rcase_abs; lra.
Qed.

(** ** Vector accumulators *)
Definition vcoord (j : nat) (v : value) : Q := match v with Vec l => nth j l 0%Q | Num _ => 0%Q end.
Definition is_vec (n : Z) (a : acc) : Prop := exists l, a = AVec l /\ Z.of_nat (length l) = n.
Definition coord (j : nat) (a : acc) : Q := match a with AVec l => nth j l 0%Q | _ => 0%Q end.
Definition good_group (n : Z) (g : list value) : Prop := g <> [] /\ vectors n g.

Lemma vadd_facts : forall a b, length a = length b ->
  exists c, vadd a b = Some c /\ length c = length a /\ forall j, (nth j c 0 == nth j a 0 + nth j b 0)%Q.
Proof.
  induction a as [|x a IH]; intros [|y b] L; try discriminate.
  - exists []. split; [reflexivity|]. split; [reflexivity|]. intros [|j]; reflexivity.
  - destruct (IH b) as [c [E [Lc N]]]; [cbn in L; lia|]. exists ((x + y)%Q :: c). cbn [vadd]. rewrite E. split; [reflexivity|].
    split; [cbn; lia|]. intros [|j]; cbn [nth]; [reflexivity | apply N].
Qed.

Lemma merge_vec n c a b : is_vec n a -> is_vec n b ->
  is_vec n (merge (CVector c) a b) /\ forall j, (coord j (merge (CVector c) a b) == coord j a + coord j b)%Q.
Proof.
  intros [l [-> La]] [l' [-> Lb]]. cbn [merge avec_add]. destruct (vadd_facts l l') as [z [E [Lz N]]]; [lia|].
  rewrite E. split; [exists z; split; [reflexivity | lia]|]. exact N.
Qed.

Lemma create_vec n g : good_group n g ->
  is_vec n (create (CVector n) g) /\ forall j, (coord j (create (CVector n) g) == sumQ (map (vcoord j) g))%Q.
Proof.
  intros [Ne Hv]. destruct g as [|v g]; [congruence|]. cbn [create fold_left].
  assert (G : forall g s, vectors n g -> is_vec n s -> is_vec n (fold_left (vector_step n) g s) /\
            forall j, (coord j (fold_left (vector_step n) g s) == coord j s + sumQ (map (vcoord j) g))%Q).
  { clear. induction g as [|v g IH]; intros s Hv Hs; [split; [exact Hs | intro j; cbn [fold_left map sumQ fold_right]; ring]|].
    destruct (Hv v (or_introl eq_refl)) as [l [-> Ll]]. cbn [fold_left].
    assert (St : vector_step n s (Vec l) = merge (CVector n) s (AVec l)).
    { destruct Hs as [ls [-> _]]. cbn [vector_step]. rewrite Ll, Z.eqb_refl. reflexivity. }
    destruct (merge_vec n n s (AVec l) Hs) as [M1 M2]; [exists l; auto|].
    destruct (IH (vector_step n s (Vec l))) as [I1 I2]; [intros x Hx; apply Hv; right; exact Hx | rewrite St; exact M1 |].
    split; [exact I1|]. intro j. rewrite I2, St, M2. cbn [map sumQ fold_right coord vcoord]. change (fold_right Qplus 0%Q) with sumQ. ring. }
  destruct (Hv v (or_introl eq_refl)) as [l [-> Ll]]. cbn [vector_step]. rewrite Ll, Z.eqb_refl.
  destruct (G g (AVec l)) as [G1 G2]; [intros x Hx; apply Hv; right; exact Hx | exists l; auto |].
  split; [exact G1|]. intro j. rewrite G2. cbn [map sumQ fold_right coord vcoord]. reflexivity.
Qed.

Lemma fold_vec n gs : forall a, is_vec n a -> Forall (good_group n) gs ->
  is_vec n (fold_left (merge (CVector n)) (map (create (CVector n)) gs) a) /\
  forall j, (coord j (fold_left (merge (CVector n)) (map (create (CVector n)) gs) a) ==
             coord j a + sumQ (map (fun g => sumQ (map (vcoord j) g)) gs))%Q.
Proof.
  induction gs as [|g gs IH]; intros a Ha F; [split; [exact Ha | intro j; cbn [map fold_left sumQ fold_right]; ring]|].
  inversion F as [|? ? Hg F']; subst. destruct (create_vec n g Hg) as [C1 C2]. cbn [map fold_left].
  destruct (merge_vec n n a _ Ha C1) as [M1 M2]. destruct (IH _ M1 F') as [I1 I2]. split; [exact I1|].
  intro j. rewrite I2, M2, C2. cbn [sumQ fold_right]. change (fold_right Qplus 0%Q) with sumQ. ring.
Qed.

(** The raw vector of a partition. *)
Lemma raw_vector_row {P} `{EqDec P} cs i n (pairs : list (P * list value)) k :
  nth_error cs i = Some (CVector n) ->
  raw_vector i k (combine_per_key (compound_merge cs) (with_accs cs pairs)) =
  match values_of k pairs with
  | [] => []
  | g :: gs => match fold_left (merge (CVector n)) (map (create (CVector n)) gs) (create (CVector n) g) with AVec l => l | _ => [] end
  end.
Proof.
  intro Hi. unfold raw_vector.
  assert (N : NoDup (map fst (combine_per_key (compound_merge cs) (with_accs cs pairs))))
    by (rewrite combine_per_key_keys; apply NoDup_distinct).
  destruct (values_of k pairs) as [|g gs] eqn:E.
  - rewrite find_none_keys; [reflexivity|]. rewrite combine_per_key_keys, in_distinct.
    unfold with_accs. rewrite map_values_keys. apply values_of_nil_iff. exact E.
  - assert (Hin : In (k, fold_left (compound_merge cs) (map (compound_create cs) gs) (compound_create cs g))
                     (combine_per_key (compound_merge cs) (with_accs cs pairs))).
    { apply in_combine_per_key. unfold with_accs. rewrite values_of_map_values, E. reflexivity. }
    rewrite (find_In_NoDup _ _ N _ Hin). cbn [snd]. unfold compound_create at 2. rewrite compound_fold. cbn [snd].
    rewrite nth_error_map, Hi. reflexivity.
Qed.

Lemma raw_vector_coord {P} `{EqDec P} cs i n (pairs : list (P * list value)) k j :
  nth_error cs i = Some (CVector n) -> Forall (good_group n) (values_of k pairs) ->
  (nth j (raw_vector i k (combine_per_key (compound_merge cs) (with_accs cs pairs))) 0 ==
   sumQ (map (fun g => sumQ (map (vcoord j) g)) (values_of k pairs)))%Q.
Proof.
  intros Hi F. rewrite (raw_vector_row cs i n pairs k Hi). destruct (values_of k pairs) as [|g gs].
  - destruct j; reflexivity.
  - inversion F as [|? ? Hg F']; subst. destruct (create_vec n g Hg) as [C1 C2]. destruct (fold_vec n gs _ C1 F') as [[l [E _]] I2].
    specialize (I2 j). rewrite E in *. cbn [coord] in I2. rewrite I2, C2. cbn [map sumQ fold_right]. reflexivity.
Qed.

(** Groups kept by the bounder are not empty. *)
Lemma kept_groups {U P V} `{EqDec U} `{EqDec P} p (sm : sampling U P) (rows : list (U * P * V)) kept linf :
  max_contributions p = None -> max_contributions_per_partition p = Some linf -> (0 < linf)%Z ->
  valid_sampling p sm ->
  bound_contributions p true sm (fun vs => vs) rows = Ok kept ->
  forall e, In e kept -> snd e <> [] /\ (length (snd e) <= Z.to_nat linf)%nat /\ forall v, In v (snd e) -> In v (map snd rows).
Proof.
  intros Hm Hl Pl Hv. unfold bound_contributions, valid_sampling in *. rewrite Hm, Hl in *. destruct Hv as [V1 V2].
  specialize (V2 linf eq_refl).
  assert (Fin : forall k (vs : list V), In k (map fst rows) -> submset vs (values_of k rows) ->
    length vs = Nat.min (Z.to_nat linf) (length (values_of k rows)) ->
    vs <> [] /\ (length vs <= Z.to_nat linf)%nat /\ forall v, In v vs -> In v (map snd rows)).
  { intros k vs Hk S L. split; [|split; [lia|]].
    - intros ->. cbn in L. assert (values_of k rows <> []).
      { intro X. apply (proj1 (values_of_nil_iff _ _)) in X. exact (X Hk). }
      destruct (values_of k rows); [congruence | cbn in L; lia].
    - intros v Hin. destruct S as [rest Pm]. assert (X : In v (values_of k rows)).
      { apply (Permutation.Permutation_in _ (Permutation.Permutation_sym Pm)). apply in_or_app. left. exact Hin. }
      unfold values_of in X. apply in_map_iff in X. destruct X as [x [<- Hx]]. apply filter_In in Hx. apply in_map. tauto. }
  destruct (perform_cross_partition_contribution_bounding p).
  - destruct (max_partitions_contributed p) as [l0|]; [|discriminate]. specialize (V1 l0 eq_refl). intro E. inversion E; subst kept.
    destruct (cross_and_per_any_bounds _ _ (fun vs : list V => vs) rows _
                (cross_and_per_local_any (ch_pid_pk sm) (ch_pid sm) _ _ _ rows V2 V1)) as [N [L F]].
    intros [[u pk] vs] Hin. destruct (F u pk vs Hin) as [K [vs' [-> [S Lv]]]]. cbn [snd]. eapply Fin; eassumption.
  - intro E. inversion E; subst kept.
    destruct (linf_any_bounds _ (fun vs : list V => vs) rows _ (linf_local_any (ch_pid_pk sm) _ _ rows V2)) as [N [K F]].
    intros [k vs] Hin. destruct (F k vs Hin) as [vs' [-> [S Lv]]]. cbn [snd]. eapply Fin; try eassumption.
    apply K. apply in_map_iff. exists (k, vs'). auto.
Qed.

(** ** A change in at most [l0] partitions by at most [b] *)
Lemma few_changes {P} `{EqDec P} (keys K : list P) (d : P -> R) b :
  0 <= b -> NoDup keys -> (forall k, ~ In k K -> d k = 0) -> (forall k, Rabs (d k) <= b) ->
  sumR (map (fun k => Rabs (d k)) keys) <= INR (length K) * b /\
  sumR (map (fun k => d k * d k) keys) <= INR (length K) * (b * b).
Proof.
  intros B N Z D.
  assert (G : forall phi c, 0 <= c -> (forall k, ~ In k K -> phi k = 0) -> (forall k, phi k <= c) ->
            sumR (map phi keys) <= INR (length K) * c).
  { intros phi c C Z1 D1.
    assert (S : sumR (map phi keys) <= sumR (map (fun _ => c) (filter (fun k => mem k K) keys))).
    { clear N. induction keys as [|k keys IH]; cbn; [lra|]. unfold sumR in *. destruct (mem k K) eqn:M; cbn.
      - specialize (D1 k). lra.
      - apply mem_false_iff in M. rewrite (Z1 k M). lra. }
    assert (E : forall l : list P, sumR (map (fun _ => c) l) = INR (length l) * c).
    { induction l as [|x l IH]; [cbn; lra|]. cbn [map length sumR fold_right]. rewrite S_INR. unfold sumR in IH. rewrite IH. lra. }
    rewrite E in S. eapply Rle_trans; [exact S|]. apply Rmult_le_compat_r; [exact C|]. apply le_INR.
    apply NoDup_incl_length; [apply NoDup_filter; exact N|]. intros k Hk. apply filter_In in Hk. apply mem_true_iff. tauto. }
  split; apply G.
  - exact B.
  - intros k Hk. rewrite (Z k Hk). apply Rabs_R0.
  - exact D.
  - apply Rmult_le_pos; exact B.
  - intros k Hk. rewrite (Z k Hk). lra.
  - intro k. specialize (D k). assert (A := Rabs_pos (d k)). assert (X : d k * d k = Rabs (d k) * Rabs (d k)).
    { rewrite <- Rabs_mult. symmetry. apply Rabs_pos_eq. apply Rle_0_sqr. }
    rewrite X. apply Rmult_le_compat; assumption.
Qed.
