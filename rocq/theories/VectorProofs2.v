(** Clipping does not move vectors apart; the change of a vector sum. *)
From Coq Require Import List ZArith QArith Qabs Qreals Reals Lia Lqa Lra Bool.
From Verif Require Import Base BaseLemmas BackendModel BackendSpec ListLemmas BackendProofs BounderModel BounderSpec BounderProofs
  ParamsModel SensModel CombinerModel EngineModel EngineSpec EngineProofs EngineProofs2 EngineProofs3 EngineProofs4 VectorModel VectorSpec VectorProofs.
Import ListNotations.
Local Open Scope R_scope.

(** ** Inner products; the shorter vector is padded with zeros *)
Fixpoint dot (a b : list R) : R :=
  match a, b with x :: a', y :: b' => x * y + dot a' b' | _, _ => 0 end.
Fixpoint vsub (a b : list R) : list R :=
  match a, b with
  | x :: a', y :: b' => (x - y) :: vsub a' b'
  | [], b => map Ropp b
  | a, [] => a
  end.

Lemma dot_norm a : norm_l2 a = sqrt (dot a a).
Proof. unfold norm_l2. f_equal. induction a as [|x a IH]; cbn; [reflexivity|]. unfold sumR in IH. rewrite IH. reflexivity. Qed.
Lemma dot_pos a : 0 <= dot a a.
Proof. induction a as [|x a IH]; cbn; [lra|]. assert (X := Rle_0_sqr x). unfold Rsqr in X. lra. Qed.
Lemma dot_nil a : dot a [] = 0.
Proof. destruct a; reflexivity. Qed.
Lemma dot_opp a : dot (map Ropp a) (map Ropp a) = dot a a.
Proof. induction a as [|x a IH]; cbn; [reflexivity|]. rewrite IH. ring. Qed.
Lemma nth_opp a : forall j, nth j (map Ropp a) 0 = - nth j a 0.
Proof. induction a as [|x a IH]; intros [|j]; cbn; try lra. apply IH. Qed.
Lemma nth_vsub a : forall b j, nth j (vsub a b) 0 = nth j a 0 - nth j b 0.
Proof.
  induction a as [|x a IH]; intros [|y b] j; cbn [vsub].
  - destruct j; cbn; lra.
  - rewrite nth_opp. destruct j; cbn [nth]; lra.
  - destruct j; cbn; lra.
  - destruct j; cbn [nth]; [reflexivity | apply IH].
Qed.
Lemma dot_vsub a : forall b, dot (vsub a b) (vsub a b) = dot a a - 2 * dot a b + dot b b.
Proof.
  induction a as [|x a IH]; intros [|y b]; cbn [vsub].
  - cbn; lra.
  - rewrite dot_opp. cbn [dot]. lra.
  - cbn [dot]. lra.
  - cbn [dot]. rewrite IH. lra.
Qed.
Lemma quadratic a t : forall b, 0 <= dot a a - 2 * t * dot a b + t * t * dot b b.
Proof.
  induction a as [|x a IH]; intros [|y b]; cbn [dot].
  - lra.
  - assert (X := dot_pos (y :: b)). cbn [dot] in X. assert (T := Rle_0_sqr t). unfold Rsqr in T.
    assert (P := Rmult_le_pos _ _ T X). lra.
  - assert (X := dot_pos (x :: a)). cbn [dot] in X. lra.
  - specialize (IH b). assert (S := Rle_0_sqr (x - t * y)). unfold Rsqr in S. lra.
Qed.
Lemma cauchy_schwarz a b : dot a b <= norm_l2 a * norm_l2 b.
Proof.
  rewrite !dot_norm, <- sqrt_mult by apply dot_pos.
  destruct (Rle_dec (dot a b) 0) as [N|N]; [assert (S := sqrt_pos (dot a a * dot b b)); lra|].
  assert (P : 0 < dot a b) by lra. rewrite <- (sqrt_square (dot a b)) by lra. apply sqrt_le_1_alt.
  assert (B := dot_pos b). destruct (Req_dec (dot b b) 0) as [Z|Z].
  - assert (Q := quadratic a ((dot a a + 1) / dot a b) b). rewrite Z in Q.
    assert (X : 2 * ((dot a a + 1) / dot a b) * dot a b = 2 * (dot a a + 1)) by (field; lra).
    assert (A := dot_pos a). lra.
  - assert (Q := quadratic a (dot a b / dot b b) b).
    assert (E : dot a a - 2 * (dot a b / dot b b) * dot a b + dot a b / dot b b * (dot a b / dot b b) * dot b b
                = (dot a a * dot b b - dot a b * dot a b) / dot b b) by (field; exact Z).
    rewrite E in Q. assert (D : 0 < dot b b) by lra.
    assert (X := Rmult_le_pos _ _ Q (Rlt_le _ _ D)). unfold Rdiv in X. rewrite Rmult_assoc, Rinv_l in X by exact Z. lra.
Qed.

Lemma norm_sq a : norm_l2 a * norm_l2 a = dot a a.
Proof. rewrite dot_norm. apply sqrt_sqrt. apply dot_pos. Qed.

Lemma dot_scale c d a : forall b, dot (map (fun x => x * c) a) (map (fun x => x * d) b) = c * d * dot a b.
Proof. induction a as [|x a IH]; intros [|y b]; cbn; try lra. rewrite IH. ring. Qed.

(** The factor of _clip_vector for the L2 norm. *)
Lemma scale_factor m n v : 0 <= m -> 0 <= n -> exists c, 0 <= c <= 1 /\ scale_to m n v = map (fun x => x * c) v /\ n * c = Rmin n m.
Proof.
  intros M N. unfold scale_to. destruct (Req_EM_T n 0) as [Z|Z].
  - exists 1. split; [lra|]. split; [rewrite <- (map_id v) at 1; apply map_ext; intro; ring|]. rewrite Rmin_left by lra. lra.
  - exists (Rmin 1 (m / n)). assert (P : 0 < n) by lra.
    assert (Q : 0 <= m / n) by (apply Rmult_le_pos; [exact M | left; apply Rinv_0_lt_compat; exact P]).
    split; [split; [apply Rmin_glb; lra | apply Rmin_l]|]. split; [reflexivity|].
    assert (X : n * (m / n) = m) by (field; exact Z). unfold Rmin at 1. destruct (Rle_dec 1 (m / n)) as [L|L].
    + rewrite Rmult_1_r. symmetry. apply Rmin_left. assert (Y : n * 1 <= n * (m / n)) by (apply Rmult_le_compat_l; lra). lra.
    + rewrite X. symmetry. apply Rmin_right. assert (Y : n * (m / n) <= n * 1) by (apply Rmult_le_compat_l; lra). lra.
Qed.

Lemma l2_nonexpansive m x y : 0 <= m ->
  norm_l2 (vsub (scale_to m (norm_l2 x) x) (scale_to m (norm_l2 y) y)) <= norm_l2 (vsub x y).
Proof.
  intro M. destruct (scale_factor m (norm_l2 x) x M (norm_l2_nonneg x)) as [c [C [-> Ec]]].
  destruct (scale_factor m (norm_l2 y) y M (norm_l2_nonneg y)) as [d [D [-> Ed]]].
  rewrite !dot_norm. apply sqrt_le_1_alt. rewrite !dot_vsub, !dot_scale.
  assert (CS := cauchy_schwarz x y). assert (Nx := norm_sq x). assert (Ny := norm_sq y).
  assert (X := norm_l2_nonneg x). assert (Y := norm_l2_nonneg y).
  set (a := norm_l2 x) in *. set (b := norm_l2 y) in *. rewrite <- Nx, <- Ny.
  assert (CD : 0 <= 1 - c * d).
  { assert (c * d <= 1 * 1) by (apply Rmult_le_compat; lra). lra. }
  assert (K := Rmult_le_compat_l _ _ _ CD CS).
  assert (S : (a * c - b * d) * (a * c - b * d) <= (a - b) * (a - b)).
  { rewrite Ec, Ed. apply Rsqr_le_abs_1. unfold Rmin. repeat destruct Rle_dec; unfold Rabs; repeat destruct Rcase_abs; lra. }
  lra.
Qed.

Lemma triangle a b : norm_l2 a <= norm_l2 (vsub a b) + norm_l2 b.
Proof.
  assert (P := norm_l2_nonneg (vsub a b)). assert (Q := norm_l2_nonneg b).
  apply Rsqr_incr_0_var; [|lra]. unfold Rsqr. rewrite norm_sq.
  assert (S := norm_sq (vsub a b)). rewrite dot_vsub in S. assert (T := norm_sq b).
  assert (CS := cauchy_schwarz (vsub a b) b).
  assert (E : dot (vsub a b) b = dot a b - dot b b).
  { clear. revert b. induction a as [|x a IH]; intros [|y b]; cbn [vsub dot].
    - cbn; lra.
    - assert (G : forall l, dot (map Ropp l) l = - dot l l) by (induction l as [|z l IHl]; cbn [map dot]; lra).
      rewrite G. cbn [dot]. lra.
    - lra.
    - rewrite IH. lra. }
  rewrite E in CS. lra.
Qed.

Lemma zero_norm a : (forall j, nth j a 0 = 0) -> norm_l2 a = 0.
Proof.
  intro Z. rewrite dot_norm. replace (dot a a) with 0; [apply sqrt_0|].
  induction a as [|x a IH]; [reflexivity|]. cbn [dot]. assert (X := Z 0%nat). cbn [nth] in X. subst x.
  rewrite <- IH; [lra|]. intro j. exact (Z (S j)).
Qed.

Lemma norm_of_sum vs : forall l, (forall j, nth j l 0 = sumR (map (fun v => nth j v 0) vs)) ->
  norm_l2 l <= sumR (map norm_l2 vs).
Proof.
  induction vs as [|v vs IH]; intros l E.
  - rewrite zero_norm; [cbn; lra | exact E].
  - eapply Rle_trans; [apply (triangle l v)|]. cbn [map sumR fold_right]. change (fold_right Rplus 0) with sumR.
    assert (X : norm_l2 (vsub l v) <= sumR (map norm_l2 vs)).
    { apply IH. intro j. rewrite nth_vsub, E. cbn [map sumR fold_right]. change (fold_right Rplus 0) with sumR. lra. }
    lra.
Qed.

Lemma nth_norm_l2 l j : Rabs (nth j l 0) <= norm_l2 l.
Proof.
  destruct (nth_in_or_default j l 0) as [I|E]; [apply coord_l2; exact I|]. rewrite E, Rabs_R0. apply norm_l2_nonneg.
Qed.

Lemma sumR_le {A} (f g : A -> R) l : (forall x, In x l -> f x <= g x) -> sumR (map f l) <= sumR (map g l).
Proof.
  induction l as [|x l IH]; cbn; intro F; [lra|]. unfold sumR in IH. assert (X := F x (or_introl eq_refl)).
  assert (Y := IH (fun y Hy => F y (or_intror Hy))). lra.
Qed.
Lemma sumR_abs {A} (f : A -> R) l : Rabs (sumR (map f l)) <= sumR (map (fun x => Rabs (f x)) l).
Proof.
  induction l as [|x l IH]; cbn; [rewrite Rabs_R0; lra|]. unfold sumR in IH. eapply Rle_trans; [apply Rabs_triang|]. lra.
Qed.
Lemma sumR_const {A} (c : R) (l : list A) : sumR (map (fun _ => c) l) = INR (length l) * c.
Proof. induction l as [|x l IH]; [cbn; lra|]. cbn [map length sumR fold_right]. rewrite S_INR. unfold sumR in IH. rewrite IH. lra. Qed.

(** Coordinate [j] of the clipped vectors moves at most as far as one privacy id's
    rows [vs], each of norm at most 1, can move it. *)
Lemma clip_change kind m x y vs wx wy j :
  0 <= m -> kind = Linf \/ kind = L2 ->
  clip_vector x m kind = Ok wx -> clip_vector y m kind = Ok wy ->
  (forall i, nth i x 0 - nth i y 0 = sumR (map (fun v => nth i v 0) vs)) ->
  (forall v, In v vs -> norm kind v <= 1) ->
  Rabs (nth j wx 0 - nth j wy 0) <= INR (length vs).
Proof.
  intros M K Ex Ey D B. rewrite <- (Rmult_1_r (INR (length vs))), <- (sumR_const 1 vs).
  destruct K as [->| ->]; cbn [clip_vector norm] in *; inversion Ex; inversion Ey; subst; clear Ex Ey.
  - assert (G : forall l, nth j (map (fun x => Rmin (Rmax x (- m)) m) l) 0 = Rmin (Rmax (nth j l 0) (- m)) m).
    { intro l. replace 0 with (Rmin (Rmax 0 (- m)) m) at 1; [apply (map_nth (fun x => Rmin (Rmax x (- m)) m))|].
      rewrite Rmax_left by lra. apply Rmin_left. exact M. }
    rewrite !G. eapply Rle_trans; [apply clip_R_distance|]. rewrite D. eapply Rle_trans; [apply sumR_abs|].
    apply sumR_le. intros v Hv. specialize (B v Hv). destruct (nth_in_or_default j v 0) as [I|E].
    + eapply Rle_trans; [apply (coord_norm Linf v _ I) | exact B].
    + rewrite E, Rabs_R0. lra.
  - rewrite <- nth_vsub. eapply Rle_trans; [apply nth_norm_l2|].
    eapply Rle_trans; [apply l2_nonexpansive; exact M|].
    eapply Rle_trans; [apply (norm_of_sum vs)|].
    + intro i. rewrite nth_vsub. apply D.
    + apply sumR_le. exact B.
Qed.

(** ** Raw vectors with and without a privacy id *)
Lemma Q2R_sum {A} (f : A -> Q) l : Q2R (sumQ (map f l)) = sumR (map (fun x => Q2R (f x)) l).
Proof.
  induction l as [|x l IH]; cbn [map sumQ sumR fold_right]; [exact RMicromega.Q2R_0|].
  rewrite Q2R_plus. unfold sumQ, sumR in IH. rewrite IH. reflexivity.
Qed.
Lemma nth_Q2R l j : nth j (map Q2R l) 0 = Q2R (nth j l 0%Q).
Proof. revert j. induction l as [|x l IH]; intros [|j]; cbn [map nth]; try (symmetry; exact RMicromega.Q2R_0); auto. Qed.

Definition of_value (v : value) : list R := match v with Vec l => map Q2R l | Num _ => [] end.

Lemma of_value_coord v j : nth j (of_value v) 0 = Q2R (vcoord j v).
Proof.
  destruct v as [q|l]; cbn [of_value vcoord]; [|apply nth_Q2R]. destruct j; symmetry; exact RMicromega.Q2R_0.
Qed.

Lemma values_without {U P A} `{EqDec U} `{EqDec P} u (k : P) (kept : list ((U * P) * A)) :
  (forall g, ~ In ((u, k), g) kept) ->
  values_of k (map (fun e => (snd (fst e), snd e)) (filter (fun e => negb (eqb (fst (fst e)) u)) kept)) =
  values_of k (map (fun e => (snd (fst e), snd e)) kept).
Proof.
  intro N. unfold values_of. rewrite !filter_map, !map_map. cbn [fst snd]. f_equal. rewrite filter_filter.
  apply filter_ext_In. intros [[u' k'] g] Hin. cbn [fst snd]. destruct (eqb u' u) eqn:E; [|reflexivity].
  apply eqb_eq in E. subst u'. cbn [negb andb]. destruct (eqb k' k) eqn:E'; [|reflexivity].
  apply eqb_eq in E'. subst k'. exfalso. exact (N g Hin).
Qed.

Lemma vector_run {U P} `{EqDec U} `{EqDec P} p cs (sm : sampling U P) rows keys col u i n l0 linf :
  standard_run p cs sm None rows keys col -> nth_error cs i = Some (CVector n) ->
  max_contributions p = None -> max_partitions_contributed p = Some l0 -> max_contributions_per_partition p = Some linf ->
  exists col' kept, raw_accumulators p cs sm None (without u rows) = Ok col' /\
    (length (kept_of u kept) <= Z.to_nat l0)%nat /\
    (forall e, In e kept -> (length (snd e) <= Z.to_nat linf)%nat /\ forall v, In v (snd e) -> In v (map snd rows)) /\
    (forall k, ~ In k (map (fun e => snd (fst e)) (kept_of u kept)) -> raw_vector i k col = raw_vector i k col') /\
    (vectors n (map snd rows) -> forall k, In k (map (fun e => snd (fst e)) (kept_of u kept)) ->
       exists g, In ((u, k), g) kept /\
         forall j, (nth j (raw_vector i k col) 0 - nth j (raw_vector i k col') 0 == sumQ (map (vcoord j) g))%Q).
Proof.
  intros [Ha [Hcs [Hb [Hv [Hp [Nk E]]]]]] Hi Hm E0 Ei.
  destruct (raw_without_ok p cs sm None rows u col E) as [col' E'].
  destruct (raw_accumulators_pairs _ _ _ _ _ _ Hb E) as [kept [Ek ->]].
  destruct (raw_accumulators_pairs _ _ _ _ _ _ Hb E') as [kept' [Ek' ->]].
  exists (combine_per_key (compound_merge cs) (with_accs cs (pairs_of kept' None))), kept. split; [exact E'|].
  assert (Hx := expects_in cs i _ Hi eq_refl). rewrite Hx in *.
  unfold without in Ek'. rewrite (to_bound_filter p None (fun x => negb (eqb x u))) in Ek'.
  rewrite (bound_filter (fun x => negb (eqb x u))), Ek in Ek'. cbn [rmap] in Ek'. inversion Ek'; subst kept'. clear Ek'.
  cbn [to_bound] in Ek.
  destruct (kept_facts p true sm rows rows kept l0 Hm E0 Hv Hp (fun r Hr => Hr) Ek) as [N [L0' _]].
  assert (Pl : (0 < linf)%Z).
  { assert (F := accepted_facts p Ha). rewrite Hm in F. destruct F as [_ [_ [_ [a [b [A [B [C D]]]]]]]]. congruence. }
  assert (KG := kept_groups p sm rows kept linf Hm Ei Pl Hv Ek).
  split; [apply L0'|]. split; [intros e He; apply KG in He; tauto|].
  assert (Mem : forall k g, In ((u, k), g) kept -> In k (map (fun e => snd (fst e)) (kept_of u kept))).
  { intros k g Hg. apply in_map_iff. exists ((u, k), g). split; [reflexivity|]. unfold kept_of. apply filter_In.
    split; [exact Hg|]. cbn [fst]. apply eqb_refl. }
  split.
  - intros k Hk. rewrite !(raw_vector_row cs i n) by exact Hi. unfold pairs_of. cbn [empties]. rewrite !app_nil_r.
    rewrite values_without; [reflexivity|]. intros g Hg. exact (Hk (Mem k g Hg)).
  - intros Hvec k Hk. apply in_map_iff in Hk. destruct Hk as [[[u' k'] g] [Ee Hg]]. cbn [fst snd] in Ee. subst k'.
    unfold kept_of in Hg. apply filter_In in Hg. destruct Hg as [Hg Eu]. cbn [fst] in Eu. apply eqb_eq in Eu. subst u'.
    exists g. split; [exact Hg|]. intro j.
    assert (Good : forall kk, incl kk kept -> Forall (good_group n) (values_of k (map (fun e => (snd (fst e), snd e)) kk))).
    { intros kk I. apply Forall_forall. intros gg Hgg. unfold values_of in Hgg. rewrite filter_map, map_map in Hgg.
      apply in_map_iff in Hgg. destruct Hgg as [e [<- He]]. apply filter_In in He. destruct He as [He _]. cbn [snd].
      destruct (KG e (I e He)) as [A [_ C]]. split; [exact A|]. intros v V. apply Hvec. apply C. exact V. }
    assert (G2 : incl (filter (fun e => negb (eqb (fst (fst e)) u)) kept) kept) by (intros e He; apply filter_In in He; tauto).
    rewrite (raw_vector_coord cs i n (pairs_of kept None) k j Hi)
      by (unfold pairs_of; cbn [empties]; rewrite app_nil_r; apply Good; apply incl_refl).
    rewrite (raw_vector_coord cs i n (pairs_of (filter (fun e => negb (eqb (fst (fst e)) u)) kept) None) k j Hi)
      by (unfold pairs_of; cbn [empties]; rewrite app_nil_r; apply Good; exact G2).
    unfold pairs_of. cbn [empties]. rewrite !app_nil_r.
    unfold values_of. rewrite !filter_map, !map_map. cbn [fst snd].
    set (f := fun e : U * P * list value => sumQ (map (vcoord j) (snd e))).
    change (fun x : U * P * list value => sumQ (map (vcoord j) (snd x))) with f.
    rewrite (sum_split (fun e => eqb (fst (fst e)) u) f (filter (fun e => eqb (snd (fst e)) k) kept)), !filter_filter.
    rewrite (filter_ext_In (fun x => eqb (snd (fst x)) k && negb (eqb (fst (fst x)) u))
                           (fun x => negb (eqb (fst (fst x)) u) && eqb (snd (fst x)) k)) by (intros; apply andb_comm).
    assert (One : filter (fun x : U * P * list value => eqb (snd (fst x)) k && eqb (fst (fst x)) u) kept = [((u, k), g)]).
    { clear -N Hg. induction kept as [|[[u' k'] g'] kept IH]; [destruct Hg|]. cbn [map fst] in N. inversion N as [|? ? Ni N']; subst.
      cbn [filter fst snd]. destruct Hg as [E|Hg].
      - inversion E; subst. rewrite !eqb_refl. cbn [andb]. f_equal.
        apply filter_none. intros [[u2 k2] g2] H2. cbn [fst snd]. destruct (eqb k2 k) eqn:A; [|reflexivity].
        destruct (eqb u2 u) eqn:B; [|reflexivity]. apply eqb_eq in A, B. subst. exfalso. apply Ni.
        apply in_map_iff. exists ((u, k), g2). auto.
      - destruct (eqb k' k && eqb u' u) eqn:A; [|apply IH; assumption].
        apply andb_true_iff in A. destruct A as [A B]. apply eqb_eq in A, B. subst. exfalso. apply Ni.
        apply in_map_iff. exists ((u, k), g). auto. }
    rewrite One. cbn [map sumQ fold_right]. change (f (u, k, g)) with (sumQ (map (vcoord j) g)). clearbody f. ring.
Qed.
