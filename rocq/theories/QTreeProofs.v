(** Lemmas for C83: quantile trees. *)
From Coq Require Import String List ZArith QArith Qreals Reals Sorted Permutation Lia Lqa Lra.
From Verif Require Import Base BaseLemmas ListLemmas ParamsModel CombinerModel SensModel EngineModel EngineSpec QuantileModel VectorModel VectorSpec ExpMechProofs LaplaceModel LaplaceSpec LaplaceProofs SelectModel SelectSpec SelectProofs
  DistSpec DistProofs DpModel DpSpec RoundModel RoundSpec RoundProofs RoundProofs2 QTreeModel.
Import ListNotations.
Local Open Scope R_scope.
Local Close Scope Q_scope.

Lemma many_below_metric {A B} (D : A -> dist B) (m : A -> A -> R) : (forall x, is_dist (D x)) ->
  forall xs xs', length xs = length xs' -> Forall (fun p => below (m (fst p) (snd p)) 0 (D (fst p)) (D (snd p))) (combine xs xs') ->
  below (sumR (map (fun p => m (fst p) (snd p)) (combine xs xs'))) 0 (independent D xs) (independent D xs').
Proof.
  intros Dd. induction xs as [|x xs IH]; intros [|x' xs'] L Fb; try discriminate; [apply below_same|].
  cbn [independent combine map fst snd] in *. rewrite sumR_cons. rewrite <- (Rplus_0_l 0) at 1. inversion Fb as [|? ? F1 F2]; subst. cbn [fst snd] in F1.
  assert (Di : forall l, is_dist (independent D l)) by (intro l; apply is_dist_independent; intros; apply Dd).
  apply below_bind; [lra | apply Dd | apply Dd | | | exact F1 |];
    try (intro a; apply is_dist_bind; [apply Di | intro; apply is_dist_ret]).
  intro a. cbn in L. assert (B0 := IH xs' ltac:(lia) F2).
  intros F HF. rewrite !mixture_bind.
  rewrite (mixture_ext _ _ (fun b => F (a :: b))), (mixture_ext (independent _ xs') _ (fun b => F (a :: b))) by (intro; apply mixture_ret).
  apply (B0 (fun b => F (a :: b))). intro b. apply HF.
Qed.

(** ** Counts *)
Lemma one_place (f : Q -> nat) m : forall e, sumR (map (fun i => INR (length (filter (fun v => Nat.eqb (f v) i) e))) (seq 0 m)) <= INR (length e).
Proof.
  induction e as [|v e IH].
  - cbn [filter length INR]. induction (seq 0 m) as [|a l IHl]; cbn [map]; [cbn; lra|]. rewrite sumR_cons. cbn [INR] in *. lra.
  - assert (One : forall l, NoDup l -> sumR (map (fun i => INR (length (filter (fun v => Nat.eqb (f v) i) (v :: e)))) l)
        <= sumR (map (fun i => INR (length (filter (fun v => Nat.eqb (f v) i) e))) l) + (if in_dec Nat.eq_dec (f v) l then 1 else 0)).
    { induction l as [|i l IHl]; intro Nd; [cbn; destruct (in_dec Nat.eq_dec (f v) []); lra|].
      apply NoDup_cons_iff in Nd. destruct Nd as [Ni Nd]. specialize (IHl Nd). cbn [map]. rewrite !sumR_cons.
      cbn [filter] in *. revert IHl. destruct (Nat.eqb_spec (f v) i) as [E|E].
      - cbn [length]. rewrite S_INR. destruct (in_dec Nat.eq_dec (f v) (i :: l)) as [_|N]; [|exfalso; apply N; left; symmetry; exact E].
        destruct (in_dec Nat.eq_dec (f v) l) as [I|_]; [exfalso; apply Ni; rewrite <- E; exact I|]. intro IHl. lra.
      - destruct (in_dec Nat.eq_dec (f v) (i :: l)) as [_|N]; destruct (in_dec Nat.eq_dec (f v) l) as [I|N']; intro IHl; try lra.
        exfalso. apply N. right. exact I. }
    specialize (One (seq 0 m) (seq_NoDup m 0)). cbn [length]. rewrite S_INR.
    destruct (in_dec Nat.eq_dec (f v) (seq 0 m)); lra.
Qed.
Lemma sumR_flat_map {A} (f : A -> list R) l : sumR (flat_map f l) = sumR (map (fun a => sumR (f a)) l).
Proof. induction l as [|a l IH]; [reflexivity|]. cbn [flat_map map]. rewrite sumR_cons, <- IH. clear. induction (f a) as [|x r IH]; [cbn [app]; change (sumR []) with 0; lra|]. cbn [app]. rewrite !sumR_cons, IH. lra. Qed.
Lemma sum_counts q e : sumR (map (fun n => INR (node_count q e n)) (nodes q)) <= INR (Z.to_nat (qq_height q)) * INR (length e).
Proof.
  replace (map _ (nodes q)) with (flat_map (fun level => map (fun i => INR (length (filter (fun v => Nat.eqb (node_of q level v) i) e))) (seq 0 (Z.to_nat (qq_branching q) ^ level))) (seq 1 (Z.to_nat (qq_height q)))).
  2: { unfold nodes. induction (seq 1 (Z.to_nat (qq_height q))) as [|j l IH]; [reflexivity|]. cbn [flat_map]. rewrite map_app, map_map, <- IH. reflexivity. }
  rewrite sumR_flat_map. rewrite <- (seq_length (Z.to_nat (qq_height q)) 1) at 2.
  induction (seq 1 (Z.to_nat (qq_height q))) as [|j l IH]; [cbn; lra|]. cbn [map length]. rewrite sumR_cons, S_INR.
  assert (P := one_place (node_of q j) (Z.to_nat (qq_branching q) ^ j) e). lra.
Qed.

Lemma node_count_more q t t' e n : Permutation t (t' ++ e) -> node_count q t n = (node_count q t' n + node_count q e n)%nat.
Proof.
  intro P. unfold node_count. assert (G := Permutation_length (filter_Permutation (fun v => Nat.eqb (node_of q (fst n) v) (snd n)) _ _ P)).
  rewrite G, filter_app, app_length. reflexivity.
Qed.

Section Tree.
Context (g : grid) (decode : list Q -> list Q) (q : quantile_query) (r : R) (Hr : 0 < r) (So : sorted_grid g).
Let h := INR (Z.to_nat (qq_height q)).

Lemma tree_dist t : is_dist (laplace_tree g decode q r t).
Proof. apply is_dist_bind; [apply is_dist_independent; intros; apply rounded_dist; assumption | intro; apply is_dist_ret]. Qed.

Lemma tree_below t t' e : Permutation t (t' ++ e) ->
  below (r * (h * INR (length e))) 0 (laplace_tree g decode q r t) (laplace_tree g decode q r t') /\
  below (r * (h * INR (length e))) 0 (laplace_tree g decode q r t') (laplace_tree g decode q r t).
Proof.
  intro P. pose (c := fun t n => INR (node_count q t n)).
  assert (Df : forall n, c t n - c t' n = c e n).
  { intro n. unfold c. rewrite (node_count_more q t t' e n P), plus_INR. ring. }
  assert (Di : forall l : list R, is_dist (independent (rounded_laplace g r) l)) by (intro l; apply is_dist_independent; intros; apply rounded_dist; assumption).
  assert (G : forall a b, (forall n, Rabs (c a n - c b n) = c e n) ->
    below (r * (h * INR (length e))) 0 (independent (rounded_laplace g r) (map (c a) (nodes q))) (independent (rounded_laplace g r) (map (c b) (nodes q)))).
  { intros a b Ab. eapply below_more; [apply Di | | apply (many_below _ (fun x => r * x)); [intro; apply rounded_dist; assumption | intros; apply rounded_below; assumption | rewrite !map_length; reflexivity]].
    apply Rle_trans with (r * sumR (map (c e) (nodes q))); [right | apply Rmult_le_compat_l; [lra | apply sum_counts]].
    induction (nodes q) as [|n ns IH]; [cbn [map combine]; change (sumR []) with 0; ring|]. cbn [map combine fst snd]. rewrite !sumR_cons, IH, Rmult_plus_distr_l. f_equal.
    rewrite <- Rmult_minus_distr_l, Rabs_mult, (Rabs_pos_eq r) by lra. rewrite Ab. reflexivity. }
  assert (Pp : forall d d' : dist (list Q), is_dist d -> is_dist d' -> below (r * (h * INR (length e))) 0 d d' ->
    below (r * (h * INR (length e))) 0 (dbind d (fun noisy => dret (decode noisy))) (dbind d' (fun noisy => dret (decode noisy)))).
  { intros d d' _ _ B F HF. rewrite !mixture_bind. rewrite !(mixture_ext _ (fun a => mixture (dret (decode a)) F) (fun a => F (decode a))) by (intro; apply mixture_ret).
    apply (B (fun a => F (decode a))). intro a. apply HF. }
  assert (Pc : forall n, 0 <= c e n) by (intro n; apply pos_INR).
  split; apply Pp; try apply Di; apply G; intro n.
  - rewrite Df. apply Rabs_pos_eq, Pc.
  - rewrite Rabs_minus_sym, Df. apply Rabs_pos_eq, Pc.
Qed.

Lemma trees_below l0 linf ts ts' : (0 <= l0)%Z -> (0 <= linf)%Z -> neighbouring_trees l0 linf ts ts' ->
  let e := r * (h * (IZR l0 * IZR linf)) in
  below e 0 (independent (laplace_tree g decode q r) ts) (independent (laplace_tree g decode q r) ts') /\
  below e 0 (independent (laplace_tree g decode q r) ts') (independent (laplace_tree g decode q r) ts).
Proof.
  intros L0 Li [es [F2 [Le [Fe Ne]]]] e.
  pose (f := fun t : list Q => r * (h * INR (length t))). pose (m := fun t t' => Rabs (f t - f t')).
  assert (Hh : 0 <= h) by apply pos_INR.
  assert (K : length ts = length ts' /\
    Forall (fun p => below (m (fst p) (snd p)) 0 (laplace_tree g decode q r (fst p)) (laplace_tree g decode q r (snd p)) /\
                     below (m (fst p) (snd p)) 0 (laplace_tree g decode q r (snd p)) (laplace_tree g decode q r (fst p))) (combine ts ts') /\
    sumR (map (fun p => m (fst p) (snd p)) (combine ts ts')) = r * (h * INR (list_sum (map (@length Q) es)))).
  { clear Fe Ne. revert ts es F2 Le. induction ts' as [|t' ts' IH]; intros ts es F2 Le.
    - destruct es; [|discriminate]. inversion F2; subst. split; [reflexivity|]. split; [constructor|]. cbn [combine map list_sum fold_right INR]. change (sumR []) with 0. ring.
    - destruct es as [|x es]; [discriminate|]. cbn [combine] in F2. inversion F2 as [|t ? ts0 ? P F2']; subst. cbn [fst snd] in P.
      destruct (IH ts0 es F2' ltac:(cbn in Le; lia)) as [L [F S1]].
      assert (Lt : INR (length t) = INR (length t') + INR (length x)) by (rewrite (Permutation_length P), app_length, plus_INR; reflexivity).
      assert (Em : m t t' = r * (h * INR (length x))).
      { unfold m, f. rewrite Lt. replace (r * (h * (INR (length t') + INR (length x))) - r * (h * INR (length t'))) with (r * (h * INR (length x))) by ring.
        apply Rabs_pos_eq. apply Rmult_le_pos; [lra|]. apply Rmult_le_pos; [exact Hh | apply pos_INR]. }
      split; [cbn; lia|]. cbn [combine map fst snd]. split.
      + constructor; [cbn [fst snd]; rewrite Em; apply tree_below; exact P | exact F].
      + rewrite sumR_cons, S1, Em. cbn [map list_sum fold_right]. fold (list_sum (map (@length Q) es)). rewrite plus_INR. ring. }
  destruct K as [Lt [F S1]].
  assert (Bound : (Z.of_nat (list_sum (map (@length Q) es)) <= l0 * linf)%Z).
  { apply Z.le_trans with (Z.of_nat (length (filter (fun e => match e with [] => false | _ => true end) es)) * linf)%Z; [|apply Z.mul_le_mono_nonneg_r; assumption].
    clear -Fe Li. induction Fe as [|x es Hx Fe IH]; [cbn; lia|]. cbn [map list_sum fold_right filter]. fold (list_sum (map (@length Q) es)).
    destruct x as [|y x]; [cbn [length]; lia|]. cbn [length] in *. lia. }
  assert (Ee : r * (h * INR (list_sum (map (@length Q) es))) <= e).
  { unfold e. apply Rmult_le_compat_l; [lra|]. apply Rmult_le_compat_l; [exact Hh|]. rewrite INR_IZR_INZ, <- mult_IZR. apply IZR_le. exact Bound. }
  assert (Di : forall l, is_dist (independent (laplace_tree g decode q r) l)) by (intro l; apply is_dist_independent; intros; apply tree_dist).
  split.
  - eapply below_more; [apply Di | | apply (many_below_metric _ m tree_dist ts ts' Lt)].
    + rewrite S1. exact Ee.
    + eapply Forall_impl; [|exact F]. intros p [X _]. exact X.
  - eapply below_more; [apply Di | | apply (many_below_metric _ (fun a b => m b a) tree_dist ts' ts (eq_sym Lt))].
    + replace (sumR _) with (sumR (map (fun p => m (fst p) (snd p)) (combine ts ts'))); [rewrite S1; exact Ee|].
      clear. revert ts'. induction ts as [|t ts IH]; intros [|t' ts']; try reflexivity. cbn [combine map fst snd]. rewrite !sumR_cons, IH. reflexivity.
    + clear -F. revert ts' F. induction ts as [|t ts IH]; intros [|t' ts'] F; try constructor; inversion F as [|? ? X Y]; subst; [apply X | apply IH; exact Y].
Qed.
End Tree.

Lemma laplace_quantiles_contract gq decode other : (forall q, sorted_grid (gq q)) -> quantiles_contract other ->
  quantiles_contract (laplace_quantiles gq decode other).
Proof.
  intros So [Od Oc]. split.
  - intros q t. unfold laplace_quantiles. destruct (qq_l0 q), (qq_linf q); try apply Od. destruct (String.eqb _ _); [|apply Od]. cbv zeta.
    destruct (Rlt_dec 0 _) as [Hr|]; [apply tree_dist; auto | apply Od].
  - intros q l0 linf lo hi E1 E2 Lh Hh Hb He Hd Hg Hn El Ef L0 Li ts ts' E N.
    assert (C := Oc q l0 linf lo hi E1 E2 Lh Hh Hb He Hd Hg Hn El Ef L0 Li ts ts' E N).
    unfold laplace_quantiles. rewrite El, Ef. destruct (String.eqb _ _); [|exact C]. cbv zeta.
    assert (He' : 0 < Q2R (qq_eps q)) by (rewrite <- RMicromega.Q2R_0; apply Qlt_Rlt; assumption).
    assert (Pm : 0 < IZR (qq_height q * (l0 * linf))) by (apply IZR_lt; apply Z.mul_pos_pos; [exact Hh | apply Z.mul_pos_pos; assumption]).
    destruct (Rlt_dec 0 _) as [Hr|Hr]; [|exfalso; apply Hr; apply Rdiv_lt_0_compat; assumption].
    destruct (trees_below (gq q) (decode q) q _ Hr (So q) l0 linf ts ts' ltac:(lia) ltac:(lia) N) as [B1 B2].
    replace (Q2R (qq_eps q) / IZR (qq_height q * (l0 * linf)) * (INR (Z.to_nat (qq_height q)) * (IZR l0 * IZR linf))) with (Q2R (qq_eps q)) in B1, B2.
    + assert (D0 : 0 <= Q2R (qq_delta q)) by (rewrite <- RMicromega.Q2R_0; apply Qle_Rle; apply Hd).
      split; apply below_prob; (eapply below_weaken; [exact D0|]); assumption.
    + rewrite INR_IZR_INZ, Z2Nat.id by lia. rewrite !mult_IZR in *. field.
      assert (0 < IZR (qq_height q)) by (apply IZR_lt; exact Hh). assert (0 < IZR l0) by (apply IZR_lt; exact L0). assert (0 < IZR linf) by (apply IZR_lt; exact Li). lra.
Qed.
