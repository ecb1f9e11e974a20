(** Lemmas for C83. *)
From Coq Require Import String List ZArith QArith Qreals Reals Sorted Lia Lqa Lra.
From Verif Require Import Base BaseLemmas ParamsModel CombinerModel SensModel VectorModel ExpMechProofs LaplaceModel LaplaceSpec LaplaceProofs SelectModel SelectSpec SelectProofs
  DistSpec DistProofs DpModel DpSpec RoundModel RoundSpec.
Import ListNotations.
Local Open Scope R_scope.
Local Close Scope Q_scope.

Lemma exp_le a b : a <= b -> exp a <= exp b.
Proof. intros [L|L]; [left; apply exp_increasing; exact L | subst; lra]. Qed.

(** ** The distribution function of the Laplace distribution of scale 1 *)
Definition LF (s : R) : R := laplace_tail 1 (- s).
Lemma LF_neg s : s <= 0 -> LF s = exp s / 2.
Proof. intro L. unfold LF, laplace_tail. destruct (Rle_dec 0 (- s)); [|lra]. do 2 f_equal. ring. Qed.
Lemma LF_pos s : 0 <= s -> LF s = 1 - / exp s / 2.
Proof.
  intro L. unfold LF, laplace_tail. destruct (Rle_dec 0 (- s)).
  - assert (s = 0) by lra. subst. replace (- (1 * - 0)) with 0 by ring. rewrite exp_0. lra.
  - replace (1 * - s) with (- s) by ring. rewrite exp_Ropp. reflexivity.
Qed.
Lemma laplace_below_LF r x c : 0 < r -> laplace_below r x c = LF (r * (c - x)).
Proof.
  intro Hr. unfold laplace_below, LF, laplace_tail.
  destruct (Rle_dec 0 (x - c)) as [X|X], (Rle_dec 0 (- (r * (c - x)))) as [Y|Y].
  - do 2 f_equal. ring.
  - exfalso. apply Y. replace (- (r * (c - x))) with (r * (x - c)) by ring. apply Rmult_le_pos; lra.
  - exfalso. apply X. apply Rnot_lt_le. intro L. assert (0 < r * (c - x)) by (apply Rmult_lt_0_compat; lra). lra.
  - do 3 f_equal. ring.
Qed.
Lemma LF_range s : 0 <= LF s <= 1.
Proof. unfold LF. apply laplace_tail_range. lra. Qed.
Lemma LF_mono s t : s <= t -> LF s <= LF t.
Proof. intro L. unfold LF. apply laplace_tail_mono; lra. Qed.
Lemma LF_opp s : LF (- s) = 1 - LF s.
Proof. unfold LF. rewrite laplace_tail_compl. reflexivity. Qed.

Lemma inv_le a b : 0 < a -> a <= b -> / b <= / a.
Proof. intros. apply Rinv_le_contravar; lra. Qed.
Lemma sum_inv_mono y z : 1 <= y -> y <= z -> y + / y <= z + / z.
Proof.
  intros A B. assert (0 < / y) by (apply Rinv_0_lt_compat; lra). assert (0 < / z) by (apply Rinv_0_lt_compat; lra).
  assert (/ y <= 1) by (rewrite <- Rinv_1; apply inv_le; lra). assert (/ z <= 1) by (rewrite <- Rinv_1; apply inv_le; lra).
  assert (E : z + / z - (y + / y) = (z - y) * (1 - / y * / z)) by (field; lra).
  assert (0 <= (z - y) * (1 - / y * / z)).
  { apply Rmult_le_pos; [lra|]. assert (/ y * / z <= 1 * 1) by (apply Rmult_le_compat; lra). lra. }
  lra.
Qed.

(** exp h LF(s) - LF(s + h) grows with s. *)
Definition gain (h s : R) : R := exp h * LF s - LF (s + h).
Lemma gain_low h s : s + h <= 0 -> 0 <= h -> gain h s = 0.
Proof. intros A B. unfold gain. rewrite !LF_neg by lra. rewrite exp_plus. field. Qed.
Lemma gain_mid h s : s <= 0 -> 0 <= s + h -> gain h s = (exp (s + h) + / exp (s + h)) / 2 - 1.
Proof. intros A B. unfold gain. rewrite (LF_neg s), (LF_pos (s + h)) by lra. rewrite exp_plus. pose proof (exp_pos s). pose proof (exp_pos h). field. lra. Qed.
Lemma gain_high h s : 0 <= s -> 0 <= h -> gain h s = exp h - 1 - (exp h - / exp h) / 2 * / exp s.
Proof. intros A B. unfold gain. rewrite !LF_pos by lra. rewrite exp_plus. pose proof (exp_pos s). pose proof (exp_pos h). field. lra. Qed.
Lemma gain_mono_mid h s t : s <= t -> t <= 0 -> 0 <= s + h -> gain h s <= gain h t.
Proof.
  intros A B C. rewrite !gain_mid by lra.
  assert (1 <= exp (s + h)) by (rewrite <- exp_0; apply exp_le; lra).
  pose proof (sum_inv_mono _ _ H (exp_le (s + h) (t + h) ltac:(lra))). lra.
Qed.
Lemma gain_mono_high h s t : 0 <= h -> s <= t -> 0 <= s -> gain h s <= gain h t.
Proof.
  intros A B C. rewrite !gain_high by lra.
  assert (Hh : 1 <= exp h) by (rewrite <- exp_0; apply exp_le; lra).
  assert (/ exp h <= 1) by (rewrite <- Rinv_1; apply inv_le; lra).
  assert (/ exp t <= / exp s) by (apply inv_le; [apply exp_pos | apply exp_le; lra]).
  assert (K : (exp h - / exp h) / 2 * / exp t <= (exp h - / exp h) / 2 * / exp s) by (apply Rmult_le_compat_l; lra). lra.
Qed.
Lemma gain_mono h s t : 0 <= h -> s <= t -> gain h s <= gain h t.
Proof.
  intros Hh L.
  assert (P1 : forall s t, s <= t -> t <= - h -> gain h s <= gain h t) by (intros; rewrite !gain_low by lra; lra).
  assert (P2 := gain_mono_mid h). assert (P3 := fun s t => gain_mono_high h s t Hh).
  destruct (Rle_lt_dec t (- h)); [apply P1; lra|].
  destruct (Rle_lt_dec t 0).
  - destruct (Rle_lt_dec s (- h)); [apply Rle_trans with (gain h (- h)); [apply P1 | apply P2]; lra | apply P2; lra].
  - destruct (Rle_lt_dec s (- h)); [|destruct (Rle_lt_dec s 0)].
    + apply Rle_trans with (gain h (- h)); [apply P1; lra|]. apply Rle_trans with (gain h 0); [apply P2 | apply P3]; lra.
    + apply Rle_trans with (gain h 0); [apply P2 | apply P3]; lra.
    + apply P3; lra.
Qed.
Lemma gain_range h s : 0 <= h -> 0 <= gain h s <= exp h - 1.
Proof.
  intro Hh. split.
  - rewrite <- (gain_low h (Rmin s (- h))); [|pose proof (Rmin_r s (- h)); lra | exact Hh]. apply gain_mono; [exact Hh | apply Rmin_l].
  - apply Rle_trans with (gain h (Rmax s 0)); [apply gain_mono; [exact Hh | apply Rmax_l]|].
    pose proof (Rmax_r s 0). rewrite gain_high by lra.
    assert (E1 : 1 <= exp h) by (rewrite <- exp_0; apply exp_le; lra).
    assert (/ exp h <= 1) by (rewrite <- Rinv_1; apply inv_le; lra).
    assert (0 < / exp (Rmax s 0)) by (apply Rinv_0_lt_compat, exp_pos).
    assert (0 <= (exp h - / exp h) / 2 * / exp (Rmax s 0)) by (apply Rmult_le_pos; lra). lra.
Qed.

(** exp h F_y(c) - F_x(c) for any x and y, with h = r |x - y|. *)
Definition cover (r x y c : R) : R := exp (Rabs (r * x - r * y)) * laplace_below r y c - laplace_below r x c.
Lemma cover_gain r x y c : 0 < r ->
  cover r x y c = if Rle_dec x y then gain (Rabs (r * x - r * y)) (r * (c - y))
                  else exp (Rabs (r * x - r * y)) - 1 - gain (Rabs (r * x - r * y)) (- (r * (c - y))).
Proof.
  intro Hr. unfold cover, gain. rewrite !laplace_below_LF by exact Hr. rewrite <- Rmult_minus_distr_l, Rabs_mult, (Rabs_pos_eq r) by lra.
  destruct (Rle_dec x y) as [L|L].
  - rewrite (Rabs_minus_sym x y), (Rabs_pos_eq (y - x)) by lra. f_equal. f_equal. ring.
  - rewrite (Rabs_pos_eq (x - y)) by lra. rewrite LF_opp.
    replace (- (r * (c - y)) + r * (x - y)) with (- (r * (c - x))) by ring. rewrite LF_opp. ring.
Qed.
Lemma cover_mono r x y c c' : 0 < r -> c <= c' -> cover r x y c <= cover r x y c'.
Proof.
  intros Hr L. rewrite !cover_gain by exact Hr. assert (A := Rabs_pos (r * x - r * y)).
  assert (M : r * (c - y) <= r * (c' - y)) by (apply Rmult_le_compat_l; lra).
  destruct (Rle_dec x y); [apply gain_mono; assumption|].
  assert (G := gain_mono (Rabs (r * x - r * y)) (- (r * (c' - y))) (- (r * (c - y))) A ltac:(lra)). lra.
Qed.
Lemma cover_range r x y c : 0 < r -> 0 <= cover r x y c <= exp (Rabs (r * x - r * y)) - 1.
Proof.
  intro Hr. rewrite cover_gain by exact Hr. assert (A := Rabs_pos (r * x - r * y)). destruct (Rle_dec x y); [apply gain_range; exact A|].
  assert (G := gain_range (Rabs (r * x - r * y)) (- (r * (c - y))) A). lra.
Qed.

(** ** Cells *)
Lemma laplace_below_range r x c : 0 < r -> 0 <= laplace_below r x c <= 1.
Proof. intro Hr. apply laplace_tail_range. lra. Qed.
Lemma laplace_below_mono r x c c' : 0 < r -> c <= c' -> laplace_below r x c <= laplace_below r x c'.
Proof. intros Hr L. apply laplace_tail_mono; lra. Qed.

Lemma cells_is_dist {A} (F : R -> R) (cells : list (R * A)) top : (forall c, F c <= 1) -> (forall c c', c <= c' -> F c <= F c') ->
  StronglySorted Rle (map fst cells) -> forall low, low <= 1 -> (forall c v, In (c, v) cells -> low <= F c) ->
  Forall (fun wa => 0 <= fst wa) (cell_probabilities F low cells top) /\ sumR (map fst (cell_probabilities F low cells top)) = 1 - low.
Proof.
  intros B M. induction cells as [|[c v] cells IH]; intros So low L1 Lo.
  - cbn [cell_probabilities]. split; [apply Forall_cons; [cbn; lra | apply Forall_nil]|]. cbn. lra.
  - cbn [cell_probabilities map fst] in *. apply StronglySorted_inv in So. destruct So as [So Fo].
    destruct (IH So (F c) (B c)) as [P Su].
    { intros c' v' I. apply M. rewrite Forall_forall in Fo. apply Fo. apply (in_map fst) in I. exact I. }
    split.
    + apply Forall_cons; [cbn; specialize (Lo c v (or_introl eq_refl)); lra | exact P].
    + cbn [map fst]. rewrite sumR_cons, Su. lra.
Qed.

Lemma cells_below {A} (F G : R -> R) k (cells : list (R * A)) top :
  (forall c c', c <= c' -> k * G c - F c <= k * G c' - F c') -> (forall c, k * G c - F c <= k - 1) ->
  StronglySorted Rle (map fst cells) -> forall low low',
  k * low' - low <= k - 1 -> (forall c v, In (c, v) cells -> k * low' - low <= k * G c - F c) ->
  forall T, (forall a, 0 <= T a) ->
  mixture (cell_probabilities F low cells top) T <= k * mixture (cell_probabilities G low' cells top) T.
Proof.
  intros M B. induction cells as [|[c v] cells IH]; intros So low low' L1 Lo T HT.
  - cbn [cell_probabilities]. rewrite !mixture_cons, !mixture_nil. assert (K : (1 - low) * T top <= (k * (1 - low')) * T top) by (apply Rmult_le_compat_r; [apply HT | lra]). lra.
  - cbn [cell_probabilities map fst] in *. apply StronglySorted_inv in So. destruct So as [So Fo].
    rewrite !mixture_cons.
    assert (X : mixture (cell_probabilities F (F c) cells top) T <= k * mixture (cell_probabilities G (G c) cells top) T).
    { apply (IH So); [apply B | | exact HT]. intros c' v' I. apply M. rewrite Forall_forall in Fo. apply Fo. apply (in_map fst) in I. exact I. }
    specialize (Lo c v (or_introl eq_refl)).
    assert (K : (F c - low) * T v <= (k * (G c - low')) * T v) by (apply Rmult_le_compat_r; [apply HT | lra]). lra.
Qed.

Section Rate.
Context (r : R) (Hr : 0 < r).
Lemma laplace_cells_dist {A} (cells : list (R * A)) top x : StronglySorted Rle (map fst cells) ->
  is_dist (cell_probabilities (laplace_below r x) 0 cells top).
Proof.
  intro So. destruct (cells_is_dist (laplace_below r x) cells top) with (low := 0) as [P Su]; try assumption.
  - intro c. apply laplace_below_range. exact Hr.
  - intros. apply laplace_below_mono; assumption.
  - lra.
  - intros c v _. apply laplace_below_range. exact Hr.
  - split; [exact P|]. rewrite Su. lra.
Qed.
Lemma laplace_cells_ratio {A} (cells : list (R * A)) top x y : StronglySorted Rle (map fst cells) ->
  forall T, (forall a, 0 <= T a) ->
  mixture (cell_probabilities (laplace_below r x) 0 cells top) T
    <= exp (Rabs (r * x - r * y)) * mixture (cell_probabilities (laplace_below r y) 0 cells top) T.
Proof.
  intros So T HT. assert (A0 := Rabs_pos (r * x - r * y)). assert (1 <= exp (Rabs (r * x - r * y))) by (rewrite <- exp_0; apply exp_le; exact A0).
  apply cells_below; try assumption.
  - intros c c' L. apply (cover_mono r x y c c' Hr L).
  - intro c. apply (cover_range r x y c Hr).
  - lra.
  - intros c v _. assert (G := cover_range r x y c Hr). unfold cover in G. lra.
Qed.
End Rate.

Lemma rounded_dist g r x : 0 < r -> sorted_grid g -> is_dist (rounded_laplace g r x).
Proof. intros Hr So. apply laplace_cells_dist; assumption. Qed.
Lemma rounded_below g r x y : 0 < r -> sorted_grid g -> below (Rabs (r * x - r * y)) 0 (rounded_laplace g r x) (rounded_laplace g r y).
Proof. intros Hr So T HT. rewrite Rplus_0_r. apply laplace_cells_ratio; [exact Hr | exact So | intro a; apply HT]. Qed.

(** ** Many values *)
Lemma many_below {A B} (D : A -> dist B) (f : A -> R) : (forall x, is_dist (D x)) ->
  (forall x y, below (Rabs (f x - f y)) 0 (D x) (D y)) ->
  forall xs xs', length xs = length xs' ->
  below (sumR (map (fun e => Rabs (f (fst e) - f (snd e))) (combine xs xs'))) 0 (independent D xs) (independent D xs').
Proof.
  intros Dd Db. induction xs as [|x xs IH]; intros [|x' xs'] L; try discriminate; [apply below_same|].
  cbn [independent combine map fst snd]. rewrite sumR_cons. rewrite <- (Rplus_0_l 0) at 1.
  assert (Di : forall l, is_dist (independent D l)) by (intro l; apply is_dist_independent; intros; apply Dd).
  apply below_bind; [lra | apply Dd | apply Dd | | | apply Db |];
    try (intro a; apply is_dist_bind; [apply Di | intro; apply is_dist_ret]).
  intro a. cbn in L. assert (B0 := IH xs' ltac:(lia)).
  intros F HF. rewrite !mixture_bind.
  rewrite (mixture_ext _ _ (fun b => F (a :: b))), (mixture_ext (independent _ xs') _ (fun b => F (a :: b))) by (intro; apply mixture_ret).
  apply (B0 (fun b => F (a :: b))). intro b. apply HF.
Qed.
Lemma below_more {A} e e' (d d' : dist A) : is_dist d' -> e <= e' -> below e 0 d d' -> below e' 0 d d'.
Proof.
  intros D L B F HF. specialize (B F HF). pose proof (mixture_range d' F D HF). pose proof (exp_le e e' L).
  assert (exp e * mixture d' F <= exp e' * mixture d' F) by (apply Rmult_le_compat_r; lra). lra.
Qed.
