(** Lemmas for C83: what the probabilities of the cells are. *)
From Coq Require Import String List ZArith QArith Qreals Reals Sorted Lia Lqa Lra.
From Verif Require Import Base BaseLemmas ParamsModel CombinerModel SensModel VectorModel ExpMechProofs LaplaceModel LaplaceSpec LaplaceProofs SelectModel SelectSpec SelectProofs
  DistSpec DistProofs DpModel DpSpec RoundModel RoundSpec RoundProofs.
Import ListNotations.
Local Open Scope R_scope.
Local Close Scope Q_scope.

(** ** The density *)
Lemma exp_affine_derivative k x c : derivable_pt_lim (fun c => exp (k * (c - x))) c (k * exp (k * (c - x))).
Proof.
  assert (A : derivable_pt_lim (fun c => k * (c - x)) c k).
  { assert (B : derivable_pt_lim (mult_real_fct k (id - fct_cte x)%F) c (k * (1 - 0))).
    { apply derivable_pt_lim_scal. apply derivable_pt_lim_minus; [apply derivable_pt_lim_id | apply derivable_pt_lim_const]. }
    replace (k * (1 - 0)) with k in B by ring. exact B. }
  assert (C := derivable_pt_lim_comp (fun c => k * (c - x)) exp c k (exp (k * (c - x))) A (derivable_pt_lim_exp _)).
  rewrite Rmult_comm. exact C.
Qed.
Definition left_branch (r x c : R) : R := / 2 * exp (r * (c - x)).
Definition right_branch (r x c : R) : R := 1 - / 2 * exp (- r * (c - x)).
Lemma left_derivative r x c : derivable_pt_lim (left_branch r x) c (r / 2 * exp (r * (c - x))).
Proof.
  assert (A := derivable_pt_lim_scal (fun c => exp (r * (c - x))) (/ 2) c _ (exp_affine_derivative r x c)).
  replace (r / 2 * exp (r * (c - x))) with (/ 2 * (r * exp (r * (c - x)))) by field. exact A.
Qed.
Lemma right_derivative r x c : derivable_pt_lim (right_branch r x) c (r / 2 * exp (- r * (c - x))).
Proof.
  assert (A := derivable_pt_lim_scal (fun c => exp (- r * (c - x))) (/ 2) c _ (exp_affine_derivative (- r) x c)).
  assert (B := derivable_pt_lim_minus (fct_cte 1) _ c 0 _ (derivable_pt_lim_const 1 c) A).
  replace (r / 2 * exp (- r * (c - x))) with (0 - / 2 * (- r * exp (- r * (c - x)))) by field. exact B.
Qed.
Lemma below_left r x c : c <= x -> laplace_below r x c = left_branch r x c.
Proof. intro L. unfold laplace_below, laplace_tail, left_branch. destruct (Rle_dec 0 (x - c)); [|lra]. replace (- (r * (x - c))) with (r * (c - x)) by ring. field. Qed.
Lemma below_right r x c : x <= c -> laplace_below r x c = right_branch r x c.
Proof.
  intro L. unfold laplace_below, laplace_tail, right_branch. destruct (Rle_dec 0 (x - c)).
  - assert (c = x) by lra. subst. replace (- (r * (x - x))) with 0 by ring. replace (- r * (x - x)) with 0 by ring. rewrite exp_0. field.
  - replace (- r * (c - x)) with (r * (x - c)) by ring. field.
Qed.
Lemma density_rate r x c : 0 < r -> laplace_density (/ r) x c = r / 2 * exp (- (r * Rabs (c - x))).
Proof.
  intro Hr. unfold laplace_density. f_equal; [field; lra|]. f_equal. f_equal. unfold Rdiv. rewrite Rinv_inv. ring.
Qed.
Lemma density_derivative r x c : 0 < r -> derivable_pt_lim (laplace_below r x) c (laplace_density (/ r) x c).
Proof.
  intro Hr. rewrite density_rate by exact Hr. destruct (Rtotal_order c x) as [L|[L|L]].
  - apply derivable_pt_lim_locally_ext with (f := left_branch r x) (a := c - 1) (b := x); [lra | intros z Z1; symmetry; apply below_left; lra|].
    rewrite Rabs_minus_sym, Rabs_pos_eq by lra. replace (- (r * (x - c))) with (r * (c - x)) by ring. apply left_derivative.
  - subst c. replace (Rabs (x - x)) with 0 by (rewrite Rminus_diag_eq by reflexivity; symmetry; apply Rabs_R0). rewrite Rmult_0_r, Ropp_0, exp_0.
    assert (A := left_derivative r x x). assert (B := right_derivative r x x).
    replace (r * (x - x)) with 0 in A by ring. replace (- r * (x - x)) with 0 in B by ring. rewrite exp_0 in A, B.
    intros e He. destruct (A e He) as [d1 H1]. destruct (B e He) as [d2 H2].
    exists (mkposreal (Rmin d1 d2) (Rmin_glb_lt _ _ _ (cond_pos d1) (cond_pos d2))). intros h Nh Lh. cbn [pos] in Lh.
    assert (Rabs h < d1) by (eapply Rlt_le_trans; [exact Lh | apply Rmin_l]).
    assert (Rabs h < d2) by (eapply Rlt_le_trans; [exact Lh | apply Rmin_r]).
    destruct (Rle_lt_dec h 0) as [X|X].
    + rewrite !below_left by lra. apply H1; assumption.
    + rewrite !below_right by lra. apply H2; assumption.
  - apply derivable_pt_lim_locally_ext with (f := right_branch r x) (a := x) (b := c + 1); [lra | intros z Z1; symmetry; apply below_right; lra|].
    rewrite Rabs_pos_eq by lra. replace (- (r * (c - x))) with (- r * (c - x)) by ring. apply right_derivative.
Qed.
Lemma below_limits r x e : 0 < r -> 0 < e -> exists a b, laplace_below r x a < e /\ 1 - e < laplace_below r x b.
Proof.
  intros Hr He. pose (t := Rmax 0 (- ln e / r)).
  assert (T0 : 0 <= t) by apply Rmax_l. assert (T1 : - ln e / r <= t) by apply Rmax_r.
  assert (Ex : exp (- (r * t)) <= e).
  { apply Rle_trans with (exp (ln e)); [|right; apply exp_ln; exact He]. apply exp_le. apply (Rmult_le_compat_l r) in T1; [|lra].
    replace (r * (- ln e / r)) with (- ln e) in T1 by (field; lra). lra. }
  exists (x - t), (x + t). rewrite below_left, below_right by lra. unfold left_branch, right_branch.
  replace (r * (x - t - x)) with (- (r * t)) by ring. replace (- r * (x + t - x)) with (- (r * t)) by ring.
  split; lra.
Qed.

(** ** The cells *)
Section Push.
Context {A : Type} (F : R -> R) (M : forall c c', c <= c' -> F c <= F c') (top : A) (E : A -> bool).
Notation mass low cells := (prob (cell_probabilities F low cells top) E).

Lemma mass_none c : forall cells p, StronglySorted Rle (map fst cells) -> (forall q v, In (q, v) cells -> p <= q) ->
  c <= p -> (forall y, p <= y -> E (rounded cells top y) = false) -> mass (F p) cells = 0.
Proof.
  induction cells as [|[q v] cells IH]; intros p So Lp Lc Ev; unfold prob in *; cbn [cell_probabilities].
  - rewrite mixture_cons, mixture_nil. specialize (Ev p ltac:(lra)). cbn [rounded] in Ev. rewrite Ev. cbn. lra.
  - rewrite mixture_cons. cbn [map fst] in So. apply StronglySorted_inv in So. destruct So as [So Fo]. assert (Pq := Lp q v (or_introl eq_refl)).
    assert (Z0 : (F q - F p) * indicator (E v) = 0).
    { destruct (Rle_lt_or_eq_dec p q Pq) as [L|L]; [|subst; lra]. specialize (Ev p ltac:(lra)). cbn [rounded] in Ev.
      destruct (Rlt_dec p q); [|lra]. rewrite Ev. cbn. lra. }
    rewrite Z0, Rplus_0_l. apply IH; try assumption.
    + intros q' v' I. rewrite Forall_forall in Fo. apply Fo. apply (in_map fst) in I. exact I.
    + lra.
    + intros y Ly. specialize (Ev y ltac:(lra)). cbn [rounded] in Ev. destruct (Rlt_dec y q); [lra | exact Ev].
Qed.
Lemma mass_below c : forall cells p, StronglySorted Rle (map fst cells) -> (forall q v, In (q, v) cells -> p <= q) ->
  In c (map fst cells) ->
  (forall y, p <= y -> E (rounded cells top y) = (if Rlt_dec y c then true else false)) -> mass (F p) cells = F c - F p.
Proof.
  induction cells as [|[q v] cells IH]; intros p So Lp Ic Ev; [destruct Ic|]. unfold prob in *. cbn [cell_probabilities].
  rewrite mixture_cons. cbn [map fst] in So, Ic. apply StronglySorted_inv in So. destruct So as [So Fo]. assert (Pq := Lp q v (or_introl eq_refl)).
  assert (Qc : q <= c) by (destruct Ic as [<-|I]; [lra | rewrite Forall_forall in Fo; apply Fo; exact I]).
  assert (Z0 : (F q - F p) * indicator (E v) = F q - F p).
  { destruct (Rle_lt_or_eq_dec p q Pq) as [L|L]; [|subst; lra]. specialize (Ev p ltac:(lra)). cbn [rounded] in Ev.
    destruct (Rlt_dec p q); [|lra]. destruct (Rlt_dec p c); [|lra]. rewrite Ev. cbn. lra. }
  rewrite Z0.
  assert (Lq : forall q' v', In (q', v') cells -> q <= q') by (intros q' v' I; rewrite Forall_forall in Fo; apply Fo; apply (in_map fst) in I; exact I).
  assert (Ev' : forall y, q <= y -> E (rounded cells top y) = (if Rlt_dec y c then true else false)).
  { intros y Ly. specialize (Ev y ltac:(lra)). cbn [rounded] in Ev. destruct (Rlt_dec y q); [lra | exact Ev]. }
  destruct (Rle_lt_or_eq_dec q c Qc) as [L|L].
  - destruct Ic as [X|Ic]; [lra|]. assert (X := IH q So Lq Ic Ev'). lra.
  - subst q. assert (X := mass_none c cells c So Lq ltac:(lra)). unfold prob in X. rewrite X; [lra|].
    intros y Ly. rewrite (Ev' y Ly). destruct (Rlt_dec y c); [lra | reflexivity].
Qed.

Context (F1 : forall c, F c <= 1).
Lemma mass_total : forall cells p, StronglySorted Rle (map fst cells) -> (forall q v, In (q, v) cells -> p <= q) -> mass (F p) cells <= 1 - F p.
Proof.
  intros cells p So Lp. destruct (cells_is_dist F cells top F1 M So (F p) (F1 p)) as [P Su].
  { intros c v I. apply M. eapply Lp. exact I. }
  rewrite <- Su. clear -P. unfold prob. induction (cell_probabilities F (F p) cells top) as [|[w a] l IH]; [cbn; lra|].
  inversion P as [|? ? P1 P2]; subst. cbn [fst] in P1. rewrite mixture_cons. cbn [map fst]. rewrite sumR_cons. specialize (IH P2).
  unfold indicator at 1. destruct (E a); lra.
Qed.
Lemma mass_outside a b : a <= b -> forall cells p, StronglySorted Rle (map fst cells) -> (forall q v, In (q, v) cells -> p <= q) ->
  (forall y, p <= y -> E (rounded cells top y) = true -> y < a \/ b < y) ->
  mass (F p) cells <= (Rmax (F a) (F p) - F p) + (1 - Rmax (F b) (F p)).
Proof.
  intros Lab. induction cells as [|[q v] cells IH]; intros p So Lp Ev.
  - unfold prob. cbn [cell_probabilities]. rewrite mixture_cons, mixture_nil. pose proof (F1 p). pose proof (F1 b). pose proof (F1 a).
    assert (Rmax (F b) (F p) <= 1) by (apply Rmax_lub; assumption). assert (F p <= Rmax (F a) (F p)) by apply Rmax_r.
    unfold indicator. destruct (E top) eqn:Et; [|lra].
    assert (X := Ev (Rmax p b) (Rmax_l _ _) Et). pose proof (Rmax_r p b).
    destruct X as [X|X]; [lra|]. assert (b < p) by (unfold Rmax in X; destruct (Rle_dec p b); lra).
    rewrite (Rmax_right (F b) (F p)), (Rmax_right (F a) (F p)) by (apply M; lra). lra.
  - cbn [map fst] in So. assert (So0 := So). apply StronglySorted_inv in So. destruct So as [So Fo]. assert (Pq := Lp q v (or_introl eq_refl)).
    assert (Lq : forall q' v', In (q', v') cells -> q <= q') by (intros q' v' I; rewrite Forall_forall in Fo; apply Fo; apply (in_map fst) in I; exact I).
    assert (X : mass (F q) cells <= (Rmax (F a) (F q) - F q) + (1 - Rmax (F b) (F q))).
    { apply IH; try assumption. intros y Ly Et. apply Ev; [lra|]. cbn [rounded]. destruct (Rlt_dec y q); [lra | exact Et]. }
    destruct (Rlt_le_dec b p) as [Bp|Bp].
    { assert (Y := mass_total ((q, v) :: cells) p So0 Lp).
      rewrite (Rmax_right (F b) (F p)), (Rmax_right (F a) (F p)) by (apply M; lra). lra. }
    unfold prob in *. cbn [cell_probabilities]. rewrite mixture_cons. assert (Mq := M p q Pq).
    unfold indicator at 1. destruct (E v) eqn:Et.
    + destruct (Rle_lt_or_eq_dec p q Pq) as [L|L].
      * assert (K : q <= a).
        { apply Rnot_lt_le. intro Aq. destruct (Ev (Rmax p a)) as [Y|Y].
          - apply Rmax_l.
          - cbn [rounded]. destruct (Rlt_dec (Rmax p a) q) as [_|N]; [exact Et|]. exfalso. apply N. apply Rmax_lub_lt; lra.
          - pose proof (Rmax_r p a). lra.
          - assert (Rmax p a <= b) by (apply Rmax_lub; lra). lra. }
        rewrite (Rmax_left (F a) (F q)) in X by (apply M; lra). rewrite (Rmax_left (F b) (F q)) in X by (apply M; lra).
        rewrite (Rmax_left (F a) (F p)), (Rmax_left (F b) (F p)) by (apply M; lra). lra.
      * subst q. lra.
    + rewrite Rmult_0_r, Rplus_0_l. eapply Rle_trans; [exact X|].
      assert (Rmax (F a) (F q) <= Rmax (F a) (F p) + (F q - F p)).
      { apply Rmax_lub; [pose proof (Rmax_l (F a) (F p)) | pose proof (Rmax_r (F a) (F p))]; lra. }
      assert (Rmax (F b) (F p) <= Rmax (F b) (F q)) by (apply Rmax_lub; [apply Rmax_l | eapply Rle_trans; [exact Mq | apply Rmax_r]]). lra.
Qed.
End Push.

Lemma rounded_low {A} (cells : list (R * A)) top p y :
  (forall q v, In (q, v) cells -> p <= q) -> y < p -> cells <> [] -> exists q v rest, cells = (q, v) :: rest /\ rounded cells top y = v.
Proof.
  intros L Y N. destruct cells as [|[q v] rest]; [contradiction|]. exists q, v, rest. split; [reflexivity|]. cbn.
  specialize (L q v (or_introl eq_refl)). destruct (Rlt_dec y q); [reflexivity | lra].
Qed.

Lemma rounded_mass_below g r x c E : 0 < r -> sorted_grid g -> In c (map fst (g_cells g)) ->
  (forall y, E (rounded (g_cells g) (g_top g) y) = (if Rlt_dec y c then true else false)) ->
  prob (rounded_laplace g r x) E = laplace_below r x c.
Proof.
  intros Hr So Ic Ev. unfold rounded_laplace, sorted_grid in *. destruct (g_cells g) as [|[q v] cells]; [destruct Ic|].
  cbn [map fst] in So, Ic. apply StronglySorted_inv in So. destruct So as [So Fo]. unfold prob. cbn [cell_probabilities]. rewrite mixture_cons.
  assert (Qc : q <= c) by (destruct Ic as [<-|I]; [lra | rewrite Forall_forall in Fo; apply Fo; exact I]).
  assert (Et : E v = true).
  { specialize (Ev (q - 1)). cbn [rounded] in Ev. destruct (Rlt_dec (q - 1) q); [|lra]. destruct (Rlt_dec (q - 1) c); [exact Ev | lra]. }
  rewrite Et. cbn [indicator].
  assert (Lq : forall q' v', In (q', v') cells -> q <= q') by (intros q' v' I; rewrite Forall_forall in Fo; apply Fo; apply (in_map fst) in I; exact I).
  assert (Ev' : forall y, q <= y -> E (rounded cells (g_top g) y) = (if Rlt_dec y c then true else false)).
  { intros y Ly. specialize (Ev y). cbn [rounded] in Ev. destruct (Rlt_dec y q); [lra | exact Ev]. }
  assert (Mo := fun c c' L => laplace_below_mono r x c c' Hr L).
  destruct (Rle_lt_or_eq_dec q c Qc) as [L|L].
  - destruct Ic as [X|Ic]; [lra|]. assert (X := mass_below (laplace_below r x) (g_top g) E c cells q So Lq Ic Ev'). unfold prob in X. rewrite X. lra.
  - subst q. assert (X := mass_none (laplace_below r x) (g_top g) E c cells c So Lq ltac:(lra)). unfold prob in X. rewrite X; [lra|].
    intros y Ly. rewrite (Ev' y Ly). destruct (Rlt_dec y c); [lra | reflexivity].
Qed.

Lemma rounded_mass_outside g r x t E : 0 < r -> 0 <= t -> sorted_grid g ->
  (forall y, E (rounded (g_cells g) (g_top g) y) = true -> y < x - t \/ x + t < y) ->
  prob (rounded_laplace g r x) E <= exp (- (r * t)).
Proof.
  intros Hr Ht So Ev. unfold rounded_laplace, sorted_grid in *.
  assert (Fa : laplace_below r x (x - t) = exp (- (r * t)) / 2).
  { rewrite below_left by lra. unfold left_branch. replace (r * (x - t - x)) with (- (r * t)) by ring. field. }
  assert (Fb : laplace_below r x (x + t) = 1 - exp (- (r * t)) / 2).
  { rewrite below_right by lra. unfold right_branch. replace (- r * (x + t - x)) with (- (r * t)) by ring. field. }
  assert (Mo := fun c c' L => laplace_below_mono r x c c' Hr L).
  assert (F1 : forall c, laplace_below r x c <= 1) by (intro c; apply laplace_below_range; exact Hr).
  assert (F0 : forall c, 0 <= laplace_below r x c) by (intro c; apply laplace_below_range; exact Hr).
  destruct (g_cells g) as [|[q v] cells].
  - unfold prob. cbn [cell_probabilities]. rewrite mixture_cons, mixture_nil. pose proof (exp_pos (- (r * t))). unfold indicator.
    destruct (E (g_top g)) eqn:Et; [|lra]. destruct (Ev x Et); lra.
  - cbn [map fst] in So. apply StronglySorted_inv in So. destruct So as [So Fo].
    assert (Lq : forall q' v', In (q', v') cells -> q <= q') by (intros q' v' I; rewrite Forall_forall in Fo; apply Fo; apply (in_map fst) in I; exact I).
    assert (X := mass_outside (laplace_below r x) Mo (g_top g) E F1 (x - t) (x + t) ltac:(lra) cells q So Lq).
    specialize (X ltac:(intros y Ly Et; apply Ev; cbn [rounded]; destruct (Rlt_dec y q); [lra | exact Et])).
    unfold prob in *. cbn [cell_probabilities]. rewrite mixture_cons.
    unfold indicator at 1. destruct (E v) eqn:Et.
    + assert (K : q <= x - t).
      { apply Rnot_lt_le. intro Aq. destruct (Ev (x - t)) as [Y|Y]; [|lra|lra].
        cbn [rounded]. destruct (Rlt_dec (x - t) q) as [_|N]; [exact Et | contradiction]. }
      rewrite !Rmax_left in X by (apply Mo; lra). lra.
    + assert (Rmax (laplace_below r x (x - t)) (laplace_below r x q) <= laplace_below r x (x - t) + laplace_below r x q) by (apply Rmax_lub; [pose proof (F0 q) | pose proof (F0 (x - t))]; lra).
      pose proof (Rmax_l (laplace_below r x (x + t)) (laplace_below r x q)). lra.
Qed.
