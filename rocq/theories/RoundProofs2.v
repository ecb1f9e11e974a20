(** Lemmas for C83: Laplace thresholding, and the contracts. *)
From Coq Require Import String List ZArith QArith Qreals Qabs Reals Sorted Lia Lqa Lra.
From Verif Require Import Base BaseLemmas ParamsModel CombinerModel SensModel EngineModel EngineSpec VectorModel VectorSpec ExpMechProofs LaplaceModel LaplaceSpec LaplaceProofs SelectModel SelectSpec SelectProofs SelectProps
  DistSpec DistProofs DpModel DpSpec RoundModel RoundSpec RoundProofs.
Import ListNotations.
Local Open Scope R_scope.
Local Close Scope Q_scope.

(** ** Two one-sided relations that compose multiplicatively *)
Definition up {A} (e q : R) (d d' : dist A) : Prop :=
  forall F, (forall a, 0 <= F a <= 1) -> mixture d F <= q * (exp e * mixture d' F) + (1 - q).
Definition dn {A} (e q : R) (d d' : dist A) : Prop :=
  forall F, (forall a, 0 <= F a <= 1) -> q * mixture d F <= exp e * mixture d' F.

Lemma up_bind {A B} e1 q1 e2 q2 (d d' : dist A) (k k' : A -> dist B) :
  0 <= q1 <= 1 -> 0 <= q2 <= 1 -> is_dist d -> is_dist d' -> (forall a, is_dist (k a)) -> (forall a, is_dist (k' a)) ->
  up e1 q1 d d' -> (forall a, up e2 q2 (k a) (k' a)) -> up (e1 + e2) (q1 * q2) (dbind d k) (dbind d' k').
Proof.
  intros Q1 Q2 D D' K K' B1 B2 F HF. rewrite !mixture_bind.
  pose (G := fun a => Rmin 1 (exp e2 * mixture (k' a) F)).
  assert (X : mixture d (fun a => mixture (k a) F) <= mixture d (fun a => q2 * G a + (1 - q2))).
  { apply mixture_le; [apply D|]. intro a. specialize (B2 a F HF). pose proof (mixture_range (k a) F (K a) HF).
    unfold G, Rmin. destruct (Rle_dec 1 (exp e2 * mixture (k' a) F)); lra. }
  rewrite mixture_add, mixture_scale, (mixture_const d _ D) in X.
  assert (Y : mixture d G <= q1 * (exp e1 * mixture d' G) + (1 - q1)).
  { apply B1. intro a. unfold G. pose proof (mixture_range (k' a) F (K' a) HF). pose proof (exp_pos e2).
    split; [apply Rmin_glb; [lra | apply Rmult_le_pos; lra] | apply Rmin_l]. }
  assert (W : mixture d' G <= exp e2 * mixture d' (fun a => mixture (k' a) F)).
  { rewrite <- mixture_scale. apply mixture_le; [apply D'|]. intro a. apply Rmin_r. }
  rewrite exp_plus. pose proof (exp_pos e1).
  apply (Rmult_le_compat_l (exp e1)) in W; [|lra]. apply (Rmult_le_compat_l q1) in W; [|lra].
  assert (Z1 : mixture d G <= q1 * (exp e1 * (exp e2 * mixture d' (fun a => mixture (k' a) F))) + (1 - q1)) by lra.
  apply (Rmult_le_compat_l q2) in Z1; lra.
Qed.
Lemma dn_bind {A B} e1 q1 e2 q2 (d d' : dist A) (k k' : A -> dist B) :
  0 <= q1 <= 1 -> 0 <= q2 <= 1 -> is_dist d -> is_dist d' -> (forall a, is_dist (k a)) -> (forall a, is_dist (k' a)) ->
  dn e1 q1 d d' -> (forall a, dn e2 q2 (k a) (k' a)) -> dn (e1 + e2) (q1 * q2) (dbind d k) (dbind d' k').
Proof.
  intros Q1 Q2 D D' K K' B1 B2 F HF. rewrite !mixture_bind.
  pose (G := fun a => Rmin 1 (exp e2 * mixture (k' a) F)).
  assert (X : mixture d (fun a => q2 * mixture (k a) F) <= mixture d G).
  { apply mixture_le; [apply D|]. intro a. specialize (B2 a F HF). pose proof (mixture_range (k a) F (K a) HF).
    unfold G. apply Rmin_glb; [|exact B2]. assert (q2 * mixture (k a) F <= 1 * 1) by (apply Rmult_le_compat; lra). lra. }
  rewrite mixture_scale in X.
  assert (Y : q1 * mixture d G <= exp e1 * mixture d' G).
  { apply B1. intro a. unfold G. pose proof (mixture_range (k' a) F (K' a) HF). pose proof (exp_pos e2).
    split; [apply Rmin_glb; [lra | apply Rmult_le_pos; lra] | apply Rmin_l]. }
  assert (W : mixture d' G <= exp e2 * mixture d' (fun a => mixture (k' a) F)).
  { rewrite <- mixture_scale. apply mixture_le; [apply D'|]. intro a. apply Rmin_r. }
  rewrite exp_plus. pose proof (exp_pos e1).
  apply (Rmult_le_compat_l (exp e1)) in W; [|lra]. apply (Rmult_le_compat_l q1) in X; [|lra]. lra.
Qed.
Lemma up_same {A} (d : dist A) : up 0 1 d d.
Proof. intros F _. rewrite exp_0. lra. Qed.
Lemma dn_same {A} (d : dist A) : dn 0 1 d d.
Proof. intros F _. rewrite exp_0. lra. Qed.
Lemma up_weaken {A} e e' q q' (d d' : dist A) : is_dist d -> is_dist d' -> e <= e' -> q' <= q -> 0 <= q' -> q <= 1 -> up e q d d' -> up e' q' d d'.
Proof.
  intros D D' Le Lq P0 P1 U F HF. specialize (U F HF). pose proof (mixture_range d F D HF). pose proof (mixture_range d' F D' HF).
  pose proof (exp_le e e' Le). pose proof (exp_pos e).
  assert (M : exp e * mixture d' F <= exp e' * mixture d' F) by (apply Rmult_le_compat_r; lra).
  assert (M0 : 0 <= exp e * mixture d' F) by (apply Rmult_le_pos; lra).
  set (x := exp e * mixture d' F) in *. set (x' := exp e' * mixture d' F) in *.
  assert (N : q' * x <= q' * x') by (apply Rmult_le_compat_l; lra).
  destruct (Rle_lt_dec x 1) as [X|X].
  - assert ((q - q') * x <= (q - q') * 1) by (apply Rmult_le_compat_l; lra). lra.
  - assert (q' * 1 <= q' * x) by (apply Rmult_le_compat_l; lra). lra.
Qed.
Lemma dn_weaken {A} e e' q q' (d d' : dist A) : is_dist d -> is_dist d' -> e <= e' -> q' <= q -> dn e q d d' -> dn e' q' d d'.
Proof.
  intros D D' Le Lq U F HF. specialize (U F HF). pose proof (mixture_range d F D HF). pose proof (mixture_range d' F D' HF).
  pose proof (exp_le e e' Le).
  assert (M : exp e * mixture d' F <= exp e' * mixture d' F) by (apply Rmult_le_compat_r; lra).
  assert (N : q' * mixture d F <= q * mixture d F) by (apply Rmult_le_compat_r; lra). lra.
Qed.

Lemma pow_range q k : 0 <= q <= 1 -> 0 <= q ^ k <= 1.
Proof.
  intro Hq. induction k; cbn [pow]; [lra|]. split; [apply Rmult_le_pos; lra|].
  assert (q * q ^ k <= 1 * 1) by (apply Rmult_le_compat; lra). lra.
Qed.

(** Lists of which [k] entries differ. *)
Lemma independent_up_dn {B} (D : Z -> dist B) e q : 0 <= e -> 0 <= q <= 1 -> (forall n, is_dist (D n)) ->
  (forall n, (0 <= n)%Z -> up e q (D (n + 1)%Z) (D n) /\ dn e q (D n) (D (n + 1)%Z)) ->
  forall ns ns', Forall2 (fun n n' => (0 <= n' <= n)%Z /\ (n <= n' + 1)%Z) ns ns' ->
  let k := length (filter (fun nn => negb (fst nn =? snd nn)%Z) (combine ns ns')) in
  up (INR k * e) (q ^ k) (independent D ns) (independent D ns') /\ dn (INR k * e) (q ^ k) (independent D ns') (independent D ns).
Proof.
  intros He Hq Dd St ns ns' F2. induction F2 as [|n n' ns ns' [A1 A2] F2 IH].
  - cbn. rewrite Rmult_0_l. split; [apply up_same | apply dn_same].
  - cbv zeta in *. cbn [combine filter fst snd]. cbn [independent].
    assert (Di : forall l, is_dist (independent D l)) by (intro l; apply is_dist_independent; intros; apply Dd).
    set (k := length (filter _ (combine ns ns'))) in *. destruct IH as [U N].
    assert (Qk := pow_range q k Hq).
    assert (Ku : forall a, up (INR k * e) (q ^ k) (dbind (independent D ns) (fun ys => dret (a :: ys))) (dbind (independent D ns') (fun ys => dret (a :: ys)))).
    { intros a F HF. rewrite !mixture_bind.
      rewrite (mixture_ext _ _ (fun b => F (a :: b))), (mixture_ext (independent _ ns') _ (fun b => F (a :: b))) by (intro; apply mixture_ret).
      apply (U (fun b => F (a :: b))). intro b. apply HF. }
    assert (Kn : forall a, dn (INR k * e) (q ^ k) (dbind (independent D ns') (fun ys => dret (a :: ys))) (dbind (independent D ns) (fun ys => dret (a :: ys)))).
    { intros a F HF. rewrite !mixture_bind.
      rewrite (mixture_ext _ _ (fun b => F (a :: b))), (mixture_ext (independent _ ns) _ (fun b => F (a :: b))) by (intro; apply mixture_ret).
      apply (N (fun b => F (a :: b))). intro b. apply HF. }
    assert (Dk : forall l (a : B), is_dist (dbind (independent D l) (fun ys => dret (a :: ys)))) by (intros; apply is_dist_bind; [apply Di | intro; apply is_dist_ret]).
    destruct (Z.eqb_spec n n') as [E|E]; cbn [negb length].
    + subst n'. change (length (filter _ (combine ns ns'))) with k. rewrite <- (Rplus_0_l (INR k * e)), <- (Rmult_1_l (q ^ k)).
      split; [apply up_bind | apply dn_bind]; try apply Dd; try (intro; apply Dk); try exact Qk; try lra; try assumption; [apply up_same | apply dn_same].
    + change (length (filter _ (combine ns ns'))) with k. assert (n = n' + 1)%Z by lia. subst n. destruct (St n' ltac:(lia)) as [Su Sn].
      rewrite S_INR. replace ((INR k + 1) * e) with (e + INR k * e) by ring. cbn [pow].
      split; [apply up_bind | apply dn_bind]; try apply Dd; try (intro; apply Dk); try exact Qk; try lra; try assumption.
Qed.

Lemma thresholding_private {B} (D : Z -> dist B) l0 eps delta d1 : (0 < l0)%Z -> 0 <= eps -> 0 <= d1 <= 1 -> (1 - d1) ^ Z.to_nat l0 = 1 - delta ->
  (forall n, is_dist (D n)) ->
  (forall n, (0 <= n)%Z -> up (eps / IZR l0) (1 - d1) (D (n + 1)%Z) (D n) /\ dn (eps / IZR l0) (1 - d1) (D n) (D (n + 1)%Z)) ->
  forall ns ns' E, neighbouring l0 ns ns' -> indistinguishable eps delta (prob (independent D ns) E) (prob (independent D ns') E).
Proof.
  intros Hl He Hd Hp Dd St ns ns' E [F2 Lk].
  assert (Pl : 0 < IZR l0) by (apply IZR_lt; exact Hl).
  assert (Pe : 0 <= eps / IZR l0) by (apply Rmult_le_pos; [exact He | apply Rlt_le, Rinv_0_lt_compat; exact Pl]).
  destruct (independent_up_dn D (eps / IZR l0) (1 - d1) Pe ltac:(lra) Dd St ns ns' F2) as [U N]. cbv zeta in U, N.
  set (k := length (filter _ (combine ns ns'))) in *.
  assert (Ek : INR k * (eps / IZR l0) <= eps).
  { apply Rle_trans with (IZR l0 * (eps / IZR l0)); [|right; field; lra]. apply Rmult_le_compat_r; [exact Pe|].
    rewrite INR_IZR_INZ. apply IZR_le. exact Lk. }
  assert (Qk : 1 - delta <= (1 - d1) ^ k <= 1).
  { assert (G := fun a => pow_range (1 - d1) a ltac:(lra)).
    split; [|apply G]. rewrite <- Hp. replace (Z.to_nat l0) with (k + (Z.to_nat l0 - k))%nat by lia. rewrite pow_add.
    apply Rle_trans with ((1 - d1) ^ k * 1); [apply Rmult_le_compat_l; apply G | lra]. }
  assert (Di : forall l, is_dist (independent D l)) by (intro l; apply is_dist_independent; intros; apply Dd).
  assert (HF : forall a, 0 <= indicator (E a) <= 1) by (intro a; unfold indicator; destruct (E a); lra).
  specialize (U _ HF). specialize (N _ HF).
  pose proof (mixture_range _ _ (Di ns) HF) as R1. pose proof (mixture_range _ _ (Di ns') HF) as R2.
  pose proof (exp_le _ _ Ek) as Ee. pose proof (exp_pos (INR k * (eps / IZR l0))) as E0.
  unfold prob. set (p := mixture (independent D ns) _) in *. set (p' := mixture (independent D ns') _) in *.
  set (q := (1 - d1) ^ k) in *. set (x := exp (INR k * (eps / IZR l0))) in *.
  split.
  - assert (M : x * p' <= exp eps * p') by (apply Rmult_le_compat_r; lra).
    assert (M0 : 0 <= x * p') by (apply Rmult_le_pos; lra).
    assert (q * (x * p') <= 1 * (x * p')) by (apply Rmult_le_compat_r; lra). lra.
  - assert (M : x * p <= exp eps * p) by (apply Rmult_le_compat_r; lra).
    assert ((1 - q) * p' <= (1 - q) * 1) by (apply Rmult_le_compat_l; lra). lra.
Qed.

(** ** One partition *)
Lemma laplace_threshold_ok r d : 0 < r -> 0 < d < 1 -> laplace_tail r (laplace_threshold r d - 1) = d.
Proof.
  intros Hr Hd. unfold laplace_threshold. destruct (Rle_dec d (/ 2)) as [L|L]; [apply C59_laplace_threshold_value; lra|].
  unfold laplace_tail. assert (Lo : ln (2 - 2 * d) < 0) by (rewrite <- ln_1; apply ln_increasing; lra).
  assert (Ng : ln (2 - 2 * d) / r < 0).
  { assert (0 < / r) by (apply Rinv_0_lt_compat; exact Hr). assert (0 < - ln (2 - 2 * d) * / r) by (apply Rmult_lt_0_compat; lra). unfold Rdiv. lra. }
  destruct (Rle_dec 0 (1 + ln (2 - 2 * d) / r - 1)) as [X|X]; [lra|].
  replace (r * (1 + ln (2 - 2 * d) / r - 1)) with (ln (2 - 2 * d)) by (field; lra). rewrite exp_ln by lra. field.
Qed.

Section Released.
Context (g : grid) (r d : R) (Hr : 0 < r) (Hd : 0 < d < 1) (So : sorted_grid g).
Let T := laplace_threshold r d.
Let cells : list (R * option Q) := (T, None) ::
   map (fun cv => (fst cv, Some (snd cv))) (filter (fun cv => if Rlt_dec T (fst cv) then true else false) (g_cells g)).

Lemma sorted_filter_map : StronglySorted Rle (map fst cells).
Proof.
  unfold cells. cbn [map fst]. rewrite map_map. cbn [fst]. unfold sorted_grid in So.
  constructor.
  - induction (g_cells g) as [|[c v] l IH]; [constructor|]. cbn [map fst] in So. apply StronglySorted_inv in So. destruct So as [So' Fo].
    cbn [filter fst]. destruct (Rlt_dec T c); [|apply IH; exact So']. cbn [map fst]. constructor; [apply IH; exact So'|].
    rewrite Forall_forall in *. intros y Iy. apply in_map_iff in Iy. destruct Iy as [cv [<- Iy]]. apply filter_In in Iy. apply Fo, in_map, Iy.
  - apply Forall_forall. intros y Iy. apply in_map_iff in Iy. destruct Iy as [cv [<- Iy]]. apply filter_In in Iy. destruct Iy as [_ Iy].
    destruct (Rlt_dec T (fst cv)); [lra | discriminate].
Qed.
Lemma released_dist n : is_dist (released g r T n).
Proof. destruct n; [apply is_dist_ret|]. apply laplace_cells_dist; [exact Hr | apply sorted_filter_map]. Qed.
Lemma released_step n : up r (1 - d) (released g r T (S n)) (released g r T n) /\ dn r (1 - d) (released g r T n) (released g r T (S n)).
Proof.
  destruct n as [|n].
  - assert (B : laplace_below r (INR 1) T = 1 - d).
    { unfold laplace_below. assert (E1 := laplace_threshold_ok r d Hr Hd). fold T in E1. change (INR 1) with 1.
      replace (1 - T) with (- (T - 1)) by ring. rewrite <- laplace_tail_compl, E1. reflexivity. }
    assert (So2 := sorted_filter_map). unfold cells in So2. cbn [map fst] in So2. apply StronglySorted_inv in So2. destruct So2 as [So2 Fo].
    assert (K : forall F, (forall a, 0 <= F a <= 1) ->
      (1 - d) * F None <= mixture (released g r T 1) F <= (1 - d) * F None + d).
    { intros F HF. unfold released. cbn [cell_probabilities]. rewrite mixture_cons. cbn [INR] in B. rewrite Rminus_0_r.
      change (INR 1) with 1. rewrite B.
      destruct (cells_is_dist (laplace_below r 1)
        (map (fun cv => (fst cv, Some (snd cv))) (filter (fun cv => if Rlt_dec T (fst cv) then true else false) (g_cells g))) (Some (g_top g))) with (low := 1 - d) as [P Su]; try assumption.
      - intro c. apply laplace_below_range. exact Hr.
      - intros. apply laplace_below_mono; assumption.
      - lra.
      - intros c v I. rewrite <- B. apply laplace_below_mono; [exact Hr|]. rewrite Forall_forall in Fo. apply Fo. apply (in_map fst) in I. exact I.
      - set (rest := cell_probabilities _ _ _ _) in *. clearbody rest.
        assert (0 <= mixture rest F <= sumR (map fst rest)).
        { clear -P HF. induction rest as [|[w a] rest IH]; [cbn; lra|]. inversion P as [|? ? P1 P2]; subst. cbn [fst] in P1.
          specialize (IH P2). rewrite mixture_cons. cbn [map fst]. rewrite sumR_cons. destruct (HF a).
          assert (0 <= w * F a) by (apply Rmult_le_pos; lra). assert (w * F a <= w * 1) by (apply Rmult_le_compat_l; lra). lra. }
        lra. }
    assert (U : up 0 (1 - d) (released g r T 1) (released g r T 0)) .
    { intros F HF. change (released g r T 0) with (@dret (option Q) None). rewrite mixture_ret, exp_0. specialize (K F HF). lra. }
    assert (N : dn 0 (1 - d) (released g r T 0) (released g r T 1)).
    { intros F HF. change (released g r T 0) with (@dret (option Q) None). rewrite mixture_ret, exp_0. specialize (K F HF). lra. }
    split; [eapply up_weaken; [apply released_dist | apply released_dist | | | | | exact U]; lra | eapply dn_weaken; [apply released_dist | apply released_dist | | | exact N]; lra].
  - assert (A : Rabs (r * INR (S (S n)) - r * INR (S n)) = r).
    { rewrite (S_INR (S n)). replace (r * (INR (S n) + 1) - r * INR (S n)) with r by ring. apply Rabs_pos_eq. lra. }
    assert (So2 := sorted_filter_map).
    assert (U : up r 1 (released g r T (S (S n))) (released g r T (S n))).
    { intros F HF. assert (X := laplace_cells_ratio r Hr cells (Some (g_top g)) (INR (S (S n))) (INR (S n)) So2 F ltac:(intro a; apply HF)).
      rewrite A in X. change (released g r T (S (S n))) with (cell_probabilities (laplace_below r (INR (S (S n)))) 0 cells (Some (g_top g))).
      change (released g r T (S n)) with (cell_probabilities (laplace_below r (INR (S n))) 0 cells (Some (g_top g))). lra. }
    assert (N : dn r 1 (released g r T (S n)) (released g r T (S (S n)))).
    { intros F HF. assert (X := laplace_cells_ratio r Hr cells (Some (g_top g)) (INR (S n)) (INR (S (S n))) So2 F ltac:(intro a; apply HF)).
      rewrite Rabs_minus_sym, A in X. change (released g r T (S (S n))) with (cell_probabilities (laplace_below r (INR (S (S n)))) 0 cells (Some (g_top g))).
      change (released g r T (S n)) with (cell_probabilities (laplace_below r (INR (S n))) 0 cells (Some (g_top g))). lra. }
    split; [eapply up_weaken; [apply released_dist | apply released_dist | | | | | exact U]; lra | eapply dn_weaken; [apply released_dist | apply released_dist | | | exact N]; lra].
Qed.
End Released.

Lemma reduced_step pre n : (0 <= n)%Z -> reduced pre (n + 1) = reduced pre n \/ reduced pre (n + 1) = S (reduced pre n).
Proof. intro L. unfold reduced. destruct pre as [t|]; lia. Qed.
Lemma reduced_empty pre n : (forall t, pre = Some t -> (0 < t)%Z) -> (n <= 0)%Z -> reduced pre n = O.
Proof. intros P L. unfold reduced. destruct pre as [t|]; [specialize (P t eq_refl)|]; lia. Qed.

Lemma laplace_released_contract gs other : (forall sel, sorted_grid (gs sel)) -> thresholding_contract other -> thresholding_contract (laplace_released gs other).
Proof.
  intros So [Od Oc]. split.
  - intros sel n. unfold laplace_released. destruct (sel_l0 sel) as [l0|]; [|apply Od]. destruct (String.eqb _ _); [|apply Od]. cbv zeta.
    destruct (Rlt_dec 0 _) as [Hr|]; [|apply Od]. destruct (Rlt_dec 0 (partition_delta _ _)) as [Hd|]; [|apply is_dist_ret].
    destruct (Rlt_dec (partition_delta _ _) 1); [|apply Od]. apply released_dist; [exact Hr | apply So].
  - intros sel l0 El Hl He Hd Hn Hp. assert (C := Oc sel l0 El Hl He Hd Hn Hp). unfold private_thresholding in *.
    unfold laplace_released. rewrite El. destruct (String.eqb _ _); [|exact C]. cbv zeta.
    assert (He' : 0 < Q2R (sel_eps sel)) by (rewrite <- RMicromega.Q2R_0; apply Qlt_Rlt; assumption).
    assert (Hd' : 0 <= Q2R (sel_delta sel) < 1).
    { destruct Hd as [D0 D1]. apply Qle_Rle in D0. apply Qlt_Rlt in D1. rewrite RMicromega.Q2R_0 in D0. rewrite RMicromega.Q2R_1 in D1. lra. }
    assert (Pl : 0 < IZR l0) by (apply IZR_lt; exact Hl).
    assert (Pr := partition_delta_range l0 _ Hl Hd').
    destruct (Rlt_dec 0 _) as [Hr|Hr]; [|exfalso; apply Hr; apply Rdiv_lt_0_compat; assumption].
    destruct (Rlt_dec 0 (partition_delta _ _)) as [Pd|Pd].
    + destruct (Rlt_dec (partition_delta _ _) 1) as [P1|P1].
      * split.
        { intros n w o Ln I. rewrite (reduced_empty _ _ Hp Ln) in I. destruct I as [I|[]]. injection I as _ <-. right. reflexivity. }
        apply (thresholding_private _ l0 _ _ (partition_delta l0 (Q2R (sel_delta sel)))); [exact Hl | lra | lra | | |].
        { assert (PP := partition_delta_power l0 _ Hl Hd'). lra. }
        { intro n. apply released_dist; [exact Hr | apply So]. }
        { intros n Ln. destruct (reduced_step (sel_pre sel) n Ln) as [-> | ->]; [|apply released_step; [exact Hr | lra | apply So]].
          assert (Dd := fun k => released_dist (gs sel) _ (partition_delta l0 (Q2R (sel_delta sel))) Hr (So sel) k).
          split; [eapply up_weaken; [apply Dd | apply Dd | | | | | apply up_same]; lra | eapply dn_weaken; [apply Dd | apply Dd | | | apply dn_same]; lra]. }
      * exfalso. assert (E1 : partition_delta l0 (Q2R (sel_delta sel)) = 1) by lra. assert (PP := partition_delta_power l0 _ Hl Hd').
        rewrite E1 in PP. replace (1 - 1) with 0 in PP by ring. rewrite pow_i in PP by lia. lra.
    + split.
      { intros n w o _ [I|[]]. injection I as _ <-. right. reflexivity. }
      apply (thresholding_private _ l0 _ _ (partition_delta l0 (Q2R (sel_delta sel)))); [exact Hl | lra | lra | | |].
      { assert (PP := partition_delta_power l0 _ Hl Hd'). lra. }
      { intro n. apply is_dist_ret. }
      { intros n Ln. split; [eapply up_weaken; [apply is_dist_ret | apply is_dist_ret | | | | | apply up_same]; lra | eapply dn_weaken; [apply is_dist_ret | apply is_dist_ret | | | apply dn_same]; lra]. }
Qed.

(** ** Noise *)
Lemma scaled_norm {A} (f : A -> R) c l1 (l : list (A * A)) : 0 < c ->
  sumR (map (fun e => Rabs (f (fst e) - f (snd e))) l) <= l1 ->
  sumR (map (fun e => Rabs (c * f (fst e) - c * f (snd e))) l) <= c * l1.
Proof.
  intros Pc H. replace (sumR (map (fun e => Rabs (c * f (fst e) - c * f (snd e))) l)) with (c * sumR (map (fun e => Rabs (f (fst e) - f (snd e))) l)).
  - apply Rmult_le_compat_l; lra.
  - clear H. induction l as [|p l IH]; [cbn; ring|]. cbn [map]. rewrite !sumR_cons, <- IH, Rmult_plus_distr_l. f_equal.
    rewrite <- Rmult_minus_distr_l, Rabs_mult, (Rabs_pos_eq c) by lra. reflexivity.
Qed.
Lemma sum_abs_swap {A} (f : A -> R) xs : forall xs',
  sumR (map (fun e => Rabs (f (fst e) - f (snd e))) (combine xs' xs)) = sumR (map (fun e => Rabs (f (fst e) - f (snd e))) (combine xs xs')).
Proof.
  induction xs as [|x xs IH]; intros [|x' xs']; try reflexivity. cbn [combine map fst snd]. rewrite !sumR_cons, IH, (Rabs_minus_sym (f x')). reflexivity.
Qed.
Lemma laplace_pair g {A} (f : A -> R) e l1 xs xs' E : sorted_grid g -> 0 < e -> 0 < l1 -> length xs = length xs' ->
  sumR (map (fun p => Rabs (f (fst p) - f (snd p))) (combine xs xs')) <= l1 ->
  indistinguishable e 0 (prob (independent (fun x => rounded_laplace g (e / l1) (f x)) xs) E) (prob (independent (fun x => rounded_laplace g (e / l1) (f x)) xs') E).
Proof.
  intros So He Hl L C. assert (Pc : 0 < e / l1) by (apply Rdiv_lt_0_compat; assumption).
  assert (G : forall ys ys', length ys = length ys' -> sumR (map (fun p => Rabs (f (fst p) - f (snd p))) (combine ys ys')) <= l1 ->
    below e 0 (independent (fun x => rounded_laplace g (e / l1) (f x)) ys) (independent (fun x => rounded_laplace g (e / l1) (f x)) ys')).
  { intros ys ys' Ly Cy. eapply below_more; [apply is_dist_independent; intros; apply rounded_dist; assumption | |
      apply (many_below _ (fun x => e / l1 * f x)); [intro; apply rounded_dist; assumption | intros; apply rounded_below; assumption | exact Ly]].
    apply (scaled_norm f) with (c := e / l1) in Cy; [|exact Pc]. replace (e / l1 * l1) with e in Cy by (field; lra). exact Cy. }
  split; apply below_prob; apply G; auto. rewrite sum_abs_swap. exact C.
Qed.

Lemma laplace_noise_contract grids other : (forall m, sorted_grid (grids m)) -> noise_contract (fun m x => other m x) ->
  noise_contract (fun m x => laplace_noise grids (fun m _ => other m x) m (Q2R x)).
Proof.
  intros So [Od Oc]. split.
  - intros m x. unfold laplace_noise. destruct m; try apply Od. destruct (Rlt_dec 0 _); [apply rounded_dist; auto | apply Od].
  - intros m eps delta Hp xs xs' E L C. destruct m as [e l1|sd l1|e d l2|sd l2]; try (exact (Oc _ eps delta Hp xs xs' E L C)).
    destruct Hp as [He0 [Hl [-> ->]]]. unfold laplace_noise.
    assert (He : 0 < Q2R e) by (rewrite <- RMicromega.Q2R_0; apply Qlt_Rlt; assumption).
    assert (Hl' : 0 < Q2R l1) by (rewrite <- RMicromega.Q2R_0; apply Qlt_Rlt; assumption).
    destruct (Rlt_dec 0 _) as [X|X]; [|exfalso; apply X; apply Rdiv_lt_0_compat; assumption].
    rewrite RMicromega.Q2R_0. apply laplace_pair; try assumption; [apply So|].
    cbn [covers] in C. apply Qle_Rle in C. unfold l1_norm in C. rewrite Q2R_sumQ, map_map in C.
    eapply Rle_trans; [right | exact C]. f_equal. apply map_ext. intros [a b]. cbn [fst snd]. rewrite <- Q2R_minus. symmetry. apply Q2R_abs.
Qed.
Lemma laplace_vector_contract grids other : (forall m, sorted_grid (grids m)) -> vector_contract other ->
  vector_contract (laplace_noise grids other).
Proof.
  intros So [Od Oc]. split.
  - intros m x. unfold laplace_noise. destruct m; try apply Od. destruct (Rlt_dec 0 _); [apply rounded_dist; auto | apply Od].
  - intros m eps delta Hp xs xs' E L C. destruct m as [e l1|sd l1|e d l2|sd l2]; try (exact (Oc _ eps delta Hp xs xs' E L C)).
    destruct Hp as [He0 [Hl [-> ->]]]. unfold laplace_noise.
    assert (He : 0 < Q2R e) by (rewrite <- RMicromega.Q2R_0; apply Qlt_Rlt; assumption).
    assert (Hl' : 0 < Q2R l1) by (rewrite <- RMicromega.Q2R_0; apply Qlt_Rlt; assumption).
    destruct (Rlt_dec 0 _) as [X|X]; [|exfalso; apply X; apply Rdiv_lt_0_compat; assumption].
    rewrite RMicromega.Q2R_0. apply (laplace_pair (grids (Laplace e l1)) (fun x => x)); try assumption. apply So.
Qed.
