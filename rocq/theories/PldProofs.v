(** Lemmas about the PLD accountant. *)
From Coq Require Import List ZArith Reals Lia Lra.
From Verif Require Import Base PldModel PldSpec.
Import ListNotations.
Local Open Scope R_scope.

Lemma sqrt2_pos : 0 < sqrt 2.
Proof. apply sqrt_lt_R0. lra. Qed.

Lemma rdiv_ok x y z : rdiv x y = Ok z -> y <> 0 /\ z = x / y.
Proof. unfold rdiv. destruct (Req_EM_T y 0); intro E; inversion E; auto. Qed.
Lemma rdiv_some x y : y <> 0 -> rdiv x y = Ok (x / y).
Proof. intro N. unfold rdiv. destruct (Req_EM_T y 0); [contradiction | reflexivity]. Qed.

(** ** The searches *)
Lemma max_noise_sound eps_at te fuel : forall m0 m, 0 < m0 -> max_noise_loop fuel eps_at te m0 = Some (Ok m) ->
  0 < m /\ exists e, eps_at m = Ok e /\ e <= te.
Proof.
  induction fuel as [|f IH]; intros m0 m P; cbn; [discriminate|]. destruct (eps_at (m0 * 2)) as [e|] eqn:E; [|discriminate].
  destruct (Rlt_dec te e) as [L|L].
  - apply IH. lra.
  - intro X. inversion X; subst. split; [lra|]. exists e. split; [exact E | lra].
Qed.

Lemma search_sound eps_at te fuel : forall low high h, 0 <= low < high ->
  (exists e, eps_at high = Ok e /\ e <= te) -> (low = 0 \/ exists e, eps_at low = Ok e /\ te < e) ->
  search_loop fuel eps_at te low high = Some (Ok h) -> minimal_noise eps_at te h.
Proof.
  induction fuel as [|f IH]; intros low high h B Hh Hl; cbn [search_loop]; destruct (Rlt_dec (low + threshold) high) as [L|L].
  - discriminate.
  - intro E. inversion E; subst. split; [lra|]. split; [exact Hh|]. exists low. unfold threshold in L. repeat split; try tauto; lra.
  - assert (T : 0 < threshold) by (unfold threshold; lra).
    destruct (eps_at ((high - low) / 2 + low)) as [e|] eqn:E; [|discriminate]. destruct (Rle_dec e te) as [C|C].
    + apply IH; [lra | exists e; auto | exact Hl].
    + apply IH; [lra | exact Hh | right; exists e; split; [exact E | lra]].
  - intro E. inversion E; subst. split; [lra|]. split; [exact Hh|]. exists low. unfold threshold in L. repeat split; try tauto; lra.
Qed.

Lemma search_terminates eps_at te fuel : forall low high, low < high -> (forall x, low < x -> exists e, eps_at x = Ok e) ->
  high - low <= 2 ^ fuel * threshold -> exists h, search_loop fuel eps_at te low high = Some (Ok h).
Proof.
  assert (T : 0 < threshold) by (unfold threshold; lra).
  induction fuel as [|f IH]; intros low high B Ok_ W; cbn [search_loop]; destruct (Rlt_dec (low + threshold) high) as [L|L]; try (eexists; reflexivity).
  - cbn in W. lra.
  - destruct (Ok_ ((high - low) / 2 + low)) as [e ->]; [lra|]. cbn [pow] in W. destruct (Rle_dec e te).
    + apply IH; [lra | exact Ok_ | lra].
    + apply IH; [lra | intros x Hx; apply Ok_; lra | lra].
Qed.

Lemma max_noise_terminates eps_at te : forall k m0, (forall x, 0 < x -> exists e, eps_at x = Ok e) -> 0 < m0 ->
  (exists e, eps_at (m0 * 2 ^ S k) = Ok e /\ e <= te) ->
  exists m, max_noise_loop (S k) eps_at te m0 = Some (Ok m) /\ 0 < m <= m0 * 2 ^ S k.
Proof.
  induction k as [|k IH]; intros m0 Hok P [e [Ee Le]]; cbn [max_noise_loop].
  - destruct (eps_at (m0 * 2)) as [e'|] eqn:E'.
    + replace (m0 * 2 ^ 1) with (m0 * 2) in * by (cbn; ring). assert (e' = e) by congruence. subst.
      destruct (Rlt_dec te e); [lra|]. exists (m0 * 2). split; [reflexivity | lra].
    + destruct (Hok (m0 * 2)) as [x X]; [lra | congruence].
  - destruct (Hok (m0 * 2)) as [e' ->]; [lra|]. destruct (Rlt_dec te e').
    + destruct (IH (m0 * 2) Hok) as [m [Em Bm]]; [lra | exists e; split; [|exact Le]|].
      * rewrite <- Ee. f_equal. cbn [pow]. ring.
      * exists m. split; [exact Em|]. cbn [pow] in *. lra.
    + exists (m0 * 2). split; [reflexivity|]. split; [lra|]. apply Rmult_le_compat_l; [lra|].
      assert (X : 1 <= 2 ^ S k) by (apply pow_R1_Rle; lra). change (2 ^ S (S k)) with (2 * 2 ^ S k). lra.
Qed.

(** More rounds do not change the result. *)
Lemma max_noise_more eps_at te r f : forall g m0, (f <= g)%nat -> max_noise_loop f eps_at te m0 = Some r -> max_noise_loop g eps_at te m0 = Some r.
Proof.
  induction f as [|f IH]; intros g m0 L E; [discriminate|]. destruct g as [|g]; [lia|]. cbn [max_noise_loop] in *.
  destruct (eps_at (m0 * 2)); [|exact E]. destruct (Rlt_dec te a); [|exact E]. apply IH; [lia | exact E].
Qed.
Lemma search_more eps_at te r f : forall g low high, (f <= g)%nat -> search_loop f eps_at te low high = Some r -> search_loop g eps_at te low high = Some r.
Proof.
  induction f as [|f IH]; intros g low high L E; destruct g as [|g]; try lia; cbn [search_loop] in *.
  - exact E.
  - destruct (Rlt_dec (low + threshold) high); [discriminate | exact E].
  - destruct (Rlt_dec (low + threshold) high); [|exact E]. destruct (eps_at ((high - low) / 2 + low)); [|exact E].
    destruct (Rle_dec a te); apply IH; try lia; exact E.
Qed.

Lemma find_sound eps_at te fuel h : find_minimum_noise_std fuel eps_at te = Some (Ok h) -> minimal_noise eps_at te h.
Proof.
  unfold find_minimum_noise_std. destruct (max_noise_loop fuel eps_at te 1) as [[m|]|] eqn:E; try discriminate.
  destruct (max_noise_sound _ _ _ 1 m Rlt_0_1 E) as [P X]. apply search_sound; [lra | exact X | left; reflexivity].
Qed.

Lemma find_more eps_at te r f g : (f <= g)%nat -> find_minimum_noise_std f eps_at te = Some r -> find_minimum_noise_std g eps_at te = Some r.
Proof.
  unfold find_minimum_noise_std. intros L. destruct (max_noise_loop f eps_at te 1) as [x|] eqn:E; [|discriminate].
  rewrite (max_noise_more _ _ _ _ g 1 L E). destruct x; [|auto]. apply search_more. exact L.
Qed.

Lemma find_terminates eps_at te k : (forall x, 0 < x -> exists e, eps_at x = Ok e) ->
  (exists e, eps_at (2 ^ S k) = Ok e /\ e <= te) ->
  exists h, find_minimum_noise_std (S k + 14) eps_at te = Some (Ok h).
Proof.
  intros Hok B. unfold find_minimum_noise_std.
  destruct (max_noise_terminates eps_at te k 1 Hok Rlt_0_1) as [m [Em Bm]].
  { rewrite Rmult_1_l. exact B. }
  rewrite (max_noise_more _ _ _ (S k) (S k + 14) 1 (Nat.le_add_r _ _) Em).
  apply search_terminates; [lra | exact Hok |]. rewrite pow_add. rewrite Rmult_1_l in Bm.
  assert (X : 1 <= 2 ^ 14 * threshold) by (unfold threshold; replace (2 ^ 14) with 16384 by ring; lra).
  assert (Y : 0 < 2 ^ S k) by (apply pow_lt; lra).
  assert (Z := Rmult_le_compat_l (2 ^ S k) _ _ (Rlt_le _ _ Y) X). lra.
Qed.

(** ** Composition *)
Lemma compose_defined te td std ms : te <> 0 -> std <> 0 -> Forall (fun m => p_weight m <> 0 /\ p_type m <> PThresholding) ms ->
  forall c l, exists r, compose_loop te td std ms c l = Ok r /\ (ms <> [] \/ c <> None -> r <> None).
Proof.
  intros Te Sd. induction ms as [|m ms IH]; intros F c l.
  - exists c. split; [reflexivity|]. intros [X|X]; [congruence | exact X].
  - inversion F as [|? ? [W T] F']; subst. cbn [compose_loop].
    assert (X : exists x, pld_of te td std m l = Ok (Some x)).
    { unfold pld_of. destruct (p_type m); [| |congruence|]; rewrite ?rdiv_some by assumption; cbn [rbind rmap];
        rewrite ?rdiv_some by assumption; cbn [rmap]; eauto. }
    destruct X as [x ->]. cbn [rbind].
    match goal with |- context [compose_loop te td std ms ?c' ?l'] => destruct (IH F' c' l') as [r [E Nr]] end.
    exists r. split; [exact E|]. intros _. apply Nr. right. destruct c; discriminate.
Qed.

Lemma compose_granted te td h ms : 0 < te -> 0 < h ->
  Forall (fun m => p_type m <> PThresholding /\ (p_type m = PGeneric -> p_sens m = p_weight m)) ms ->
  forall ms' c l, set_noises te td h ms = Ok ms' ->
  forall r, compose_loop te td h ms c l = Ok r ->
  exists gs, map granted ms' = map Some gs /\ r = match c, gs with None, [] => None | None, _ => Some gs | Some x, _ => Some (x ++ gs) end.
Proof.
  intros Te Hh. assert (S2 := sqrt2_pos). induction ms as [|m ms IH]; intros F ms' c l Es r Er.
  - inversion Es; inversion Er; subst. exists []. split; [reflexivity|]. destruct r; [rewrite app_nil_r|]; reflexivity.
  - inversion F as [|? ? [T G] F']; subst. cbn [set_noises compose_loop] in *.
    destruct (set_noise te td h m) as [m'|] eqn:Em; cbn [rbind] in Es; [|discriminate].
    destruct (set_noises te td h ms) as [ms2|] eqn:E2; cbn [rmap] in Es; [|discriminate]. inversion Es; subst ms'. clear Es.
    unfold set_noise in Em. destruct (rdiv (p_sens m * h) (p_weight m)) as [s|] eqn:Ed; cbn [rbind] in Em; [|discriminate].
    destruct (rdiv_ok _ _ _ Ed) as [Nw ->].
    assert (X : exists x, pld_of te td h m l = Ok (Some x) /\ granted m' = Some x).
    { unfold pld_of. destruct (p_type m) eqn:Et.
      - inversion Em; subst. rewrite rdiv_some by exact Nw. eexists. split; [reflexivity|]. unfold granted. cbn. do 2 f_equal. field. split; [lra | exact Nw].
      - inversion Em; subst. rewrite rdiv_some by exact Nw. eexists. split; [reflexivity|]. reflexivity.
      - congruence.
      - rewrite (G eq_refl) in Em. replace (p_weight m * h / p_weight m) with h in Em by (field; exact Nw).
        rewrite !rdiv_some in * by lra. cbn [rbind rmap] in *. rewrite !rdiv_some in * by lra. cbn [rmap] in *.
        inversion Em; subst. eexists. split; reflexivity. }
    destruct X as [x [Ex Gx]]. rewrite Ex in Er. cbn [rbind] in Er.
    destruct (IH F' ms2 _ _ eq_refl r Er) as [gs [Eg ->]].
    exists (x :: gs). cbn [map]. rewrite Gx, Eg. split; [reflexivity|].
    destruct c; [rewrite <- app_assoc|]; reflexivity.
Qed.

Lemma noises_set te td h ms : forall ms', set_noises te td h ms = Ok ms' ->
  Forall2 (fun m m' => p_type m' = p_type m /\ p_std m' = Some (p_sens m * h / p_weight m)) ms ms'.
Proof.
  induction ms as [|m ms IH]; intros ms' Es; [inversion Es; constructor|]. cbn [set_noises] in Es.
  destruct (set_noise te td h m) as [m'|] eqn:Em; cbn [rbind] in Es; [|discriminate].
  destruct (set_noises te td h ms) as [ms2|]; cbn [rmap] in Es; [|discriminate]. inversion Es; subst.
  constructor; [|apply IH; reflexivity]. unfold set_noise in Em.
  destruct (rdiv (p_sens m * h) (p_weight m)) as [s|] eqn:Ed; cbn [rbind] in Em; [|discriminate].
  destruct (rdiv_ok _ _ _ Ed) as [_ ->]. destruct (p_type m) eqn:Et.
  - inversion Em; subst. auto.
  - inversion Em; subst. auto.
  - inversion Em; subst. auto.
  - destruct (rdiv (sqrt 2) (p_sens m * h / p_weight m)) as [e0|]; cbn [rbind] in Em; [|discriminate].
    destruct (rdiv e0 te); cbn [rmap] in Em; [|discriminate]. inversion Em; subst. auto.
Qed.

(** ** Total delta 0 *)
Definition sum_weights (ms : list pmech) : R := fold_right Rplus 0 (map p_weight ms).
Lemma fold_weights ms : forall a, fold_left (fun a m => a + p_weight m) ms a = a + sum_weights ms.
Proof. induction ms as [|m ms IH]; intro a; cbn; [lra|]. rewrite IH. unfold sum_weights. cbn. lra. Qed.

Lemma spent_sum te ms mn ms' : 0 < te -> 0 < mn ->
  Forall (fun m => 0 < p_weight m /\ (p_type m = PLaplace /\ 0 < p_sens m \/ p_type m = PGeneric /\ p_sens m = 1)) ms ->
  set_noises te 0 mn ms = Ok ms' ->
  fold_right Rplus 0 (map spent ms') = sum_weights ms * (sqrt 2 / mn) /\
  Forall (fun m => forall e d, p_budget m = Some (e, d) -> p_type m = PGeneric -> d = 0) ms'.
Proof.
  intros Te Mn F. assert (S2 := sqrt2_pos). revert ms'. induction F as [|m ms [W K] F IH]; intros ms' E.
  - inversion E; subst. split; [cbn; lra | constructor].
  - cbn [set_noises] in E. destruct (set_noise te 0 mn m) as [m'|] eqn:Em; cbn [rbind] in E; [|discriminate].
    destruct (set_noises te 0 mn ms) as [ms2|]; cbn [rmap] in E; [|discriminate]. inversion E; subst. clear E.
    destruct (IH ms2 eq_refl) as [S D]. unfold set_noise in Em. rewrite rdiv_some in Em by lra. cbn [rbind] in Em.
    destruct K as [[Et Ps]|[Et Ps]]; rewrite Et in Em.
    + inversion Em; subst. split.
      * cbn [map fold_right]. rewrite S. unfold sum_weights. cbn [map fold_right]. unfold spent at 1. cbn. field. lra.
      * constructor; [cbn; intros; discriminate | exact D].
    + rewrite Ps, Rmult_1_l in Em. assert (Q : mn / p_weight m <> 0).
      { apply Rgt_not_eq. apply Rmult_gt_0_compat; [lra|]. apply Rinv_0_lt_compat. exact W. }
      rewrite rdiv_some in Em by exact Q. cbn [rbind] in Em. rewrite rdiv_some in Em by lra. cbn [rmap] in Em. inversion Em; subst.
      split.
      * cbn [map fold_right]. rewrite S. unfold sum_weights. cbn [map fold_right]. unfold spent at 1. cbn. field. lra.
      * constructor; [cbn; intros e d X _; inversion X; lra | exact D].
Qed.
