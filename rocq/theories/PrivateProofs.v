(** Lemmas for C60. *)
From Coq Require Import List ZArith QArith Qreals Reals Bool Lia Lra.
From Verif Require Import Base BaseLemmas BackendModel ListLemmas BounderSpec ParamsModel SensModel CombinerModel EngineModel EngineSpec
  EngineProofs2 EngineProofs3 EngineProofs4 EngineProofs5 EngineProps EngineProps2 BudgetModel BudgetSpec BudgetProofs
  VectorModel ExpMechProofs LaplaceModel LaplaceSpec LaplaceProofs
  SelectModel SelectSpec SelectProofs SelectProofs2 SelectProofs3 SelectProps PrivateSpec.
Import ListNotations.
Local Open Scope R_scope.

(** ** Sums over the sets of all calls *)
Definition fits (ns : list nat) (Ss : list (list bool)) : Prop := Forall2 (fun n S => length S = n) ns Ss.

Lemma all_sets_le ns : forall F G, (forall Ss, fits ns Ss -> F Ss <= G Ss) -> all_sets ns F <= all_sets ns G.
Proof.
  induction ns as [|n ns IH]; intros F G E; [apply E; constructor|].
  cbn [all_sets]. apply outcomes_le. intros S L. apply IH. intros Ss FS. apply E. constructor; assumption.
Qed.
Lemma all_sets_ext ns : forall F G, (forall Ss, fits ns Ss -> F Ss = G Ss) -> all_sets ns F = all_sets ns G.
Proof.
  intros F G E. apply Rle_antisym; apply all_sets_le; intros Ss FS; rewrite (E Ss FS); apply Rle_refl.
Qed.
Lemma all_sets_add ns : forall F G, all_sets ns (fun Ss => F Ss + G Ss) = all_sets ns F + all_sets ns G.
Proof.
  induction ns as [|n ns IH]; intros F G; [reflexivity|]. cbn [all_sets]. rewrite <- outcomes_add.
  apply outcomes_ext. intros S _. apply IH.
Qed.
Lemma all_sets_scale ns : forall c F, all_sets ns (fun Ss => c * F Ss) = c * all_sets ns F.
Proof.
  induction ns as [|n ns IH]; intros c F; [reflexivity|]. cbn [all_sets]. rewrite <- outcomes_scale.
  apply outcomes_ext. intros S _. apply IH.
Qed.

Definition joint (fs : list (list bool -> R)) (Ss : list (list bool)) : R :=
  prodR (map (fun fS => fst fS (snd fS)) (combine fs Ss)).
Lemma joint_cons f fs S Ss : joint (f :: fs) (S :: Ss) = f S * joint fs Ss.
Proof. reflexivity. Qed.
Lemma joint_mass ns : forall fs, length fs = length ns ->
  all_sets ns (joint fs) = prodR (map (fun nf => outcomes (fst nf) (snd nf)) (combine ns fs)).
Proof.
  induction ns as [|n ns IH]; intros [|f fs] L; try discriminate; [reflexivity|].
  cbn [all_sets combine map]. rewrite prodR_cons. cbn [fst snd]. rewrite Rmult_comm, <- outcomes_scale.
  apply outcomes_ext. intros S _. rewrite (all_sets_ext ns _ (fun Ss => f S * joint fs Ss)) by reflexivity.
  rewrite all_sets_scale, IH by (cbn in L; lia). ring.
Qed.

(** ** Several independent selections *)
Definition dominates (eps delta : R) (n : nat) (f g h : list bool -> R) : Prop :=
  (forall bs, length bs = n -> 0 <= h bs /\ h bs <= f bs /\ h bs <= exp eps * g bs) /\
  outcomes n f = 1 /\ 1 - outcomes n h <= delta.

Lemma joint_dominates ns : forall fs gs (eds : list (R * R)),
  length fs = length ns -> length gs = length ns -> length eds = length ns ->
  (forall i n f g ed, nth_error ns i = Some n -> nth_error fs i = Some f -> nth_error gs i = Some g ->
     nth_error eds i = Some ed -> 0 <= snd ed <= 1 /\ exists h, dominates (fst ed) (snd ed) n f g h) ->
  exists H, (forall Ss, fits ns Ss -> 0 <= H Ss /\ H Ss <= joint fs Ss /\ H Ss <= exp (sumR (map fst eds)) * joint gs Ss) /\
    all_sets ns (joint fs) = 1 /\ 1 - all_sets ns H <= sumR (map snd eds).
Proof.
  induction ns as [|n ns IH]; intros [|f fs] [|g gs] [|ed eds] Lf Lg Le C; try discriminate.
  - exists (fun _ => 1). split; [|split].
    + intros Ss FS. inversion FS; subst. cbn. rewrite exp_0. lra.
    + reflexivity.
    + cbn. lra.
  - destruct (C O n f g ed eq_refl eq_refl eq_refl eq_refl) as [Hd [h [D [Mf Mh]]]].
    destruct (IH fs gs eds) as [H [DH [MF MH]]]; [cbn in *; lia | cbn in *; lia | cbn in *; lia |
      intros i; apply (C (S i)) |].
    assert (Mjoint : all_sets (n :: ns) (joint (f :: fs)) = 1).
    { cbn [all_sets]. rewrite (outcomes_ext n _ (fun S => 1 * f S)).
      - rewrite outcomes_scale, Mf. ring.
      - intros S _. rewrite (all_sets_ext ns _ (fun Ss => f S * joint fs Ss)) by reflexivity.
        rewrite all_sets_scale, MF. ring. }
    exists (fun Ss => match Ss with T :: Ss' => h T * H Ss' | [] => 0 end). split; [|split; [exact Mjoint|]].
    + intros Ss FS. inversion FS as [|n' S ns' Ss' LS FS' E1 E2]; subst. rewrite !joint_cons. cbn [map]. rewrite sumR_cons, exp_plus.
      destruct (D S eq_refl) as [H0 [H1 H2]]. destruct (DH Ss' FS') as [K0 [K1 K2]].
      split; [apply Rmult_le_pos; assumption|]. split; [apply Rmult_le_compat; assumption|].
      match goal with |- _ <= ?a * ?b0 * (?c * ?d) => replace (a * b0 * (c * d)) with ((a * c) * (b0 * d)) by ring end.
      apply Rmult_le_compat; assumption.
    + cbn [all_sets map]. rewrite sumR_cons.
      rewrite (outcomes_ext n _ (fun S => all_sets ns H * h S)).
      2: { intros S _. rewrite all_sets_scale. ring. }
      rewrite outcomes_scale.
      assert (MH1 : all_sets ns H <= 1) by (rewrite <- MF; apply all_sets_le; intros Ss FS; apply DH; exact FS).
      assert (MH0 : 0 <= all_sets ns H).
      { rewrite <- (Rmult_0_l (all_sets ns H)), <- all_sets_scale. apply all_sets_le. intros Ss FS.
        rewrite Rmult_0_l. apply DH. exact FS. }
      assert (X : all_sets ns H * (1 - snd ed) <= all_sets ns H * outcomes n h) by (apply Rmult_le_compat_l; lra).
      assert (Y : all_sets ns H * snd ed <= 1 * snd ed) by (apply Rmult_le_compat_r; lra).
      lra.
Qed.

(** ** One call *)
Lemma selected_law {U P} `{EqDec U} `{EqDec P} p cs (sm : sampling U P) rows col keep keys S :
  accepted p -> create_compound_combiner p = Ok cs ->
  post_aggregation_thresholding p = false -> public_partitions_already_filtered p = false ->
  contribution_bounds_already_enforced p = false -> valid_sampling p sm ->
  raw_accumulators p cs sm None rows = Ok col ->
  NoDup keys -> (forall z, (z <= 0)%Z -> keep z = 0) ->
  expectation (coins keys (length rows)) (fun c => keep (snd c)) (fun heads =>
    match selected_accumulators p cs sm (answers heads) None rows with
    | Ok col => indicator (eqb (shown keys (map fst col)) S)
    | Err _ => 0
    end) = kept keep (map (fun k => row_count k col) keys) (fun bs => eqb bs S).
Proof.
  intros Ha Hcs Ht Hf Hb Hv Er Nk Z0.
  destruct (counts_of_run p cs sm rows col Ha Hcs Ht Hf Hb Hv Er) as [B _].
  assert (Sp : selects_privately p (@None (list P)) = true) by (unfold selects_privately; rewrite Ht, Hf; reflexivity).
  assert (Nc : NoDup (map fst col)).
  { apply (proj1 (raw_keys _ _ _ _ _ _ Er)). }
  rewrite (expectation_ext _ _ _ (fun heads => indicator ((fun bs => eqb bs S) (map (fun k => (0 <? row_count k col)%Z && answers heads k (row_count k col)) keys)))).
  - apply (run_law keep keys (length rows) (fun k => row_count k col) _ (fun bs => eqb bs S)); auto.
  - intro heads. unfold selected_accumulators. rewrite Er. cbn [rbind]. rewrite Sp. unfold max_rows_per_privacy_id. rewrite Hb.
    f_equal. cbv beta. f_equal. unfold shown. apply map_ext. intro k.
    apply eq_true_iff_eq. destruct (select_keys 1 (answers heads) col Nc) as [_ K].
    rewrite mem_true_iff, K, divide_by_one, andb_true_iff, Z.ltb_lt.
    destruct (in_dec eq_dec k (map fst col)) as [X|X].
    + assert (Bk := row_count_bound p cs sm rows col k Hb Hv Er X). intuition lia.
    + rewrite (row_count_absent _ _ X). intuition lia.
Qed.

Lemma kept_one keep ns S : length S = length ns -> kept keep ns (fun bs => eqb bs S) = law (map keep ns) S.
Proof.
  unfold kept. intro L.
  assert (G : forall ps S, length S = length ps -> outcomes (length ps) (fun bs => law ps bs * indicator (eqb bs S)) = law ps S).
  { clear. induction ps as [|p ps IH]; intros [|b S] L; try discriminate.
    - cbn [length outcomes]. unfold indicator, eqb. destruct (eq_dec (@nil bool) (@nil bool)) as [_|N]; [ring | congruence].
    - cbn [length outcomes].
      assert (X : forall b', outcomes (length ps) (fun bs => law (p :: ps) (b' :: bs) * indicator (eqb (b' :: bs) (b :: S))) =
                 (if Bool.eqb b' b then coin p b' * law ps S else 0)).
      { intro b'. destruct (Bool.eqb b' b) eqn:Eb.
        - apply eqb_prop in Eb. subst b'. rewrite <- (IH S) by (cbn in L; lia). rewrite <- outcomes_scale. apply outcomes_ext.
          intros bs _. rewrite law_cons, Rmult_assoc. do 2 f_equal. unfold indicator, eqb.
          destruct (eq_dec (b :: bs) (b :: S)) as [E|E]; destruct (eq_dec bs S) as [E'|E']; try reflexivity; congruence.
        - rewrite (outcomes_ext _ _ (fun _ => 0)); [apply outcomes_zero|]. intros bs _. unfold indicator, eqb.
          destruct (eq_dec (b' :: bs) (b :: S)) as [E|E]; [|ring]. inversion E; subst. rewrite Bool.eqb_reflx in Eb. discriminate. }
      rewrite !X. rewrite law_cons. destruct b; cbn; ring. }
  rewrite <- (map_length keep ns). apply G. rewrite map_length. exact L.
Qed.
