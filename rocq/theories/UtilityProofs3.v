(** Lemmas for the utility analysis of several configurations: from the data of the
    partitions to their metrics. *)
From Coq Require Import List ZArith QArith Bool Lia Permutation.
From Verif Require Import Base BaseLemmas ListLemmas BudgetModel ParamsModel BackendModel BackendSpec AnalysisModel AnalysisSpec
  AnalysisProofs AnalysisProps CrossModel TuningModel HistModel HistProofs2 UtilityModel UtilitySpec UtilityProofs UtilityProofs2.
Import ListNotations.
Local Open Scope Z_scope.

Lemma sequence_app_ok {A} (a b : list (result A)) l : sequence (a ++ b) = Ok l ->
  exists la lb, l = la ++ lb /\ sequence a = Ok la /\ sequence b = Ok lb.
Proof.
  revert l. induction a as [|r a IH]; intros l E.
  - exists [], l. auto.
  - cbn [app sequence] in E. destruct r as [x|]; [|discriminate]. cbn [rbind] in E.
    destruct (sequence (a ++ b)) as [l'|] eqn:E'; [|discriminate]. inversion E; subst.
    destruct (IH l' eq_refl) as (la & lb & -> & E1 & E2). exists (x :: la), lb. cbn [sequence rbind]. rewrite E1. auto.
Qed.
Lemma sequence_Forall2 {A B} (f : A -> result B) l l' : sequence (map f l) = Ok l' -> Forall2 (fun a b => f a = Ok b) l l'.
Proof.
  revert l'. induction l as [|a l IH]; intros l' E; cbn [map sequence] in E; [inversion E; constructor|].
  destruct (f a) eqn:Ea; [|discriminate]. cbn [rbind] in E. destruct (sequence (map f l)) eqn:El; [|discriminate].
  inversion E; subst. constructor; auto.
Qed.
Lemma Forall2_len {A B} (R : A -> B -> Prop) l l' : Forall2 R l l' -> length l = length l'.
Proof. induction 1; cbn; congruence. Qed.
Lemma Forall2_sequence {A B} (f : A -> result B) l l' : Forall2 (fun a b => f a = Ok b) l l' -> sequence (map f l) = Ok l'.
Proof. induction 1 as [|a b l l' E F IH]; [reflexivity|]. cbn [map sequence]. rewrite E. cbn [rbind]. rewrite IH. reflexivity. Qed.
Lemma Forall2_nth {A B} (R : A -> B -> Prop) l l' : Forall2 R l l' ->
  forall i a, nth_error l i = Some a -> exists b, nth_error l' i = Some b /\ R a b.
Proof. induction 1 as [|a b l l' E F IH]; intros i x N; [destruct i; discriminate|]. destruct i; cbn in *; [inversion N; subst; eauto|eauto]. Qed.

(** ** The combiners of a configuration *)
Definition n_errors (ms : list metric) (bounds : list (option Q * option Q)) : nat :=
  (if has SUM ms then length bounds else 0) + (if has COUNT ms then 1 else 0) + (if has PRIVACY_ID_COUNT ms then 1 else 0).

Definition errors_shape (c : acombiner) : Prop :=
  match c with ASum _ _ _ _ | ACount _ _ | APid _ => True | _ => False end.

Lemma sum_combiners_shape u bounds l : bounds <> [] -> sequence (sum_combiners u bounds) = Ok l ->
  exists l0, u_l0 u = Some l0 /\ sums_wanted l0 bounds l /\ length l = length bounds /\ Forall errors_shape l.
Proof.
  intros N E. unfold sum_combiners in E. apply sequence_Forall2 in E.
  destruct (u_l0 u) as [l0|] eqn:E0.
  - exists l0. split; [reflexivity|]. unfold sums_wanted. split; [|split].
    + induction E as [|[i [lo hi]] c ib cs Ec F IH]; constructor.
      * cbn [need rbind fst snd] in Ec. destruct lo as [lo|]; [|discriminate]. destruct hi as [hi|]; [|discriminate].
        cbn in Ec. inversion Ec. exists lo, hi. cbn. auto.
      * exact IH.
    + apply Forall2_len in E. rewrite combine_length, seq_length in E. lia.
    + clear N. induction E as [|[i [lo hi]] c ib cs Ec F IH]; constructor.
      * cbn [need rbind fst snd] in Ec. destruct lo as [lo|]; [|discriminate]. destruct hi as [hi|]; [|discriminate].
        cbn in Ec. inversion Ec. exact I.
      * exact IH.
  - destruct bounds as [|b bounds]; [congruence|]. cbn [length seq combine] in E. inversion E. discriminate.
Qed.

Lemma config_combiners_shape public ms u bounds chunk : bounds <> [] -> config_combiners public ms (u, bounds) = Ok chunk ->
  exists errs, errors_wanted ms u bounds errs /\ Forall errors_shape errs /\ length errs = n_errors ms bounds /\
    if public then chunk = errs else exists l0, u_l0 u = Some l0 /\ chunk = ASelect l0 :: errs.
Proof.
  intros N E. unfold config_combiners in E.
  apply sequence_app_ok in E. destruct E as (sel & rest & -> & Es & E).
  apply sequence_app_ok in E. destruct E as (sums & rest2 & -> & Esum & E).
  apply sequence_app_ok in E. destruct E as (counts & pids & -> & Ec & Ep).
  exists (sums ++ counts ++ pids).
  assert (A : (if has SUM ms then exists l0, u_l0 u = Some l0 /\ sums_wanted l0 bounds sums else sums = []) /\
              Forall errors_shape sums /\ length sums = (if has SUM ms then length bounds else 0%nat)).
  { destruct (has SUM ms).
    - destruct (sum_combiners_shape _ _ _ N Esum) as (l0 & X & Y & Z1 & Z2). split; [exists l0; auto|auto].
    - inversion Esum. repeat split. constructor. }
  assert (B : (if has COUNT ms then exists linf l0, u_linf u = Some linf /\ u_l0 u = Some l0 /\ counts = [ACount linf l0] else counts = []) /\
              Forall errors_shape counts /\ length counts = (if has COUNT ms then 1 else 0)%nat).
  { destruct (has COUNT ms).
    - destruct (u_linf u) as [linf|]; [|discriminate]. destruct (u_l0 u) as [l0|]; [|discriminate]. cbn in Ec. inversion Ec; subst.
      split; [exists linf, l0; auto|]. split; [repeat constructor|reflexivity].
    - inversion Ec. repeat split. constructor. }
  assert (C : (if has PRIVACY_ID_COUNT ms then exists l0, u_l0 u = Some l0 /\ pids = [APid l0] else pids = []) /\
              Forall errors_shape pids /\ length pids = (if has PRIVACY_ID_COUNT ms then 1 else 0)%nat).
  { destruct (has PRIVACY_ID_COUNT ms).
    - destruct (u_l0 u) as [l0|]; [|discriminate]. cbn in Ep. inversion Ep; subst.
      split; [exists l0; auto|]. split; [repeat constructor|reflexivity].
    - inversion Ep. repeat split. constructor. }
  destruct A as (A1 & A2 & A3), B as (B1 & B2 & B3), C as (C1 & C2 & C3).
  split; [exists sums, counts, pids; auto|]. split; [apply Forall_app; split; [exact A2|apply Forall_app; auto]|].
  split; [rewrite !app_length, A3, B3, C3; unfold n_errors; lia|].
  destruct public; [inversion Es; reflexivity|]. destruct (u_l0 u) as [l0|] eqn:E0; [|discriminate]. cbn in Es. inversion Es; subst.
  exists l0. auto.
Qed.

(** ** The number of columns is the same for all configurations *)
Lemma common_len_spec l n x : common_len l = Some n -> In x l -> length x = n.
Proof.
  destruct l as [|a l]; [discriminate|]. cbn [common_len]. destruct (forallb _ l) eqn:F; [|discriminate]. intro E. inversion E; subst.
  rewrite forallb_forall in F. intros [<-|I]; [reflexivity|]. apply Nat.eqb_eq, F, I.
Qed.
Lemma mconfig_size_spec c n : mconfig_size c = Ok n ->
  (forall m, In m (mconfig_sizes c) -> m = n) /\ (1 <= n)%nat /\ columns_ok (mc_bounds c) = true.
Proof.
  unfold mconfig_size. destruct (mconfig_sizes c) as [|n0 sizes] eqn:E; [discriminate|]. unfold raise_if.
  destruct (forallb (Nat.eqb n0) sizes) eqn:F; cbn [negb]; [|discriminate].
  destruct (Bool.eqb _ _); cbn [negb]; [|discriminate]. destruct (columns_ok _); cbn [negb]; [|discriminate].
  intro X. inversion X; subst n. split; [|split; [|reflexivity]].
  - intros m [<-|I]; [reflexivity|]. rewrite forallb_forall in F. symmetry. apply Nat.eqb_eq, F, I.
  - assert (G : forall (A : Type) (len : A -> nat) o m, In m (olen len o) -> (1 <= m)%nat).
    { clear. intros A len [a|] m I; [|destruct I]. cbn in I. destruct (Nat.eqb_spec (len a) 0); [destruct I|]. destruct I as [<-|[]]. lia. }
    assert (I : In n0 (mconfig_sizes c)) by (rewrite E; left; reflexivity).
    unfold mconfig_sizes, config_sizes in I. rewrite !in_app_iff in I.
    destruct I as [[I|[I|[I|I]]]|[I|I]]; exact (G _ _ _ _ I).
Qed.

Lemma sum_bounds_length p c i j a b : columns_ok c = true ->
  sum_bounds_at p c i = Ok a -> sum_bounds_at p c j = Ok b -> length a = length b.
Proof.
  intros C Ea Eb. unfold sum_bounds_at in *. destruct (c_min_sum c) as [[[|x mins]|[|x mins]]|] eqn:Em;
    try (inversion Ea; inversion Eb; reflexivity).
  - assert (G : forall i a, match nth_error (x :: mins) i with
        | Some a0 => match c_max_sum c with
                     | Some (Flat maxs) => match nth_error maxs i with Some b0 => Ok [(Some a0, Some b0)] | None => Err IndexError end
                     | _ => Err TypeError end
        | None => Err IndexError end = Ok a -> length a = 1%nat).
    { clear. intros i a E. destruct (nth_error _ i); [|discriminate]. destruct (c_max_sum c) as [[maxs|]|]; try discriminate.
      destruct (nth_error maxs i); [|discriminate]. inversion E. reflexivity. }
    rewrite (G _ _ Ea), (G _ _ Eb). reflexivity.
  - unfold columns_ok in C. rewrite Em in C. destruct (c_max_sum c) as [[maxs|maxs]|].
    + destruct (nth_error (x :: mins) i); discriminate.
    + destruct (common_len (x :: mins)) as [n1|] eqn:E1; [|discriminate]. destruct (common_len maxs) as [n2|] eqn:E2; [|discriminate].
      apply Nat.eqb_eq in C. subst n2.
      assert (G : forall i a, match nth_error (x :: mins) i with
        | Some a0 => match nth_error maxs i with
                     | Some b0 => Ok (map (fun xy => (Some (fst xy), Some (snd xy))) (combine a0 b0)) | None => Err IndexError end
        | None => Err IndexError end = Ok a -> length a = n1).
      { intros i' a' E. destruct (nth_error (x :: mins) i') as [v|] eqn:N1; [|discriminate]. destruct (nth_error maxs i') as [w|] eqn:N2; [|discriminate].
        inversion E. rewrite map_length, combine_length, (common_len_spec _ _ _ E1 (nth_error_In _ _ N1)), (common_len_spec _ _ _ E2 (nth_error_In _ _ N2)). lia. }
      rewrite (G _ _ Ea), (G _ _ Eb). reflexivity.
    + destruct (nth_error (x :: mins) i); discriminate.
Qed.

Lemma params_at_bounds p c i ub : params_at p c i = Ok ub -> sum_bounds_at p (mc_bounds c) i = Ok (snd ub).
Proof.
  unfold params_at. intro E. destruct (override (max_partitions_contributed p) Some _ i); [|discriminate].
  destruct (override (max_contributions_per_partition p) Some _ i); [|discriminate].
  destruct (override (noise_kind p) _ _ i); [|discriminate]. destruct (override (partition_selection_strategy p) _ _ i); [|discriminate].
  cbn [rbind] in E. destruct (sum_bounds_at p (mc_bounds c) i); [|discriminate]. inversion E. reflexivity.
Qed.
Lemma all_params_spec o ps : config_valid o -> all_params o = Ok ps ->
  length ps = n_configurations o /\ (1 <= n_configurations o)%nat /\ forall x y, In x ps -> In y ps -> length (snd x) = length (snd y).
Proof.
  unfold config_valid, all_params, n_configurations. destruct (o_config o) as [[c n]|].
  - intros V E. apply sequence_Forall2 in E. destruct (mconfig_size_spec _ _ V) as (_ & L & C).
    split; [apply Forall2_len in E; rewrite seq_length in E; lia|]. split; [exact L|].
    assert (G : forall x, In x ps -> exists i, sum_bounds_at (o_params o) (mc_bounds c) i = Ok (snd x)).
    { clear -E. induction E as [|i x l l' Ex F IH]; intros y [].
      - subst y. exists i. apply params_at_bounds. exact Ex.
      - apply IH. assumption. }
    intros x y Ix Iy. destruct (G x Ix) as [i Ei], (G y Iy) as [j Ej]. exact (sum_bounds_length _ _ _ _ _ _ C Ei Ej).
  - intros _ E. inversion E; subst. split; [reflexivity|]. split; [lia|]. intros x y [<-|[]] [<-|[]]. reflexivity.
Qed.
Lemma strategies_length o : config_valid o ->
  (forall c n, o_config o = Some (c, n) -> mc_strategy c <> Some []) -> length (strategies o) = n_configurations o.
Proof.
  unfold config_valid, strategies, n_configurations. destruct (o_config o) as [[c n]|]; [|reflexivity].
  intros V N. destruct (mc_strategy c) as [l|] eqn:E; [|apply repeat_length].
  destruct (mconfig_size_spec _ _ V) as (S & _). apply S. unfold mconfig_sizes. rewrite !in_app_iff. right. right. rewrite E. cbn.
  destruct l as [|x l]; [exfalso; exact (N c n eq_refl E)|]. left. reflexivity.
Qed.

(** ** One row *)
Definition umetrics_from (root : Q -> Q) (std : nat -> Q) (j : nat) (items : list (noise * acombiner)) (ms : list ametric) : list umetric :=
  map (fun jx => to_umetric root (std (fst jx)) (fst (fst (snd jx))) (snd (fst (snd jx))) (snd (snd jx)))
      (combine (seq j (length items)) (combine items ms)).
Definition specs_from (keeps : nat -> Z -> Q) (approx : moments -> Z * list Q) (ds : list pre) (j : nat) (cs : list acombiner) (ms : list ametric) : Prop :=
  Forall2 (fun jc m => metric_spec (keeps (fst jc)) approx (snd jc) ds m) (combine (seq j (length cs)) cs) ms.

Lemma combine_app {A B} (a a' : list A) (b b' : list B) : length a = length b ->
  combine (a ++ a') (b ++ b') = combine a b ++ combine a' b'.
Proof.
  revert b. induction a as [|x a IH]; intros [|y b] L; cbn in *; try discriminate; [reflexivity|]. rewrite IH by lia. reflexivity.
Qed.
Lemma umetrics_app root std j a b ma mb : length a = length ma ->
  umetrics_from root std j (a ++ b) (ma ++ mb) = umetrics_from root std j a ma ++ umetrics_from root std (j + length a) b mb.
Proof.
  intro L. unfold umetrics_from. rewrite app_length, seq_app, combine_app by exact L.
  rewrite combine_app by (rewrite seq_length, combine_length; lia). rewrite map_app. reflexivity.
Qed.
Lemma specs_app keeps approx ds j a b ms : specs_from keeps approx ds j (a ++ b) ms ->
  exists ma mb, ms = ma ++ mb /\ length ma = length a /\ specs_from keeps approx ds j a ma /\ specs_from keeps approx ds (j + length a) b mb.
Proof.
  unfold specs_from. rewrite app_length, seq_app, combine_app by apply seq_length. intro F.
  apply Forall2_app_inv_l in F. destruct F as (ma & mb & F1 & F2 & ->). exists ma, mb. split; [reflexivity|].
  split; [apply Forall2_len in F1; rewrite combine_length, seq_length in F1; lia|]. auto.
Qed.
Lemma specs_nth keeps approx ds cs : forall j ms, length ms = length cs ->
  (forall i c, nth_error cs i = Some c -> exists m, nth_error ms i = Some m /\ metric_spec (keeps (j + i)%nat) approx c ds m) ->
  specs_from keeps approx ds j cs ms.
Proof.
  unfold specs_from. induction cs as [|c cs IH]; intros j ms L H; destruct ms as [|m ms]; try discriminate; [constructor|].
  cbn [length seq combine]. constructor.
  - destruct (H 0%nat c eq_refl) as [m' [E S]]. inversion E; subst. rewrite Nat.add_0_r in S. exact S.
  - apply IH; [cbn in L; lia|]. intros i c' N. destruct (H (S i) c' N) as [m' [E Sp]]. exists m'. split; [exact E|].
    replace (S j + i)%nat with (j + S i)%nat by lia. exact Sp.
Qed.

Lemma error_metric keep approx c ds m : errors_shape c -> metric_spec keep approx c ds m ->
  exists s, m = MSum s /\ forall keep' approx', metric_spec keep' approx' c ds (MSum s).
Proof.
  destruct c; intros []; cbn [metric_spec].
  - intros [vs [E M]]. destruct m as [| |s]; cbn [metric_eq] in M; try contradiction. exists s. split; [reflexivity|]. intros. exists vs. auto.
  - intros M. destruct m as [| |s]; cbn [metric_eq] in M; try contradiction. exists s. auto.
  - intros M. destruct m as [| |s]; cbn [metric_eq] in M; try contradiction. exists s. auto.
Qed.

Lemma errors_row root std keeps approx ds kind errs : forall j ms, Forall errors_shape errs -> specs_from keeps approx ds j errs ms ->
  exists es, umetrics_from root std j (map (pair kind) errs) ms = map USum es /\
    Forall2 (fun jc e => error_spec root (std (fst jc)) kind ds (snd jc) e) (combine (seq j (length errs)) errs) es.
Proof.
  induction errs as [|c errs IH]; intros j ms Sh F.
  - inversion F; subst. exists []. split; [reflexivity|constructor].
  - unfold specs_from in F. cbn [length seq combine] in F. inversion F as [|? m ? ms' Sc F']; subst. inversion Sh as [|? ? S1 S2]; subst.
    destruct (IH (S j) ms' S2 F') as (es & E & Fe). destruct (error_metric _ _ _ _ _ S1 Sc) as (s & -> & G).
    exists (SumMetrics (aggregation_of c) (a_sum s) (a_min s) (a_max s) (a_l0 s) (root (a_var s)) (std j) kind :: es).
    unfold umetrics_from in *. cbn [map length seq combine fst snd to_umetric]. rewrite E. split; [reflexivity|].
    cbn [length seq combine]. constructor; [|exact Fe]. exists s. cbn. repeat split; auto.
Qed.

Lemma chunk_row root std keeps approx (public : bool) ms c ub ds chunk mets ids count k :
  let sel := if public then 0%nat else 1%nat in
  snd ub <> [] -> k = n_errors ms (snd ub) -> config_combiners public ms ub = Ok chunk ->
  ids = Z.of_nat (length ds) -> count = sumZ (map (fun d => fst (fst d)) ds) ->
  specs_from keeps approx ds (1 + c * (sel + k)) chunk mets ->
  let row := umetrics_from root std (1 + c * (sel + k)) (map (pair (u_noise (fst ub))) chunk) mets in
  length chunk = (sel + k)%nat /\ chunk_ok public k row /\ partition_spec root std keeps approx public ms c ub ds (chunk_metrics ids count row).
Proof.
  intros sel N -> E -> -> F row. destruct ub as [u bounds]. cbn [fst snd] in *.
  destruct (config_combiners_shape _ _ _ _ _ N E) as (errs & W & Sh & L & C).
  unfold partition_spec, chunk_metrics. cbn [pm_ids pm_count pm_keep pm_errors fst snd]. fold sel. destruct public.
  - subst chunk. destruct (errors_row root std keeps approx ds (u_noise u) errs _ _ Sh F) as (es & Er & Fe).
    assert (Ln : length es = length errs).
    { apply Forall2_len in Fe. rewrite combine_length, seq_length in Fe. lia. }
    split; [unfold sel; lia|]. subst row. rewrite Er. split.
    + exists es. split; [lia|reflexivity].
    + split; [reflexivity|]. split; [reflexivity|]. exists errs. split; [exact W|]. rewrite keep_USum, errors_of_USum, L. split; [reflexivity|].
      unfold sel. rewrite <- L, Nat.add_0_r. rewrite <- L in Fe. exact Fe.
  - destruct C as (l0 & E0 & ->). unfold specs_from in F. cbn [length seq combine] in F. inversion F as [|? m ? mets' Sc F']; subst mets. subst.
    assert (F2 : specs_from keeps approx ds (S (1 + c * (sel + n_errors ms bounds))) errs mets') by exact F'.
    destruct (errors_row root std keeps approx ds (u_noise u) errs _ _ Sh F2) as (es & Er & Fe).
    assert (Ln : length es = length errs).
    { apply Forall2_len in Fe. rewrite combine_length, seq_length in Fe. lia. }
    assert (M : exists p, m = MKeep p).
    { cbn [snd fst] in Sc. clear -Sc. destruct m as [i n|p|s]; [exfalso|exists p; reflexivity|exfalso]; cbn in Sc; revert Sc;
        match goal with |- (if ?b then _ else _) -> _ => destruct b end; auto. }
    destruct M as [p ->]. subst row.
    assert (R : umetrics_from root std (1 + c * (sel + n_errors ms bounds)) (map (pair (u_noise u)) (ASelect l0 :: errs)) (MKeep p :: mets') =
                UKeep p :: map USum es).
    { unfold umetrics_from in *. cbn [map length seq combine fst snd to_umetric]. rewrite Er. reflexivity. }
    rewrite R. split; [cbn; unfold sel; lia|]. split.
    + exists es. split; [lia|]. exists p. reflexivity.
    + split; [reflexivity|]. split; [reflexivity|]. exists errs. split; [exact W|]. cbn [keep_probability].
      change (errors_of (UKeep p :: map USum es)) with (errors_of (map USum es)). rewrite errors_of_USum, L.
      split; [exists l0; split; [exact E0|exact Sc]|]. unfold sel in *. rewrite <- L in *.
      replace (1 + c * (1 + length errs) + 1)%nat with (S (1 + c * (1 + length errs))) by lia. exact Fe.
Qed.

Lemma chunks_rows root std keeps approx (public : bool) ms ds ids count k : forall ps chunks c mets,
  let sel := if public then 0%nat else 1%nat in
  Forall (fun ub => snd ub <> []) ps -> Forall (fun ub => k = n_errors ms (snd ub)) ps ->
  Forall2 (fun ub chunk => config_combiners public ms ub = Ok chunk) ps chunks ->
  ids = Z.of_nat (length ds) -> count = sumZ (map (fun d => fst (fst d)) ds) ->
  specs_from keeps approx ds (1 + c * (sel + k)) (concat chunks) mets ->
  exists rows,
    umetrics_from root std (1 + c * (sel + k)) (concat (map (fun uc => map (pair (u_noise (fst (fst uc)))) (snd uc)) (combine ps chunks))) mets = concat rows /\
    Forall (chunk_ok public k) rows /\
    Forall2 (fun ic row => partition_spec root std keeps approx public ms (fst ic) (snd ic) ds (chunk_metrics ids count row))
            (combine (seq c (length ps)) ps) rows.
Proof.
  intros ps. induction ps as [|ub ps IH]; intros chunks c mets sel N K F Ei Ec S; inversion F as [|? chunk ? chunks' Fc F']; subst chunks; subst.
  - exists []. cbn. repeat split; constructor.
  - cbn [concat combine map fst snd] in *. apply specs_app in S. destruct S as (ma & mb & -> & Lm & S1 & S2).
    inversion N as [|? ? N1 N2]; subst. inversion K as [|? ? K1 K2]; subst.
    destruct (chunk_row root std keeps approx public ms c ub ds chunk ma _ _ _ N1 eq_refl Fc eq_refl eq_refl S1) as (L & O & P).
    rewrite umetrics_app by (rewrite map_length; lia).
    assert (EQ : (1 + c * (sel + n_errors ms (snd ub)) + length chunk)%nat = (1 + S c * (sel + n_errors ms (snd ub)))%nat) by (unfold sel in *; rewrite L; lia).
    rewrite map_length. rewrite EQ in S2 |- *.
    destruct (IH chunks' (S c) mb N2 K2 F' eq_refl eq_refl S2) as (rows & E & R1 & R2). fold sel in E.
    eexists (_ :: rows). cbn [concat length seq combine]. rewrite E. split; [reflexivity|]. split; constructor; auto.
Qed.

(** ** All partitions *)
Lemma combine_snd_items ps (chunks : list (list acombiner)) : length ps = length chunks ->
  map snd (items_of ps chunks) = ARaw :: concat chunks.
Proof.
  intro L. unfold items_of. cbn [map snd]. f_equal. revert chunks L. induction ps as [|u ps IH]; intros [|c chunks] L; try discriminate; [reflexivity|].
  cbn [combine map concat snd]. rewrite map_app, IH by (cbn in L; lia). f_equal. rewrite map_map. cbn. apply map_id.
Qed.

Lemma one_row root std keeps approx public ms k ps chunks t :
  numeric approx -> Forall (fun ub => snd ub <> []) ps -> Forall (fun ub => k = n_errors ms (snd ub)) ps ->
  Forall2 (fun ub chunk => config_combiners public ms ub = Ok chunk) ps chunks -> (1 <= length ps)%nat ->
  Forall (shape_ok (leaves t)) (ARaw :: concat chunks) ->
  exists row pms, partition_row root std keeps approx (items_of ps chunks) t = Ok row /\ pack (length ps) row = Ok pms /\
    metrics_ok (length ps) k pms /\
    Forall2 (fun ic pm => partition_spec root std keeps approx public ms (fst ic) (snd ic) (given (leaves t)) pm) (combine (seq 0 (length ps)) ps) pms.
Proof.
  intros Nu N K F Lp Sh. unfold partition_row. rewrite combine_snd_items by exact (Forall2_len _ _ _ F).
  destruct (C41_metrics_of_the_data keeps approx (ARaw :: concat chunks) t Nu Sh) as (mets & E & L & S). rewrite E. cbn [rmap].
  destruct mets as [|m0 mets]; [discriminate|].
  destruct (S 0%nat ARaw eq_refl) as (m & Em & Sm). inversion Em; subst m. cbn [metric_spec] in Sm.
  destruct m0 as [ids count| |]; cbn [metric_eq] in Sm; try contradiction. destruct Sm as [-> ->].
  assert (Sp : specs_from keeps approx (given (leaves t)) 1 (concat chunks) mets).
  { apply specs_nth; [cbn in L; lia|]. intros i c Nc. exact (S (1 + i)%nat c Nc). }
  destruct (chunks_rows root std keeps approx public ms (given (leaves t)) _ _ k ps chunks 0 mets N K F eq_refl eq_refl Sp) as (rows & Er & R1 & R2).
  assert (Lr : length rows = length ps).
  { apply Forall2_len in R2. rewrite combine_length, seq_length in R2. lia. }
  exists (URaw (Z.of_nat (length (given (leaves t)))) (sumZ (map (fun d => fst (fst d)) (given (leaves t)))) :: concat rows).
  eexists. split.
  - change (umetrics root std (items_of ps chunks) (MRaw (Z.of_nat (length (given (leaves t)))) (sumZ (map (fun d => fst (fst d)) (given (leaves t)))) :: mets))
      with (URaw (Z.of_nat (length (given (leaves t)))) (sumZ (map (fun d => fst (fst d)) (given (leaves t)))) ::
            umetrics_from root std 1 (concat (map (fun uc => map (pair (u_noise (fst (fst uc)))) (snd uc)) (combine ps chunks))) mets).
    cbn [Nat.add Nat.mul] in Er. rewrite Er. reflexivity.
  - split; [apply (pack_row public k); auto|]. split.
    + unfold metrics_ok. split; [rewrite map_length; exact Lr|]. split.
      * intros m I. apply in_map_iff in I. destruct I as (ch & <- & I). rewrite Forall_forall in R1. destruct (R1 ch I) as (es & Le & C).
        cbn [chunk_metrics pm_errors]. destruct public; [subst ch; rewrite errors_of_USum; exact Le|]. destruct C as [p ->].
        change (errors_of (UKeep p :: map USum es)) with (errors_of (map USum es)). rewrite errors_of_USum. exact Le.
      * exists (Z.of_nat (length (given (leaves t)))). split; [lia|]. intros m I. apply in_map_iff in I. destruct I as (ch & <- & I). reflexivity.
    + clear -R2. induction R2; cbn [map]; constructor; auto.
Qed.

Lemma metrics_of_lemma {K} root std keeps approx public o ps chunks (data : list (K * tree (option pre))) k :
  numeric approx -> all_params o = Ok ps -> n_configurations o = length ps -> (1 <= length ps)%nat ->
  Forall2 (fun ub chunk => config_combiners public (metrics (o_params o)) ub = Ok chunk) ps chunks ->
  Forall (fun ub => snd ub <> []) ps -> Forall (fun ub => k = n_errors (metrics (o_params o)) (snd ub)) ps ->
  (forall kt, In kt data -> Forall (shape_ok (leaves (snd kt))) (ARaw :: concat chunks)) ->
  exists pk, metrics_of root std keeps approx public o data = Ok pk /\
    Forall2 (fun kt kv => fst kv = fst kt /\ metrics_ok (length ps) k (snd kv) /\
       Forall2 (fun ic pm => partition_spec root std keeps approx public (metrics (o_params o)) (fst ic) (snd ic) (given (leaves (snd kt))) pm)
               (combine (seq 0 (length ps)) ps) (snd kv)) data pk.
Proof.
  intros Nu Ep En Lp F N Kk Sh. unfold metrics_of, all_items. rewrite Ep. cbn [rbind].
  rewrite (Forall2_sequence _ _ _ F). cbn [rmap rbind]. rewrite En.
  assert (G : exists rows pk,
      Forall2 (fun kt row => rmap (pair (fst kt)) (partition_row root std keeps approx (items_of ps chunks) (snd kt)) = Ok row) data rows /\
      Forall2 (fun (row : K * list umetric) kv => rmap (pair (fst row)) (pack (length ps) (snd row)) = Ok kv) rows pk /\
      Forall2 (fun kt kv => fst kv = fst kt /\ metrics_ok (length ps) k (snd kv) /\
       Forall2 (fun ic pm => partition_spec root std keeps approx public (metrics (o_params o)) (fst ic) (snd ic) (given (leaves (snd kt))) pm)
               (combine (seq 0 (length ps)) ps) (snd kv)) data pk).
  { induction data as [|[key t] data IH].
    - exists [], []. repeat split; constructor.
    - destruct IH as (rows & pk & A & B & C); [intros kt I; apply Sh; right; exact I|].
      destruct (one_row root std keeps approx public _ k ps chunks t Nu N Kk F Lp (Sh _ (or_introl eq_refl))) as (row & pms & R1 & R2 & R3 & R4).
      exists ((key, row) :: rows), ((key, pms) :: pk). split; [|split]; constructor; auto; cbn [fst snd].
      + rewrite R1. reflexivity.
      + rewrite R2. reflexivity. }
  destruct G as (rows & pk & A & B & C). exists pk. split; [|exact C].
  rewrite (Forall2_sequence _ _ _ A). cbn [rbind]. unfold packed. apply (Forall2_sequence (fun kv => rmap (pair (fst kv)) (pack (length ps) (snd kv)))). exact B.
Qed.
