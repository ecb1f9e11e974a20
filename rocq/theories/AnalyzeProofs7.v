(** Lemmas for C64: the reports of the analysis. *)
From Coq Require Import List ZArith QArith Qreals Reals Bool Permutation Lia Lqa Lra.
From Verif Require Import Base BaseLemmas BackendModel BackendSpec ListLemmas BackendProofs BounderModel BounderSpec BounderProofs
  ParamsModel SensModel CombinerModel CombinerSpec EngineModel EngineSpec EngineProofs EngineProofs2 EngineProofs3
  VectorModel LaplaceSpec SelectModel SelectSpec DistSpec DistProofs HistModel HistProofs4 TuningModel TuningProofs
  AnalysisModel AnalysisSpec AnalysisProofs AnalysisProofs2 CrossModel UtilityModel UtilitySpec UtilityProofs3
  AnalyzeModel AnalyzeSpec AnalyzeProofs AnalyzeProofs2 AnalyzeProofs3 AnalyzeProofs4 AnalyzeProofs5 AnalyzeProofs6.
Import ListNotations.
Local Open Scope R_scope.

Lemma one_column {A} (l : list A) : length l = 1%nat -> exists x, l = [x].
Proof. destruct l as [|x [|y l]]; try discriminate. intros _. exists x. reflexivity. Qed.

Lemma wanted_errors ms u bounds errs l0 linf : simple_metrics ms -> errors_wanted ms u bounds errs -> length bounds = 1%nat ->
  u_l0 u = Some l0 -> u_linf u = Some linf ->
  exists lo hi, (has SUM ms = true -> bounds = [(Some lo, Some hi)]) /\
  (forall c, In c errs -> exists m, has m ms = true /\ aggregation_of c = m /\ c = acombiner_for m linf l0 lo hi) /\
  (forall m, has m ms = true -> exists c, In c errs /\ aggregation_of c = m).
Proof.
  intros Sm (sums & counts & pids & -> & A & B & C) L E0 El.
  assert (X : exists lo hi, (has SUM ms = true -> bounds = [(Some lo, Some hi)] /\ sums = [ASum lo hi l0 None])).
  { destruct (has SUM ms); [|exists 0%Q, 0%Q; discriminate]. destruct A as (l0' & E0' & W). assert (l0' = l0) by congruence. subst l0'.
    destruct (one_column _ L) as [b ->]. unfold sums_wanted in W. cbn [length seq combine] in W.
    inversion W as [|? c ? cs (lo & hi & Eb & Ec) W']; subst. inversion W'; subst. cbn [snd fst] in Eb. subst b.
    exists lo, hi. intros _. split; reflexivity. }
  destruct X as (lo & hi & X). exists lo, hi. split; [intro Hs; apply X; exact Hs|]. split.
  - intros c I. apply in_app_or in I. destruct I as [I|I]; [|apply in_app_or in I; destruct I as [I|I]].
    + destruct (has SUM ms) eqn:Hs; [|subst sums; destruct I]. destruct (X eq_refl) as [_ ->]. destruct I as [<-|[]].
      exists SUM. split; [exact Hs|]. split; reflexivity.
    + destruct (has COUNT ms) eqn:Hs; [|subst counts; destruct I]. destruct B as (linf' & l0' & B1 & B2 & ->). destruct I as [<-|[]].
      exists COUNT. split; [exact Hs|]. split; [reflexivity|]. cbn. congruence.
    + destruct (has PRIVACY_ID_COUNT ms) eqn:Hs; [|subst pids; destruct I]. destruct C as (l0' & C1 & ->). destruct I as [<-|[]].
      exists PRIVACY_ID_COUNT. split; [exact Hs|]. split; [reflexivity|]. cbn. congruence.
  - intros m Hm. destruct (only_has m _ Sm Hm) as [->|[->| ->]].
    + rewrite Hm in B. destruct B as (linf' & l0' & B1 & B2 & ->). exists (ACount linf' l0'). split; [|reflexivity].
      apply in_or_app. right. left. reflexivity.
    + destruct (X Hm) as [_ ->]. exists (ASum lo hi l0 None). split; [left; reflexivity | reflexivity].
    + rewrite Hm in C. destruct C as (l0' & C1 & ->). exists (APid l0'). split; [|reflexivity].
      apply in_or_app. right. apply in_or_app. right. left. reflexivity.
Qed.

Lemma Forall2_In_r {A B} (R : A -> B -> Prop) l l' b : Forall2 R l l' -> In b l' -> exists a, In a l /\ R a b.
Proof. induction 1; intros []; [subst; exists x; split; [left; reflexivity | assumption]|]. destruct (IHForall2 H1) as (a & I & Ra). exists a. split; [right; exact I | exact Ra]. Qed.
Lemma Forall2_In_l {A B} (R : A -> B -> Prop) l l' a : Forall2 R l l' -> In a l -> exists b, In b l' /\ R a b.
Proof. induction 1; intros []; [subst; exists y; split; [left; reflexivity | assumption]|]. destruct (IHForall2 H1) as (b & I & Ra). exists b. split; [right; exact I | exact Ra]. Qed.
Lemma in_combine_seq {A} s (l : list A) x : In x l -> exists j, In (j, x) (combine (seq s (length l)) l).
Proof.
  revert s. induction l as [|y l IH]; intros s I; [destruct I|]. cbn [length seq combine]. destruct I as [->|I].
  - exists s. left. reflexivity.
  - destruct (IH (S s) I) as [j J]. exists j. right. exact J.
Qed.

Section Report.
Context {U P : Type} `{EqDec U} `{EqDec P}.
Implicit Types rows : list (U * P * value).

(** What is said about the metrics [pm] of partition [k] for the configuration [ub] with
    number [c]. *)
Lemma partition_predicted root std keeps approx public (p0 : params) c ub rows k ds ids pm D :
  let p := with_config p0 ub in
  let rows1 := counted p0 public rows in
  let cross := perform_cross_partition_contribution_bounding p0 in
  simple_metrics (metrics p0) -> length (snd ub) = 1%nat ->
  post_aggregation_thresholding p0 = false -> contribution_bounds_already_enforced p0 = false ->
  partition_spec root std keeps approx (is_some public) (metrics p0) c ub ds pm ->
  Permutation ids (ids_of k rows1) -> Forall2 (data_spec cross rows1 k) ids ds ->
  accepted p -> (exists cs, create_compound_combiner p = Ok cs) -> u_l0 (fst ub) <> None -> uniform_sampling p rows1 D ->
  (forall m, has m (metrics p0) = true -> exists e, In e (pm_errors pm) /\ sm_aggregation e = m) /\
  (forall e, In e (pm_errors pm) -> predictable (metrics p0) public (snd ub) (sm_aggregation e) ->
     exists v, sm_l0_std e = root v /\
       mean D (exact p public rows (sm_aggregation e) k) = Q2R (sm_sum e + sm_min_error e + sm_max_error e + sm_l0_error e) /\
       spread D (exact p public rows (sm_aggregation e) k) = Q2R v) /\
  (public = None -> public_partitions_already_filtered p0 = false -> (pm_ids pm <= 100)%Z ->
   let keep := keeps (1 + c * (1 + length (pm_errors pm)))%nat in
   (forall z, (z <= 0)%Z -> keep z == 0)%Q ->
   forall nz, (forall k i l qs, length (n_quantiles (nz k i) l qs) = length qs) ->
   mixture D (fun sm => aggregate_probability p sm nz (fun z => Q2R (keep z)) [k] (hd false) rows) = Q2R (pm_keep pm)).
Proof.
  intros p rows1 cross Sm L Th Eb Sp Pi F Ha [cs Hcs] N0 Un.
  destruct (u_l0 (fst ub)) as [l0|] eqn:E0; [|congruence]. clear N0.
  assert (E0' : max_partitions_contributed p = Some l0) by exact E0.
  assert (Fa := accepted_facts p Ha). destruct Fa as (_ & Or & _ & Fa).
  assert (Mc : max_contributions p = None) by (destruct (max_contributions p); [destruct Fa as (_ & X & _); congruence | reflexivity]).
  rewrite Mc in Fa. destruct Fa as (l0' & linf & X0 & El & P0 & Pl). assert (l0' = l0) by congruence. subst l0'. clear X0.
  destruct Sp as (Sids & Scount & errs & We & Sel & Fe).
  destruct (wanted_errors _ _ _ _ l0 linf Sm We L E0 El) as (lo & hi & Eb1 & Ein & Eall).
  assert (Bs : has SUM (metrics p) = true -> min_sum_per_partition p = Some lo /\ max_sum_per_partition p = Some hi).
  { intro Hs. specialize (Eb1 Hs). unfold p, with_config. rewrite Eb1. split; reflexivity. }
  split; [|split].
  - intros m Hm. destruct (Eall m Hm) as (comb & I & Ag). destruct (in_combine_seq (1 + c * ((if is_some public then 0 else 1) + length errs) + (if is_some public then 0 else 1))%nat _ _ I) as [j J].
    destruct (Forall2_In_l _ _ _ _ Fe J) as (e & Ie & s & _ & Ag' & _). exists e. split; [exact Ie|]. cbn [snd] in Ag'. congruence.
  - intros e Ie Pr. destruct (Forall2_In_r _ _ _ _ Fe Ie) as ([j comb] & J & s & Ms & Ag & S1 & S2 & S3 & S4 & S5 & _).
    cbn [snd fst] in *. apply in_combine_r in J. destruct (Ein comb J) as (m & Hm & Ag' & Ec).
    assert (Em : sm_aggregation e = m) by congruence. rewrite Em in *. exists (a_var s). split; [exact S5|].
    rewrite S1, S2, S3, S4. subst comb.
    assert (Pr' : m = SUM -> has COUNT (metrics p) = false /\ (public = None \/ (lo <= 0 <= hi)%Q)).
    { intro E. subst m. destruct (Pr E) as [P1 P2]. split; [exact P1|]. destruct P2 as [P2|(lo' & hi' & B1 & B2)]; [left; exact P2|right].
      assert (X : [(Some lo, Some hi)] = [(Some lo', Some hi')]) by (rewrite <- B1; symmetry; apply Eb1; rewrite <- E; exact Hm).
      injection X as -> ->. exact B2. }
    apply (prediction m linf l0 lo hi cross rows1 k ids ds s D (exact p public rows m k)); auto.
    + apply (only_has m (metrics p0)); auto.
    + intros ->. destruct (Bs Hm) as [B1 B2]. rewrite B1, B2 in Or. exact Or.
    + intro G. apply (engine_law p public rows m k cs lo hi l0 linf D); auto.
  - intros -> Fl Li keep K0 nz Hq. cbn [is_some] in *. destruct Sel as (l0' & E0'' & Mk). assert (l0' = l0) by congruence. subst l0'.
    assert (Le : length errs = length (pm_errors pm)).
    { apply Forall2_len in Fe. rewrite combine_length, seq_length in Fe. lia. }
    cbn [metric_spec] in Mk. rewrite Sids in Li. destruct (Nat.leb_spec (length ds) 100) as [_|X]; [|lia].
    cbn [metric_eq] in Mk. rewrite (Qeq_eqR _ _ Mk). rewrite Le in Mk |- *.
    change (keeps (1 + c * (1 + length (pm_errors pm)))%nat) with keep.
    assert (En : map (survival_probability l0) (map snd ds) = map (fun u => survival_probability l0 (Z.of_nat (n_choices cross u rows1))) ids).
    { clear -F. induction F as [|u d ids ds D F IH]; [reflexivity|]. cbn [map]. destruct D as (_ & _ & D). rewrite D, IH. reflexivity. }
    rewrite En. apply (keep_law p rows cs l0 D keep nz k ids); auto.
    intro I. assert (Hv : has VECTOR_SUM (metrics p) = true).
    { unfold has. apply existsb_exists. exists VECTOR_SUM. split; [exact I | reflexivity]. }
    destruct (only_has _ _ Sm Hv) as [?|[?|?]]; discriminate.
Qed.

Lemma shapes_ok public ps chunks ms (t : tree (option pre)) :
  Forall2 (fun ub chunk => config_combiners public ms ub = Ok chunk) ps chunks -> Forall (fun ub => length (snd ub) = 1%nat) ps ->
  (public = false -> given (leaves t) <> []) -> (forall d, In d (given (leaves t)) -> value_of None d <> None) ->
  Forall (shape_ok (leaves t)) (ARaw :: concat chunks).
Proof.
  intros F L Ng Vo. constructor; [exact I|]. induction F as [|[u bs] chunk ps chunks E F IH]; [constructor|]. inversion L as [|? ? L1 L2]; subst.
  cbn [concat]. apply Forall_app. split; [|apply IH; exact L2]. cbn [snd] in L1.
  assert (Nb : bs <> []) by (destruct bs; [discriminate | congruence]).
  destruct (config_combiners_shape _ _ _ _ _ Nb E) as (errs & (sums & counts & pids & -> & A & B & C) & _ & _ & Ch).
  assert (G : Forall (shape_ok (leaves t)) (sums ++ counts ++ pids)).
  { apply Forall_app. split; [|apply Forall_app; split].
    - destruct (has SUM ms); [|subst; constructor]. destruct A as (l0 & _ & W). destruct (one_column _ L1) as [b ->].
      unfold sums_wanted in W. cbn [length seq combine] in W. inversion W as [|? c ? cs (lo & hi & Eb & Ec) W']; subst. inversion W'; subst.
      constructor; [|constructor]. cbn. split; [exact Vo | congruence].
    - destruct (has COUNT ms); [|subst; constructor]. destruct B as (? & ? & _ & _ & ->). constructor; [exact I|constructor].
    - destruct (has PRIVACY_ID_COUNT ms); [|subst; constructor]. destruct C as (? & _ & ->). constructor; [exact I|constructor]. }
  destruct public; [subst; exact G|]. destruct Ch as (l0 & _ & ->). constructor; [apply Ng; reflexivity | exact G].
Qed.

End Report.
