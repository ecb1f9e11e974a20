(** From the analysis of the candidates to the choice. *)
From Coq Require Import List ZArith QArith Bool Permutation Sorted Lia.
From Verif Require Import Base BaseLemmas ListLemmas BudgetModel ParamsModel BackendModel BackendSpec BounderModel BounderSpec HistModel HistProofs2
  AnalysisModel AnalysisSpec CrossModel CrossSpec CrossProofs CrossProps TuningModel TuningProofs TuningProofs2 TuningProofs3
  UtilityModel UtilitySpec UtilityProofs2 UtilityProofs3 AnalyzeModel TuneModel TuneSpec TuneProofs TuneProofs2.
Import ListNotations.
Local Open Scope Z_scope.

(** *** The combiners of the candidates *)
Definition available (ms : list metric) (ub : uparams * list (option Q * option Q)) : Prop :=
  u_l0 (fst ub) <> None /\ (has COUNT ms = true -> u_linf (fst ub) <> None) /\
  exists lo hi, snd ub = [(lo, hi)] /\ (has SUM ms = true -> lo <> None /\ hi <> None).
Lemma combiners_exist public ms ub : available ms ub -> exists chunk, config_combiners public ms ub = Ok chunk.
Proof.
  destruct ub as [u b]. intros (A & B & lo & hi & E & C). cbn [fst snd] in *. subst b. unfold config_combiners, sum_combiners. cbn [length seq combine map fst snd Nat.eqb].
  destruct (u_l0 u) as [l0|]; [|congruence]. cbn [need rbind rmap].
  destruct (has SUM ms).
  - destruct (C eq_refl) as [C1 C2]. destruct lo as [lo|]; [|congruence]. destruct hi as [hi|]; [|congruence]. cbn [need rbind rmap].
    destruct (has COUNT ms).
    + specialize (B eq_refl). destruct (u_linf u) as [linf|]; [|congruence]. cbn [need rbind rmap].
      destruct public, (has PRIVACY_ID_COUNT ms); eexists; reflexivity.
    + destruct public, (has PRIVACY_ID_COUNT ms); eexists; reflexivity.
  - destruct (has COUNT ms).
    + specialize (B eq_refl). destruct (u_linf u) as [linf|]; [|congruence]. cbn [need rbind rmap].
      destruct public, (has PRIVACY_ID_COUNT ms); eexists; reflexivity.
    + destruct public, (has PRIVACY_ID_COUNT ms); eexists; reflexivity.
Qed.

Lemma wanted_available o h public u b : supported o h public -> wanted_bounds o h u b -> available (metrics (to_params o)) (u, b).
Proof.
  intros Su ((l0 & A & _) & B & C). unfold available. cbn [fst snd]. split; [congruence|]. split.
  - intro Hc. assert (X := sup_linf _ _ _ Su). destruct (tunes_linf o); [destruct B as (x & -> & _); discriminate|]. rewrite B. exact (X Hc).
  - assert (X := sup_sum _ _ _ Su). destruct (tunes_sum o).
    + destruct C as (maxs & hi & _ & _ & ->). exists (Some 0%Q), (Some hi). split; [reflexivity|]. intros _. split; discriminate.
    + rewrite C. do 2 eexists. split; [reflexivity|]. exact X.
Qed.

Lemma Forall2_exists {A B} (R : A -> B -> Prop) l : (forall a, In a l -> exists b, R a b) -> exists l', Forall2 R l l'.
Proof.
  induction l as [|a l IH]; intro H; [exists []; constructor|]. destruct (H a (or_introl eq_refl)) as (b & Rb).
  destruct IH as (l' & F); [intros x Ix; apply H; right; exact Ix|]. exists (b :: l'). constructor; assumption.
Qed.

Lemma options_checked o h public uo : supported o h public ->
  o_eps uo = to_eps o -> o_delta uo = to_delta o -> o_params uo = to_params o ->
  check_options uo (to_sampling o) (to_preaggregated o) false true = Ok tt.
Proof.
  intros Su E1 E2 E3. unfold check_options, validate_epsilon_delta. rewrite E1, E2, E3, (sup_raw _ _ _ Su), (sup_custom _ _ _ Su), (sup_enforced _ _ _ Su), (sup_threshold _ _ _ Su).
  rewrite (only_supported _ (sup_metrics _ _ _ Su)).
  assert (A := sup_eps _ _ _ Su). assert (B := sup_delta _ _ _ Su). assert (C := sup_sampling _ _ _ Su).
  destruct (Qle_bool (to_eps o) 0) eqn:X1; [apply Qle_bool_iff in X1; exfalso; exact (Qlt_not_le _ _ A X1)|].
  destruct (Qle_bool 0 (to_delta o)) eqn:X2; [|destruct B as [B _]; apply Qle_bool_iff in B; congruence]. cbn [negb].
  destruct (Qle_bool 1 (to_delta o)) eqn:X3; [apply Qle_bool_iff in X3; exfalso; exact (Qlt_not_le _ _ (proj2 B) X3)|]. cbn [rbind].
  destruct (Qle_bool (to_sampling o) 0) eqn:X4; [apply Qle_bool_iff in X4; exfalso; exact (Qlt_not_le _ _ (proj1 C) X4)|].
  destruct (Qle_bool (to_sampling o) 1) eqn:X5; [|destruct C as [_ C]; apply Qle_bool_iff in C; congruence]. reflexivity.
Qed.

(** *** The first error of a report *)
Lemma first_error root std keeps approx public ms c ub ds pm :
  Forall (fun m => m = COUNT \/ m = SUM \/ m = PRIVACY_ID_COUNT) ms -> ms <> [] -> length (snd ub) = 1%nat ->
  partition_spec root std keeps approx public ms c ub ds pm ->
  length (pm_errors pm) = n_errors ms (snd ub) /\ (1 <= n_errors ms (snd ub))%nat /\
  sm_aggregation (metric_of 0 pm) = decisive ms /\
  sm_noise_std (metric_of 0 pm) = std (1 + c * ((if public then 0 else 1) + n_errors ms (snd ub)) + (if public then 0 else 1))%nat /\
  sm_noise_kind (metric_of 0 pm) = u_noise (fst ub).
Proof.
  intros M Nm L (_ & _ & errs & (sums & counts & pids & -> & A & B & C) & _ & F).
  assert (Ls : length (sums ++ counts ++ pids) = n_errors ms (snd ub)).
  { rewrite !app_length. unfold n_errors. destruct (has SUM ms); [destruct A as (l0 & _ & W); unfold sums_wanted in W; apply Forall2_len in W; rewrite combine_length, seq_length, Nat.min_id in W|subst sums];
    (destruct (has COUNT ms); [destruct B as (? & ? & _ & _ & ->)|subst counts]; (destruct (has PRIVACY_ID_COUNT ms); [destruct C as (? & _ & ->)|subst pids]; cbn [length]; lia)). }
  assert (First : exists comb rest, sums ++ counts ++ pids = comb :: rest /\ aggregation_of comb = decisive ms).
  { unfold decisive. destruct (has SUM ms) eqn:H1.
    - destruct A as (l0 & _ & W). destruct (snd ub) as [|b0 [|]]; try discriminate L. unfold sums_wanted in W. cbn [length seq combine] in W.
      inversion W as [|? comb ? ? (lo & hi & _ & Ec) W']; subst. inversion W'; subst. eexists. eexists. split; reflexivity.
    - subst sums. destruct (has COUNT ms) eqn:H2.
      + destruct B as (linf & l0 & _ & _ & ->). eexists. eexists. split; reflexivity.
      + subst counts. destruct (has PRIVACY_ID_COUNT ms) eqn:H3.
        * destruct C as (l0 & _ & ->). eexists. eexists. split; reflexivity.
        * exfalso. destruct ms as [|m ms]; [congruence|]. inversion M as [|? ? [-> | [-> | ->]] _]; subst; discriminate. }
  destruct First as (comb & rest & Ef & Ag). set (first := (1 + c * ((if public then 0 else 1) + length (sums ++ counts ++ pids)))%nat) in *.
  assert (Le : length (pm_errors pm) = n_errors ms (snd ub)).
  { apply Forall2_len in F. rewrite combine_length, seq_length, Nat.min_id, Ls in F. symmetry. exact F. }
  split; [exact Le|]. split; [rewrite <- Ls, Ef; cbn; lia|].
  unfold first in F. rewrite Ls, Ef in F. assert (Ln : n_errors ms (snd ub) = S (length rest)) by (rewrite <- Ls, Ef; reflexivity). rewrite Ln in *.
  cbn [length seq combine] in F. inversion F as [|? e ? es Es F' E1 E2]; subst. unfold metric_of. rewrite <- E2. cbn [nth fst snd] in *.
  destruct Es as (s & _ & G1 & _ & _ & _ & _ & _ & G2 & G3). split; [congruence|]. split; assumption.
Qed.

Lemma in_config_metrics_row {K} (pk : list (K * list partition_metrics)) c pm : In pm (config_metrics c pk) <-> exists kv, In kv pk /\ nth_error (snd kv) c = Some pm.
Proof.
  unfold config_metrics. rewrite in_flat_map. split.
  - intros (kv & I & J). exists kv. split; [exact I|]. destruct (nth_error (snd kv) c); [destruct J as [->|[]]; reflexivity|destruct J].
  - intros (kv & I & J). exists kv. split; [exact I|]. rewrite J. left. reflexivity.
Qed.

Lemma report_first_error {K} root n public c s (pk : list (K * list partition_metrics)) k label sd nk r :
  (1 <= n <= k)%nat -> (forall pm, In pm (config_metrics c pk) -> length (pm_errors pm) = k /\
     sm_aggregation (metric_of 0 pm) = label /\ sm_noise_std (metric_of 0 pm) = sd /\ sm_noise_kind (metric_of 0 pm) = nk) ->
  summarises root n public c s (config_metrics c pk) r ->
  exists e rest, r_errors r = Some (e :: rest) /\ mu_metric e = label /\ (ve_rmse (mu_absolute e) == average_rmse root (config_metrics c pk))%Q.
Proof.
  intros Hn H (t & r0 & P & E & _ & Er & _).
  assert (Hl : forall p, In p (leaves t) -> length (pm_errors p) = k) by (intros p Ip; apply H, (Permutation_in _ P), Ip).
  destruct (C56_errors_averaged root n k public pm_keep t Hn Hl) as (r1 & us & E1 & Eu & Lu & F).
  change (cross_report root n public (fun p => Ok (pm_keep p)) t) with (cross_report root n public equal_weight t) in E1.
  rewrite E in E1. injection E1 as <-. destruct us as [|e rest]; [cbn in Lu; lia|]. exists e, rest. split; [congruence|]. split.
  - destruct (C56_labels root n k public pm_keep t r0 (e :: rest) Hn Hl E Eu) as (_ & L). apply (L 0%nat e eq_refl label sd nk).
    intros p Ip. apply H, (Permutation_in _ P), Ip.
  - destruct (F 0%nat e eq_refl Rmse) as [A _]. cbn [get] in A. rewrite A. unfold average_rmse. etransitivity; [apply (average_perm _ _ _ _ P)|]. reflexivity.
Qed.

(** *** Sorting and choosing *)
Lemma sorted_reports us n : Permutation (map (fun u => r_index (ur_report u)) us) (map Z.of_nat (seq 0 n)) ->
  let sorted := sort_by (fun a b => r_index (ur_report a) <=? r_index (ur_report b)) us in
  Permutation sorted us /\ map (fun u => r_index (ur_report u)) sorted = map Z.of_nat (seq 0 n).
Proof.
  intros P sorted. assert (PS : Permutation sorted us) by apply sort_by_Permutation. split; [exact PS|].
  assert (SS : StronglySorted (fun a b => (r_index (ur_report a) <=? r_index (ur_report b)) = true) sorted).
  { apply sort_by_sorted; intros; rewrite ?Z.leb_le in *; lia. }
  apply sorted_seq.
  - clear -SS. induction SS as [|a l Sa IH F]; cbn; [constructor|]. constructor; [exact IH|].
    apply Forall_map. eapply Forall_impl; [|exact F]. intros b Hb. cbn in Hb. apply Z.leb_le. exact Hb.
  - rewrite <- P. apply Permutation_map. exact PS.
Qed.

Lemma argmin_first l : l <> [] -> exists b, argmin l = Ok b /\ first_smallest l b.
Proof.
  destruct l as [|x l]; [congruence|]. intros _. cbn [argmin]. eexists. split; [reflexivity|]. unfold first_smallest.
  destruct (argmin_from_spec l 0%nat x 1%nat) as [[E A]|(j & E & L & B & C & D)]; rewrite E.
  - exists x. split; [reflexivity|]. intros [|i] y Ei; cbn in Ei; [injection Ei as <-; split; [apply Qle_refl|lia]|].
    split; [|lia]. assert (Li : (i < length l)%nat) by (apply nth_error_Some; congruence). specialize (A i Li).
    rewrite (nth_error_nth _ _ 0%Q Ei) in A. exact A.
  - exists (nth j l 0%Q). split; [cbn; apply nth_error_nth'; exact L|]. intros [|i] y Ei; cbn in Ei.
    + injection Ei as <-. split; [apply Qlt_le_weak, B|]. intros _. exact B.
    + assert (Li : (i < length l)%nat) by (apply nth_error_Some; congruence). assert (Ny := nth_error_nth _ _ 0%Q Ei). rewrite <- Ny.
      split; [apply C, Li|]. intro Lt. apply D. lia.
Qed.

Lemma first_smallest_ext l l' b : Forall2 Qeq l l' -> first_smallest l b -> first_smallest l' b.
Proof.
  intros F (e & Ee & H). destruct (UtilityProofs3.Forall2_nth _ _ _ F _ _ Ee) as (e' & Ee' & Q1). exists e'. split; [exact Ee'|].
  intros i x' Ex'. assert (Li : (i < length l)%nat) by (rewrite (Forall2_len _ _ _ F); apply nth_error_Some; congruence).
  destruct (nth_error l i) as [x|] eqn:Ex; [|apply nth_error_None in Ex; lia].
  destruct (UtilityProofs3.Forall2_nth _ _ _ F _ _ Ex) as (x'' & Ex'' & Q2). assert (x'' = x') by congruence. subst x''.
  destruct (H i x Ex) as [A B]. rewrite <- Q1, <- Q2. split; assumption.
Qed.

Lemma sequence_the_report us : sequence (map the_report (map Some us)) = Ok us.
Proof. induction us as [|u us IH]; [reflexivity|]. cbn [map the_report sequence rbind]. rewrite IH. reflexivity. Qed.
