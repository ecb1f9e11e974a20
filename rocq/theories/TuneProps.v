(** Property C67: tune analyses sensible candidates and recommends the one with the
    smallest error. *)
From Coq Require Import List ZArith QArith Bool Permutation Sorted Lia.
From Verif Require Import Base BaseLemmas ListLemmas BudgetModel ParamsModel CombinerModel BackendModel BackendSpec BackendProofs BounderModel BounderSpec BounderProofs
  EngineSpec HistModel AnalysisModel AnalysisSpec CrossModel CrossSpec TuningModel UtilityModel UtilitySpec AnalyzeModel AnalyzeSpec
  TuneModel TuneSpec TuneProofs3 TuneProofs4.
Import ListNotations.
Local Open Scope Z_scope.

(** With supported arguments and something to analyse, tune succeeds. *)
Theorem C67_tune_succeeds :
  forall U P `{EqDec U} `{EqDec P} root std keeps approx orc ceils0 ceils1 hash run h o public (rows : list (U * P * value)),
  numeric approx -> fair run -> supported o h (is_some public) -> numeric_rows rows ->
  something (to_params o) hash (to_sampling o) public rows ->
  exists r out, tune root std keeps approx orc ceils0 ceils1 hash run h o false true public (Raw rows) = Ok (r, out).
Proof.
  intros U P EU EP root std keeps approx orc ceils0 ceils1 hash run h o public rows A B C D E.
  destruct (tune_lemma root std keeps approx orc ceils0 ceils1 hash run h o public rows A B C D E) as (r & pk & n & ub & T & _).
  exists r, (per_partition_output pk). exact T.
Qed.

(** The candidates: at least one and at most as many as asked for; no two with the same
    bounds; the bounds are those wanted, and so are noise and partition selection.  There
    is one report for each, in their order. *)
Theorem C67_candidates :
  forall U P `{EqDec U} `{EqDec P} root std keeps approx orc ceils0 ceils1 hash run h o public (rows : list (U * P * value)) r out,
  numeric approx -> fair run -> supported o h (is_some public) -> numeric_rows rows ->
  something (to_params o) hash (to_sampling o) public rows ->
  tune root std keeps approx orc ceils0 ceils1 hash run h o false true public (Raw rows) = Ok (r, out) ->
  let n := length (tr_reports r) in
  let candidate i u b := params_at (to_params o) (tr_configurations r) i = Ok (u, b) in
  (1 <= n)%nat /\ Z.of_nat n <= to_candidates o /\
  (forall i, (i < n)%nat -> exists u b, candidate i u b) /\
  (forall i u b, (i < n)%nat -> candidate i u b -> wanted_bounds o h u b /\ wanted_strategy orc o (is_some public) u) /\
  (forall i j u b u' b', (i < n)%nat -> (j < n)%nat -> candidate i u b -> candidate j u' b' ->
     u_l0 u = u_l0 u' -> u_linf u = u_linf u' -> b = b' -> i = j) /\
  map (fun u => r_index (ur_report u)) (tr_reports r) = map Z.of_nat (seq 0 n).
Proof.
  intros U P EU EP root std keeps approx orc ceils0 ceils1 hash run h o public rows r out A B C D E T n candidate.
  destruct (tune_lemma root std keeps approx orc ceils0 ceils1 hash run h o public rows A B C D E) as (r' & pk & n' & ub & T' & W).
  rewrite T in T'. assert (r' = r) by congruence. subst r'. destruct W as [[W1 W1'] W2 W3 W4 W5 W6 W7 [W8 W8'] W9 W10]. unfold n, candidate. rewrite W8.
  assert (Val : forall i u b, (i < n')%nat -> params_at (to_params o) (tr_configurations r) i = Ok (u, b) -> ub i = (u, b)).
  { intros i u b Hi Ei. rewrite (W2 i Hi) in Ei. congruence. }
  split; [exact W1|]. split; [exact W1'|]. split; [|split; [|split]].
  - intros i Hi. exists (fst (ub i)), (snd (ub i)). rewrite (W2 i Hi). destruct (ub i). reflexivity.
  - intros i u b Hi Ei. assert (X := W3 i Hi). assert (Y := W4 i Hi). rewrite (Val i u b Hi Ei) in X, Y. split; assumption.
  - intros i j u b u' b' Hi Hj Ei Ej E1 E2 E3. apply W5; auto; rewrite (Val i u b Hi Ei), (Val j u' b' Hj Ej); assumption.
  - clear -W8 W8'. apply (nth_ext _ _ 0 0); [rewrite !map_length, seq_length; exact W8|]. intros i Li. rewrite map_length, W8 in Li.
    destruct (nth_error (tr_reports r) i) as [u|] eqn:Ei; [|apply nth_error_None in Ei; lia].
    rewrite (nth_error_nth _ _ 0 (map_nth_error (fun u => r_index (ur_report u)) i _ Ei)).
    rewrite (nth_error_nth _ _ 0 (TuneProofs2.nth_seq_map Z.of_nat n' i Li)). destruct (W8' i u Ei) as ((t & r0 & _ & _ & X & _) & _). exact X.
Qed.

(** The recommended candidate: the first one with the smallest error of the decisive
    metric (SUM before COUNT before PRIVACY_ID_COUNT, whatever the order in the
    arguments), averaged over the partitions with the probabilities to keep them as
    weights; the errors and probabilities are those of the analysis of the rows with the
    parameters of the candidate.  Without metrics nothing is recommended. *)
Theorem C67_best_configuration :
  forall U P `{EqDec U} `{EqDec P} root std keeps approx orc ceils0 ceils1 hash run h o public (rows : list (U * P * value)) r out,
  numeric approx -> fair run -> supported o h (is_some public) -> numeric_rows rows ->
  something (to_params o) hash (to_sampling o) public rows ->
  tune root std keeps approx orc ceils0 ceils1 hash run h o false true public (Raw rows) = Ok (r, out) ->
  let p := to_params o in
  let n := length (tr_reports r) in
  let rows1 := counted p public rows in
  exists pk, out = per_partition_output pk /\
  (NoDup (map fst pk) /\ forall k, In k (map fst pk) <->
     (exists pub, public = Some pub /\ In k pub) \/ (partition_kept hash (to_sampling o) k = true /\ ids_of k rows1 <> [])) /\
  (forall k row, In (k, row) pk -> length row = n /\ exists ids ds,
     Permutation ids (if partition_kept hash (to_sampling o) k then ids_of k rows1 else []) /\
     Forall2 (data_spec (perform_cross_partition_contribution_bounding p) rows1 k) ids ds /\
     forall i ub pm, params_at p (tr_configurations r) i = Ok ub -> nth_error row i = Some pm ->
       partition_spec root std keeps approx (is_some public) (metrics p) i ub ds pm) /\
  (metrics p <> [] -> exists b, tr_best r = Z.of_nat b /\
     first_smallest (map (fun i => average_rmse root (config_metrics i pk)) (seq 0 n)) b /\
     forall i pm, In pm (config_metrics i pk) -> sm_aggregation (metric_of 0 pm) = decisive (metrics p)) /\
  (metrics p = [] -> tr_best r = -1).
Proof.
  intros U P EU EP root std keeps approx orc ceils0 ceils1 hash run h o public rows r out A B C D E T p n rows1.
  destruct (tune_lemma root std keeps approx orc ceils0 ceils1 hash run h o public rows A B C D E) as (r' & pk & n' & ub & T' & W).
  rewrite T in T'. assert (r' = r) by congruence. subst r'. assert (Eout : out = per_partition_output pk) by congruence. clear T'.
  destruct W as [[W1 W1'] W2 W3 W4 W5 W6 W7 [W8 W8'] W9 W10]. unfold n. rewrite W8.
  exists pk. split; [exact Eout|]. split; [exact W6|]. split; [|split].
  - intros k row I. destruct (W7 k row I) as (L & ids & ds & X1 & X2 & X3). split; [exact L|]. exists ids, ds. split; [exact X1|]. split; [exact X2|].
    intros i ub' pm E1 E2. assert (Li : (i < n')%nat) by (rewrite <- L; apply nth_error_Some; congruence). unfold p in E1. rewrite (W2 i Li) in E1.
    assert (ub' = ub i) by congruence. subst ub'. exact (X3 i pm E2).
  - intro Nm. unfold p in Nm.
    assert (Ag : forall i pm, In pm (config_metrics i pk) -> sm_aggregation (metric_of 0 pm) = decisive (metrics p)).
    { intros i pm I. apply in_config_metrics_row in I. destruct I as ([k row] & I & J). cbn [snd] in J. destruct (W7 k row I) as (L & ids & ds & _ & _ & X3).
      assert (Li : (i < n')%nat) by (rewrite <- L; apply nth_error_Some; congruence).
      assert (One : length (snd (ub i)) = 1%nat).
      { destruct (wanted_available o h _ _ _ C (W3 i Li)) as (_ & _ & lo & hi & X & _). cbn [snd] in X. rewrite X. reflexivity. }
      apply (first_error root std keeps approx (is_some public) (metrics p) i (ub i) ds pm (sup_metrics _ _ _ C) Nm One (X3 i pm J)). }
    destruct (metrics (to_params o)) as [|m ms]; [congruence|]. destruct W10 as (b & Eb & Fb). exists b. split; [exact Eb|]. split; [exact Fb|exact Ag].
  - unfold p. intro Em. rewrite Em in W10. exact W10.
Qed.

(** The report of a candidate is the report of the analysis with its parameters (C57),
    and its first error is the one that is compared. *)
Theorem C67_reports :
  forall U P `{EqDec U} `{EqDec P} root std keeps approx orc ceils0 ceils1 hash run h o public (rows : list (U * P * value)) r out,
  numeric approx -> fair run -> supported o h (is_some public) -> numeric_rows rows ->
  something (to_params o) hash (to_sampling o) public rows ->
  tune root std keeps approx orc ceils0 ceils1 hash run h o false true public (Raw rows) = Ok (r, out) ->
  let ms := metrics (to_params o) in
  exists pk ss, out = per_partition_output pk /\
  (forall i u b, (i < length (tr_reports r))%nat -> params_at (to_params o) (tr_configurations r) i = Ok (u, b) -> nth_error ss i = Some (u_strategy u)) /\
  forall i u, nth_error (tr_reports r) i = Some u ->
    report_ok root (length ms) (is_some public) ss pk i u /\
    (ms <> [] -> exists e rest, r_errors (ur_report u) = Some (e :: rest) /\ mu_metric e = decisive ms /\
       (ve_rmse (mu_absolute e) == average_rmse root (config_metrics i pk))%Q).
Proof.
  intros U P EU EP root std keeps approx orc ceils0 ceils1 hash run h o public rows r out A B C D E T ms.
  destruct (tune_lemma root std keeps approx orc ceils0 ceils1 hash run h o public rows A B C D E) as (r' & pk & n' & ub & T' & W).
  rewrite T in T'. assert (r' = r) by congruence. subst r'. assert (Eout : out = per_partition_output pk) by congruence. clear T'.
  destruct W as [[W1 W1'] W2 W3 W4 W5 W6 W7 [W8 W8'] W9 W10].
  exists pk, (map (fun i => u_strategy (fst (ub i))) (seq 0 n')). split; [exact Eout|]. split.
  - intros i u b Li Ei. rewrite W8 in Li. rewrite (W2 i Li) in Ei. rewrite (TuneProofs2.nth_seq_map _ n' i Li). assert (X : ub i = (u, b)) by congruence. rewrite X. reflexivity.
  - intros i u Ei. split; [exact (W8' i u Ei)|]. intro Nm. exact (W9 Nm i u Ei).
Qed.

(** *** A backend: the local one *)
Definition chain {A} (v : A) (vs : list A) : tree A := fold_left (fun t x => Node t (Leaf x)) vs (Leaf v).
Definition local_trees {K A} `{EqDec K} (col : list (K * A)) : list (K * tree A) :=
  flat_map (fun kv => match snd kv with [] => [] | v :: vs => [(fst kv, chain v vs)] end) (group_by_key col).
Definition local_runner {P} `{EqDec P} : runner P := Runner local_trees local_trees group_by_key (fun l => l).
Lemma chain_leaves {A} (v : A) vs : leaves (chain v vs) = v :: vs.
Proof.
  unfold chain. assert (G : forall t, leaves (fold_left (fun t x => Node t (Leaf x)) vs t) = leaves t ++ vs).
  { induction vs as [|x vs IH]; intro t; cbn [fold_left]; [rewrite app_nil_r; reflexivity|]. rewrite IH. cbn [leaves]. rewrite <- app_assoc. reflexivity. }
  rewrite G. reflexivity.
Qed.
Lemma local_plan {K A} `{EqDec K} (col : list (K * A)) : reduce_plan col (local_trees col).
Proof.
  destruct (group_is_grouping col) as (ND & Ks & Vs).
  assert (Ne : forall k vs, In (k, vs) (group_by_key col) -> vs <> []).
  { intros k vs I E. specialize (Vs k vs I). rewrite E in Vs. apply Permutation_nil in Vs.
    assert (Ik : In k (map fst col)) by (apply Ks; apply (in_map fst) in I; exact I). apply in_map_iff in Ik. destruct Ik as ([k' v] & Ek & I'). cbn in Ek. subst k'.
    assert (X : In v (key_values k col)). { unfold key_values. apply in_map_iff. exists (k, v). split; [reflexivity|]. apply filter_In. split; [exact I'|apply eqb_refl]. }
    rewrite Vs in X. destruct X. }
  assert (Kk : map fst (local_trees col) = map fst (group_by_key col)).
  { unfold local_trees. clear -Ne. induction (group_by_key col) as [|[k vs] l IH]; [reflexivity|]. cbn [flat_map snd fst map].
    destruct vs as [|v vs]; [exfalso; apply (Ne k []); [left; reflexivity|reflexivity]|]. cbn [app map fst]. f_equal. apply IH. intros k' vs' I. apply (Ne k'). right. exact I. }
  split; [rewrite Kk; exact ND|]. split; [intro k; rewrite Kk; apply Ks|]. intros k t I. unfold local_trees in I. apply in_flat_map in I.
  destruct I as ([k' vs] & I & J). cbn [fst snd] in J. destruct vs as [|v vs]; [destruct J|]. destruct J as [J|[]]. injection J as -> <-.
  rewrite chain_leaves. exact (Vs k (v :: vs) I).
Qed.
Lemma local_fair {P} `{EqDec P} : fair (local_runner (P := P)).
Proof.
  split; [intro; apply local_plan|]. split; [intro; apply local_plan|]. split; [intro; apply group_is_grouping|]. intro; apply Permutation_refl.
Qed.

(** Square roots of squares of rational numbers. *)
Definition qroot (q : Q) : Q := let r := Qred q in (Z.sqrt (Qnum r) # Z.to_pos (Z.sqrt (Zpos (Qden r))))%Q.
Definition show (r : result (tune_result_t * list ((Z * nat) * partition_metrics))) :=
  rmap (fun rp => (tr_best (fst rp), mc_bounds (tr_configurations (fst rp)), mc_noise (tr_configurations (fst rp)), mc_strategy (tr_configurations (fst rp)),
                   map (fun u => match r_errors (ur_report u) with
                                 | Some es => map (fun e => (mu_metric e, Qred (ve_rmse (mu_absolute e)), Qred (ve_rmse_dropped (mu_absolute e)))) es
                                 | None => []
                                 end) (tr_reports (fst rp)))) r.
Definition with_metrics (ms : list metric) (lo hi : option Q) : params :=
  Params ms LaplaceNoise (Some 1) (Some 1) None 1 None None lo hi false None None None false false ParamsModel.TruncatedGeometric None false true.
Definition some_oracle : strategy_oracle :=
  Oracle (fun e d l0 linf => 3 / e)%Q (fun e l0 linf => inject_Z (2 * l0) / e)%Q (fun e d l0 => inject_Z l0 / e)%Q (fun e d l0 => 3 / e)%Q.
Definition no_approx : moments -> Z * list Q := fun _ => (0, [1%Q]).
Definition tune_here std keeps orc h o public (rows : list (Z * Z * value)) :=
  tune qroot std keeps no_approx orc (fun _ => 1) (fun _ => 1) (fun _ => 0) local_runner h o false true public (Raw rows).

(** Sixteen users with one row in each of two private partitions; the number of
    partitions per user is tuned, and so is the noise. *)
Definition sixteen_users : list (Z * Z * value) :=
  flat_map (fun i => [(Z.of_nat i, 7, Num 1); (Z.of_nat i, 8, Num 1)]) (seq 1 16).
Definition l0_options : tune_options :=
  TuneOptions 1 (1 # 10) (with_metrics [COUNT] None None) AbsoluteError (ToTune true false false false true) 1 false 2.
Definition l0_histograms := Histograms 2 1 [].
Definition l0_std (i : nat) : Q := if Nat.ltb i 3 then (13 # 2)%Q else 13%Q.
Definition l0_keeps (i : nat) (n : Z) : Q := if n <? 16 then 0%Q else 1%Q.
Ltac supported_by :=
  split; cbn;
  first [ reflexivity | lia | tauto | discriminate | split; [discriminate|reflexivity] | split; [reflexivity|discriminate] | intros _ X; discriminate X
        | intros ? X; injection X as <-; reflexivity | intros _; discriminate | intros _; split; discriminate
        | repeat constructor; cbn; intuition discriminate ].
Lemma l0_supported : supported l0_options l0_histograms false.
Proof. supported_by. Qed.
Lemma users_numeric f l : (forall i, f i = [(Z.of_nat i, 7, Num 1); (Z.of_nat i, 8, Num 1)]) -> numeric_rows (U := Z) (P := Z) (flat_map f l).
Proof. intros F r I. apply in_flat_map in I. destruct I as (i & _ & J). rewrite F in J. destruct J as [<-|[<-|[]]]; eexists; reflexivity. Qed.

(** The hypotheses are met. *)
Example C67_hypotheses_met :
  numeric no_approx /\ fair (local_runner (P := Z)) /\ supported l0_options l0_histograms false /\ numeric_rows sixteen_users /\
  something (to_params l0_options) (fun _ => 0) (to_sampling l0_options) (@None (list Z)) sixteen_users /\
  show (tune_here l0_std l0_keeps some_oracle l0_histograms l0_options None sixteen_users) =
    Ok (0, Config (Some [1; 2]) None None None, Some [LaplaceNoise; GaussianNoise],
        Some [ParamsModel.TruncatedGeometric; ParamsModel.TruncatedGeometric],
        [[(COUNT, 21 # 2, 2097141 # 131072)]; [(COUNT, 13, 13)]]%Q).
Proof.
  split; [intros m m' _; split; [reflexivity|repeat constructor]|]. split; [apply local_fair|]. split; [apply l0_supported|].
  split; [apply users_numeric; reflexivity|]. split; [|vm_compute; reflexivity].
  right. exists (1, 7, Num 1). split; [left; reflexivity|reflexivity].
Qed.
(** What the examples below look at. *)
Definition errors_view (u : utility_report) : list (metric * Q * Q) :=
  match r_errors (ur_report u) with
  | Some es => map (fun e => (mu_metric e, Qred (ve_rmse (mu_absolute e)), Qred (ve_rmse_dropped (mu_absolute e)))) es
  | None => []
  end.
Definition view (r : result (tune_result_t * list ((Z * nat) * partition_metrics))) :=
  rmap (fun rp => (tr_best (fst rp), map errors_view (tr_reports (fst rp)), map (fun x => (fst x, Qred (pm_keep (snd x)))) (snd rp))) r.
Lemma view_inv r out b es ks : view (Ok (r, out)) = Ok (b, es, ks) ->
  tr_best r = b /\ map errors_view (tr_reports r) = es /\ map (fun x => (fst x, Qred (pm_keep (snd x)))) out = ks.
Proof. unfold view. cbn [rmap fst snd]. intro X. injection X as <- <- <-. auto. Qed.
Lemma errors_one u m a b : errors_view u = [(m, a, b)] ->
  exists e, r_errors (ur_report u) = Some [e] /\ mu_metric e = m /\ (ve_rmse (mu_absolute e) == a)%Q /\ (ve_rmse_dropped (mu_absolute e) == b)%Q.
Proof.
  unfold errors_view. destruct (r_errors (ur_report u)) as [[|e [|]]|]; try discriminate. cbn [map]. intro X. injection X as <- <- <-. exists e.
  split; [reflexivity|]. split; [reflexivity|]. split; symmetry; apply Qred_correct.
Qed.
Lemma errors_two u m a b m' a' b' : errors_view u = [(m, a, b); (m', a', b')] ->
  exists e e', r_errors (ur_report u) = Some [e; e'] /\ mu_metric e = m /\ (ve_rmse (mu_absolute e) == a)%Q /\
    mu_metric e' = m' /\ (ve_rmse (mu_absolute e') == a')%Q.
Proof.
  unfold errors_view. destruct (r_errors (ur_report u)) as [[|e [|e' [|]]]|]; try discriminate. cbn [map]. intro X. injection X as <- <- <- <- <- <-. exists e, e'.
  repeat (split; [first [reflexivity|symmetry; apply Qred_correct]|]). symmetry. apply Qred_correct.
Qed.

(** *** What fails *)

(** The recommendation does not take into account that partitions are dropped: here the
    recommended candidate keeps a partition with probability 1/65536, the other one keeps
    every partition, and has the smaller error when the loss of dropped partitions is
    counted (which is reported too). *)
Theorem C67_dropped_partitions_refuted : exists std keeps h o (rows : list (Z * Z * value)) r out u0 u1 e0 e1,
  supported o h false /\ tune_here std keeps some_oracle h o None rows = Ok (r, out) /\
  tr_reports r = [u0; u1] /\ tr_best r = 0 /\
  r_errors (ur_report u0) = Some [e0] /\ r_errors (ur_report u1) = Some [e1] /\
  (ve_rmse_dropped (mu_absolute e1) < ve_rmse_dropped (mu_absolute e0))%Q /\
  (forall k pm, In ((k, 0%nat), pm) out -> pm_keep pm == 1 # 65536)%Q /\ (forall k pm, In ((k, 1%nat), pm) out -> pm_keep pm == 1)%Q.
Proof.
  exists l0_std, l0_keeps, l0_histograms, l0_options, sixteen_users.
  destruct (tune_here l0_std l0_keeps some_oracle l0_histograms l0_options None sixteen_users) as [[r out]|] eqn:T;
    [|exfalso; apply (f_equal view) in T; vm_compute in T; discriminate].
  exists r, out. assert (X : view (Ok (r, out)) = Ok (0, [[(COUNT, 21 # 2, 2097141 # 131072)]; [(COUNT, 13, 13)]]%Q,
     [(7, 0%nat, 1 # 65536); (7, 1%nat, 1%Q); (8, 0%nat, 1 # 65536); (8, 1%nat, 1%Q)])) by (rewrite <- T; vm_compute; reflexivity).
  destruct (view_inv _ _ _ _ _ X) as (E1 & E2 & E3). clear T X.
  destruct (tr_reports r) as [|u0 [|u1 [|]]]; try discriminate E2. injection E2 as E4 E5.
  destruct (errors_one _ _ _ _ E4) as (e0 & F1 & _ & _ & F2). destruct (errors_one _ _ _ _ E5) as (e1 & G1 & _ & _ & G2).
  exists u0, u1, e0, e1. split; [apply l0_supported|]. repeat (split; [first [reflexivity|assumption]|]).
  split; [rewrite F2, G2; reflexivity|].
  split; intros k pm I; apply (in_map (fun x => (fst x, Qred (pm_keep (snd x))))) in I; rewrite E3 in I; cbn [fst snd] in I;
    repeat (destruct I as [I|I]; [try discriminate I; assert (Y := f_equal snd I); cbn [snd] in Y; rewrite <- (Qred_correct (pm_keep pm)), <- Y; reflexivity|]); destruct I.
Qed.

(** Several metrics: the error that is minimized is not the one of the first metric of
    the arguments.  Here metrics = [COUNT, SUM]; the candidate with the larger error of
    COUNT is recommended. *)
Definition twelve_users : list (Z * Z * value) := flat_map (fun i => [(Z.of_nat i, 7, Num 1); (Z.of_nat i, 7, Num 1)]) (seq 1 12).
Definition linf_options (ms : list metric) : tune_options :=
  TuneOptions 1 (1 # 10) (with_metrics ms (Some 0%Q) (Some 2%Q)) AbsoluteError (ToTune false true false false false) 1 false 2.
Definition linf_std (i : nat) : Q := if Nat.eqb i 2 then 5%Q else 10%Q.
Theorem C67_first_metric_refuted : exists std h o (rows : list (Z * Z * value)) r out u0 u1 s0 s1 c0 c1,
  metrics (to_params o) = [COUNT; SUM] /\ supported o h true /\
  tune_here std l0_keeps some_oracle h o (Some [7]) rows = Ok (r, out) /\ tr_reports r = [u0; u1] /\ tr_best r = 0 /\
  r_errors (ur_report u0) = Some [s0; c0] /\ r_errors (ur_report u1) = Some [s1; c1] /\
  mu_metric c0 = COUNT /\ mu_metric c1 = COUNT /\ (ve_rmse (mu_absolute c1) < ve_rmse (mu_absolute c0))%Q.
Proof.
  exists linf_std, (Histograms 1 2 []), (linf_options [COUNT; SUM]), twelve_users.
  destruct (tune_here linf_std l0_keeps some_oracle (Histograms 1 2 []) (linf_options [COUNT; SUM]) (Some [7]) twelve_users) as [[r out]|] eqn:T;
    [|exfalso; apply (f_equal view) in T; vm_compute in T; discriminate].
  exists r, out. assert (X : view (Ok (r, out)) = Ok (0, [[(SUM, 10, 10); (COUNT, 13, 13)]; [(SUM, 10, 10); (COUNT, 10, 10)]]%Q,
     [(7, 0%nat, 1%Q); (7, 1%nat, 1%Q)])) by (rewrite <- T; vm_compute; reflexivity).
  destruct (view_inv _ _ _ _ _ X) as (E1 & E2 & E3). clear T X.
  destruct (tr_reports r) as [|u0 [|u1 [|]]]; try discriminate E2. injection E2 as E4 E5.
  destruct (errors_two _ _ _ _ _ _ _ E4) as (s0 & c0 & F1 & _ & _ & F2 & F3). destruct (errors_two _ _ _ _ _ _ _ E5) as (s1 & c1 & G1 & _ & _ & G2 & G3).
  exists u0, u1, s0, s1, c0, c1. split; [reflexivity|]. split; [supported_by|]. repeat (split; [first [reflexivity|assumption]|]).
  rewrite F3, G3. reflexivity.
Qed.

(** Aggregation parameters that bound the values instead of the sums are accepted by
    AggregateParams and by all the checks of tune, but the analysis of SUM cannot be
    done with them: tune fails unless the bounds of the sums are tuned. *)
Definition value_params : params :=
  Params [SUM] LaplaceNoise (Some 1) (Some 1) None 1 (Some 0%Q) (Some 5%Q) None None false None None None false false
    ParamsModel.TruncatedGeometric None false true.
Definition value_raw : raw_params :=
  RawParams [SUM] LaplaceNoise (Some (PInt 1)) (Some (PInt 1)) None 1 (Some (Fin 0)) (Some (Fin 5)) None None false None None None
    false false ParamsModel.TruncatedGeometric None false true.
Theorem C67_value_bounds_refuted : exists o uo, accepted (to_params o) /\
  check_tune_options o = Ok tt /\ check_tune_args o true = Ok tt /\
  analysis_options some_oracle (fun _ => 1) (fun _ => 1) l0_histograms o true = Ok uo /\
  check_options uo (to_sampling o) (to_preaggregated o) false true = Ok tt /\
  forall std keeps, exists e, tune_here std keeps some_oracle l0_histograms o (Some [7]) sixteen_users = Err e.
Proof.
  exists (TuneOptions 1 (1 # 10) value_params AbsoluteError (ToTune true false false false true) 1 false 2).
  eexists. split; [exists value_raw; reflexivity|]. split; [reflexivity|]. split; [reflexivity|]. split; [vm_compute; reflexivity|].
  split; [reflexivity|]. intros std keeps. eexists. vm_compute. reflexivity.
Qed.

(** Without partitions there are no reports, and tune fails at an assertion. *)
Theorem C67_no_partitions_refuted : forall std keeps, exists o h,
  supported o h false /\ tune_here std keeps some_oracle h o None [] = Err AssertionError.
Proof. intros std keeps. exists l0_options, l0_histograms. split; [apply l0_supported|]. vm_compute. reflexivity. Qed.

(** PRIVACY_ID_COUNT with private partitions: the noise is chosen for the case that the
    partitions are selected by thresholding the noisy count, with the whole epsilon.
    But this attribute of the strategy is dropped: the candidate is analysed with a
    separate partition selection that takes half of epsilon.  The chosen noise need not be
    the better one for what is left. *)
Definition other_oracle : strategy_oracle :=
  Oracle (fun e d l0 linf => 2 + 1 / (2 * e))%Q (fun e l0 linf => 2 / e)%Q (fun e d l0 => inject_Z l0 / e)%Q (fun e d l0 => 3 / e)%Q.
Definition pid_options : tune_options :=
  TuneOptions 1 (1 # 10) (with_metrics [PRIVACY_ID_COUNT] None None) AbsoluteError (ToTune true false false false true) 1 false 1.
Theorem C67_thresholding_dropped_refuted : exists orc o h uo u b s sel m e d,
  supported o h false /\ metrics (to_params o) = [PRIVACY_ID_COUNT] /\ tt_noise (to_tuned o) = true /\
  analysis_options orc (fun _ => 1) (fun _ => 1) h o false = Ok uo /\ all_params uo = Ok [(u, b)] /\
  new_accountant (to_eps o) (to_delta o) None None = Ok s /\ all_specs false s uo = Ok [[sel; m]] /\
  m_type sel = GENERIC /\ m_type m = LAPLACE /\ u_noise u = LaplaceNoise /\ get_eps m = Ok e /\ (e == to_eps o / 2)%Q /\
  d = (to_delta o / 2)%Q /\ (std_of orc GaussianNoise (e, d) 1 < std_of orc LaplaceNoise (e, d) 1)%Q.
Proof.
  exists other_oracle, pid_options, l0_histograms. do 8 eexists. split; [supported_by|]. split; [reflexivity|]. split; [reflexivity|].
  split; [vm_compute; reflexivity|]. split; [vm_compute; reflexivity|]. split; [reflexivity|]. split; [vm_compute; reflexivity|].
  repeat (split; [vm_compute; reflexivity|]). vm_compute. reflexivity.
Qed.

Print Assumptions C67_tune_succeeds.
Print Assumptions C67_candidates.
Print Assumptions C67_best_configuration.
Print Assumptions C67_reports.
Print Assumptions C67_dropped_partitions_refuted.
Print Assumptions C67_first_metric_refuted.
Print Assumptions C67_value_bounds_refuted.
Print Assumptions C67_no_partitions_refuted.
Print Assumptions C67_thresholding_dropped_refuted.
