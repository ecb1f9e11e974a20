(** The options that tune builds meet the requirements of the utility analysis. *)
From Coq Require Import List ZArith QArith Bool Permutation Sorted Lia Lqa.
From Verif Require Import Base BaseLemmas ListLemmas BudgetModel ParamsModel BackendModel HistModel HistProofs2 AnalysisModel CrossModel
  TuningModel TuningProofs TuningProofs2 TuningProofs3 UtilityModel UtilitySpec UtilityProofs3 AnalyzeModel TuneModel TuneSpec TuneProofs.
From Verif Require TuningProps.
Import ListNotations.
Local Open Scope Z_scope.

Lemma sequence_seq {B} (f : nat -> result B) (g : nat -> B) n s :
  (forall i, (s <= i < s + n)%nat -> f i = Ok (g i)) -> sequence (map f (seq s n)) = Ok (map g (seq s n)).
Proof.
  revert s. induction n as [|n IH]; intros s H; [reflexivity|]. cbn [seq map sequence]. rewrite (H s) by lia. cbn [rbind].
  rewrite IH; [reflexivity|]. intros i Hi. apply H. lia.
Qed.

Lemma only_supported ms : Forall (fun m => m = COUNT \/ m = SUM \/ m = PRIVACY_ID_COUNT) ms -> only [COUNT; SUM; PRIVACY_ID_COUNT] ms = true.
Proof. intro F. unfold only. apply forallb_forall. rewrite Forall_forall in F. intros m I. destruct (F m I) as [-> | [-> | ->]]; reflexivity. Qed.

(** *** The arguments pass the checks *)
Lemma checks_pass o h public : supported o h public ->
  check_tune_options o = Ok tt /\ check_tune_args o public = Ok tt /\ Qeq_bool (to_delta o) 0 && negb public = false.
Proof.
  intros [S1 S2 S3 S4 S5 S6 S7 S8 S9 S10 S11 S12 S13 S14 S15 S16 S17 S18].
  split; [|split].
  - unfold check_tune_options, check_to_tune, validate_epsilon_delta.
    replace (tt_l0 (to_tuned o) || _ || _ || _ || _) with true.
    + cbn [negb raise_if rbind]. destruct (Qle_bool (to_eps o) 0) eqn:A; [apply Qle_bool_iff in A; lra|].
      destruct (Qle_bool 0 (to_delta o)) eqn:B; cbn [negb].
      * destruct (Qle_bool 1 (to_delta o)) eqn:C; [apply Qle_bool_iff in C; lra|reflexivity].
      * destruct S2 as [S2 _]. apply Qle_bool_iff in S2. congruence.
    + symmetry. rewrite !orb_true_iff. cbn zeta in S4. tauto.
  - unfold check_tune_args. rewrite S5, S6. destruct (metrics (to_params o)) as [|m ms] eqn:E.
    + rewrite (S11 eq_refl). reflexivity.
    + inversion S9 as [|? ? M _]; subst. destruct M as [-> | [-> | ->]]; reflexivity.
  - destruct public; [apply andb_false_r|]. destruct (Qeq_bool (to_delta o) 0) eqn:D; [|reflexivity]. apply Qeq_bool_iff in D. exfalso. exact (S3 eq_refl D).
Qed.

Lemma candidates_found ceils0 ceils1 o h public : supported o h public ->
  exists c n, find_candidates ceils0 ceils1 (tuning_of o h) = Ok (c, n).
Proof.
  intros [S1 S2 S3 S4 S5 S6 S7 S8 S9 S10 S11 S12 S13 S14 S15 S16 S17 S18].
  apply find_candidates_ok; cbn [tuning_of t_max_candidates t_l0 t_l0_max t_count t_linf_max t_sum t_sum_bins].
  - exact S15.
  - intro T. rewrite T in S16. exact S16.
  - intro T. fold (tunes_linf o) in T. rewrite T in S17. exact S17.
  - intro T. fold (tunes_sum o) in T. rewrite T in S18. destruct S18 as (maxs & A & _ & B & C). exists maxs. auto.
Qed.

Lemma first_candidate (l0 : list Z) n s : l0 <> [] -> n = (length l0 * s)%nat -> (s > 0)%nat -> (1 <= n)%nat.
Proof. intros N -> S. destruct l0; [congruence|]. cbn. lia. Qed.

(** *** The bounds of the candidates *)
Definition l0_at (o : tune_options) (c : config) (i : nat) : option Z := or_default (fst (fst (config_at c i))) (max_partitions_contributed (to_params o)).
Definition linf_at (o : tune_options) (c : config) (i : nat) : option Z := or_default (snd (fst (config_at c i))) (max_contributions_per_partition (to_params o)).

Lemma candidate_bounds ceils0 ceils1 o h public c n : supported o h public ->
  find_candidates ceils0 ceils1 (tuning_of o h) = Ok (c, n) ->
  (1 <= n)%nat /\ Z.of_nat n <= to_candidates o /\
  (forall i, (i < n)%nat -> forall k s,
     wanted_bounds o h (UParams (l0_at o c i) (linf_at o c i) k s) (bounds_or_default (to_params o) (snd (config_at c i)))) /\
  (forall i j, (i < n)%nat -> (j < n)%nat -> l0_at o c i = l0_at o c j -> linf_at o c i = linf_at o c j ->
     bounds_or_default (to_params o) (snd (config_at c i)) = bounds_or_default (to_params o) (snd (config_at c j)) -> i = j).
Proof.
  intros [S1 S2 S3 S4 S5 S6 S7 S8 S9 S10 S11 S12 S13 S14 S15 S16 S17 S18] E.
  destruct (find_candidates_spec _ _ _ _ _ E) as (l0 & st & E0 & N0 & NS & V & Ps & En & Le & C0 & C1 & M0 & M1).
  { exact S15. }
  { cbn [tuning_of t_sum t_sum_bins]. intro T. fold (tunes_sum o) in T. rewrite T in S18. destruct S18 as (maxs & A & B & _). rewrite A.
    split; [discriminate|]. constructor; [exact B|constructor]. }
  destruct (l0_candidates_spec _ _ _ E0) as (_ & Ne & _ & _); [exact S15|].
  assert (L1 := first_candidate l0 n (length st) Ne En Ps).
  assert (At : forall i, (i < n)%nat -> exists l s, In l l0 /\ In s st /\ config_at c i = (Some l, fst s, snd s) /\ nth_error (list_prod l0 st) i = Some (l, s)).
  { intros i Hi. assert (X : nth_error (map (config_at c) (seq 0 n)) i = Some (config_at c i)).
    { rewrite nth_error_map. rewrite (nth_error_nth' (seq 0 n) 0%nat) by (rewrite seq_length; exact Hi). rewrite seq_nth by exact Hi. reflexivity. }
    rewrite V, nth_error_map in X. destruct (nth_error (list_prod l0 st) i) as [[l s]|] eqn:Ei; [|discriminate]. cbn [option_map] in X.
    assert (Y : forall A (a b : A), Some a = Some b -> a = b) by (intros A a b Q; congruence). apply Y in X. clear Y. unfold config_view in X. cbn [fst snd] in X.
    exists l, s. assert (I := nth_error_In _ _ Ei). apply in_prod_iff in I. destruct I as [I1 I2]. split; [exact I1|]. split; [exact I2|].
    split; [symmetry; exact X | reflexivity]. }
  assert (Cnt : forall i, (i < n)%nat -> if tunes_linf o then exists x, snd (fst (config_at c i)) = Some x /\ 1 <= x <= ch_linf_max h else snd (fst (config_at c i)) = None).
  { intros i Hi. destruct (At i Hi) as (l & s & _ & Is & -> & _). cbn [fst snd].
    cbn [tuning_of t_count t_linf_max t_max_candidates] in C0, C1. fold (tunes_linf o) in C0, C1. destruct (tunes_linf o).
    - destruct (C1 eq_refl) as (cs & Ec & M). destruct (relative_step_spec _ _ _ _ Ec) as (_ & _ & F & _ & _).
      assert (I : In (fst s) (map Some cs)) by (apply M, in_map, Is). apply in_map_iff in I. destruct I as (x & Ex & Ix).
      exists x. split; [symmetry; exact Ex|]. rewrite Forall_forall in F. apply F, Ix.
    - exact (C0 eq_refl s Is). }
  assert (Sum : forall i, (i < n)%nat -> if tunes_sum o then exists maxs hi, ch_sum_bins h = [maxs] /\ In hi maxs /\ snd (config_at c i) = Some [(0%Q, hi)] else snd (config_at c i) = None).
  { intros i Hi. assert (B := bounds_at _ _ _ _ _ (to_params o) i E). cbn [tuning_of t_sum t_sum_bins] in B. fold (tunes_sum o) in B.
    cbn [tuning_of t_sum t_sum_bins t_max_candidates] in M1. fold (tunes_sum o) in M1.
    destruct B as (_ & _ & _ & B); [intro T; rewrite T in S18; destruct S18 as (maxs & -> & _); reflexivity|exact Hi|].
    destruct (tunes_sum o) eqn:T; [|exact B]. destruct S18 as (maxs & A & So & Nm & _). destruct B as (hi & B). exists maxs, hi. split; [exact A|]. split; [|exact B].
    destruct (M1 eq_refl 0%nat maxs) as (cs & Ec & Mc); [rewrite A; reflexivity|].
    destruct (subsample_spec _ _ _ So Ec) as (_ & Ic & _). apply Ic. apply Mc.
    destruct (At i Hi) as (l & s & _ & Is & Es & _). rewrite Es in B. cbn [snd] in B. exists s, [(0%Q, hi)]. rewrite A. auto. }
  assert (L0 : forall i, (i < n)%nat -> exists l, fst (fst (config_at c i)) = Some l /\ 1 <= l /\
            if tt_l0 (to_tuned o) then l <= ch_l0_max h else l = match max_partitions_contributed (to_params o) with Some l => l | None => 1 end).
  { intros i Hi. destruct (At i Hi) as (l & s & Il & _ & -> & _). cbn [fst snd]. exists l. split; [reflexivity|].
    unfold l0_candidates in E0. cbn [tuning_of t_l0 t_count t_sum t_l0_max t_max_candidates t_given_l0] in E0.
    destruct (tt_l0 (to_tuned o)).
    - destruct (relative_step_spec _ _ _ _ E0) as (_ & _ & F & _ & _). rewrite Forall_forall in F. apply F, Il.
    - injection E0 as <-. destruct Il as [<-|[]]. destruct (max_partitions_contributed (to_params o)) as [g|]; [|split; [lia|reflexivity]].
      specialize (S16 g eq_refl). destruct (Z.eqb_spec g 0); [lia|]. split; [lia|reflexivity]. }
  split; [exact L1|]. split; [exact Le|]. split.
  - intros i Hi k s. unfold wanted_bounds, l0_at, linf_at. cbn [u_l0 u_linf]. split; [|split].
    + destruct (L0 i Hi) as (l & -> & A & B). exists l. cbn [or_default]. auto.
    + assert (C := Cnt i Hi). destruct (tunes_linf o); [destruct C as (x & -> & C); exists x; cbn; auto | rewrite C; reflexivity].
    + assert (C := Sum i Hi). destruct (tunes_sum o); [destruct C as (maxs & hi & A & B & ->); exists maxs, hi; cbn; auto | rewrite C; reflexivity].
  - intros i j Hi Hj A B C. assert (X : config_at c i = config_at c j).
    { unfold l0_at, linf_at in A, B. destruct (L0 i Hi) as (li & Ei & _). destruct (L0 j Hj) as (lj & Ej & _). rewrite Ei, Ej in A. cbn in A.
      assert (Ci := Cnt i Hi). assert (Cj := Cnt j Hj). assert (Si := Sum i Hi). assert (Sj := Sum j Hj).
      destruct (config_at c i) as [[a1 a2] a3], (config_at c j) as [[b1 b2] b3]. cbn [fst snd] in *. subst a1 b1. injection A as ->. f_equal; [f_equal|].
      - destruct (tunes_linf o); [|congruence]. destruct Ci as (x & -> & _), Cj as (y & -> & _). exact B.
      - destruct (tunes_sum o); [|congruence]. destruct Si as (? & x & _ & _ & ->), Sj as (? & y & _ & _ & ->). cbn in C. congruence. }
    destruct (At i Hi) as (l & s & _ & _ & Ci & Ni). destruct (At j Hj) as (l' & s' & _ & _ & Cj & Nj).
    assert (Q : (l, s) = (l', s')). { rewrite Ci, Cj in X. destruct s, s'. cbn in X. injection X as -> -> ->. reflexivity. }
    apply (NoDup_nth_error (list_prod l0 st)); [|rewrite prod_length, <- En; exact Hi|congruence].
    apply TuningProps.NoDup_list_prod; assumption.
Qed.

(** *** The strategies *)
Definition the_strategy (orc : strategy_oracle) (o : tune_options) (public : bool) (l0 : option Z) : dp_strategy :=
  match strategy_for orc o public (UParams l0 None LaplaceNoise ParamsModel.TruncatedGeometric) with
  | Ok s => s
  | Err _ => Strategy None None false
  end.
Lemma strategy_for_ok orc o h public u l0 : supported o h public -> u_l0 u = Some l0 -> 1 <= l0 ->
  strategy_for orc o public u = Ok (the_strategy orc o public (u_l0 u)).
Proof.
  intros S E L. destruct (checks_pass o h public S) as (_ & _ & D). unfold the_strategy, strategy_for. cbn [u_l0]. rewrite E.
  destruct (Z.leb_spec l0 0); [lia|]. cbn [raise_if]. unfold get_dp_strategy. rewrite D. reflexivity.
Qed.

Definition noise_at (orc : strategy_oracle) (o : tune_options) (public : bool) (l0 : option Z) : noise :=
  match tt_noise (to_tuned o), s_noise (the_strategy orc o public l0) with true, Some k => noise_of k | _, _ => noise_kind (to_params o) end.
Definition selection_at (orc : strategy_oracle) (o : tune_options) (public : bool) (l0 : option Z) : strategy :=
  match s_selection (the_strategy orc o public l0) with Some k => strategy_named k | None => partition_selection_strategy (to_params o) end.

Lemma least_noise_selected orc eps delta l0 : least_noise orc (eps, delta) l0 (noise_of (select_noise_kind orc eps delta l0 1)).
Proof.
  unfold least_noise, select_noise_kind, std_of. cbn [fst snd]. split.
  - intro D. apply Qeq_bool_iff in D. rewrite D. reflexivity.
  - intros D k'. destruct (Qeq_bool delta 0) eqn:E; [apply Qeq_bool_iff in E; contradiction|].
    destruct (Qle_bool (laplace_std orc eps l0 1) (gaussian_std orc eps delta l0 1)) eqn:X; cbn [negb noise_of].
    + apply Qle_bool_iff in X. destruct k'; [apply Qle_refl | exact X].
    + destruct k'; [|apply Qle_refl]. apply Qlt_le_weak, Qnot_le_lt. intro Y. apply Qle_bool_iff in Y. congruence.
Qed.
Lemma least_threshold_selected orc eps delta l0 : least_threshold orc (eps, delta) l0 (strategy_named (select_selection orc eps delta l0)).
Proof.
  unfold least_threshold, select_selection. cbn [fst snd].
  destruct (Qle_bool (gaussian_threshold orc eps delta l0) (laplace_threshold orc eps delta l0)) eqn:X; cbn [negb strategy_named]; (split; [discriminate|]).
  - apply Qle_bool_iff in X. intros [| |]; (exact X || apply Qle_refl).
  - intros [| |]; try apply Qle_refl. apply Qlt_le_weak, Qnot_le_lt. intro Y. apply Qle_bool_iff in Y. congruence.
Qed.

Lemma strategy_wanted orc o h public l0 linf : supported o h public -> 1 <= l0 ->
  wanted_strategy orc o public
    (UParams (Some l0) linf
       (match metrics (to_params o) with [] => noise_kind (to_params o) | _ => noise_at orc o public (Some l0) end)
       (if public then partition_selection_strategy (to_params o) else selection_at orc o public (Some l0))).
Proof.
  intros Su L. destruct (checks_pass o h public Su) as (_ & _ & D). unfold wanted_strategy. cbn [u_l0 u_noise u_strategy]. exists l0. split; [reflexivity|].
  assert (T : the_strategy orc o public (Some l0) =
    if Nat.eqb (length (metrics (to_params o))) 0 then Strategy None (Some (select_selection orc (to_eps o) (to_delta o) l0)) false
    else if public then Strategy (Some (select_noise_kind orc (to_eps o) (to_delta o) (l0 * Z.of_nat (length (metrics (to_params o)))) 1)) None false
    else if has PRIVACY_ID_COUNT (metrics (to_params o))
         then let n := select_noise_kind orc (to_eps o) (to_delta o / 2)%Q (l0 * Z.of_nat (length (metrics (to_params o)))) 1 in
              Strategy (Some n) (Some (thresholding_of n)) true
         else Strategy (Some (select_noise_kind orc (to_eps o / 2)%Q (to_delta o / 2)%Q (l0 * Z.of_nat (length (metrics (to_params o)))) 1))
                (Some (select_selection orc (to_eps o / 2)%Q (to_delta o / 2)%Q (l0 * Z.of_nat (length (metrics (to_params o)))))) false).
  { unfold the_strategy, strategy_for. cbn [u_l0]. destruct (Z.leb_spec l0 0); [lia|]. cbn [raise_if]. unfold get_dp_strategy. rewrite D. reflexivity. }
  unfold noise_at, selection_at. rewrite T. clear T. unfold assumed_budget.
  destruct (metrics (to_params o)) as [|m ms] eqn:Em; cbn [length Nat.eqb].
  - split; [congruence|]. rewrite (sup_select o h public Su Em). cbn [s_selection]. apply least_threshold_selected.
  - change (Z.of_nat (S (length ms))) with (Z.of_nat (length (m :: ms))). set (n := Z.of_nat (length (m :: ms))). split.
    + intros _. destruct (tt_noise (to_tuned o)); [|reflexivity].
      destruct public; [apply least_noise_selected|]. destruct (has PRIVACY_ID_COUNT (m :: ms)); cbn [s_noise]; apply least_noise_selected.
    + destruct public; [reflexivity|]. destruct (has PRIVACY_ID_COUNT (m :: ms)); cbn [s_selection].
      * exists (noise_of (select_noise_kind orc (to_eps o) (to_delta o / 2)%Q (l0 * n) 1)). split; [apply least_noise_selected|].
        destruct (select_noise_kind _ _ _ _ _); reflexivity.
      * apply least_threshold_selected.
Qed.

(** *** The options of the analysis *)
Definition params_of (orc : strategy_oracle) (o : tune_options) (public : bool) (c : config) (i : nat) : uparams * list (option Q * option Q) :=
  (UParams (l0_at o c i) (linf_at o c i)
     (match metrics (to_params o) with [] => noise_kind (to_params o) | _ => noise_at orc o public (l0_at o c i) end)
     (if public then partition_selection_strategy (to_params o) else selection_at orc o public (l0_at o c i)),
   bounds_or_default (to_params o) (snd (config_at c i))).

Lemma nth_seq_map {A} (f : nat -> A) n i : (i < n)%nat -> nth_error (map f (seq 0 n)) i = Some (f i).
Proof. intro L. rewrite nth_error_map, (nth_error_nth' (seq 0 n) 0%nat) by (rewrite seq_length; exact L). rewrite seq_nth by exact L. reflexivity. Qed.

Lemma override_map {A} (d : A) (f : nat -> A) n i : (i < n)%nat -> override d (fun x => x) (Some (map f (seq 0 n))) i = Ok (f i).
Proof.
  intro L. assert (X := nth_seq_map f n i L). unfold override. destruct (map f (seq 0 n)); [destruct i; discriminate|]. rewrite X. reflexivity.
Qed.

Lemma options_built orc ceils0 ceils1 o h public : supported o h public ->
  exists c n nz st,
    find_candidates ceils0 ceils1 (tuning_of o h) = Ok (c, n) /\
    let uo := Options (to_eps o) (to_delta o) (to_params o) (Some (MConfig c nz st, n)) in
    analysis_options orc ceils0 ceils1 h o public = Ok uo /\
    config_valid uo /\ st <> Some [] /\
    (public = false -> st = Some (map (fun i => u_strategy (fst (params_of orc o public c i))) (seq 0 n))) /\
    (forall i, (i < n)%nat -> params_at (to_params o) (MConfig c nz st) i = Ok (params_of orc o public c i)) /\
    all_params uo = Ok (map (params_of orc o public c) (seq 0 n)).
Proof.
  intro Su. destruct (checks_pass o h public Su) as (K1 & K2 & K3). destruct (candidates_found ceils0 ceils1 o h public Su) as (c & n & E).
  destruct (candidate_bounds _ _ _ _ _ _ _ Su E) as (L1 & Ln & W & _).
  set (nz := match metrics (to_params o) with [] => None | _ => Some (map (fun i => noise_at orc o public (l0_at o c i)) (seq 0 n)) end).
  set (st := if public then None else Some (map (fun i => selection_at orc o public (l0_at o c i)) (seq 0 n))).
  exists c, n, nz, st. split; [exact E|]. cbn zeta.
  assert (One : t_sum (tuning_of o h) = true -> length (t_sum_bins (tuning_of o h)) = 1%nat).
  { cbn [tuning_of t_sum t_sum_bins]. fold (tunes_sum o). intro T. assert (X := sup_sum o h public Su). rewrite T in X. destruct X as (maxs & -> & _). reflexivity. }
  assert (L0 : forall i, (i < n)%nat -> exists l0, l0_at o c i = Some l0 /\ 1 <= l0).
  { intros i Hi. destruct (W i Hi LaplaceNoise ParamsModel.TruncatedGeometric) as ((l0 & A & B & _) & _). cbn [u_l0] in A. exists l0. auto. }
  assert (At : forall nz' st' i, (i < n)%nat -> params_at (to_params o) (MConfig c nz' st') i =
             rbind (override (noise_kind (to_params o)) (fun n => n) nz' i) (fun k =>
             rbind (override (partition_selection_strategy (to_params o)) (fun s => s) st' i) (fun s =>
             Ok (UParams (l0_at o c i) (linf_at o c i) k s, bounds_or_default (to_params o) (snd (config_at c i)))))).
  { intros nz' st' i Hi. destruct (bounds_at _ _ _ _ _ (to_params o) i E One Hi) as (A & B & C & _).
    unfold params_at. cbn [mc_bounds mc_noise mc_strategy]. rewrite A, B, C. reflexivity. }
  assert (Add : add_dp_strategy orc o public c n = Ok (MConfig c nz st)).
  { unfold add_dp_strategy.
    rewrite (sequence_seq (params_at (to_params o) (MConfig c None None))
               (fun i => (UParams (l0_at o c i) (linf_at o c i) (noise_kind (to_params o)) (partition_selection_strategy (to_params o)),
                          bounds_or_default (to_params o) (snd (config_at c i))))).
    2:{ intros i Hi. rewrite At by lia. reflexivity. }
    cbn [rbind]. rewrite map_map. cbn [fst].
    rewrite (sequence_seq _ (fun i => the_strategy orc o public (l0_at o c i))).
    2:{ intros i Hi. destruct (L0 i ltac:(lia)) as (l0 & El & P1). exact (strategy_for_ok orc o h public (UParams (l0_at o c i) _ _ _) l0 Su El P1). }
    cbn [rmap]. unfold nz, st. rewrite !map_map. reflexivity. }
  assert (Pa : forall i, (i < n)%nat -> params_at (to_params o) (MConfig c nz st) i = Ok (params_of orc o public c i)).
  { intros i Hi. rewrite At by exact Hi. unfold params_of, nz, st.
    assert (O1 : override (noise_kind (to_params o)) (fun n0 => n0) (match metrics (to_params o) with [] => None | _ => Some (map (fun i => noise_at orc o public (l0_at o c i)) (seq 0 n)) end) i
              = Ok (match metrics (to_params o) with [] => noise_kind (to_params o) | _ => noise_at orc o public (l0_at o c i) end)).
    { destruct (metrics (to_params o)); [reflexivity|]. exact (override_map _ (fun j => noise_at orc o public (l0_at o c j)) n i Hi). }
    assert (O2 : override (partition_selection_strategy (to_params o)) (fun s => s) (if public then None else Some (map (fun i => selection_at orc o public (l0_at o c i)) (seq 0 n))) i
              = Ok (if public then partition_selection_strategy (to_params o) else selection_at orc o public (l0_at o c i))).
    { destruct public; [reflexivity|]. exact (override_map _ (fun j => selection_at orc o false (l0_at o c j)) n i Hi). }
    rewrite O1, O2. reflexivity. }
  split; [|split; [|split; [|split; [|split]]]].
  - unfold analysis_options. rewrite K1. cbn [rbind]. rewrite K2. cbn [rbind]. rewrite E. cbn [rbind fst snd]. rewrite K3. cbn [raise_if]. rewrite Add. reflexivity.
  - unfold config_valid. cbn [o_config]. unfold mconfig_size, mconfig_sizes. cbn [mc_bounds mc_noise mc_strategy].
    destruct (find_candidates_shape _ _ _ _ _ E) as (Mk & _). destruct (make_config_facts _ _ Mk) as ((sizes & Es & F) & B & C). rewrite Es. cbn [app].
    assert (F2 : forallb (Nat.eqb n) (sizes ++ olen (@length noise) nz ++ olen (@length strategy) st) = true).
    { rewrite !forallb_app, F. cbn [andb]. apply andb_true_iff. split.
      - unfold nz, olen. destruct (metrics (to_params o)); [reflexivity|]. rewrite map_length, seq_length. destruct (Nat.eqb n 0); [reflexivity|]. cbn. rewrite Nat.eqb_refl. reflexivity.
      - unfold st, olen. destruct public; [reflexivity|]. rewrite map_length, seq_length. destruct (Nat.eqb n 0); [reflexivity|]. cbn. rewrite Nat.eqb_refl. reflexivity. }
    rewrite F2, B, C. reflexivity.
  - unfold st. destruct public; [discriminate|]. destruct n; [lia|discriminate].
  - unfold st. intros ->. reflexivity.
  - exact Pa.
  - unfold all_params. cbn [o_params o_config]. apply sequence_seq. intros i Hi. apply Pa. lia.
Qed.
