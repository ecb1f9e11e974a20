(** The whole of tune. *)
From Coq Require Import List ZArith QArith Bool Permutation Sorted Lia.
From Verif Require Import Base BaseLemmas ListLemmas BudgetModel ParamsModel CombinerModel BackendModel BackendSpec BackendProofs BounderModel BounderSpec EngineSpec HistModel HistProofs2
  AnalysisModel AnalysisSpec CrossModel CrossSpec TuningModel TuningProofs TuningProofs2
  UtilityModel UtilitySpec UtilityProofs2 UtilityProofs3 UtilityProps AnalyzeModel AnalyzeSpec AnalyzeProofs4 AnalyzeProofs7
  TuneModel TuneSpec TuneProofs TuneProofs2 TuneProofs3.
Import ListNotations.
Local Open Scope Z_scope.

Lemma nth_combine_seq {A} (l : list A) i x : nth_error l i = Some x -> forall s, nth_error (combine (seq s (length l)) l) i = Some ((s + i)%nat, x).
Proof.
  revert i. induction l as [|y l IH]; intros [|i] E s; try discriminate.
  - cbn in *. rewrite Nat.add_0_r. congruence.
  - cbn [length seq combine nth_error] in *. rewrite (IH i E). rewrite Nat.add_succ_r. reflexivity.
Qed.

Lemma nth_error_ext_map {A B} (f : A -> B) l l' : map f l = l' -> forall i x, nth_error l i = Some x -> nth_error l' i = Some (f x).
Proof. intros <- i x E. rewrite nth_error_map, E. reflexivity. Qed.

Lemma Forall2_of_nth {A B} (R : A -> B -> Prop) l l' : length l = length l' ->
  (forall i a b, nth_error l i = Some a -> nth_error l' i = Some b -> R a b) -> Forall2 R l l'.
Proof.
  revert l'. induction l as [|a l IH]; intros [|b l'] L H; try discriminate; constructor.
  - exact (H 0%nat a b eq_refl eq_refl).
  - apply IH; [cbn in L; lia|]. intros i. exact (H (S i)).
Qed.

Lemma sequence_forall2 {A B} (f : A -> result B) l l' : Forall2 (fun a b => f a = Ok b) l l' -> sequence (map f l) = Ok l'.
Proof. induction 1 as [|a b l l' E F IH]; [reflexivity|]. cbn [map sequence]. rewrite E. cbn [rbind]. rewrite IH. reflexivity. Qed.

Section Tune.
Context {U P : Type} `{EqDec U} `{EqDec P}.

(** Everything about a call of tune. *)
Record tuned_well (root : Q -> Q) (std : nat -> Q) (keeps : nat -> Z -> Q) (approx : moments -> Z * list Q) (orc : strategy_oracle)
    (hash : P -> Z) (h : contribution_histograms) (o : tune_options) (public : option (list P)) (rows : list (U * P * value))
    (r : tune_result_t) (pk : list (P * list partition_metrics)) (n : nat) (ub : nat -> uparams * list (option Q * option Q)) : Prop := {
  tw_number : (1 <= n)%nat /\ Z.of_nat n <= to_candidates o;
  tw_params : forall i, (i < n)%nat -> params_at (to_params o) (tr_configurations r) i = Ok (ub i);
  tw_bounds : forall i, (i < n)%nat -> wanted_bounds o h (fst (ub i)) (snd (ub i));
  tw_strategy : forall i, (i < n)%nat -> wanted_strategy orc o (is_some public) (fst (ub i));
  tw_distinct : forall i j, (i < n)%nat -> (j < n)%nat -> u_l0 (fst (ub i)) = u_l0 (fst (ub j)) -> u_linf (fst (ub i)) = u_linf (fst (ub j)) ->
                snd (ub i) = snd (ub j) -> i = j;
  tw_keys : NoDup (map fst pk) /\ forall k, In k (map fst pk) <->
     (exists pub, public = Some pub /\ In k pub) \/
     (partition_kept hash (to_sampling o) k = true /\ ids_of k (counted (to_params o) public rows) <> []);
  tw_metrics : forall k row, In (k, row) pk -> length row = n /\ exists ids ds,
     Permutation ids (if partition_kept hash (to_sampling o) k then ids_of k (counted (to_params o) public rows) else []) /\
     Forall2 (data_spec (perform_cross_partition_contribution_bounding (to_params o)) (counted (to_params o) public rows) k) ids ds /\
     forall i pm, nth_error row i = Some pm ->
       partition_spec root std keeps approx (is_some public) (metrics (to_params o)) i (ub i) ds pm;
  tw_reports : length (tr_reports r) = n /\ forall i u, nth_error (tr_reports r) i = Some u ->
     report_ok root (length (metrics (to_params o))) (is_some public) (map (fun i => u_strategy (fst (ub i))) (seq 0 n)) pk i u;
  tw_first : metrics (to_params o) <> [] -> forall i u, nth_error (tr_reports r) i = Some u ->
     exists e rest, r_errors (ur_report u) = Some (e :: rest) /\ mu_metric e = decisive (metrics (to_params o)) /\
       (ve_rmse (mu_absolute e) == average_rmse root (config_metrics i pk))%Q;
  tw_best : match metrics (to_params o) with
            | [] => tr_best r = -1
            | _ => exists b, tr_best r = Z.of_nat b /\ first_smallest (map (fun i => average_rmse root (config_metrics i pk)) (seq 0 n)) b
            end }.

Lemma tune_lemma root std keeps approx orc ceils0 ceils1 hash (run : runner P) h o public (rows : list (U * P * value)) :
  numeric approx -> fair run -> supported o h (is_some public) -> numeric_rows rows ->
  something (to_params o) hash (to_sampling o) public rows ->
  exists r pk n ub, tune root std keeps approx orc ceils0 ceils1 hash run h o false true public (Raw rows) = Ok (r, per_partition_output pk) /\
    tuned_well root std keeps approx orc hash h o public rows r pk n ub.
Proof.
  intros Nu (Fm & Fc & Fg & Fl) Su Nr Some_. destruct (options_built orc ceils0 ceils1 o h _ Su) as (c & n & nz & st & Ec & Eo & Cv & Ns & Est & Pa & Ep).
  cbn zeta in *. set (uo := Options (to_eps o) (to_delta o) (to_params o) (Some (MConfig c nz st, n))) in *.
  destruct (candidate_bounds _ _ _ _ _ _ _ Su Ec) as (L1 & Ln & W & Di).
  set (ub := params_of orc o (is_some public) c) in *.
  set (p := to_params o) in *. set (ms := metrics p) in *.
  assert (Wb : forall i, (i < n)%nat -> wanted_bounds o h (fst (ub i)) (snd (ub i))) by (intros i Hi; apply (W i Hi)).
  assert (One : forall i, (i < n)%nat -> length (snd (ub i)) = 1%nat).
  { intros i Hi. destruct (wanted_available o h _ _ _ Su (Wb i Hi)) as (_ & _ & lo & hi & E & _). cbn [snd] in E. rewrite E. reflexivity. }
  assert (InPs : forall x, In x (map ub (seq 0 n)) -> exists i, (i < n)%nat /\ x = ub i).
  { intros x Ix. apply in_map_iff in Ix. destruct Ix as (i & <- & Ii). apply in_seq in Ii. exists i. split; [lia|reflexivity]. }
  destruct (Forall2_exists (fun x chunk => config_combiners (is_some public) ms x = Ok chunk) (map ub (seq 0 n))) as (chunks & Fch).
  { intros x Ix. destruct (InPs x Ix) as (i & Hi & ->). apply combiners_exist.
    assert (X := wanted_available o h _ _ _ Su (Wb i Hi)). destruct (ub i). exact X. }
  assert (Lone : Forall (fun x => length (snd x) = 1%nat) (map ub (seq 0 n))).
  { apply Forall_forall. intros x Ix. destruct (InPs x Ix) as (i & Hi & ->). exact (One i Hi). }
  assert (Nbs : Forall (fun x => snd x <> []) (map ub (seq 0 n))).
  { eapply Forall_impl; [|exact Lone]. intros x Hx. cbn beta in Hx. destruct (snd x); [discriminate|congruence]. }
  destruct (analysed_data p hash (to_sampling o) public rows Nr) as (contribs & Ea & _).
  assert (Pl := Fm contribs). set (plan := run_merge run contribs) in *.
  destruct (plan_data p hash (to_sampling o) public rows contribs plan Nr Ea Pl) as [Keys Data].
  assert (Np : plan <> []).
  { assert (X : exists k, In k (map fst plan)).
    { destruct Some_ as [(k & pub & E & I)|(rw & I & K)].
      - exists k. apply Keys. left. exists pub. split; assumption.
      - exists (snd (fst rw)). apply Keys. right. split; [exact K|]. intro Z0.
        assert (In (fst (fst rw)) (ids_of (snd (fst rw)) (counted p public rows))).
        { unfold ids_of. apply in_distinct, in_map_iff. exists rw. split; [reflexivity|]. apply filter_In. split; [exact I|apply eqb_refl]. }
        rewrite Z0 in H1. destruct H1. }
    destruct X as (k & I). intro Z0. rewrite Z0 in I. destruct I. }
  destruct (C57_one_report_per_configuration P root std keeps approx (is_some public) uo (map ub (seq 0 n)) chunks plan (run_group run)) as (pk & Epk & Fpk & Rep);
    try assumption.
  { exact (sup_distinct _ _ _ Su). }
  { apply only_supported. exact (sup_metrics _ _ _ Su). }
  { intros c' n' E. injection E as <- _. exact Ns. }
  { intros [k t] I. apply (shapes_ok (is_some public) (map ub (seq 0 n)) chunks ms); auto; cbn [snd].
    - intros Hp. destruct public; [discriminate|]. destruct (Data k t I) as (En & ids & Pi & Fd).
      destruct (proj1 (Keys k) (in_map fst _ _ I)) as [(pub & X & _)|[Kk' Ni]]; [discriminate|]. rewrite Kk' in Pi.
      intro Z0. rewrite Z0 in Fd. inversion Fd; subst. apply Permutation_nil in Pi. exact (Ni Pi).
    - intros d Id. destruct (Data k t I) as (_ & ids & _ & Fd). destruct (Forall2_In_r _ _ _ _ Fd Id) as (u & _ & _ & (q & Eq & _) & _).
      unfold value_of. rewrite Eq. discriminate. }
  change (n_configurations uo) with n in *. change (metrics (o_params uo)) with ms in *.
  destruct (Rep (run_cross run (unnested pk)) (Fc _)) as (us & Eus & Pus & Ous).
  destruct (Permutation_map_inv _ _ (Fl (map Some us))) as (us' & Eus' & Pus').
  destruct (sorted_reports us' n) as [Ps Is].
  { rewrite <- Pus. apply Permutation_map. apply Permutation_sym. exact Pus'. }
  set (sorted := sort_by (fun a b => r_index (ur_report a) <=? r_index (ur_report b)) us') in *.
  assert (Lsort : length sorted = n) by (rewrite <- (map_length (fun u => r_index (ur_report u))), Is, map_length, seq_length; reflexivity).
  assert (Rok : forall i u, nth_error sorted i = Some u -> report_ok root (length ms) (is_some public) (map (fun i => u_strategy (fst (ub i))) (seq 0 n)) pk i u).
  { intros i u Ei. assert (Iu : In u us).
    { apply (Permutation_in _ (Permutation_sym Pus')), (Permutation_in _ Ps). eapply nth_error_In. exact Ei. }
    destruct (Ous u Iu) as (c' & Hc & Ex & Ro).
    assert (X := nth_error_ext_map _ _ _ Is i u Ei). assert (Li : (i < n)%nat) by (rewrite <- Lsort; apply nth_error_Some; congruence).
    rewrite (nth_seq_map Z.of_nat n i Li) in X. injection X as X. rewrite Ex in X. apply Nat2Z.inj in X. subst c'.
    unfold report_ok in *. assert (SE : strategy_of (is_some public) (strategies uo) i = strategy_of (is_some public) (map (fun i => u_strategy (fst (ub i))) (seq 0 n)) i).
    { unfold strategy_of. destruct (is_some public); [reflexivity|]. unfold strategies, uo. cbn [o_config mc_strategy]. rewrite (Est eq_refl). reflexivity. }
    rewrite SE in Ro. exact Ro. }
  assert (Row : forall k row, In (k, row) pk -> exists t, In (k, t) plan /\ length row = n /\
      forall i pm, nth_error row i = Some pm -> partition_spec root std keeps approx (is_some public) ms i (ub i) (given (leaves t)) pm).
  { intros k row I. destruct (Forall2_In_r _ _ _ _ Fpk I) as ([k' t] & It & Ek & Fr). cbn [fst snd] in Ek, Fr. subst k'. exists t. split; [exact It|].
    assert (Lr : length row = n). { apply Forall2_len in Fr. rewrite combine_length, map_length, !seq_length, Nat.min_id in Fr. symmetry. exact Fr. }
    split; [exact Lr|]. intros i pm Epm. assert (Li : (i < n)%nat) by (rewrite <- Lr; apply nth_error_Some; congruence).
    assert (Nth : nth_error (combine (seq 0 n) (map ub (seq 0 n))) i = Some (i, ub i)).
    { assert (Y := nth_combine_seq (map ub (seq 0 n)) i (ub i) (nth_seq_map ub n i Li) 0%nat). rewrite map_length, seq_length in Y. exact Y. }
    destruct (UtilityProofs3.Forall2_nth _ _ _ Fr _ _ Nth) as (pm' & Epm' & Sp). assert (pm' = pm) by congruence. subst pm'. exact Sp. }
  assert (First : ms <> [] -> forall i u, nth_error sorted i = Some u ->
     exists e rest, r_errors (ur_report u) = Some (e :: rest) /\ mu_metric e = decisive ms /\
       (ve_rmse (mu_absolute e) == average_rmse root (config_metrics i pk))%Q).
  { intros Nm i u Ei. destruct (Rok i u Ei) as (Sm & _). assert (Li : (i < n)%nat) by (rewrite <- Lsort; apply nth_error_Some; congruence).
    assert (Ll : (1 <= length ms)%nat) by (destruct ms; [congruence|cbn; lia]).
    eapply (report_first_error root (length ms) (is_some public) i _ pk (n_errors ms (snd (ub i)))); [| |exact Sm].
    - split; [exact Ll|]. apply errors_enough; [exact (sup_distinct _ _ _ Su)|apply only_supported, (sup_metrics _ _ _ Su)|].
      intro Z0. specialize (One i Li). rewrite Z0 in One. discriminate.
    - intros pm Ipm. apply in_config_metrics_row in Ipm. destruct Ipm as ([k row] & I & J). cbn [snd] in J.
      destruct (Row k row I) as (t & _ & _ & R). specialize (R i pm J).
      destruct (first_error root std keeps approx (is_some public) ms i (ub i) _ pm (sup_metrics _ _ _ Su) Nm (One i Li) R) as (A & _ & B & C & D).
      split; [exact A|]. split; [exact B|]. split; [exact C|exact D]. }
  assert (Best : exists best, convert o (MConfig c nz st) n (run_list run (map Some us)) = Ok (TuneResult (MConfig c nz st) best sorted) /\
     match ms with [] => best = -1 | _ => exists b, best = Z.of_nat b /\ first_smallest (map (fun i => average_rmse root (config_metrics i pk)) (seq 0 n)) b end).
  { unfold convert. rewrite Eus', map_length. rewrite (Permutation_length (Permutation_sym Ps)), Lsort, Nat.eqb_refl. cbn [negb raise_if].
    rewrite (sup_minimize _ _ _ Su). cbn [rbind]. rewrite sequence_the_report. cbn [rbind]. fold sorted. fold p ms.
    destruct ms as [|m ms'] eqn:Em; [eexists; split; reflexivity|]. assert (Nm : m :: ms' <> []) by discriminate. specialize (First Nm).
    destruct (Forall2_exists (fun u e => first_rmse u = Ok e) sorted) as (errs & Fe).
    { intros u Iu. destruct (In_nth_error _ _ Iu) as (i & Ei). destruct (First i u Ei) as (e & rest & E1 & _). unfold first_rmse. rewrite E1. eexists. reflexivity. }
    rewrite (sequence_forall2 _ _ _ Fe). cbn [rbind]. assert (Le := Forall2_len _ _ _ Fe).
    destruct (argmin_first errs) as (b & Eb & Fb); [intro Z0; rewrite Z0 in Le; cbn in Le; lia|]. rewrite Eb. cbn [rmap].
    eexists. split; [reflexivity|]. exists b. split; [reflexivity|]. refine (first_smallest_ext _ _ _ _ Fb).
    apply Forall2_of_nth; [rewrite map_length, seq_length; lia|]. intros i a a' E1 E2.
    assert (Li : (i < n)%nat) by (rewrite <- Lsort, Le; apply nth_error_Some; congruence).
    rewrite (nth_seq_map _ n i Li) in E2. injection E2 as <-.
    destruct (nth_error sorted i) as [u|] eqn:Eu; [|apply nth_error_None in Eu; lia].
    destruct (UtilityProofs3.Forall2_nth _ _ _ Fe _ _ Eu) as (a' & Ea' & Fr). assert (a' = a) by congruence. subst a'.
    destruct (First i u Eu) as (e & rest & X1 & _ & X2). unfold first_rmse in Fr. rewrite X1 in Fr. injection Fr as <-. exact X2. }
  destruct Best as (best & Ebest & Hbest).
  exists (TuneResult (MConfig c nz st) best sorted), pk, n, ub. split.
  - unfold tune. rewrite Eo. cbn [rbind]. rewrite (options_checked o h _ uo Su eq_refl eq_refl eq_refl). cbn [rbind]. fold p. rewrite Ea. cbn [rbind].
    unfold analyze. fold plan. rewrite Epk. cbn [rbind]. fold ms. rewrite Eus. cbn [rbind uo o_config]. rewrite Ebest. reflexivity.
  - split; cbn [tr_configurations tr_best tr_reports]; fold p; fold ms; auto.
    + intros i Hi. unfold ub, params_of. cbn [fst]. destruct (Wb i Hi) as ((l0 & A & B & _) & _). unfold ub, params_of in A. cbn [fst u_l0] in A.
      rewrite A. apply (strategy_wanted orc o h); assumption.
    + split.
      * assert (X : map fst pk = map fst plan).
        { clear -Fpk. induction Fpk as [|kt kv l l' (A & _) F IH]; [reflexivity|]. cbn [map]. rewrite A, IH. reflexivity. }
        rewrite X. exact (proj1 Pl).
      * intro k. assert (X : map fst pk = map fst plan).
        { clear -Fpk. induction Fpk as [|kt kv l l' (A & _) F IH]; [reflexivity|]. cbn [map]. rewrite A, IH. reflexivity. }
        rewrite X. apply Keys.
    + intros k row I. destruct (Row k row I) as (t & It & Lr & R). split; [exact Lr|]. destruct (Data k t It) as (_ & ids & Pi & Fd).
      exists ids, (given (leaves t)). split; [exact Pi|]. split; [exact Fd|exact R].
Qed.
End Tune.
