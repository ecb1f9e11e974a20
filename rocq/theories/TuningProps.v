(** C45: candidates of parameter tuning; C52: the recommended configuration;
    C53: the automatically chosen DP strategy. *)
From Coq Require Import List ZArith QArith Qround Bool Lia Sorting Permutation FinFun.
From Verif Require Import Base HistModel HistProofs2 TuningModel TuningProofs TuningProofs2 TuningProofs3.
Import ListNotations.
Local Open Scope Z_scope.

(** ** C45 *)

(** Whatever numbers math.ceil(accumulated) returns, the candidates for a count bound are
    strictly increasing integers between 1 and the largest value, at most as many as
    requested, beginning with 1 and (when two may be returned) ending with the largest
    value. *)
Theorem C45_candidates (ceils : nat -> Z) (largest requested : Z) :
  1 <= largest -> 1 <= requested ->
  exists cs, constant_relative_step ceils largest requested = Ok cs /\
    StronglySorted Z.lt cs /\ hd_error cs = Some 1 /\ Forall (fun x => 1 <= x <= largest) cs /\
    Z.of_nat (length cs) <= requested /\ (2 <= requested -> last cs 0 = largest).
Proof.
  intros M K. destruct (relative_step_ok ceils largest requested M K) as (cs & E & N).
  destruct (relative_step_spec _ _ _ _ E) as (A & B & C & D & F).
  exists cs. split; [exact E|]. split; [exact A|]. split; [|auto].
  destruct cs as [|x cs]; [congruence|]. cbn in *. congruence.
Qed.

Example C45_candidates_case : constant_relative_step (fun i => Z.of_nat i * 3) 100 5 = Ok [1; 3; 6; 9; 100].
Proof. reflexivity. Qed.

(** When no more values exist than may be returned, all of them are candidates
    (even if ceil returns nothing useful). *)
Theorem C45_candidates_all (ceils : nat -> Z) (largest requested : Z) :
  1 <= largest <= requested -> (forall i, ceils i <= 0) ->
  exists cs, constant_relative_step ceils largest requested = Ok cs /\ forall x, In x cs <-> 1 <= x <= largest.
Proof.
  intros H Z0. destruct (C45_candidates ceils largest requested ltac:(lia) ltac:(lia)) as (cs & E & A & B & C & D & F).
  exists cs. split; [exact E|]. intro x. split; [intro I; rewrite Forall_forall in C; exact (C x I)|].
  intro I.
  assert (L : length cs = Z.to_nat largest).
  { unfold constant_relative_step in E. destruct (Z.ltb_spec largest 1); [lia|]. rewrite Z.min_r in E by lia.
    destruct (Z.leb_spec largest 0); [lia|].
    destruct (Z.eqb_spec largest 1) as [->|N1]; apply Ok_inj in E; subst cs; [reflexivity|].
    rewrite set_last_length. cbn [length].
    assert (G : forall n i p, 0 <= p -> p + Z.of_nat n = largest -> length (step_loop ceils largest n i p) = n).
    { induction n as [|n IH]; intros i p P0 P; cbn [step_loop]; [reflexivity|].
      destruct (Z.leb_spec largest p); [lia|]. cbn [length]. f_equal.
      assert (Zi := Z0 i). apply IH; lia. }
    rewrite G; lia. }
  (* a strictly increasing list of [largest] numbers of [1, largest] contains them all *)
  set (all := map Z.of_nat (seq 1 (Z.to_nat largest))).
  assert (ND : NoDup cs) by (eapply sorted_NoDup; [|exact A]; intro; lia).
  assert (Inc : incl cs all).
  { intros y Iy. rewrite Forall_forall in C. apply C in Iy. unfold all. apply in_map_iff. exists (Z.to_nat y).
    split; [lia|]. apply in_seq. lia. }
  assert (LA : (length all <= length cs)%nat) by (unfold all; rewrite map_length, seq_length; lia).
  apply (NoDup_length_incl ND LA Inc). unfold all. apply in_map_iff. exists (Z.to_nat x). split; [lia|]. apply in_seq. lia.
Qed.

(** A single candidate is 1, not the largest value. *)
Theorem C45_single_candidate_refuted : exists ceils largest,
  1 < largest /\ constant_relative_step ceils largest 1 = Ok [1].
Proof. exists (fun _ => 0), 5. split; [lia | reflexivity]. Qed.

(** Candidates for a sum bound, from the increasing maxima of the bins: distinct maxima in
    increasing order, as many as requested or as there are bins, not beginning with a
    maximum <= 0 of the first bin, ending (if there are two or more) with the largest. *)
Theorem C45_sum_candidates (maxs cs : list Q) (requested : Z) :
  StronglySorted Qlt maxs -> bins_max_values_subsample maxs requested = Ok cs ->
  StronglySorted Qlt cs /\ incl cs maxs /\ Z.of_nat (length cs) <= Z.max 0 requested /\
  ((2 <= length cs)%nat -> last cs 0%Q = last maxs 0%Q).
Proof. intros S E. destruct (subsample_spec _ _ _ S E) as (A & B & C & _ & D & _). auto. Qed.

Theorem C45_sum_candidates_first (maxs cs : list Q) (requested : Z) :
  StronglySorted Qlt maxs -> 1 <= requested -> bins_max_values_subsample maxs requested = Ok cs ->
  ((0 < hd 0 maxs)%Q -> hd 0%Q cs = hd 0%Q maxs) /\
  ((hd 0 maxs <= 0)%Q -> (2 <= length maxs)%nat -> hd 0%Q cs = nth 1 maxs 0%Q).
Proof.
  intros S R E. destruct (subsample_spec _ _ _ S E) as (_ & _ & _ & A & _ & L).
  unfold first_bin in *. destruct maxs as [|m0 rest]; [discriminate|]. cbn [hd nth length] in *.
  split.
  - intro P. destruct (Qle_bool m0 0) eqn:Eb; [apply Qle_bool_iff in Eb; exfalso; exact (Qlt_not_le _ _ P Eb)|].
    rewrite A; [reflexivity|]. destruct cs; [cbn [length] in L; lia | discriminate].
  - intros P L2. apply Qle_bool_iff in P. rewrite P in *. rewrite A; [reflexivity|]. destruct cs; [cbn [length] in L; lia | discriminate].
Qed.

Example C45_sum_candidates_case :
  StronglySorted Qlt [0; 1; 5; 7; 9]%Q /\ bins_max_values_subsample [0; 1; 5; 7; 9]%Q 3 = Ok [1; 5; 9]%Q.
Proof. split; [repeat constructor | reflexivity]. Qed.

(** All the partition sums negative: the candidate's max_sum_per_partition is smaller than its
    min_sum_per_partition. *)
Definition negative_sums := Tuning false false true (Some 1) 4 0 0 [[-3#1; -1#1]%Q].
Theorem C45_negative_sums_refuted : exists c n,
  find_candidates (fun _ => 0) (fun _ => 0) negative_sums = Ok (c, n) /\
  exists i lo hi, (i < n)%nat /\ config_at c i = (Some 1, None, Some [(lo, hi)]) /\ (hi < lo)%Q.
Proof.
  eexists. eexists. split; [vm_compute; reflexivity|]. exists 0%nat, 0%Q, (-1#1)%Q. split; [lia|]. split; [reflexivity|]. reflexivity.
Qed.

(** All the partition sums zero (one bin, maximum 0): IndexError. *)
Theorem C45_zero_sums_refuted : exists t,
  t_sum t = true /\ t_sum_bins t = [[0%Q]] /\ 1 <= t_max_candidates t /\
  find_candidates (fun _ => 0) (fun _ => 0) t = Err IndexError.
Proof. exists (Tuning false false true (Some 1) 4 0 0 [[0%Q]]). repeat split; cbn; lia. Qed.

(** More sum columns than candidates: ValueError. *)
Theorem C45_many_columns_refuted : exists t,
  t_sum t = true /\ Forall (StronglySorted Qlt) (t_sum_bins t) /\ (forall c, In c (t_sum_bins t) -> (0 < hd 0 c)%Q) /\
  1 <= t_max_candidates t /\
  find_candidates (fun _ => 0) (fun _ => 0) t = Err ValueError.
Proof.
  exists (Tuning false false true (Some 1) 2 0 0 [[1%Q; 2%Q]; [1%Q; 3%Q]; [1%Q; 4%Q]]). cbn [t_sum t_sum_bins t_max_candidates].
  split; [reflexivity|]. split; [repeat constructor|]. split; [|split; [lia | reflexivity]].
  intros c [<-|[<-|[<-|[]]]]; reflexivity.
Qed.

Lemma NoDup_list_prod {A B} (l : list A) (l' : list B) : NoDup l -> NoDup l' -> NoDup (list_prod l l').
Proof.
  intros N N'. induction N as [|a l I N IH]; cbn [list_prod]; [constructor|].
  assert (Nm : NoDup (map (pair a) l')).
  { apply FinFun.Injective_map_NoDup; [|exact N']. intros x y E. injection E as E. exact E. }
  assert (D : forall p, In p (map (pair a) l') -> ~ In p (list_prod l l')).
  { intros p Ip J. apply in_map_iff in Ip. destruct Ip as (b & <- & _). apply in_prod_iff in J. tauto. }
  change (map (fun y : B => (a, y)) l') with (map (pair a) l'). revert Nm D. generalize (map (pair a) l'). intros k Nk. induction Nk as [|x k X Nk IHk]; intro D; cbn [app]; [exact IH|].
  constructor.
  - rewrite in_app_iff. intros [J|J]; [contradiction | exact (D x (or_introl eq_refl) J)].
  - apply IHk. intros p J. apply D. right. exact J.
Qed.

(** The configurations number at most max_candidates, and configurations 0 .. n-1 are every
    pair (candidate for the number of partitions, setting of the per-partition bounds), each
    pair once; the per-partition settings use exactly the candidates of each bound. *)
Theorem C45_cross_product ceils0 ceils1 t c n :
  find_candidates ceils0 ceils1 t = Ok (c, n) -> 1 <= t_max_candidates t ->
  (t_sum t = true -> t_sum_bins t <> [] /\ Forall (StronglySorted Qlt) (t_sum_bins t)) ->
  exists (l0 : list Z) (settings : list (option Z * option (list (Q * Q)))),
    NoDup (list_prod l0 settings) /\
    map (config_at c) (seq 0 n) = map (fun p => (Some (fst p), fst (snd p), snd (snd p))) (list_prod l0 settings) /\
    (1 <= n)%nat /\ Z.of_nat n <= t_max_candidates t /\
    (t_l0 t = true -> StronglySorted Z.lt l0 /\ hd 0 l0 = 1 /\ Forall (fun x => 1 <= x <= t_l0_max t) l0) /\
    (t_l0 t = false -> l0 = [match t_given_l0 t with Some l => if l =? 0 then 1 else l | None => 1 end]) /\
    (t_count t = false -> forall s, In s settings -> fst s = None) /\
    (t_count t = true -> exists cs, StronglySorted Z.lt cs /\ hd 0 cs = 1 /\ Forall (fun x => 1 <= x <= t_linf_max t) cs /\
       Z.of_nat (length l0) * Z.of_nat (length cs) <= t_max_candidates t /\
       (2 <= t_max_candidates t / Z.of_nat (length l0) -> last cs 0 = t_linf_max t) /\
       (forall x, In x (map fst settings) <-> In x (map Some cs))) /\
    (t_sum t = false -> forall s, In s settings -> snd s = None) /\
    (t_sum t = true -> forall j maxs, nth_error (t_sum_bins t) j = Some maxs ->
       exists cs, StronglySorted Qlt cs /\ incl cs maxs /\ ((2 <= length cs)%nat -> last cs 0%Q = last maxs 0%Q) /\
         forall y, In y cs <-> exists s ps, In s settings /\ snd s = Some ps /\ length ps = length (t_sum_bins t) /\
                                            nth_error ps j = Some (0%Q, y)).
Proof.
  intros E M HS. destruct (find_candidates_spec _ _ _ _ _ E M HS) as (l0 & st & E0 & N0 & NS & V & P & En & Le & C0 & C1 & S0 & S1).
  destruct (l0_candidates_spec _ _ _ E0 M) as (_ & NE0 & _ & _).
  exists l0, st.
  assert (L1 : (1 <= length l0)%nat) by (destruct l0; [congruence | cbn; lia]).
  split; [apply NoDup_list_prod; assumption|]. split; [exact V|]. split; [nia|]. split; [exact Le|].
  split; [|split; [|split; [exact C0|split; [|split; [exact S0|]]]]].
  - intro T. unfold l0_candidates in E0. rewrite T in E0. destruct (relative_step_spec _ _ _ _ E0) as (A & B & C & _). auto.
  - intro T. unfold l0_candidates in E0. rewrite T in E0. apply Ok_inj in E0. congruence.
  - intro T. destruct (C1 T) as (cs & Ec & X). exists cs. destruct (relative_step_spec _ _ _ _ Ec) as (A & B & C & D & F).
    repeat split; try assumption; try apply X.
    assert (Q := Z.mul_div_le (t_max_candidates t) (Z.of_nat (length l0)) ltac:(lia)). nia.
  - intros T j maxs Ej. destruct (S1 T j maxs Ej) as (cs & Ec & X). exists cs.
    assert (Sm : StronglySorted Qlt maxs).
    { destruct (HS T) as (_ & F). rewrite Forall_forall in F. apply F. eapply nth_error_In. exact Ej. }
    destruct (subsample_spec _ _ _ Sm Ec) as (A & B & _ & _ & D & _). repeat split; try assumption; apply X.
Qed.

(** With at most one sum column, whose bins hold a positive sum, candidates are found. *)
Theorem C45_candidates_found ceils0 ceils1 t :
  1 <= t_max_candidates t -> (t_l0 t = true -> 1 <= t_l0_max t) -> (t_count t = true -> 1 <= t_linf_max t) ->
  (t_sum t = true -> exists maxs, t_sum_bins t = [maxs] /\ maxs <> [] /\ ((2 <= length maxs)%nat \/ (0 < hd 0 maxs)%Q)) ->
  exists c n, find_candidates ceils0 ceils1 t = Ok (c, n).
Proof. exact (find_candidates_ok ceils0 ceils1 t). Qed.

Definition tuning_case := Tuning true true true None 6 10 7 [[0; 4; 8]%Q].
Example C45_cross_product_case :
  1 <= t_max_candidates tuning_case /\
  (t_sum tuning_case = true -> t_sum_bins tuning_case <> [] /\ Forall (StronglySorted Qlt) (t_sum_bins tuning_case)) /\
  exists c, find_candidates (fun _ => 0) (fun _ => 0) tuning_case = Ok (c, 6%nat) /\
    map (config_at c) (seq 0 6) =
    [(Some 1, Some 1, Some [(0%Q, 4%Q)]); (Some 1, Some 2, Some [(0%Q, 8%Q)]); (Some 1, Some 7, Some [(0%Q, 4%Q)]);
     (Some 10, Some 1, Some [(0%Q, 4%Q)]); (Some 10, Some 2, Some [(0%Q, 8%Q)]); (Some 10, Some 7, Some [(0%Q, 4%Q)])].
Proof.
  split; [cbn; lia|]. split; [intros _; split; [discriminate | repeat constructor]|].
  eexists. split; [vm_compute; reflexivity | reflexivity].
Qed.

(** ** C52 *)

(** With one report per configuration, in any order, the result lists the reports in the
    order of the configurations and names the first configuration with the smallest error. *)
Theorem C52_best_configuration (size : nat) (reports : list (Z * Q)) :
  (0 < size)%nat -> Permutation (map fst reports) (map Z.of_nat (seq 0 size)) ->
  exists best sorted, tune_result true size reports = Ok (best, sorted) /\
    Permutation sorted reports /\ map fst sorted = map Z.of_nat (seq 0 size) /\
    exists err, In (best, err) reports /\
      forall i e, In (i, e) reports -> (err <= e)%Q /\ (i < best -> (err < e)%Q).
Proof.
  intros Pz P. unfold tune_result.
  assert (L : length reports = size) by (apply Permutation_length in P; rewrite !map_length, seq_length in P; exact P).
  rewrite L, Nat.eqb_refl. cbn [negb].
  set (sorted := sort_by (fun a b : Z * Q => fst a <=? fst b) reports).
  assert (PS : Permutation sorted reports) by apply sort_by_Permutation.
  assert (SS : StronglySorted (fun a b : Z * Q => (fst a <=? fst b) = true) sorted).
  { apply sort_by_sorted; intros; rewrite ?Z.leb_le in *; lia. }
  assert (MS : map fst sorted = map Z.of_nat (seq 0 size)).
  { apply sorted_seq.
    - clear -SS. induction SS as [|a l S IH F]; cbn; [constructor|]. constructor; [exact IH|].
      apply Forall_map. eapply Forall_impl; [|exact F]. intros b Hb. cbn in Hb. apply Z.leb_le. exact Hb.
    - rewrite <- P. apply Permutation_map. exact PS. }
  assert (LS : length sorted = size) by (rewrite <- L; apply Permutation_length; exact PS).
  clearbody sorted.
  destruct (argmin (map snd sorted)) as [r|] eqn:E; [|destruct sorted; [cbn in LS; lia | discriminate]].
  cbn [rmap]. exists (Z.of_nat r), sorted. split; [reflexivity|]. split; [exact PS|]. split; [exact MS|].
  destruct (argmin_spec _ _ E) as (R & B & C). rewrite map_length in R, B.
  assert (At : forall j, (j < size)%nat -> nth_error sorted j = Some (Z.of_nat j, nth j (map snd sorted) 0%Q)).
  { intros j Lj. destruct (nth_error sorted j) as [[i e]|] eqn:X; [|apply nth_error_None in X; lia].
    assert (F := map_nth_error fst _ _ X). rewrite MS in F. cbn in F.
    assert (G := map_nth_error snd _ _ X). cbn in G.
    rewrite (nth_error_nth _ _ _ G).
    assert (Fs : nth_error (map Z.of_nat (seq 0 size)) j = Some (Z.of_nat j)).
    { apply map_nth_error. rewrite (nth_error_nth' (seq 0 size) O) by (rewrite seq_length; exact Lj). rewrite seq_nth by exact Lj. reflexivity. }
    rewrite Fs in F. congruence. }
  exists (nth r (map snd sorted) 0%Q). split.
  - apply (Permutation_in _ PS). eapply nth_error_In. apply At. lia.
  - intros i e I. apply (Permutation_in _ (Permutation_sym PS)) in I. apply In_nth_error in I. destruct I as (j & Ej).
    assert (Lj : (j < size)%nat) by (rewrite <- LS; apply nth_error_Some; congruence).
    rewrite (At j Lj) in Ej. injection Ej as <- <-. split; [apply B; lia|]. intro. apply C. lia.
Qed.

Example C52_case : tune_result true 3 [(2, 5%Q); (0, 7%Q); (1, 5%Q)] = Ok (1, [(0, 7%Q); (1, 5%Q); (2, 5%Q)]).
Proof. reflexivity. Qed.
Example C52_hypotheses_met : Permutation (map fst [(2, 5%Q); (0, 7%Q); (1, 5%Q)]) (map Z.of_nat (seq 0 3)).
Proof. cbn. apply Permutation_sym. apply perm_trans with [0; 2; 1]; [repeat constructor | repeat constructor]. Qed.

(** Reports missing or added: AssertionError, never a recommendation. *)
Theorem C52_wrong_number (has_metrics : bool) (size : nat) (reports : list (Z * Q)) :
  length reports <> size -> tune_result has_metrics size reports = Err AssertionError.
Proof. intro N. unfold tune_result. apply Nat.eqb_neq in N. rewrite N. reflexivity. Qed.

(** ** C53 *)

(** The noise and the selection each run with a part of the budget.  For private partitions the
    parts add up to the whole budget; the privacy id count uses one thresholding mechanism for
    both, whose epsilon is whole and whose delta is shared by noise and threshold. *)
Record budget_use := Use { u_noise : Q * Q; u_selection : Q * Q }.
Definition noise_std (o : strategy_oracle) (k : strategy_noise) (eps delta : Q) (l0 linf : Z) : Q :=
  match k with SLaplace => laplace_std o eps l0 linf | SGaussian => gaussian_std o eps delta l0 linf end.

Theorem C53_public o eps delta metrics pid l0 linf :
  (0 < metrics)%nat ->
  exists k, get_dp_strategy o eps delta metrics pid true l0 linf = Ok (Strategy (Some k) None false) /\
    (delta == 0 -> k = SLaplace)%Q /\
    (~ delta == 0 -> forall k', noise_std o k eps delta (l0 * Z.of_nat metrics) linf <= noise_std o k' eps delta (l0 * Z.of_nat metrics) linf)%Q.
Proof.
  intro M. unfold get_dp_strategy. rewrite andb_false_r. destruct (Nat.eqb_spec metrics 0); [lia|].
  eexists. split; [reflexivity|]. unfold select_noise_kind. split.
  - intro D. apply Qeq_bool_iff in D. rewrite D. reflexivity.
  - intros D k'. destruct (Qeq_bool delta 0) eqn:E; [apply Qeq_bool_iff in E; contradiction|].
    destruct (Qle_bool (laplace_std o eps (l0 * Z.of_nat metrics) linf) (gaussian_std o eps delta (l0 * Z.of_nat metrics) linf)) eqn:X; cbn [negb noise_std].
    + apply Qle_bool_iff in X. destruct k'; [apply Qle_refl | exact X].
    + destruct k'; [|apply Qle_refl]. cbn. apply Qlt_le_weak, Qnot_le_lt. intro Y. apply Qle_bool_iff in Y. congruence.
Qed.

Definition threshold_of (o : strategy_oracle) (s : selection_strategy) (eps delta : Q) (l0 : Z) : Q :=
  match s with GaussianThresholding => gaussian_threshold o eps delta l0 | _ => laplace_threshold o eps delta l0 end.

(** Private partitions, without PRIVACY_ID_COUNT: the noise of smallest deviation and the selection
    of smallest threshold for halves of the budget. *)
Theorem C53_private o eps delta metrics l0 linf :
  (0 < metrics)%nat -> ~ (delta == 0)%Q ->
  exists k sel (use : budget_use),
    get_dp_strategy o eps delta metrics false false l0 linf = Ok (Strategy (Some k) (Some sel) false) /\
    (fst (u_noise use) + fst (u_selection use) == eps)%Q /\ (snd (u_noise use) + snd (u_selection use) == delta)%Q /\
    (forall k', noise_std o k (fst (u_noise use)) (snd (u_noise use)) (l0 * Z.of_nat metrics) linf
                <= noise_std o k' (fst (u_noise use)) (snd (u_noise use)) (l0 * Z.of_nat metrics) linf)%Q /\
    (forall sel', threshold_of o sel (fst (u_selection use)) (snd (u_selection use)) (l0 * Z.of_nat metrics)
                  <= threshold_of o sel' (fst (u_selection use)) (snd (u_selection use)) (l0 * Z.of_nat metrics))%Q /\
    sel <> LaplaceThresholding.
Proof.
  intros M D.
  assert (D2 : ~ (delta / 2 == 0)%Q).
  { intro X. apply D. rewrite <- (Qmult_div_r delta 2) by discriminate. rewrite X. reflexivity. }
  destruct (C53_public o (eps / 2) (delta / 2) metrics false l0 linf M) as (k & Ek & _ & Mk).
  exists k, (select_selection o (eps / 2) (delta / 2) (l0 * Z.of_nat metrics)), (Use (eps / 2, delta / 2)%Q (eps / 2, delta / 2)%Q).
  unfold get_dp_strategy in *. rewrite andb_false_r in Ek. destruct (Qeq_bool delta 0) eqn:E; [apply Qeq_bool_iff in E; contradiction|].
  cbn [negb andb]. destruct (Nat.eqb_spec metrics 0); [lia|].
  apply Ok_inj in Ek. injection Ek as Ek. rewrite Ek.
  split; [reflexivity|]. cbn [u_noise u_selection fst snd]. split; [field|]. split; [field|]. split; [exact (Mk D2)|].
  unfold select_selection. set (g := gaussian_threshold o _ _ _). set (l := laplace_threshold o _ _ _).
  destruct (Qle_bool g l) eqn:X; cbn [negb].
  - apply Qle_bool_iff in X. split; [|discriminate]. intros [| |]; cbn; fold g; fold l; (exact X || apply Qle_refl).
  - assert (Y : (l <= g)%Q) by (apply Qlt_le_weak, Qnot_le_lt; intro Y; apply Qle_bool_iff in Y; congruence).
    split; [|discriminate]. intros [| |]; cbn; fold g; fold l; (exact Y || apply Qle_refl).
Qed.

(** Private partitions with PRIVACY_ID_COUNT: thresholding with the chosen noise, done after the aggregation;
    half of delta for the noise. *)
Theorem C53_privacy_id_count o eps delta metrics l0 linf :
  (0 < metrics)%nat -> ~ (delta == 0)%Q ->
  exists k, get_dp_strategy o eps delta metrics true false l0 linf =
      Ok (Strategy (Some k) (Some (match k with SLaplace => LaplaceThresholding | SGaussian => GaussianThresholding end)) true) /\
    forall k', (noise_std o k eps (delta / 2) (l0 * Z.of_nat metrics) 1 <= noise_std o k' eps (delta / 2) (l0 * Z.of_nat metrics) 1)%Q.
Proof.
  intros M D.
  assert (D2 : ~ (delta / 2 == 0)%Q).
  { intro X. apply D. rewrite <- (Qmult_div_r delta 2) by discriminate. rewrite X. reflexivity. }
  destruct (C53_public o eps (delta / 2) metrics true l0 1 M) as (k & Ek & _ & Mk).
  exists k. split; [|exact (Mk D2)].
  unfold get_dp_strategy in *. rewrite andb_false_r in Ek. destruct (Qeq_bool delta 0) eqn:E; [apply Qeq_bool_iff in E; contradiction|].
  cbn [negb andb]. destruct (Nat.eqb_spec metrics 0); [lia|].
  apply Ok_inj in Ek. injection Ek as Ek. rewrite Ek. unfold thresholding_of. destruct k; reflexivity.
Qed.

(** Without delta, private partitions are refused. *)
Theorem C53_no_delta o eps metrics pid l0 linf :
  get_dp_strategy o eps 0 metrics pid false l0 linf = Err ValueError.
Proof. reflexivity. Qed.

(** Strategy for a delta of 1/10 with Gaussian noise the smaller. *)
Example C53_case :
  get_dp_strategy (Oracle (fun _ _ _ _ => 1%Q) (fun _ _ _ => 2%Q) (fun _ _ _ => 3%Q) (fun _ _ _ => 4%Q)) 1 (1#10) 2 false false 1 1
  = Ok (Strategy (Some SGaussian) (Some TruncatedGeometric) false) /\ ~ (1#10 == 0)%Q.
Proof. split; [reflexivity | discriminate]. Qed.

Print Assumptions C45_candidates.
Print Assumptions C45_candidates_all.
Print Assumptions C45_sum_candidates.
Print Assumptions C45_cross_product.
Print Assumptions C45_candidates_found.
Print Assumptions C52_best_configuration.
Print Assumptions C53_public.
Print Assumptions C53_private.
Print Assumptions C53_privacy_id_count.
