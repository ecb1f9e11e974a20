(** The options of the utility analysis that tune builds. *)
From Coq Require Import List ZArith QArith Bool Permutation Sorted Lia.
From Verif Require Import Base BaseLemmas ListLemmas BudgetModel ParamsModel BackendModel HistModel HistProofs2 AnalysisModel CrossModel
  TuningModel TuningProofs TuningProofs2 TuningProofs3 UtilityModel UtilitySpec UtilityProofs3 AnalyzeModel TuneModel.
Import ListNotations.
Local Open Scope Z_scope.

Lemma make_config_same c c' n : make_config c = Ok (c', n) -> c' = c.
Proof.
  unfold make_config. destruct (config_sizes c) as [|m sizes]; [discriminate|]. destruct (forallb (Nat.eqb m) sizes); cbn [negb]; [|discriminate].
  destruct (Bool.eqb _ _); cbn [negb]; [|discriminate].
  destruct (c_min_sum c) as [[a|[|a a']]|], (c_max_sum c) as [[b|b]|]; intro E; try (injection E as <- _; reflexivity); try discriminate.
  destruct (common_len (a :: a')) as [x|], (common_len b) as [y|]; try discriminate. destruct (Nat.eqb x y); [injection E as <- _; reflexivity | discriminate].
Qed.

Lemma make_config_facts c n : make_config c = Ok (c, n) ->
  (exists sizes, config_sizes c = n :: sizes /\ forallb (Nat.eqb n) sizes = true) /\
  Bool.eqb (is_some (c_min_sum c)) (is_some (c_max_sum c)) = true /\ columns_ok c = true.
Proof.
  unfold make_config, columns_ok, is_some. destruct (config_sizes c) as [|m sizes] eqn:Es; [discriminate|].
  destruct (forallb (Nat.eqb m) sizes) eqn:F; cbn [negb]; [|discriminate].
  destruct (Bool.eqb _ _) eqn:B; cbn [negb]; [|discriminate].
  destruct (c_min_sum c) as [[a|[|a a']]|], (c_max_sum c) as [[b|b]|]; intro E; try discriminate;
    try (injection E as <-; split; [exists sizes; auto|]; split; reflexivity).
  destruct (common_len (a :: a')) as [x|], (common_len b) as [y|]; try discriminate. destruct (Nat.eqb x y) eqn:Q; [|discriminate].
  injection E as <-. split; [exists sizes; auto|]. auto.
Qed.

Lemma step_nonempty ceils mv mc l : constant_relative_step ceils mv mc = Ok l -> (1 <= length l)%nat.
Proof. intro E. destruct (relative_step_spec _ _ _ _ E) as (_ & H & _). destruct l; [discriminate | cbn; lia]. Qed.
Lemma l0_nonempty ceils t l0 : l0_candidates ceils t = Ok l0 -> (1 <= length l0)%nat.
Proof. unfold l0_candidates. destruct (t_l0 t); [apply step_nonempty|]. intro E. injection E as <-. cbn. lia. Qed.
Lemma pad_long {A} (a : list A) n a' : pad_list a n = Ok a' -> (n <= length a')%nat.
Proof.
  unfold pad_list. destruct (Nat.ltb_spec (length a) n) as [L|L]; [|intro E; injection E as <-; exact L].
  destruct a as [|x a]; [discriminate|]. intro E. injection E as <-. cbn [length] in *. rewrite app_length, repeat_length. lia.
Qed.
Lemma duplicate_length {A} (a : list A) k : length (duplicate_list a k) = (length a * k)%nat.
Proof. unfold duplicate_list. induction k as [|k IH]; cbn [repeat concat length]; [lia|]. rewrite app_length, IH. lia. Qed.
Lemma duplicate_zeros m k : duplicate_list (repeat 0%Q m) k = repeat 0%Q (m * k).
Proof.
  unfold duplicate_list. induction k as [|k IH]; cbn [repeat concat]; [rewrite Nat.mul_0_r; reflexivity|].
  rewrite IH, <- repeat_app. f_equal. lia.
Qed.
Lemma sizes_n c n (l : nat) : (exists sizes, config_sizes c = n :: sizes /\ forallb (Nat.eqb n) sizes = true) -> In l (config_sizes c) -> l = n.
Proof.
  intros (sizes & E & F) I. rewrite E in I. destruct I as [<-|I]; [reflexivity|]. rewrite forallb_forall in F. symmetry. apply Nat.eqb_eq, F, I.
Qed.
Lemma olen_in {A} (len : A -> nat) (o : option A) a : o = Some a -> len a <> 0%nat -> In (len a) (olen len o).
Proof. intros -> N. unfold olen. apply Nat.eqb_neq in N. rewrite N. left. reflexivity. Qed.

Lemma find_candidates_shape ceils0 ceils1 t c n : find_candidates ceils0 ceils1 t = Ok (c, n) ->
  make_config c = Ok (c, n) /\ is_some (c_l0 c) = true /\ is_some (c_linf c) = t_count t /\
  (t_sum t = false -> c_min_sum c = None /\ c_max_sum c = None) /\
  (t_sum t = true -> length (t_sum_bins t) = 1%nat ->
   exists b, c_min_sum c = Some (Flat (repeat 0%Q n)) /\ c_max_sum c = Some (Flat b) /\ length b = n /\ (1 <= n)%nat).
Proof.
  unfold find_candidates. destruct (l0_candidates ceils0 t) as [l0|] eqn:E0; cbn [rbind]; [|discriminate]. apply l0_nonempty in E0.
  set (ml := t_max_candidates t / Z.of_nat (length l0)).
  destruct (if t_count t then rmap Some (constant_relative_step ceils1 (t_linf_max t) ml) else Ok None) as [counts|] eqn:EC; cbn [rbind]; [|discriminate].
  destruct (if t_sum t then rmap Some (rmapM (fun maxs => bins_max_values_subsample maxs ml) (t_sum_bins t)) else Ok None) as [cols|] eqn:ES; cbn [rbind]; [|discriminate].
  assert (HC : is_some counts = t_count t /\ (1 <= match counts with Some c0 => length c0 | None => 1%nat end)%nat).
  { destruct (t_count t); [|injection EC as <-; split; [reflexivity|lia]].
    destruct (constant_relative_step ceils1 (t_linf_max t) ml) eqn:Es; [injection EC as <-; split; [reflexivity|apply (step_nonempty _ _ _ _ Es)]|discriminate]. }
  assert (HS : match cols with Some cs => t_sum t = true /\ length cs = length (t_sum_bins t) | None => t_sum t = false end).
  { destruct (t_sum t); [|injection ES as <-; reflexivity].
    destruct (rmapM (fun maxs => bins_max_values_subsample maxs ml) (t_sum_bins t)) as [cs|] eqn:E; [|discriminate]. injection ES as <-.
    split; [reflexivity|]. apply rmapM_Forall2, Forall2_len in E. auto. }
  match goal with |- context [pad_list _ ?m] => set (len2 := m) end.
  assert (L2 : (1 <= len2)%nat).
  { unfold len2. destruct HC as [_ L]. destruct cols as [cs|]; [|exact L]. destruct (fold_max_spec cs (match counts with Some c0 => length c0 | None => 1%nat end)) as (A & _). lia. }
  clearbody len2. clear EC ES ml.
  destruct (match counts with Some c0 => rmap Some (pad_list c0 len2) | None => Ok None end) as [counts'|] eqn:EC'; cbn [rbind]; [|discriminate].
  destruct (match cols with Some cs => rmap Some (rmapM (fun c0 => pad_list c0 len2) cs) | None => Ok None end) as [cols'|] eqn:ES'; cbn [rbind]; [|discriminate].
  assert (HC' : is_some counts' = t_count t).
  { destruct HC as [HC _]. destruct counts as [cs|]; [|injection EC' as <-; exact HC]. destruct (pad_list cs len2); [injection EC' as <-; exact HC | discriminate]. }
  assert (HS' : match cols' with Some cs => t_sum t = true /\ length cs = length (t_sum_bins t) /\ Forall (fun c0 => (1 <= length c0)%nat) cs | None => t_sum t = false end).
  { destruct cols as [cs|]; [|injection ES' as <-; exact HS]. destruct (rmapM (fun c0 => pad_list c0 len2) cs) as [cs'|] eqn:E; [|discriminate].
    injection ES' as <-. destruct HS as [A B]. split; [exact A|]. rewrite <- B. apply rmapM_Forall2 in E. split; [apply Forall2_len in E; auto|].
    clear -E L2. induction E as [|c0 c1 cs cs' E F IH]; constructor; [|exact IH]. apply pad_long in E. lia. }
  clear EC' ES' HC HS counts cols.
  intro E. assert (X := make_config_same _ _ _ E). subst c. split; [exact E|]. assert (Mk := make_config_facts _ _ E).
  cbn [c_l0 c_linf c_min_sum c_max_sum is_some].
  split; [reflexivity|]. split; [destruct counts'; exact HC'|]. split.
  - intro T. destruct cols' as [cs|]; [destruct HS'; congruence|]. auto.
  - intros T L. destruct cols' as [cs|]; [|congruence]. destruct HS' as (_ & Lc & Fc). rewrite L in Lc.
    destruct cs as [|c1 [|c2 cs]]; try discriminate. inversion Fc as [|? ? L1 _]; subst. exists (duplicate_list c1 (length l0)).
    assert (Ln : (length c1 * length l0)%nat = n).
    { destruct Mk as (Sz & _). apply (sizes_n _ _ _ Sz). unfold config_sizes. rewrite !in_app_iff. right. right. right. cbn [c_max_sum].
      rewrite <- duplicate_length. apply (olen_in sums_len _ (Flat (duplicate_list c1 (length l0))) eq_refl). cbn [sums_len]. rewrite duplicate_length. nia. }
    rewrite duplicate_zeros, duplicate_length, Ln. split; [reflexivity|]. split; [reflexivity|]. split; [reflexivity|nia].
Qed.

(** The parameters of candidate [i] are those of [config_at]. *)
Definition or_default {A} (v : option A) (d : option A) : option A := match v with Some _ => v | None => d end.
Definition bounds_or_default (p : params) (v : option (list (Q * Q))) : list (option Q * option Q) :=
  match v with
  | Some l => map (fun xy => (Some (fst xy), Some (snd xy))) l
  | None => [(min_sum_per_partition p, max_sum_per_partition p)]
  end.

Lemma override_at {A} (attr : option (list A)) (d : option A) i n :
  (forall l, attr = Some l -> l <> [] -> length l = n) -> (i < n)%nat ->
  override d Some attr i = Ok (or_default (match attr with Some l => nth_error l i | None => None end) d).
Proof.
  intros L Hi. destruct attr as [[|x l]|]; cbn [override].
  - destruct i; reflexivity.
  - assert (N := L _ eq_refl ltac:(discriminate)). destruct (nth_error (x :: l) i) eqn:E; [reflexivity|]. apply nth_error_None in E. lia.
  - reflexivity.
Qed.

Lemma bounds_at ceils0 ceils1 t c n p i : find_candidates ceils0 ceils1 t = Ok (c, n) ->
  (t_sum t = true -> length (t_sum_bins t) = 1%nat) -> (i < n)%nat ->
  let v := config_at c i in
  override (max_partitions_contributed p) Some (c_l0 c) i = Ok (or_default (fst (fst v)) (max_partitions_contributed p)) /\
  override (max_contributions_per_partition p) Some (c_linf c) i = Ok (or_default (snd (fst v)) (max_contributions_per_partition p)) /\
  sum_bounds_at p c i = Ok (bounds_or_default p (snd v)) /\
  (if t_sum t then exists hi, snd v = Some [(0%Q, hi)] else snd v = None).
Proof.
  intros E L Hi v. destruct (find_candidates_shape _ _ _ _ _ E) as (M & _ & _ & S0 & S1). destruct (make_config_facts _ _ M) as (Sz & _ & _).
  assert (Z : forall a, In a (config_sizes c) -> a = n) by (intros a; apply sizes_n; exact Sz).
  split; [|split].
  - apply (override_at _ _ _ n); [|exact Hi]. intros l El Nl. apply Z. unfold config_sizes. apply in_app_iff. left. apply (olen_in _ _ _ El).
    destruct l; [congruence|discriminate].
  - apply (override_at _ _ _ n); [|exact Hi]. intros l El Nl. apply Z. unfold config_sizes. apply in_app_iff. right. apply in_app_iff. left. apply (olen_in _ _ _ El).
    destruct l; [congruence|discriminate].
  - unfold v. destruct (t_sum t) eqn:Et.
    + destruct (S1 eq_refl (L eq_refl)) as (b & Ea & Eb & Lb & Ln).
      unfold sum_bounds_at, config_at. cbn [snd]. rewrite Ea, Eb.
      assert (N0 : nth_error (repeat 0%Q n) i = Some 0%Q) by (apply nth_error_repeat; exact Hi).
      destruct (nth_error b i) as [hi|] eqn:Ehi; [|apply nth_error_None in Ehi; lia]. rewrite N0.
      destruct (repeat 0%Q n) eqn:R; [destruct n; [lia|discriminate]|]. split; [reflexivity|]. exists hi. reflexivity.
    + destruct (S0 eq_refl) as [Ea Eb]. unfold sum_bounds_at, config_at. cbn [snd]. rewrite Ea. split; reflexivity.
Qed.
