(** Moments of sums of independent contributions; accumulators of the analysis. *)
From Coq Require Import List ZArith QArith Qminmax Bool Permutation Lia Lqa Setoid.
From Verif Require Import Base BaseLemmas ListLemmas SensModel BackendModel AnalysisModel AnalysisSpec AnalysisProofs.
Import ListNotations.
Local Open Scope Q_scope.

(** ** Moments of distributions *)
Definition moment (d : dist) (f : Q -> Q) : Q := sumQ (map (fun vp => f (fst vp) * snd vp) d).
Definition m1 (d : dist) := moment d (fun x => x).
Definition m2 (d : dist) := moment d (fun x => x * x).
Definition mass1 (d : dist) : Prop := moment d (fun _ => 1) == 1.

Lemma moment_ext d f g : (forall x, f x == g x) -> moment d f == moment d g.
Proof. intro E. apply sumQ_ext. intros vp _. rewrite E. reflexivity. Qed.

Lemma moment_lin d f g a b : moment d (fun x => a * f x + b * g x) == a * moment d f + b * moment d g.
Proof.
  unfold moment. rewrite <- !sumQ_scale. induction d as [|vp d IH]; [reflexivity|].
  cbn [map]. unfold sumQ in *. cbn [fold_right]. rewrite IH. ring.
Qed.

Lemma moment_quad d a b c : mass1 d -> moment d (fun x => a * (x * x) + b * x + c) == a * m2 d + b * m1 d + c.
Proof.
  intro M. unfold mass1 in M.
  rewrite (moment_ext d _ (fun x => 1 * (a * (x * x) + b * x) + c * 1)) by (intro; ring).
  rewrite (moment_lin d (fun x => a * (x * x) + b * x) (fun _ => 1)), M, (moment_lin d (fun x => x * x) (fun x => x)).
  unfold m1, m2. ring.
Qed.

Lemma expectation_m1 d : expectation d == m1 d.
Proof. reflexivity. Qed.
Lemma variance_moments d : mass1 d -> variance d == m2 d - m1 d * m1 d.
Proof.
  intro M. unfold variance. change (expectation d) with (m1 d).
  transitivity (moment d (fun x => 1 * (x * x) + (- 2 * m1 d) * x + m1 d * m1 d)).
  - apply sumQ_ext. intros vp _. ring.
  - rewrite moment_quad by exact M. ring.
Qed.

Lemma moment_sum_dist d ds f :
  moment (sum_dist (d :: ds)) f == moment d (fun x => moment (sum_dist ds) (fun y => f (x + y))).
Proof.
  unfold moment. cbn [sum_dist]. rewrite sumQ_flat_map. apply sumQ_ext. intros a _. rewrite map_map.
  rewrite (Qmult_comm _ (snd a)), <- sumQ_scale. apply sumQ_ext. intros b _. cbn [fst snd]. ring.
Qed.

Lemma mass1_sum_dist ds : Forall mass1 ds -> mass1 (sum_dist ds).
Proof.
  unfold mass1. induction ds as [|d ds IH]; intro F; [reflexivity|].
  inversion F as [|? ? A B]; subst. rewrite moment_sum_dist, (moment_ext d _ (fun _ => 1)); [exact A|].
  intro x. apply IH. exact B.
Qed.

Lemma m1_sum_dist d ds : mass1 d -> Forall mass1 ds -> m1 (sum_dist (d :: ds)) == m1 d + m1 (sum_dist ds).
Proof.
  intros M F. unfold m1 at 1. rewrite moment_sum_dist.
  assert (MS := mass1_sum_dist _ F).
  rewrite (moment_ext d _ (fun x => 0 * (x * x) + 1 * x + m1 (sum_dist ds))).
  - rewrite moment_quad by exact M. ring.
  - intro x. rewrite (moment_ext _ _ (fun y => 0 * (y * y) + 1 * y + x)) by (intro; ring).
    rewrite moment_quad by exact MS. ring.
Qed.

Lemma m2_sum_dist d ds : mass1 d -> Forall mass1 ds ->
  m2 (sum_dist (d :: ds)) == m2 d + 2 * m1 d * m1 (sum_dist ds) + m2 (sum_dist ds).
Proof.
  intros M F. unfold m2 at 1. rewrite moment_sum_dist.
  assert (MS := mass1_sum_dist _ F).
  rewrite (moment_ext d _ (fun x => 1 * (x * x) + (2 * m1 (sum_dist ds)) * x + m2 (sum_dist ds))).
  - rewrite moment_quad by exact M. ring.
  - intro x. rewrite (moment_ext _ _ (fun y => 1 * (y * y) + (2 * x) * y + x * x)) by (intro; ring).
    rewrite moment_quad by exact MS. ring.
Qed.

Lemma expectation_sum_dist ds : Forall mass1 ds -> expectation (sum_dist ds) == sumQ (map m1 ds).
Proof.
  induction ds as [|d ds IH]; intro F; [reflexivity|]. inversion F; subst.
  change (m1 (sum_dist (d :: ds)) == m1 d + sumQ (map m1 ds)).
  rewrite m1_sum_dist by assumption. rewrite <- IH by assumption. reflexivity.
Qed.

Lemma variance_sum_dist ds : Forall mass1 ds -> variance (sum_dist ds) == sumQ (map (fun d => m2 d - m1 d * m1 d) ds).
Proof.
  intro F. rewrite variance_moments by (apply mass1_sum_dist; exact F).
  induction ds as [|d ds IH]; [reflexivity|]. inversion F; subst.
  rewrite m1_sum_dist, m2_sum_dist by assumption. cbn [map]. unfold sumQ in *. cbn [fold_right].
  rewrite <- IH by assumption. ring.
Qed.

(** ** One contribution *)
Lemma sum_constant {A} (q : Q) (l : list A) : sumQ (map (fun _ => q) l) == q * inject_Z (Z.of_nat (length l)).
Proof.
  induction l as [|x l IH]; [cbn; ring|]. cbn [map length]. rewrite Nat2Z.inj_succ. unfold Z.succ, sumQ in *. cbn [fold_right].
  rewrite IH, inject_Z_plus. ring.
Qed.

Lemma sum_two {A} (p : A -> bool) (a b : Q) l :
  sumQ (map (fun x => if p x then a else b) l) ==
  a * inject_Z (Z.of_nat (length (filter p l))) + b * (inject_Z (Z.of_nat (length l)) - inject_Z (Z.of_nat (length (filter p l)))).
Proof.
  induction l as [|x l IH]; [cbn; ring|]. cbn [map filter length]. unfold sumQ in *. cbn [fold_right]. rewrite IH.
  destruct (p x); cbn [length]; rewrite !Nat2Z.inj_succ; unfold Z.succ; rewrite !inject_Z_plus; ring.
Qed.

Lemma keep_prob_survival mp n : keep_prob mp n = survival_probability mp n.
Proof.
  unfold keep_prob, survival_probability. destruct (Z.ltb_spec 0 n) as [Hn|Hn], (Z.leb_spec n 0) as [Hn'|Hn']; try lia; [|reflexivity].
  assert (Pn : 0 < inject_Z n) by (unfold Qlt; cbn; lia).
  unfold Qmin, GenericMinMax.gmin. destruct (Z.ltb_spec mp n) as [Hm|Hm].
  - assert (X : (1 ?= inject_Z mp / inject_Z n) = Gt).
    { apply Qgt_alt. apply Qlt_shift_div_r; [exact Pn|]. rewrite Qmult_1_l, <- Zlt_Qlt. exact Hm. }
    rewrite X. reflexivity.
  - assert (X : (1 ?= inject_Z mp / inject_Z n) <> Gt).
    { apply Qle_alt. apply Qle_shift_div_l; [exact Pn|]. rewrite Qmult_1_l, <- Zle_Qle. exact Hm. }
    destruct (1 ?= inject_Z mp / inject_Z n); congruence.
Qed.

Lemma keep_prob_ratio (L0 n : nat) : (0 < n)%nat ->
  keep_prob (Z.of_nat L0) (Z.of_nat n) == inject_Z (Z.of_nat (Nat.min L0 n)) / inject_Z (Z.of_nat n).
Proof.
  intro Hn. unfold keep_prob. destruct (Z.ltb_spec 0 (Z.of_nat n)) as [_|]; [|lia].
  assert (P : 0 < inject_Z (Z.of_nat n)) by (change 0 with (inject_Z 0); rewrite <- Zlt_Qlt; lia).
  assert (E : inject_Z (Z.of_nat n) / inject_Z (Z.of_nat n) == 1).
  { field. intro X. rewrite X in P. discriminate. }
  destruct (Nat.leb_spec L0 n) as [H|H].
  - rewrite Nat.min_l by exact H. rewrite Q.min_r; [reflexivity|].
    apply Qle_shift_div_r; [exact P|]. rewrite Qmult_1_l, <- Zle_Qle. lia.
  - rewrite Nat.min_r by lia. rewrite Q.min_l; [symmetry; exact E|].
    apply Qle_shift_div_l; [exact P|]. rewrite Qmult_1_l, <- Zle_Qle. lia.
Qed.

Lemma bounded_moment L0 lo hi c f : valid_contribution c ->
  let p := survival_probability (Z.of_nat L0) (Z.of_nat (c_partitions c)) in
  moment (bounded L0 lo hi c) f == p * f (clip lo hi (c_value c)) + (1 - p) * f 0.
Proof.
  intros V p. unfold valid_contribution in V. unfold p. rewrite <- keep_prob_survival, keep_prob_ratio by lia.
  set (n := c_partitions c) in *. set (j := c_position c) in *. set (k := Nat.min L0 n).
  unfold moment, bounded. rewrite map_map. cbn [fst snd]. fold n j k.
  set (N := inject_Z (Z.of_nat (length (subsets k (seq 0 n))))).
  assert (Hk : (k <= n)%nat) by (unfold k; lia).
  assert (PN : 0 < N).
  { unfold N. change 0 with (inject_Z 0). rewrite <- Zlt_Qlt, subsets_length, seq_length. apply binom_pos. exact Hk. }
  assert (NN : ~ N == 0) by (intro X; rewrite X in PN; discriminate).
  rewrite (sumQ_ext _ (fun s => if mem j s then f (clip lo hi (c_value c)) * (1 / N) else f 0 * (1 / N))).
  2:{ intros s _. destruct (mem j s); reflexivity. }
  rewrite sum_two. fold (containing j k (seq 0 n)). fold N.
  assert (I := inclusion_probability n k j V Hk). fold N in I. rewrite <- I. field. exact NN.
Qed.

Lemma bounded_mass1 L0 lo hi c : valid_contribution c -> mass1 (bounded L0 lo hi c).
Proof. intro V. unfold mass1. rewrite (bounded_moment L0 lo hi c (fun _ => 1) V). ring. Qed.

Lemma clip_id lo hi v : lo <= v -> v <= hi -> clip lo hi v == v.
Proof. intros A B. unfold clip. rewrite (Q.max_l v lo) by exact A. apply Q.min_l. exact B. Qed.

Lemma expectation_bounded L0 lo hi cs : lo <= hi -> Forall valid_contribution cs ->
  let m := sum_metrics lo hi (Z.of_nat L0) (map (fun c => (c_value c, Z.of_nat (c_partitions c))) cs) in
  expectation (sum_dist (map (bounded L0 lo hi) cs)) == a_sum m + a_min m + a_max m + a_l0 m /\
  variance (sum_dist (map (bounded L0 lo hi) cs)) == a_var m.
Proof.
  intros Hlh F m.
  assert (M : Forall mass1 (map (bounded L0 lo hi) cs)).
  { apply Forall_map. eapply Forall_impl; [|exact F]. intros c V. apply bounded_mass1. exact V. }
  rewrite expectation_sum_dist, variance_sum_dist by exact M. rewrite !map_map. subst m. unfold sum_metrics. cbn [a_sum a_min a_max a_l0 a_var].
  rewrite !map_map. cbn [fst snd]. clear M. unfold sumQ. split.
  - induction F as [|c cs V F IH]; [cbn [map fold_right]; ring|]. cbn [map fold_right]. rewrite IH.
    unfold m1. rewrite bounded_moment by exact V. set (p := survival_probability _ _).
    destruct (Qlt_le_dec (c_value c) lo), (Qlt_le_dec hi (c_value c)); try lra; try ring.
    rewrite clip_id by assumption. ring.
  - induction F as [|c cs V F IH]; [reflexivity|]. cbn [map fold_right]. rewrite IH.
    unfold m1, m2. rewrite !bounded_moment by exact V. ring.
Qed.

(** ** Accumulators *)
Definition value_or_zero (i : option nat) (d : pre) : Q := match value_of i d with Some q => q | None => 0 end.
Definition pre_count (d : pre) : Z := fst (fst d).
Definition sum_eq (a b : sum_acc) : Prop :=
  a_sum a == a_sum b /\ a_min a == a_min b /\ a_max a == a_max b /\ a_l0 a == a_l0 b /\ a_var a == a_var b.
Definition sel_spec (ps : list Q) (s : sel_acc) : Prop :=
  match s with
  | Probs qs => (length qs <= 100)%nat /\ Permutation qs ps
  | Mom m => (100 < length ps)%nat /\ moments_eq m (probabilities_to_moments ps)
  end.
Definition acc_spec (c : acombiner) (ds : list pre) (a : aacc) : Prop :=
  match c, a with
  | ARaw, RawAcc i n => i = Z.of_nat (length ds) /\ n = sumZ (map pre_count ds)
  | ASelect mp, SelAcc s => sel_spec (map (fun d => survival_probability mp (snd d)) ds) s
  | ASum lo hi mp i, SumA s => sum_eq s (sum_metrics lo hi mp (map (fun d => (value_or_zero i d, snd d)) ds))
  | ACount linf mp, SumA s =>
      sum_eq s (sum_metrics 0 (inject_Z linf) mp (map (fun d => (inject_Z (pre_count d), snd d)) ds))
  | APid mp, SumA s =>
      sum_eq s (sum_metrics 0 1 mp (map (fun d => (if (0 <? pre_count d)%Z then 1 else 0, snd d)) ds))
  | _, _ => False
  end.

Lemma sum_metrics_app lo hi mp l l' :
  let a := sum_metrics lo hi mp l in let b := sum_metrics lo hi mp l' in
  sum_eq (sum_metrics lo hi mp (l ++ l'))
         (SumAcc (a_sum a + a_sum b) (a_min a + a_min b) (a_max a + a_max b) (a_l0 a + a_l0 b) (a_var a + a_var b)).
Proof.
  intros a b. unfold a, b, sum_eq, sum_metrics. cbn [a_sum a_min a_max a_l0 a_var]. rewrite !map_app, !sumQ_app.
  repeat split; reflexivity.
Qed.

Lemma sum_metrics_perm lo hi mp l l' : Permutation l l' -> sum_eq (sum_metrics lo hi mp l) (sum_metrics lo hi mp l').
Proof.
  intro P. unfold sum_eq, sum_metrics. cbn [a_sum a_min a_max a_l0 a_var].
  repeat split; apply sumQ_Permutation; apply Permutation_map; exact P.
Qed.

Lemma sum_eq_trans a b c : sum_eq a b -> sum_eq b c -> sum_eq a c.
Proof. intros (A & B & C & D & E) (A' & B' & C' & D' & E'). repeat split; etransitivity; eassumption. Qed.
Lemma sum_eq_sym a b : sum_eq a b -> sum_eq b a.
Proof. intros (A & B & C & D & E). repeat split; symmetry; assumption. Qed.
Lemma sum_eq_refl a : sum_eq a a.
Proof. repeat split; reflexivity. Qed.

Lemma sum_merge lo hi mp (l l' : list (Q * Z)) s s' :
  sum_eq s (sum_metrics lo hi mp l) -> sum_eq s' (sum_metrics lo hi mp l') ->
  sum_eq (SumAcc (a_sum s + a_sum s') (a_min s + a_min s') (a_max s + a_max s') (a_l0 s + a_l0 s') (a_var s + a_var s'))
         (sum_metrics lo hi mp (l ++ l')).
Proof.
  intros (A & B & C & D & E) (A' & B' & C' & D' & E'). eapply sum_eq_trans; [|apply sum_eq_sym, sum_metrics_app].
  repeat split; cbn [a_sum a_min a_max a_l0 a_var]; apply Qplus_comp; assumption.
Qed.

Lemma moments_eq_refl m : moments_eq m m.
Proof. repeat split; reflexivity. Qed.
Lemma moments_eq_trans a b c : moments_eq a b -> moments_eq b c -> moments_eq a c.
Proof. intros (A & B & C & D) (A' & B' & C' & D'). repeat split; [congruence | | |]; etransitivity; eassumption. Qed.
Lemma moments_eq_sym a b : moments_eq a b -> moments_eq b a.
Proof. intros (A & B & C & D). repeat split; symmetry; assumption. Qed.

Lemma moments_perm ps ps' : Permutation ps ps' -> moments_eq (probabilities_to_moments ps) (probabilities_to_moments ps').
Proof.
  intro P. repeat split; cbn.
  - rewrite (Permutation_length P). reflexivity.
  - apply sumQ_Permutation. exact P.
  - apply sumQ_Permutation, Permutation_map. exact P.
  - apply sumQ_Permutation, Permutation_map. exact P.
Qed.

Lemma moments_app ps ps' a b :
  moments_eq a (probabilities_to_moments ps) -> moments_eq b (probabilities_to_moments ps') ->
  moments_eq (moments_add a b) (probabilities_to_moments (ps ++ ps')).
Proof.
  intros (A & B & C & D) (A' & B' & C' & D'). unfold moments_eq, moments_add, probabilities_to_moments in *.
  cbn [m_count m_exp m_var m_third] in *. rewrite app_length, Nat2Z.inj_add, !map_app, !sumQ_app.
  repeat split; [lia | | |]; apply Qplus_comp; assumption.
Qed.

Lemma merge_list_perm {A} (a b : list A) : Permutation (merge_list a b) (a ++ b).
Proof. unfold merge_list. destruct (_ <=? _)%nat; [reflexivity | apply Permutation_app_comm]. Qed.

Lemma to_moments_spec ps s : sel_spec ps s -> moments_eq (to_moments s) (probabilities_to_moments ps).
Proof.
  destruct s as [qs|m]; intros [L H]; cbn [to_moments]; [apply moments_perm; exact H | exact H].
Qed.

Lemma merge_sel_spec ps ps' s s' : sel_spec ps s -> sel_spec ps' s' -> sel_spec (ps ++ ps') (merge_sel s s').
Proof.
  intros S1 S2. assert (T1 := to_moments_spec _ _ S1). assert (T2 := to_moments_spec _ _ S2).
  assert (T := moments_app _ _ _ _ T1 T2).
  destruct s as [qs|m], s' as [qs'|m']; cbn [merge_sel].
  - destruct S1 as [L P], S2 as [L' P'].
    destruct (Nat.leb_spec (length qs + length qs') max_probabilities) as [H|H].
    + split.
      * rewrite (Permutation_length (merge_list_perm qs qs')), app_length. unfold max_probabilities in H. lia.
      * rewrite merge_list_perm. apply Permutation_app; assumption.
    + split; [|exact T]. rewrite app_length, <- (Permutation_length P), <- (Permutation_length P').
      unfold max_probabilities in H. lia.
  - destruct S2 as [L' _]. split; [rewrite app_length; lia | exact T].
  - destruct S1 as [L _]. split; [rewrite app_length; lia | exact T].
  - destruct S1 as [L _]. split; [rewrite app_length; lia | exact T].
Qed.

Lemma sel_create_spec ps : sel_spec ps (merge_sel (Probs ps) (Probs [])).
Proof.
  cbn [merge_sel]. destruct (Nat.leb_spec (length ps + length (@nil Q)) max_probabilities) as [H|H].
  - split.
    + rewrite (Permutation_length (merge_list_perm ps [])), app_nil_r. unfold max_probabilities in H. cbn in H. lia.
    + rewrite merge_list_perm, app_nil_r. reflexivity.
  - split; [unfold max_probabilities in H; cbn in H; lia|].
    rewrite <- (app_nil_r ps) at 2. apply moments_app; apply moments_eq_refl.
Qed.

Lemma amerge_spec c ds ds' a a' : acc_spec c ds a -> acc_spec c ds' a' -> acc_spec c (ds ++ ds') (amerge a a').
Proof.
  destruct c; destruct a, a'; cbn [acc_spec amerge]; try contradiction; rewrite ?map_app.
  - intros [-> ->] [-> ->]. rewrite app_length, Nat2Z.inj_add. split; [reflexivity|].
    unfold sumZ. rewrite fold_right_app. induction (map pre_count ds) as [|x l IH]; [reflexivity|]. cbn [fold_right]. rewrite <- IH. ring.
  - apply merge_sel_spec.
  - apply sum_merge.
  - apply sum_merge.
  - apply sum_merge.
Qed.

Lemma sumZ_perm l l' : Permutation l l' -> sumZ l = sumZ l'.
Proof. unfold sumZ. induction 1; cbn [fold_right]; lia. Qed.

Lemma acc_spec_perm c ds ds' a : Permutation ds ds' -> acc_spec c ds a -> acc_spec c ds' a.
Proof.
  intro P. destruct c, a; cbn [acc_spec]; try contradiction.
  - intros [-> ->]. rewrite (Permutation_length P). split; [reflexivity|].
    apply sumZ_perm, Permutation_map, P.
  - assert (P' := Permutation_map (fun d : pre => survival_probability max_partitions (snd d)) P).
    unfold sel_spec. destruct s as [qs|m]; intros [L H].
    + split; [exact L|]. rewrite H. exact P'.
    + split; [rewrite map_length in *; assert (LL := Permutation_length P); unfold pre in *; lia|]. eapply moments_eq_trans; [exact H|]. apply moments_perm. exact P'.
  - intro E. eapply sum_eq_trans; [exact E|]. apply sum_metrics_perm, Permutation_map, P.
  - intro E. eapply sum_eq_trans; [exact E|]. apply sum_metrics_perm, Permutation_map, P.
  - intro E. eapply sum_eq_trans; [exact E|]. apply sum_metrics_perm, Permutation_map, P.
Qed.

Lemma sum_create_spec lo hi mp {A} (f : A -> Q) (g : A -> Z) (l : list A) :
  sum_eq (sum_create lo hi mp (map f l) (map g l)) (sum_metrics lo hi mp (map (fun d => (f d, g d)) l)).
Proof.
  unfold sum_create, sum_metrics, sum_eq. cbn [a_sum a_min a_max a_l0 a_var].
  assert (E : combine (map f l) (map g l) = map (fun d => (f d, g d)) l).
  { induction l as [|x l IH]; [reflexivity|]. cbn. rewrite IH. reflexivity. }
  rewrite E, !map_map. cbn [fst snd]. repeat split; try reflexivity; apply sumQ_ext; intros d _; rewrite ?keep_prob_survival.
  - destruct (Qle_bool lo (f d)) eqn:B, (Qlt_le_dec (f d) lo) as [H|H]; cbn [negb]; try reflexivity.
    + apply Qle_bool_iff in B. exfalso. apply (Qlt_not_le _ _ H B).
    + apply Qle_bool_false in B. exfalso. apply (Qlt_not_le _ _ B H).
  - destruct (Qle_bool (f d) hi) eqn:B, (Qlt_le_dec hi (f d)) as [H|H]; cbn [negb]; try reflexivity.
    + apply Qle_bool_iff in B. exfalso. apply (Qlt_not_le _ _ H B).
    + apply Qle_bool_false in B. exfalso. apply (Qlt_not_le _ _ B H).
  - ring.
  - ring.
Qed.

(** The sums of the data have the shape expected by the combiner. *)
Definition values_ok (c : acombiner) (ds : list pre) : Prop :=
  match c with
  | ASum _ _ _ i => (forall d, In d ds -> value_of i d <> None) /\ (i <> None -> ds <> [])
  | _ => True
  end.

Lemma column_spec i ds : (forall d, In d ds -> value_of i d <> None) -> (i <> None -> ds <> []) ->
  column i (map (fun d : pre => snd (fst d)) ds) = Ok (map (value_or_zero i) ds).
Proof.
  intros V NE. destruct i as [i|]; cbn [column].
  - destruct ds as [|d0 ds0] eqn:Eds; [exfalso; apply NE; congruence|]. rewrite <- Eds in *. clear NE.
    replace (match map (fun d : pre => snd (fst d)) ds with [] => Err IndexError | _ :: _ => nth_column i (map (fun d : pre => snd (fst d)) ds) end)
      with (nth_column i (map (fun d : pre => snd (fst d)) ds)) by (rewrite Eds; reflexivity).
    clear Eds d0 ds0. induction ds as [|[[cnt sv] n] ds IH]; [reflexivity|].
    assert (V0 := V _ (or_introl eq_refl)). cbn in V0. cbn [map fst snd nth_column]. unfold value_or_zero at 1. cbn.
    destruct sv as [q|l]; [congruence|]. destruct (nth_error l i) as [q|]; [|congruence].
    rewrite IH by (intros d I; apply V; right; exact I). reflexivity.
  - induction ds as [|[[cnt sv] n] ds IH]; [reflexivity|].
    assert (V0 := V _ (or_introl eq_refl)). cbn in V0. cbn [map fst snd scalars]. unfold value_or_zero at 1. cbn.
    destruct sv as [q|l]; [|congruence]. rewrite IH; [reflexivity | intros d I; apply V; right; exact I | congruence].
Qed.

Lemma acreate_spec c ds : values_ok c ds ->
  exists a, acreate c (map pre_count ds) (map (fun d => snd (fst d)) ds) (map snd ds) = Ok a /\ acc_spec c ds a.
Proof.
  destruct c; cbn [values_ok acreate]; intro V.
  - eexists. split; [reflexivity|]. cbn. rewrite map_length. split; reflexivity.
  - eexists. split; [reflexivity|]. cbn [acc_spec]. rewrite map_map, (map_ext (fun x : pre => keep_prob max_partitions (snd x)) _ (fun x => keep_prob_survival max_partitions (snd x))). apply sel_create_spec.
  - destruct V as [V NE]. rewrite column_spec by assumption. eexists. split; [reflexivity|]. apply sum_create_spec.
  - eexists. split; [reflexivity|]. rewrite map_map. apply sum_create_spec.
  - eexists. split; [reflexivity|]. rewrite map_map. apply sum_create_spec.
Qed.

Lemma acreate_all_spec cs ds : Forall (fun c => values_ok c ds) cs ->
  exists l, acreate_all cs (map pre_count ds) (map (fun d => snd (fst d)) ds) (map snd ds) = Ok l /\
            Forall2 (fun c a => acc_spec c ds a) cs l.
Proof.
  induction 1 as [|c cs V F [l [E S]]]; [exists []; split; [reflexivity | constructor]|].
  destruct (acreate_spec c ds V) as [a [Ea Sa]]. exists (a :: l). cbn [acreate_all].
  rewrite Ea. cbn [rbind]. rewrite E. split; [reflexivity | constructor; assumption].
Qed.

Definition sparse_of (ds : list pre) : sparse := (map pre_count ds, map (fun d => snd (fst d)) ds, map snd ds).

Lemma merge_list_map {A B} (f : A -> B) a b : merge_list (map f a) (map f b) = map f (merge_list a b).
Proof. unfold merge_list. rewrite !map_length. destruct (_ <=? _)%nat; rewrite map_app; reflexivity. Qed.

Definition sparse_spec (ds : list pre) (s : option sparse) : Prop :=
  match s with None => ds = [] | Some s => s = sparse_of ds end.
Definition dense_spec (cs : list acombiner) (ds : list pre) (d : option dense) : Prop :=
  match d with None => ds = [] | Some (n, l) => n = Z.of_nat (length ds) /\ Forall2 (fun c a => acc_spec c ds a) cs l end.

Lemma merge_sparse_spec ds ds' s s' : sparse_spec ds s -> sparse_spec ds' s' ->
  exists dsr, sparse_spec dsr (merge_sparse s s') /\ Permutation dsr (ds ++ ds').
Proof.
  destruct s as [s|], s' as [s'|]; cbn [sparse_spec merge_sparse]; intros -> ->.
  - exists (merge_list ds ds'). unfold sparse_of. rewrite !merge_list_map. split; [reflexivity | apply merge_list_perm].
  - exists ds. rewrite app_nil_r. destruct (sparse_of ds) as [[? ?] ?] eqn:E. split; [cbn; congruence | reflexivity].
  - exists ds'. split; reflexivity.
  - exists []. split; reflexivity.
Qed.

Lemma merge_dense_spec cs ds ds' d d' : dense_spec cs ds d -> dense_spec cs ds' d' ->
  dense_spec cs (ds ++ ds') (merge_dense d d').
Proof.
  destruct d as [[n l]|], d' as [[n' l']|]; cbn [dense_spec merge_dense].
  - intros [-> F] [-> F']. split; [rewrite app_length; lia|]. revert l' F'.
    induction F as [|c a cs l S F IH]; intros l' F'; inversion F'; subst; cbn; constructor.
    + apply amerge_spec; assumption.
    + apply IH. assumption.
  - intros H ->. rewrite app_nil_r. exact H.
  - intros -> H. exact H.
  - intros -> ->. reflexivity.
Qed.

Lemma dense_spec_perm cs ds ds' d : Permutation ds ds' -> dense_spec cs ds d -> dense_spec cs ds' d.
Proof.
  destruct d as [[n l]|]; cbn; intro P.
  - intros [-> F]. rewrite (Permutation_length P). split; [reflexivity|].
    induction F; constructor; [eapply acc_spec_perm; eassumption | assumption].
  - intros ->. apply Permutation_nil in P. exact P.
Qed.

(** The state of a compound accumulator for the data [ds]; [empties] tells whether
    empty accumulators were merged in. *)
Definition cacc_spec (cs : list acombiner) (empties : bool) (ds : list pre) (a : cacc) : Prop :=
  exists d1 d2, Permutation ds (d1 ++ d2) /\ sparse_spec d1 (fst a) /\ dense_spec cs d2 (snd a) /\
    (fst a <> None \/ snd a <> None) /\
    (empties = false -> fst a <> None -> d1 <> []).

Definition combiner_ok (empties : bool) (ds : list pre) (c : acombiner) : Prop :=
  match c with
  | ASum _ _ _ i => (forall d, In d ds -> value_of i d <> None) /\ (i <> None -> empties = false)
  | _ => True
  end.

Lemma combiner_ok_values empties ds c d1 : combiner_ok empties ds c -> incl d1 ds -> (empties = false -> d1 <> []) ->
  values_ok c d1.
Proof.
  destruct c; cbn; auto. intros [V E] I NE. split; [intros d Id; apply V, I, Id|]. intro Hi. apply NE, E, Hi.
Qed.

Lemma to_dense_spec cs ds : Forall (fun c => values_ok c ds) cs ->
  exists d, to_dense cs (sparse_of ds) = Ok d /\ dense_spec cs ds (Some d).
Proof.
  intro F. destruct (acreate_all_spec cs ds F) as [l [E S]]. unfold to_dense, sparse_of. rewrite E. cbn [rmap].
  eexists. split; [reflexivity|]. cbn. rewrite map_length. split; [reflexivity | exact S].
Qed.

Lemma cmerge_spec cs empties all ds ds' a a' :
  Forall (combiner_ok empties all) cs -> incl (ds ++ ds') all ->
  cacc_spec cs empties ds a -> cacc_spec cs empties ds' a' ->
  exists r, cmerge cs a a' = Ok r /\ cacc_spec cs empties (ds ++ ds') r.
Proof.
  intros OK I (d1 & d2 & P & S & D & N & E) (e1 & e2 & P' & S' & D' & N' & E').
  unfold cmerge. destruct (merge_sparse_spec _ _ _ _ S S') as (f & F & Pf).
  assert (DD := merge_dense_spec _ _ _ _ _ D D').
  assert (PP : Permutation (ds ++ ds') (f ++ d2 ++ e2)).
  { rewrite P, P', Pf. rewrite <- !app_assoc. apply Permutation_app_head. rewrite !app_assoc. apply Permutation_app_tail. apply Permutation_app_comm. }
  destruct (merge_sparse (fst a) (fst a')) as [[[cnt sums] ns]|] eqn:ES.
  - assert (NF : empties = false -> f <> []).
    { intros Em Z. subst f. apply Permutation_nil in Pf. apply app_eq_nil in Pf. destruct Pf as [-> ->].
      destruct (fst a) as [sa|] eqn:Ea; [apply (E Em); congruence|].
      destruct (fst a') as [sa'|] eqn:Ea'; [apply (E' Em); congruence|]. cbn in ES. discriminate. }
    cbn in F. assert (Lc : length cnt = length f) by (unfold sparse_of in F; injection F as -> _ _; apply map_length).
    destruct (Nat.ltb_spec (2 * length cs) (length cnt)) as [L|L].
    + rewrite F. destruct (to_dense_spec cs f) as [d [Ed Sd]].
      { eapply Forall_impl; [|exact OK]. intros c H. eapply combiner_ok_values; [exact H | | exact NF].
        intros x Ix. apply I. eapply Permutation_in; [apply Permutation_sym, PP|]. apply in_app_iff. left. exact Ix. }
      rewrite Ed. cbn [rmap]. eexists. split; [reflexivity|].
      exists [], (f ++ d2 ++ e2). cbn [fst snd app sparse_spec]. split; [exact PP|]. split; [reflexivity|].
      split; [|split].
      * eapply dense_spec_perm; [|eapply merge_dense_spec; [exact DD | exact Sd]]. apply Permutation_app_comm.
      * right. unfold merge_dense. destruct (match snd a with Some _ => _ | None => _ end) as [[? ?]|]; [destruct d|]; discriminate.
      * congruence.
    + eexists. split; [reflexivity|]. exists f, (d2 ++ e2). cbn [fst snd].
      split; [exact PP|]. split; [exact F|]. split; [exact DD|]. split; [left; discriminate|]. intros Em _. exact (NF Em).
  - eexists. split; [reflexivity|]. cbn in F. subst f. exists [], (d2 ++ e2). cbn [fst snd].
    split; [exact PP|]. split; [reflexivity|]. split; [exact DD|]. split; [|congruence].
    right. destruct (fst a) as [sa|] eqn:Ea.
    { cbn in ES. destruct sa as [[? ?] ?]. destruct (fst a') as [[[? ?] ?]|]; discriminate. }
    destruct N as [N|N]; [congruence|]. unfold merge_dense. destruct (snd a) as [[? ?]|]; [|congruence].
    destruct (snd a') as [[? ?]|]; discriminate.
Qed.

Lemma given_app l l' : given (l ++ l') = given l ++ given l'.
Proof. apply flat_map_app. Qed.

Lemma tree_spec cs empties all t :
  Forall (combiner_ok empties all) cs -> incl (given (leaves t)) all ->
  (empties = false -> ~ In None (leaves t)) ->
  exists a, reduce_tree (rlift (cmerge cs)) (map_tree (fun d => Ok (ccreate d)) t) = Ok a /\
            cacc_spec cs empties (given (leaves t)) a.
Proof.
  intro OK. induction t as [d|l IHl r IHr]; cbn [leaves map_tree reduce_tree]; intros I NE.
  - eexists. split; [reflexivity|]. destruct d as [[[c s] n]|]; cbn [ccreate given flat_map app].
    + exists [(c, s, n)], []. cbn. repeat split; try reflexivity; try (left; discriminate); try discriminate.
    + exists [], []. cbn. repeat split; try reflexivity; try (left; discriminate).
      intros Em. exfalso. apply (NE Em). left. reflexivity.
  - rewrite given_app in *.
    destruct IHl as [a [Ea Sa]]; [intros x Ix; apply I, in_app_iff; left; exact Ix | intros Em X; apply (NE Em), in_app_iff; left; exact X |].
    destruct IHr as [b [Eb Sb]]; [intros x Ix; apply I, in_app_iff; right; exact Ix | intros Em X; apply (NE Em), in_app_iff; right; exact X |].
    rewrite Ea, Eb. cbn [rlift rbind]. eapply cmerge_spec; eassumption.
Qed.

(** ** Metrics *)
Lemma expected_keep_dot keep start pmf :
  expected_keep keep start pmf == dot pmf (fun i => keep (start + Z.of_nat i)%Z).
Proof.
  unfold expected_keep.
  assert (G : forall s, sumQ (map (fun ip => snd ip * keep (fst ip)) (combine (map (fun i => (start + Z.of_nat i)%Z) (seq s (length pmf))) pmf))
              == dot pmf (fun i => keep (start + Z.of_nat (s + i))%Z)).
  { induction pmf as [|x l IH]; intro s; [reflexivity|]. cbn [length seq map combine fst snd dot]. unfold sumQ in *. cbn [fold_right].
    rewrite IH, Nat.add_0_r. apply Qplus_comp; [reflexivity|]. apply dot_ext. intro i. rewrite Nat.add_succ_r. reflexivity. }
  apply (G O).
Qed.

Lemma approximate_keep_dot keep start pmf :
  approximate_keep keep start pmf == dot pmf (fun i => keep (start + Z.of_nat i)%Z).
Proof.
  revert start. induction pmf as [|x l IH]; intro start; [reflexivity|]. cbn [approximate_keep dot].
  rewrite IH, Z.add_0_r. apply Qplus_comp; [reflexivity|]. apply dot_ext. intro i. rewrite Nat2Z.inj_succ.
  replace (start + 1 + Z.of_nat i)%Z with (start + Z.succ (Z.of_nat i))%Z by lia. reflexivity.
Qed.

Lemma expectation_add ps f g :
  survivors_expectation ps (fun k => f k + g k) == survivors_expectation ps f + survivors_expectation ps g.
Proof.
  unfold survivors_expectation. induction (outcomes (length ps)) as [|b l IH]; [reflexivity|].
  unfold sumQ in *. cbn [map fold_right]. rewrite IH. ring.
Qed.
Lemma expectation_scale ps c f : survivors_expectation ps (fun k => c * f k) == c * survivors_expectation ps f.
Proof.
  unfold survivors_expectation. induction (outcomes (length ps)) as [|b l IH]; [cbn; ring|].
  unfold sumQ in *. cbn [map fold_right]. rewrite IH. ring.
Qed.

(** The central moments of independent survivals add up. *)
Lemma central_moments ps :
  let m := sumQ ps in
  let x := fun k => inject_Z (Z.of_nat k) - m in
  survivors_expectation ps x == 0 /\
  survivors_expectation ps (fun k => x k * x k) == sumQ (map (fun p => p * (1 - p)) ps) /\
  survivors_expectation ps (fun k => x k * x k * x k) == sumQ (map (fun p => p * (1 - p) * (1 - 2 * p)) ps).
Proof.
  induction ps as [|p ps IH]; cbv zeta.
  - rewrite !expectation_nil. cbn. repeat split; ring.
  - cbv zeta in IH. set (m := sumQ ps) in *. change (sumQ (p :: ps)) with (p + m).
    destruct IH as [A1 [A2 A3]].
    set (x := fun k => inject_Z (Z.of_nat k) - m) in *.
    change (survivors_expectation ps (fun k => x k * x k) == sumQ (map (fun p => p * (1 - p)) ps)) in A2.
    change (survivors_expectation ps (fun k => x k * x k * x k) == sumQ (map (fun p => p * (1 - p) * (1 - 2 * p)) ps)) in A3.
    assert (A0 := expectation_one ps).
    (* the expectation of a polynomial in x *)
    assert (L : forall h a b c d, (forall k, h k == d * (x k * x k * x k) + (c * (x k * x k) + (b * x k + a * 1))) ->
      survivors_expectation ps h == d * sumQ (map (fun p => p * (1 - p) * (1 - 2 * p)) ps) + (c * sumQ (map (fun p => p * (1 - p)) ps) + a)).
    { intros h a b c d E. rewrite (expectation_ext _ _ _ E).
      rewrite expectation_add, expectation_scale, A3, expectation_add, expectation_scale, A2, expectation_add, expectation_scale, A1, expectation_scale, A0. ring. }
    assert (Sx : forall k, inject_Z (Z.of_nat (S k)) - (p + m) == x k + (1 - p)).
    { intro k. unfold x. rewrite Nat2Z.inj_succ, <- Z.add_1_r, inject_Z_plus. ring. }
    assert (Tx : forall k, inject_Z (Z.of_nat k) - (p + m) == x k - p) by (intro k; unfold x; ring).
    cbn [map]. change (sumQ (?a :: ?l)) with (a + sumQ l).
    split; [|split]; rewrite expectation_cons.
    + rewrite (L (fun k => inject_Z (Z.of_nat k) - (p + m)) (- p) 1 0 0) by (intro k; rewrite Tx; ring).
      rewrite (L (fun k => inject_Z (Z.of_nat (S k)) - (p + m)) (1 - p) 1 0 0) by (intro k; rewrite Sx; ring). ring.
    + rewrite (L (fun k => (inject_Z (Z.of_nat k) - (p + m)) * (inject_Z (Z.of_nat k) - (p + m))) (p * p) (- (2 * p)) 1 0) by (intro k; rewrite Tx; ring).
      rewrite (L (fun k => (inject_Z (Z.of_nat (S k)) - (p + m)) * (inject_Z (Z.of_nat (S k)) - (p + m))) ((1 - p) * (1 - p)) (2 * (1 - p)) 1 0) by (intro k; rewrite Sx; ring). ring.
    + rewrite (L (fun k => (inject_Z (Z.of_nat k) - (p + m)) * (inject_Z (Z.of_nat k) - (p + m)) * (inject_Z (Z.of_nat k) - (p + m)))
         (- (p * p * p)) (3 * p * p) (- (3 * p)) 1) by (intro k; rewrite Tx; ring).
      rewrite (L (fun k => (inject_Z (Z.of_nat (S k)) - (p + m)) * (inject_Z (Z.of_nat (S k)) - (p + m)) * (inject_Z (Z.of_nat (S k)) - (p + m)))
         ((1 - p) * (1 - p) * (1 - p)) (3 * (1 - p) * (1 - p)) (3 * (1 - p)) 1) by (intro k; rewrite Sx; ring). ring.
Qed.

Lemma survivor_moments_spec ps : moments_eq (probabilities_to_moments ps) (survivor_moments ps).
Proof.
  destruct (central_moments ps) as [A1 [A2 A3]].
  assert (M : survivors_expectation ps (fun k => inject_Z (Z.of_nat k)) == sumQ ps).
  { transitivity (survivors_expectation ps (fun k => (inject_Z (Z.of_nat k) - sumQ ps) + sumQ ps * 1)).
    - apply expectation_ext. intro k. ring.
    - rewrite expectation_add, expectation_scale, expectation_one, A1. ring. }
  unfold moments_eq, survivor_moments, probabilities_to_moments. cbn [m_count m_exp m_var m_third].
  split; [reflexivity|]. split; [symmetry; exact M|]. split.
  - rewrite <- A2. apply expectation_ext. intro k. rewrite M. reflexivity.
  - rewrite <- A3. apply expectation_ext. intro k. rewrite M. reflexivity.
Qed.

Lemma dot_Forall2 l l' h : Forall2 Qeq l l' -> dot l h == dot l' h.
Proof. intro F. revert h. induction F as [|x y l l' E F IH]; intro h; cbn [dot]; [reflexivity|]. rewrite E, (IH (fun i => h (S i))). reflexivity. Qed.

Lemma metric_eq_refl m : metric_eq m m.
Proof. destruct m; cbn; repeat split; reflexivity. Qed.
Lemma metric_eq_sym a b : metric_eq a b -> metric_eq b a.
Proof. destruct a, b; cbn; try tauto; [intros [-> ->]; tauto | intro E; symmetry; exact E | apply sum_eq_sym]. Qed.
Lemma metric_eq_trans a b c : metric_eq a b -> metric_eq b c -> metric_eq a c.
Proof.
  destruct a, b, c; cbn; try tauto; [intros [-> ->]; tauto | intros E F; etransitivity; eassumption | apply sum_eq_trans].
Qed.

Lemma combine_map {A B C} (f : A -> B) (g : A -> C) l : combine (map f l) (map g l) = map (fun x => (f x, g x)) l.
Proof. induction l as [|x l IH]; [reflexivity|]. cbn. rewrite IH. reflexivity. Qed.

Lemma acompute_spec keep approx c ds a : numeric approx -> combiner_ok true ds c \/ combiner_ok false ds c ->
  (match c with ASelect _ => ds <> [] | _ => True end) -> acc_spec c ds a ->
  exists m, acompute keep approx a = Ok m /\ metric_spec keep approx c ds m.
Proof.
  intros Nu OK NE S. destruct c, a; cbn [acc_spec] in S; try contradiction; cbn [acompute metric_spec].
  - destruct S as [-> ->]. eexists. split; [reflexivity|]. apply metric_eq_refl.
  - rewrite map_map. set (ps := map (fun x : pre => survival_probability max_partitions (snd x)) ds) in *.
    assert (Lp : length ps = length ds) by apply map_length.
    destruct s as [qs|m]; destruct S as [L H].
    + assert (Hq : length qs = length ps) by (apply Permutation_length; exact H).
      destruct (Nat.leb_spec (length ds) 100) as [_|X]; [|exfalso; unfold pre in *; lia].
      cbn [probability_to_keep]. destruct qs as [|q qs'] eqn:Eq.
      { exfalso. apply NE. destruct ds; [reflexivity | cbn in *; lia]. }
      rewrite <- Eq in *. cbn [rmap]. eexists. split; [reflexivity|]. cbn [metric_eq].
      rewrite expected_keep_dot, pmf_expectation. rewrite (expectation_Permutation _ _ _ H).
      apply expectation_ext. intro k. rewrite Z.add_0_l. reflexivity.
    + destruct (Nat.leb_spec (length ds) 100) as [X|_]; [exfalso; unfold ps in L; rewrite map_length in L; unfold pre in *; lia|].
      cbn [probability_to_keep rmap]. eexists. split; [reflexivity|]. cbn [metric_eq].
      destruct (Nu _ _ (moments_eq_trans _ _ _ H (survivor_moments_spec ps))) as [E F].
      rewrite E, expected_keep_dot, approximate_keep_dot. apply dot_Forall2. exact F.
  - eexists. split; [reflexivity|]. exists (map (value_or_zero i_column) ds). split.
    + rewrite map_map. apply map_ext_in. intros d I. unfold value_or_zero.
      destruct OK as [[V _]|[V _]]; assert (Vd := V d I); destruct (value_of i_column d); congruence.
    + rewrite combine_map. exact S.
  - eexists. split; [reflexivity|]. rewrite map_map, combine_map. exact S.
  - eexists. split; [reflexivity|]. rewrite map_map, combine_map. exact S.
Qed.

(** Every combiner's metric is as specified. *)
Fixpoint metrics_spec (keeps : nat -> Z -> Q) (approx : moments -> Z * list Q) (j : nat) (cs : list acombiner) (ds : list pre) (ms : list ametric) : Prop :=
  match cs, ms with
  | [], [] => True
  | c :: cs', m :: ms' => metric_spec (keeps j) approx c ds m /\ metrics_spec keeps approx (S j) cs' ds ms'
  | _, _ => False
  end.

Lemma acompute_all_spec keeps approx cs ds l j : numeric approx ->
  Forall (fun c => (combiner_ok true ds c \/ combiner_ok false ds c) /\ match c with ASelect _ => ds <> [] | _ => True end) cs ->
  Forall2 (fun c a => acc_spec c ds a) cs l ->
  exists ms, acompute_all keeps approx j l = Ok ms /\ metrics_spec keeps approx j cs ds ms.
Proof.
  intros Nu F FS. revert j F. induction FS as [|c a cs l Sa FS IH]; intros j F.
  - exists []. split; [reflexivity | exact Logic.I].
  - inversion F as [|? ? [OK NE] F']; subst.
    destruct (acompute_spec (keeps j) approx c ds a Nu OK NE Sa) as [m [Em Sm]].
    destruct (IH (S j) F') as [ms [Ems Sms]]. exists (m :: ms). cbn [acompute_all]. rewrite Em. cbn [rbind]. rewrite Ems.
    split; [reflexivity | split; assumption].
Qed.

Lemma has_none_dec (l : list (option pre)) : {In None l} + {~ In None l}.
Proof.
  induction l as [|[d|] l IH].
  - right. intros [].
  - destruct IH as [H|H]; [left; right; exact H | right; intros [E|E]; [discriminate | exact (H E)]].
  - left. left. reflexivity.
Qed.

Lemma analyse_spec keeps approx cs t : numeric approx -> Forall (shape_ok (leaves t)) cs ->
  exists ms, analyse keeps approx cs t = Ok ms /\ metrics_spec keeps approx 0 cs (given (leaves t)) ms.
Proof.
  intros Nu F. set (ds := given (leaves t)).
  set (empties := if has_none_dec (leaves t) then true else false).
  assert (OK : Forall (combiner_ok empties ds) cs).
  { eapply Forall_impl; [|exact F]. intros c H. destruct c; cbn; auto. destruct H as [V E]. split; [exact V|].
    intro Hi. unfold empties. destruct (has_none_dec (leaves t)); [exfalso; apply (E Hi); assumption | reflexivity]. }
  destruct (tree_spec cs empties ds t OK) as [a [Ea (d1 & d2 & P & S & D & N & E)]].
  { intros x Ix. exact Ix. }
  { unfold empties. destruct (has_none_dec (leaves t)); [discriminate | auto]. }
  fold ds in P. unfold analyse. rewrite Ea. cbn [rbind]. unfold ccompute.
  assert (FIN : exists n l, (match fst a with
             | Some s => rmap (fun d => merge_dense (snd a) (Some d)) (to_dense cs s)
             | None => Ok (snd a) end) = Ok (Some (n, l)) /\ Forall2 (fun c a => acc_spec c ds a) cs l).
  { destruct (fst a) as [s|] eqn:Es.
    - cbn in S. subst s. destruct (to_dense_spec cs d1) as [d [Ed Sd]].
      { eapply Forall_impl; [|exact OK]. intros c H. eapply combiner_ok_values; [exact H | | ].
        - intros x Ix. eapply Permutation_in; [apply Permutation_sym, P|]. apply in_app_iff. left. exact Ix.
        - intro Em. apply (E Em). discriminate. }
      rewrite Ed. cbn [rmap].
      assert (M := merge_dense_spec _ _ _ _ _ D Sd).
      assert (M' : dense_spec cs ds (merge_dense (snd a) (Some d))).
      { eapply dense_spec_perm; [|exact M]. rewrite P. apply Permutation_app_comm. }
      destruct (merge_dense (snd a) (Some d)) as [[n l]|] eqn:Em.
      + exists n, l. split; [reflexivity | apply M'].
      + exfalso. destruct (snd a) as [[? ?]|]; destruct d; discriminate.
    - cbn in S. subst d1. cbn [app] in P. destruct N as [N|N]; [congruence|].
      assert (M' : dense_spec cs ds (snd a)) by (eapply dense_spec_perm; [|exact D]; apply Permutation_sym; exact P).
      destruct (snd a) as [[n l]|]; [|congruence]. exists n, l. split; [reflexivity | apply M']. }
  destruct FIN as (n & l & -> & Fl). cbn [rbind snd].
  apply acompute_all_spec; [exact Nu | | exact Fl].
  rewrite Forall_forall in *. intros c I. split.
  - assert (H := OK c I). destruct empties; [left | right]; exact H.
  - assert (H := F c I). destruct c; auto.
Qed.

Lemma metrics_spec_nth keeps approx cs ds ms j0 : metrics_spec keeps approx j0 cs ds ms ->
  length ms = length cs /\
  forall j c, nth_error cs j = Some c ->
    exists m, nth_error ms j = Some m /\ metric_spec (keeps (j0 + j)%nat) approx c ds m.
Proof.
  revert j0 ms. induction cs as [|c cs IH]; intros j0 [|m ms] H; cbn [metrics_spec] in H; try contradiction.
  - split; [reflexivity|]. intros [|j] c E; discriminate.
  - destruct H as [Hm H]. destruct (IH _ _ H) as [L N]. split; [cbn; congruence|].
    intros [|j] c' E; cbn in E.
    + injection E as <-. exists m. rewrite Nat.add_0_r. split; [reflexivity | exact Hm].
    + destruct (N j c' E) as [m' [Em Sm]]. exists m'. rewrite Nat.add_succ_r. split; [exact Em | exact Sm].
Qed.

Lemma values_unique i ds vs : map (value_of i) ds = map Some vs -> vs = map (value_or_zero i) ds.
Proof.
  revert vs. induction ds as [|d ds IH]; intros [|v vs] E; try discriminate; [reflexivity|].
  cbn in E. injection E as E1 E2. cbn. rewrite <- (IH vs E2). unfold value_or_zero. rewrite E1. reflexivity.
Qed.

Lemma metric_spec_unique keep approx c ds ds' m m' : numeric approx -> Permutation ds ds' ->
  metric_spec keep approx c ds m -> metric_spec keep approx c ds' m' -> metric_eq m m'.
Proof.
  intros Nu P. destruct c; cbn [metric_spec].
  - intros A B. eapply metric_eq_trans; [exact A|]. apply metric_eq_sym. eapply metric_eq_trans; [exact B|].
    rewrite (Permutation_length P). cbn. split; [reflexivity|]. symmetry. apply sumZ_perm, Permutation_map, P.
  - rewrite <- (Permutation_length P).
    assert (P' := Permutation_map (survival_probability max_partitions) (Permutation_map snd P)).
    destruct (length ds <=? 100)%nat; intros A B; (eapply metric_eq_trans; [exact A|]); apply metric_eq_sym;
      (eapply metric_eq_trans; [exact B|]); cbn [metric_eq].
    + apply expectation_Permutation, Permutation_sym. exact P'.
    + assert (Q := moments_perm _ _ (Permutation_sym P')).
      assert (Q' := moments_eq_trans _ _ _ (moments_eq_sym _ _ (survivor_moments_spec _)) (moments_eq_trans _ _ _ Q (survivor_moments_spec _))).
      destruct (Nu _ _ Q') as [E F]. cbv zeta. rewrite E, !approximate_keep_dot.
      apply dot_Forall2. exact F.
  - intros [vs [V A]] [vs' [V' B]]. apply values_unique in V, V'. subst vs vs'.
    eapply metric_eq_trans; [exact A|]. apply metric_eq_sym. eapply metric_eq_trans; [exact B|].
    rewrite !combine_map. apply sum_metrics_perm, Permutation_map, Permutation_sym, P.
  - intros A B. eapply metric_eq_trans; [exact A|]. apply metric_eq_sym. eapply metric_eq_trans; [exact B|].
    rewrite !map_map, !combine_map. apply sum_metrics_perm, Permutation_map, Permutation_sym, P.
  - intros A B. eapply metric_eq_trans; [exact A|]. apply metric_eq_sym. eapply metric_eq_trans; [exact B|].
    rewrite !map_map, !combine_map. apply sum_metrics_perm, Permutation_map, Permutation_sym, P.
Qed.

Lemma metrics_spec_unique keeps approx cs ds ds' ms ms' j : numeric approx -> Permutation ds ds' ->
  metrics_spec keeps approx j cs ds ms -> metrics_spec keeps approx j cs ds' ms' -> Forall2 metric_eq ms ms'.
Proof.
  intros Nu P. revert ms ms' j. induction cs as [|c cs IH]; intros [|m ms] [|m' ms'] j A B; cbn [metrics_spec] in *; try contradiction; constructor.
  - eapply metric_spec_unique; [exact Nu | exact P | apply A | apply B].
  - eapply IH; [apply A | apply B].
Qed.

Lemma described_values comb cs ds : Forall2 (describes comb) cs ds ->
  map (fun c => (c_value c, Z.of_nat (c_partitions c))) cs =
  map (fun d => (match combiner_value comb d with Some v => v | None => 0 end, snd d)) ds /\
  Forall valid_contribution cs.
Proof.
  induction 1 as [|c d cs ds (V & E & N) F [IH1 IH2]]; [split; constructor|].
  cbn [map]. rewrite E, N, IH1. split; [reflexivity | constructor; assumption].
Qed.

Lemma metric_expectation keep approx comb ds m L0 lo hi cs :
  sum_bounds comb = Some (lo, hi, Z.of_nat L0) -> lo <= hi -> Forall2 (describes comb) cs ds ->
  metric_spec keep approx comb ds m ->
  exists s, m = MSum s /\
    expectation (sum_dist (map (bounded L0 lo hi) cs)) == a_sum s + a_min s + a_max s + a_l0 s /\
    variance (sum_dist (map (bounded L0 lo hi) cs)) == a_var s.
Proof.
  intros B Hlh F S.
  destruct (described_values _ _ _ F) as [E V].
  destruct (expectation_bounded L0 lo hi cs Hlh V) as [X Y].
  assert (G : metric_eq m (MSum (sum_metrics lo hi (Z.of_nat L0) (map (fun c => (c_value c, Z.of_nat (c_partitions c))) cs)))).
  { rewrite E. destruct comb; cbn [sum_bounds] in B; try discriminate; injection B as <- <- ->; cbn [metric_spec combiner_value] in *.
    - destruct S as [vs [Vs S]]. apply values_unique in Vs. subst vs. rewrite combine_map in S. exact S.
    - rewrite map_map, combine_map in S. exact S.
    - rewrite map_map, combine_map in S. exact S. }
  destruct m as [| |s]; cbn in G; try contradiction. exists s. split; [reflexivity|].
  destruct G as (G1 & G2 & G3 & G4 & G5). rewrite G1, G2, G3, G4, G5. split; assumption.
Qed.
