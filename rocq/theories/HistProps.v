(** Properties C29 - C33, C35, C36: histograms. *)
From Coq Require Import List ZArith QArith Bool Sorted Permutation Lia Lqa.
From Verif Require Import Base BaseLemmas BackendModel BackendSpec ListLemmas BackendProofs HistModel HistSpec
  HistProofs HistProofs2 HistProofs3 HistProofs4 HistProofs5.
Import ListNotations.
Local Open Scope Z_scope.

(** ** C29: logarithmic bins *)

(** Every positive integer lies in the bin computed for it, and that bin is one
    of the three-leading-digits bins. *)
Theorem C29_bin_contains_value : forall v lo up, 1 <= v -> log_bin v = (lo, up) ->
  leading_bin lo up /\ lo <= v < up.
Proof.
  intros v lo up Hv E. pose proof (log_bin_contains v Hv) as H. rewrite E in H. exact H.
Qed.

(** The bins partition the positive integers: two integers have the same bin
    exactly when one lies in the other's bin; different bins are disjoint. *)
Theorem C29_bins_partition : forall v w, 1 <= v -> 1 <= w ->
  (log_bin v = log_bin w <-> fst (log_bin v) <= w < snd (log_bin v)) /\
  (log_bin v <> log_bin w -> forall x, ~ (fst (log_bin v) <= x < snd (log_bin v) /\
                                          fst (log_bin w) <= x < snd (log_bin w))).
Proof.
  intros v w Hv Hw. destruct (log_bin_contains v Hv) as [Bv Rv], (log_bin_contains w Hw) as [Bw Rw].
  split; [split|].
  - intros E. rewrite E. exact Rw.
  - intros R. symmetry. rewrite (log_bin_complete _ _ w Bv R). destruct (log_bin v); reflexivity.
  - intros N x [R R']. apply N. destruct (leading_bin_unique _ _ _ _ x Bv Bw R R') as [E1 E2].
    destruct (log_bin v), (log_bin w). cbn in *. congruence.
Qed.

(** A bin is one integer wide or at most 1% of its lower end. *)
Theorem C29_bin_width : forall v lo up, 1 <= v -> log_bin v = (lo, up) ->
  up - lo = 1 \/ 100 * (up - lo) <= lo.
Proof.
  intros v lo up Hv E. destruct (C29_bin_contains_value v lo up Hv E) as [B _].
  exact (leading_bin_width lo up B).
Qed.

Example C29_bins : map log_bin [999; 1000; 1009; 1010; 9999; 10000; 12345]
  = [(999, 1000); (1000, 1010); (1000, 1010); (1010, 1020); (9990, 10000); (10000, 10100); (12300, 12400)].
Proof. vm_compute. reflexivity. Qed.

(** ** C30: candidate bounds *)

Theorem C30_candidate_bounds : forall upper,
  StronglySorted Z.lt (possible_bounds upper) /\
  (forall x, In x (possible_bounds upper) <->
     1 <= x <= upper /\ exists v, 1 <= v /\ fst (log_bin v) = x).
Proof.
  intros upper. destruct (possible_bounds_spec upper) as [S I]. split; [exact S|].
  intros x. rewrite I. split; intros [R H]; (split; [exact R|]).
  - destruct H as [up B]. exists x. split; [lia|].
    pose proof (leading_bin_pos _ _ B). rewrite (log_bin_complete x up x B); [reflexivity | lia].
  - destruct H as (v & Hv & <-). exists (snd (log_bin v)). apply log_bin_contains. exact Hv.
Qed.

Example C30_example : length (possible_bounds 1025) = 1002%nat /\
  In 1020 (possible_bounds 1025) /\ ~ In 1005 (possible_bounds 1025).
Proof.
  split; [vm_compute; reflexivity|]. split.
  - apply mem_true_iff. vm_compute. reflexivity.
  - apply mem_false_iff. vm_compute. reflexivity.
Qed.

(** ** C31: count histograms *)

(** The computed histogram is the histogram of the data. *)
Theorem C31_frequency_histogram : forall xs, Forall (fun x => 1 <= x) xs ->
  exists h, frequency_histogram xs = Ok h /\ histogram_of xs h.
Proof. exact frequency_histogram_spec. Qed.

(** The specification determines the histogram. *)
Theorem C31_histogram_unique : forall xs h h', histogram_of xs h -> histogram_of xs h' -> h = h'.
Proof. exact histogram_unique. Qed.

(** Counts add up to the number of data, sums to their total; the maximum is
    the true maximum. *)
Theorem C31_totals : forall xs h, Forall (fun x => 1 <= x) xs -> frequency_histogram xs = Ok h ->
  total_count h = Z.of_nat (length xs) /\ total_sum h = sumZ xs /\
  (xs <> [] -> exists m, max_value h = Ok m /\ maximum m xs).
Proof.
  intros xs h F E. destruct (frequency_histogram_spec xs F) as (h' & E' & H).
  assert (h' = h) as -> by congruence.
  split; [exact (histogram_total_count xs h H)|]. split; [exact (histogram_total_sum xs h H)|].
  exact (histogram_max xs h H).
Qed.

(** Whatever the order of the data, of the counted frequencies and of the
    merging of bins, the same histogram comes out and no assertion of
    FrequencyBin.__add__ fails. *)
Theorem C31_any_order : forall xs ys counts plan, Forall (fun x => 1 <= x) xs ->
  Permutation xs ys -> Permutation counts (count_per_element ys) ->
  reduce_plan (map to_frequency_bin counts) plan ->
  histogram_by_plan plan = frequency_histogram xs.
Proof.
  intros xs ys counts plan F P C R.
  assert (Fy : Forall (fun x => 1 <= x) ys) by exact (Permutation_Forall P F).
  assert (Pr : proper counts).
  { intros v f I. apply (counts_proper ys Fy). exact (Permutation_in _ C I). }
  destruct (plan_histogram counts plan Pr R) as (h & E & H).
  destruct (frequency_histogram_spec xs F) as (h' & E' & H'). rewrite E, E'. f_equal.
  apply (histogram_unique xs); [|exact H'].
  apply (histogram_Permutation (expand counts)); [|exact H].
  rewrite (expand_Permutation _ _ C), (expand_counts ys). apply Permutation_sym. exact P.
Qed.

Example C31_example :
  frequency_histogram [3; 1004; 1; 3; 1001]
  = Ok [mkBin 1 2 1 1 1 1; mkBin 3 4 2 6 3 3; mkBin 1000 1010 2 2005 1004 1001].
Proof. vm_compute. reflexivity. Qed.

Example C31_order_example : exists plan,
  reduce_plan (map to_frequency_bin [(1001, 1); (3, 2); (1004, 1)]) plan /\
  histogram_by_plan plan = frequency_histogram [3; 1001; 1004; 3].
Proof.
  exists [(1000, Node (Leaf (snd (to_frequency_bin (1004, 1)))) (Leaf (snd (to_frequency_bin (1001, 1)))));
          (3, Leaf (snd (to_frequency_bin (3, 2))))].
  split; [|vm_compute; reflexivity].
  split; [|split].
  - repeat constructor; cbn; intuition discriminate.
  - intros k. vm_compute. tauto.
  - intros k t [E | [E | []]]; injection E as <- <-; vm_compute; [apply perm_swap | apply Permutation_refl].
Qed.

(** Datasets: the partitions per privacy id (L0), rows per privacy id (L1), rows
    per pair (Linf), rows per partition, privacy ids per partition. *)
Theorem C31_dataset_histograms :
  forall (P K : Type) (EP : EqDec P) (EK : EqDec K) n (rows : list ((P * K) * Q)),
  let col := map fst rows in
  let pids := distinct (map fst col) in
  let pks := distinct (map snd col) in
  let D := compute_dataset_histograms n rows in
  (exists h, h_l0 D = Ok h /\
     histogram_of (map (fun p => Z.of_nat (length (distinct (values_of p col)))) pids) h /\
     total_count h = Z.of_nat (length pids) /\ total_sum h = Z.of_nat (length (distinct col))) /\
  (exists h, h_l1 D = Ok h /\
     histogram_of (map (fun p => Z.of_nat (occ p (map fst col))) pids) h /\
     total_count h = Z.of_nat (length pids) /\ total_sum h = Z.of_nat (length rows)) /\
  (exists h, h_linf D = Ok h /\
     histogram_of (map (fun pr => Z.of_nat (occ pr col)) (distinct col)) h /\
     total_count h = Z.of_nat (length (distinct col)) /\ total_sum h = Z.of_nat (length rows)) /\
  (exists h, h_count_per_partition D = Ok h /\
     histogram_of (map (fun k => Z.of_nat (occ k (map snd col))) pks) h /\
     total_count h = Z.of_nat (length pks) /\ total_sum h = Z.of_nat (length rows)) /\
  (exists h, h_privacy_id_per_partition D = Ok h /\
     histogram_of (map (fun k => Z.of_nat (occ k (map snd (distinct col)))) pks) h /\
     total_count h = Z.of_nat (length pks) /\ total_sum h = Z.of_nat (length (distinct col))).
Proof.
  intros P K EP EK n rows col pids pks D.
  assert (Occ : forall (A : Type) (EA : EqDec A) (l : list A),
            sumZ (map (fun x => Z.of_nat (occ x l)) (distinct l)) = Z.of_nat (length l)).
  { intros A EA l. rewrite <- (Permutation_length (ungroup_distinct (distinct l) l (NoDup_distinct l)
                                (fun x I => proj2 (in_distinct _ _) I))).
    generalize (distinct l) as ks. induction ks as [|k ks IH]; [reflexivity|].
    cbn [map flat_map]. rewrite sumZ_cons, IH, app_length, occ_filter_length. lia. }
  assert (Gen : forall (A : Type) (EA : EqDec A) (l : list A),
            exists h, frequency_histogram (map snd (count_per_element l)) = Ok h /\
              histogram_of (map (fun x => Z.of_nat (occ x l)) (distinct l)) h /\
              total_count h = Z.of_nat (length (distinct l)) /\ total_sum h = Z.of_nat (length l)).
  { intros A EA l. destruct (frequency_histogram_spec _ (counts_positive l)) as (h & E & H).
    exists h. split; [exact E|]. rewrite count_per_element_normal, map_map in H. cbn [snd] in H.
    split; [exact H|]. rewrite (histogram_total_count _ _ H), (histogram_total_sum _ _ H), Occ, map_length. auto. }
  assert (Lr : length col = length rows) by (unfold col; apply map_length).
  split; [|split; [|split; [|split]]].
  - destruct (Gen P EP (map fst (distinct col))) as (h & E & H & C & S). exists h. split; [exact E|].
    pose proof (raw_partitions_per_id col) as Pm. rewrite count_per_element_normal, map_map in Pm. cbn [snd] in Pm.
    pose proof (histogram_Permutation _ _ _ Pm H) as H'.
    split; [exact H'|]. rewrite (histogram_total_count _ _ H'), map_length. split; [reflexivity|].
    rewrite S, map_length. reflexivity.
  - destruct (Gen P EP (map fst col)) as (h & E & H & C & S). exists h. split; [exact E|].
    split; [exact H|]. split; [exact C|]. rewrite S, map_length, Lr. reflexivity.
  - destruct (Gen (P * K)%type _ col) as (h & E & H & C & S). exists h. split; [exact E|].
    split; [exact H|]. split; [exact C|]. rewrite S, Lr. reflexivity.
  - destruct (Gen K EK (map snd col)) as (h & E & H & C & S). exists h. split; [exact E|].
    split; [exact H|]. split; [exact C|]. rewrite S, map_length, Lr. reflexivity.
  - destruct (Gen K EK (map snd (distinct col))) as (h & E & H & C & S). exists h. split; [exact E|].
    assert (Pm : Permutation (map (fun k => Z.of_nat (occ k (map snd (distinct col)))) (distinct (map snd (distinct col))))
                   (map (fun k => Z.of_nat (occ k (map snd (distinct col)))) pks)).
    { apply Permutation_map. apply NoDup_Permutation; [apply NoDup_distinct .. |].
      intros k. unfold pks. rewrite !in_distinct, !in_map_iff. split; intros (x & Ex & I); exists x; (split; [exact Ex|]);
        apply in_distinct; exact I. }
    pose proof (histogram_Permutation _ _ _ Pm H) as H'.
    split; [exact H'|]. rewrite (histogram_total_count _ _ H'), map_length. split; [reflexivity|].
    rewrite S, map_length. reflexivity.
Qed.

Definition example_rows : list ((Z * Z) * Q) :=
  [((1, 10), 2%Q); ((1, 11), 3%Q); ((2, 10), (-1)%Q); ((1, 10), 5 # 2); ((3, 12), 4%Q)].

Example C31_dataset_example :
  h_l0 (compute_dataset_histograms 4 example_rows) = Ok [mkBin 1 2 2 2 1 1; mkBin 2 3 1 2 2 2] /\
  h_linf (compute_dataset_histograms 4 example_rows) = Ok [mkBin 1 2 3 3 1 1; mkBin 2 3 1 2 2 2].
Proof. vm_compute. split; reflexivity. Qed.

(** ** C32: quantiles *)

(** For data [xs] and its histogram: for each quantile [q] the result is the
    lower end of the last bin such that the data below that bin are at most a
    fraction [q]. *)
Theorem C32_quantiles : forall xs h qs, xs <> [] -> histogram_of xs h ->
  StronglySorted Qle qs -> Forall (fun q => 0 <= q)%Q qs ->
  exists rs, quantiles h qs = Ok rs /\
    Forall2 (fun q r =>
      let fraction_below t :=
        (inject_Z (Z.of_nat (length (filter (fun x => (x <? t)%Z) xs))) / inject_Z (Z.of_nat (length xs)))%Q in
      In r (map b_lower h) /\ (fraction_below r <= q)%Q /\
      forall b, In b h -> r < b_lower b -> (q < fraction_below (b_lower b))%Q) qs rs.
Proof.
  intros xs h qs N H S F.
  assert (T : total_count h <> 0).
  { rewrite (histogram_total_count xs h H). destruct xs; [congruence | cbn; lia]. }
  destruct (quantiles_nonneg h qs S F T) as (rs & E & A). exists rs. split; [exact E|].
  clear E S F. induction A as [|q r qs rs A _ IH]; constructor; [|exact IH]. cbn zeta.
  destruct A as (pre & b & post & E & -> & Le & Up). unfold part in Le, Up.
  rewrite (histogram_total_count xs h H) in Le, Up.
  assert (H1 := H). rewrite E in H1. rewrite <- (prefix_count xs pre b post H1).
  split; [rewrite E, map_app; apply in_or_app; right; left; reflexivity|]. split; [exact Le|].
  intros b' Ib' Lt. destruct (in_split b' h Ib') as (pre' & post' & E').
  assert (H2 := H). rewrite E' in H2. rewrite <- (prefix_count xs pre' b' post' H2).
  apply (Up pre' b' post' E').
  destruct (Nat.lt_ge_cases (length pre) (length pre')) as [?|G]; [assumption|]. exfalso.
  assert (b_lower b' <= b_lower b); [|lia].
  destruct H as (Srt & Fd & _).
  assert (Ib2 : b' = b \/ In b post').
  { clear - E E' G. subst h. revert pre' E' G. induction pre as [|a pre IHp]; intros pre' E' G.
    - destruct pre' as [|a' pre']; [|cbn in G; lia]. cbn in E'. injection E' as -> _. left. reflexivity.
    - destruct pre' as [|a' pre'].
      + cbn in E'. injection E' as _ <-. right. apply in_or_app. right. left. reflexivity.
      + cbn in E'. injection E' as _ E'. apply (IHp pre' E'). cbn in G. lia. }
  destruct Ib2 as [-> | Ib2]; [lia|]. rewrite E' in Srt, Fd.
  assert (Lead : 0 < b_lower b' < b_upper b').
  { rewrite Forall_forall in Fd. destruct (Fd b') as [B _]; [apply in_or_app; right; left; reflexivity|].
    exact (leading_bin_pos _ _ B). }
  clear - Srt Ib2 Lead. induction pre' as [|a pre' IHp]; cbn [app] in Srt.
  - inversion Srt as [|? ? _ Fb]; subst. rewrite Forall_forall in Fb. specialize (Fb b Ib2). cbn in Fb. lia.
  - inversion Srt; subst. auto.
Qed.

(** For any bins (also those of sum histograms), in terms of the counts. *)
Theorem C32_quantiles_of_bins : forall (V : Type) (h : list (bin V)) qs,
  StronglySorted Qle qs -> Forall (fun q => 0 <= q)%Q qs -> total_count h <> 0 ->
  exists rs, quantiles h qs = Ok rs /\
    Forall2 (fun q r => exists pre b post, h = pre ++ b :: post /\ r = b_lower b /\
      (inject_Z (total_count pre) / inject_Z (total_count h) <= q)%Q /\
      forall pre' b' post', h = pre' ++ b' :: post' -> (length pre < length pre')%nat ->
        (q < inject_Z (total_count pre') / inject_Z (total_count h))%Q) qs rs.
Proof. intros V h qs S F T. exact (quantiles_nonneg h qs S F T). Qed.

(** The code after the loop is wrong: a negative quantile raises TypeError
    instead of returning the first bin. *)
Theorem C32_negative_quantile : forall (V : Type) (h : list (bin V)) qs q,
  StronglySorted Qle qs -> In q qs -> (q < 0)%Q -> Forall (fun b => 0 <= b_count b) h ->
  total_count h <> 0 -> quantiles h qs = Err TypeError.
Proof. intros V h qs q. exact (quantiles_negative h qs q). Qed.

Theorem C32_empty_histogram : forall (V : Type) qs, StronglySorted Qle qs ->
  quantiles (@nil (bin V)) qs = Err ValueError.
Proof. intros V qs S. unfold quantiles. rewrite (sortedQ_of qs S). reflexivity. Qed.

Example C32_example :
  (exists h, frequency_histogram [1; 1; 2; 5; 1003; 1006; 1200; 7; 7; 7] = Ok h /\
     quantiles h [0; 1 # 4; 1 # 2; 8 # 10; 9 # 10; 1]%Q = Ok [1; 2; 7; 1000; 1200; 1200]) /\
  StronglySorted Qle [0; 1 # 4; 1 # 2; 8 # 10; 9 # 10; 1]%Q.
Proof.
  split; [eexists; split; vm_compute; reflexivity|].
  apply sortedQ_ascending. vm_compute. reflexivity.
Qed.

(** ** C33: ratio of dropped data *)

(** Each threshold comes with exactly the fraction of the total that bounding
    every contribution to the threshold removes; the thresholds are 0, the lower
    ends of the bins and the maximum, increasing; the ratios decrease strictly
    from 1 to 0. *)
Theorem C33_ratio_dropped : forall xs h, Forall (fun x => 1 <= x) xs -> xs <> [] ->
  histogram_of xs h ->
  exists rs m, compute_ratio_dropped h = Ok rs /\ maximum m xs /\
    Forall (fun tr => (snd tr == inject_Z (excess (fst tr) xs) / inject_Z (sumZ xs))%Q) rs /\
    (forall t, In t (map fst rs) <-> t = 0 \/ In t (map b_lower h) \/ t = m) /\
    StronglySorted (fun a b => fst a < fst b /\ (snd b < snd a)%Q) rs /\
    hd_error rs = Some (0, 1%Q) /\ (exists pre r, rs = pre ++ [(m, r)] /\ (r == 0)%Q).
Proof.
  intros xs h F N H.
  assert (Sp : 0 < sumZ xs) by (apply sumZ_positive; assumption).
  assert (T : total_sum h <> 0) by (rewrite (histogram_total_sum xs h H); lia).
  destruct (histogram_max xs h H N) as (m & Em & M). unfold max_value in Em.
  destruct (rev h) as [|b l] eqn:Er; [discriminate|]. injection Em as Em.
  pose proof (ratio_dropped_run h b l Er T) as R. rewrite Em in R.
  assert (Hh : h = rev l ++ [b]) by (rewrite <- (rev_involutive h), Er; reflexivity).
  assert (Mb : b_lower b <= m).
  { destruct H as (_ & Fd & _). rewrite Hh in Fd. apply Forall_app in Fd. destruct Fd as [_ Fd].
    inversion Fd as [|? ? (_ & _ & _ & [I _] & _) _]; subst. apply within_In in I. lia. }
  clear Em.
  destruct (entries_exact xs h H) as [Ef Ex].
  set (start := if negb (m =? b_lower b) then [(m, 0%Q)] else []) in *.
  set (rs := (0, 1%Q) :: entries (total_sum h) h ++ start) in *.
  assert (Iq : (0 < inject_Z (sumZ xs))%Q).
  { change 0%Q with (inject_Z 0). rewrite <- Zlt_Qlt. exact Sp. }
  assert (Exact : Forall (fun tr => (snd tr == inject_Z (excess (fst tr) xs) / inject_Z (sumZ xs))%Q) rs).
  { unfold rs. constructor.
    - cbn [fst snd]. rewrite (excess_zero xs F). field. lra.
    - apply Forall_app. split; [exact Ex|]. unfold start. destruct (m =? b_lower b); cbn [negb]; constructor; [|constructor].
      cbn [fst snd]. rewrite (excess_max m xs M). change (inject_Z 0) with 0%Q. unfold Qdiv. ring. }
  assert (Keys : map fst rs = 0 :: map b_lower h ++ map fst start).
  { unfold rs. cbn [map fst]. rewrite map_app, Ef. reflexivity. }
  assert (Lp : Forall (fun a => 0 < b_lower a) h).
  { destruct H as (_ & Fd & _). eapply Forall_impl; [|exact Fd]. intros a (B & _). pose proof (leading_bin_pos _ _ B). lia. }
  assert (Srt : StronglySorted Z.lt (map fst rs)).
  { rewrite Keys.
    assert (S1 : StronglySorted Z.lt (map b_lower h)).
    { destruct H as (S & Fd & _). clear - S Fd. induction S as [|a h S IH Fa]; [constructor|].
      inversion Fd as [|? ? (B & _) Fd']; subst. pose proof (leading_bin_pos _ _ B).
      cbn [map]. constructor; [exact (IH Fd')|]. apply Forall_forall. intros t I. apply in_map_iff in I.
      destruct I as (c & <- & Ic). rewrite Forall_forall in Fa. specialize (Fa c Ic). cbn in Fa. lia. }
    assert (S2 : StronglySorted Z.lt (map b_lower h ++ map fst start)).
    { unfold start. destruct (Z.eqb_spec m (b_lower b)) as [E|E]; cbn [negb map]; [rewrite app_nil_r; exact S1|].
      assert (Fm : Forall (fun t => t < m) (map b_lower h)).
      { rewrite Hh, map_app in S1 |- *. cbn [map] in S1 |- *. destruct (sorted_snoc _ _ _ S1) as [_ Fb].
        apply Forall_app. split; [eapply Forall_impl; [|exact Fb]; cbn; intros; lia | constructor; [lia | constructor]]. }
      cbn [fst]. clear - S1 Fm. induction S1 as [|t ts S IH Ft]; cbn [app]; [constructor; constructor|].
      inversion Fm; subst. constructor; [auto|]. apply Forall_app. split; [exact Ft | constructor; [assumption | constructor]]. }
    constructor; [exact S2|]. apply Forall_app. split.
    - apply Forall_forall. intros t I. apply in_map_iff in I. destruct I as (a & <- & Ia).
      rewrite Forall_forall in Lp. exact (Lp a Ia).
    - unfold start. destruct (m =? b_lower b); cbn [negb map]; [constructor|]. constructor; [|constructor].
      cbn [fst]. rewrite Forall_forall in Lp. specialize (Lp b). rewrite Hh in Lp.
      specialize (Lp ltac:(apply in_or_app; right; left; reflexivity)). lia. }
  assert (Lm : forall t, In t (map fst rs) -> t <= m).
  { intros t I. rewrite Keys in I. destruct I as [<- | I].
    - destruct M as [Im _]. rewrite Forall_forall in F. specialize (F m Im). cbn in F. lia.
    - apply in_app_or in I. destruct I as [I | I].
      + apply in_map_iff in I. destruct I as (a & <- & Ia).
        destruct H as (_ & Fd & _). rewrite Forall_forall in Fd. destruct (Fd a Ia) as (B & _ & _ & [Ia2 _] & _).
        apply within_In in Ia2. destruct Ia2 as [Ia2 Ra]. destruct M as [_ Fm]. rewrite Forall_forall in Fm.
        specialize (Fm _ Ia2). cbn in Fm. lia.
      + unfold start in I. destruct (m =? b_lower b); cbn in I; [destruct I | destruct I as [<- | []]; lia]. }
  exists rs, m. split; [exact R|]. split; [exact M|]. split; [exact Exact|]. split; [|split; [|split]].
  - intros t. rewrite Keys. cbn [In]. rewrite in_app_iff. unfold start.
    destruct (Z.eqb_spec m (b_lower b)) as [E|E]; cbn [negb map In fst].
    + split; [intros [A | [A | []]]; auto|]. intros [A | [A | A]]; auto. right. left. subst t. rewrite E.
      rewrite Hh. apply in_map, in_or_app. right. left. reflexivity.
    + split; [intros [A | [A | [A | []]]]; auto | intros [A | [A | A]]; auto].
  - clear R Keys. revert Exact Srt Lm. clearbody rs.
    induction rs as [|[t r] rs IH]; intros Exact Srt Lm; [constructor|].
    inversion Exact as [|? ? E1 E2]; subst. cbn [map] in Srt. inversion Srt as [|? ? S1 F1]; subst.
    constructor; [apply IH; auto; intros t' I; apply Lm; right; exact I|].
    apply Forall_forall. intros [t' r'] I. cbn [fst snd] in *.
    rewrite Forall_forall in F1, E2. specialize (E2 _ I). cbn [fst snd] in E2.
    assert (It : In t' (map fst rs)) by (apply in_map_iff; exists (t', r'); auto).
    specialize (F1 t' It). split; [exact F1|]. rewrite E1, E2.
    apply Qmult_lt_compat_r; [apply Qinv_lt_0_compat; exact Iq|]. rewrite <- Zlt_Qlt.
    apply (excess_strict t t' m); [exact F1 | apply Lm; right; exact It | apply M].
  - reflexivity.
  - assert (Lst : exists pre r, rs = pre ++ [(m, r)]).
    { unfold rs, start. destruct (Z.eqb_spec m (b_lower b)) as [E|E]; cbn [negb].
      - rewrite app_nil_r. assert (Ef' := Ef). rewrite Hh in Ef' at 3. rewrite map_app in Ef'. cbn [map] in Ef'.
        destruct (map_eq_app _ _ _ _ Ef') as (e1 & e2 & -> & _ & E2).
        destruct e2 as [|[t r] [|]]; try discriminate. cbn in E2. injection E2 as ->. rewrite <- E.
        exists ((0, 1%Q) :: e1), r. reflexivity.
      - exists ((0, 1%Q) :: entries (total_sum h) h), 0%Q. reflexivity. }
    destruct Lst as (pre & r & E). exists pre, r. split; [exact E|].
    rewrite Forall_forall in Exact. specialize (Exact (m, r)). rewrite E in Exact.
    specialize (Exact ltac:(apply in_or_app; right; left; reflexivity)). cbn [fst snd] in Exact.
    rewrite Exact, (excess_max m xs M). change (inject_Z 0) with 0%Q. unfold Qdiv. ring.
Qed.

Theorem C33_empty : compute_ratio_dropped [] = Ok [].
Proof. reflexivity. Qed.

Example C33_example : exists h, frequency_histogram [1; 2; 2; 5] = Ok h /\
  compute_ratio_dropped h = Ok [(0, 1%Q); (1, 6 # 10); (2, 3 # 10); (5, 0 # 10)].
Proof. eexists. split; vm_compute; reflexivity. Qed.

(** ** C35: sum histograms *)

(** Every value between the ends falls into the bucket computed for it: one of
    [n] equal buckets, half-open except the last. *)
Theorem C35_bucket_contains_value : forall left right n x,
  (1 <= n)%Z -> (left <= x)%Q -> (x <= right)%Q ->
  exists g, make_generator left right n = Ok g /\
  exists i, 0 <= i < n /\
    (fst (lower_upper g x) == left + inject_Z i * ((right - left) / inject_Z n))%Q /\
    (snd (lower_upper g x) == left + inject_Z (i + 1) * ((right - left) / inject_Z n))%Q /\
    (fst (lower_upper g x) <= x <= snd (lower_upper g x))%Q /\
    ((x < snd (lower_upper g x)) \/ (snd (lower_upper g x) == right))%Q.
Proof.
  intros left right n x N L R. destruct (make_generator_ok left right n N) as [g G]; [lra|].
  exists g. split; [exact G|].
  destruct (bucket_of left right n g x N G L R) as (i & Hi & E1 & E2 & B1 & B2 & B3).
  exists i. repeat split; try assumption; apply Hi.
Qed.

(** The sum histogram of the data: which bins, and what they contain. *)
Theorem C35_sum_histogram : forall n vs, 1 <= n -> vs <> [] ->
  exists h, sum_histogram n vs = Ok (Some h) /\ sum_histogram_of n vs h /\
    total_count h = Z.of_nat (length vs) /\ (sumQ (map b_sum h) == sumQ vs)%Q.
Proof.
  intros n vs N Ne. destruct (sum_histogram_spec n vs N Ne) as (h & E & H).
  exists h. split; [exact E|]. split; [exact H|]. exact (sum_histogram_totals n vs h N H).
Qed.

(** The same data in any order give the same histogram. *)
Theorem C35_any_order : forall n xs ys, 1 <= n -> same_data xs ys ->
  same_sum_histogram (sum_histogram n xs) (sum_histogram n ys).
Proof. exact sum_histogram_same. Qed.

Example C35_example : exists h, sum_histogram 4 [1; 2; 5; 3; 2]%Q = Ok (Some h) /\
  map b_count h = [1; 2; 1; 1] /\ map (fun b => Qred (b_lower b)) h = [1; 2; 3; 4]%Q /\
  map (fun b => Qred (b_upper b)) h = [2; 3; 4; 5]%Q.
Proof. eexists. split; [vm_compute; reflexivity|]. vm_compute. auto. Qed.

Example C35_single_value : exists h, sum_histogram 4 [7; 7]%Q = Ok (Some h) /\
  map b_count h = [2] /\ map (fun b => Qred (b_lower b)) h = [7]%Q /\ map (fun b => Qred (b_upper b)) h = [7]%Q.
Proof. eexists. split; [vm_compute; reflexivity|]. vm_compute. auto. Qed.

(** ** C36: pre-aggregated data *)

(** The histograms computed from pre-aggregated data are those computed from
    the raw data. *)
Theorem C36_preaggregated_histograms :
  forall (P K : Type) (EP : EqDec P) (EK : EqDec K) n (rows : list ((P * K) * Q)), 1 <= n ->
  let raw := compute_dataset_histograms n rows in
  let pre := compute_preaggregated_histograms n (preaggregate (fun _ => true) rows) in
  h_l0 pre = h_l0 raw /\ h_l1 pre = h_l1 raw /\ h_linf pre = h_linf raw /\
  h_count_per_partition pre = h_count_per_partition raw /\
  h_privacy_id_per_partition pre = h_privacy_id_per_partition raw /\
  same_sum_histogram (h_linf_sum raw) (h_linf_sum pre) /\
  same_sum_histogram (h_sum_per_partition raw) (h_sum_per_partition pre).
Proof.
  intros P K EP EK n rows N raw pre. unfold raw, pre.
  split; [apply l0_equal|]. split; [apply l1_equal|]. split; [apply linf_equal|].
  split; [apply partition_count_equal|]. split; [apply pid_count_equal|].
  split; [apply linf_sum_equal; exact N | apply partition_sum_equal; exact N].
Qed.

(** What a row of the pre-aggregation contains, for each pair that occurs. *)
Theorem C36_preaggregated_rows :
  forall (P K : Type) (EP : EqDec P) (EK : EqDec K) (keep : K -> bool) (rows : list ((P * K) * Q)),
  let col := map fst rows in
  NoDup (map fst (analysis_rows keep rows)) /\
  (forall pr, In pr (map fst (analysis_rows keep rows)) <-> In pr col /\ keep (snd pr) = true) /\
  (forall pr a, In (pr, a) (analysis_rows keep rows) ->
     p_count a = Z.of_nat (occ pr col) /\ (p_sum a == sumQ (values_of pr rows))%Q /\
     p_partitions a = Z.of_nat (length (distinct (values_of (fst pr) col))) /\
     p_contributions a = Z.of_nat (occ (fst pr) (map fst col))).
Proof.
  intros P K EP EK keep rows col. rewrite analysis_rows_normal, map_map. cbn [fst]. rewrite map_id.
  split; [apply NoDup_filter', NoDup_pairs|]. split.
  - intros pr. rewrite filter_In. rewrite in_pairs. reflexivity.
  - intros pr a I. apply in_map_iff in I. destruct I as (pr' & E & _). injection E as -> <-.
    unfold pre_of. cbn [p_count p_sum p_partitions p_contributions].
    repeat split. apply sum_values_sum.
Qed.

(** With partition sampling the L0 histogram of the sampled rows is not that of
    the data: the weights 1 / n_partitions of a privacy id no longer add up to 1. *)
Theorem C36_sampled_partitions_refuted : exists (rows : list ((Z * Z) * Q)) (keep : Z -> bool),
  (forall pid, In pid (map (fun r => fst (fst r)) rows) ->
     exists pk, In (pid, pk) (map fst rows) /\ keep pk = true) /\
  h_l0 (compute_preaggregated_histograms 4 (preaggregate keep rows))
  <> h_l0 (compute_dataset_histograms 4 rows).
Proof.
  exists [((1, 10), 1%Q); ((1, 11), 1%Q); ((1, 12), 1%Q)], (fun k => k =? 10). split.
  - intros pid I. exists 10. cbn in I. intuition subst; left; reflexivity.
  - vm_compute. discriminate.
Qed.

Example C36_example :
  let pre := compute_preaggregated_histograms 4 (preaggregate (fun _ => true) example_rows) in
  h_l0 pre = Ok [mkBin 1 2 2 2 1 1; mkBin 2 3 1 2 2 2] /\
  exists h, h_linf_sum pre = Ok (Some h) /\ map b_count h = [1; 1; 2] /\
            map (fun b => Qred (b_sum b)) h = [-1; 3; 17 # 2]%Q.
Proof.
  cbn zeta. split; [vm_compute; reflexivity|]. eexists. split; [vm_compute; reflexivity|]. vm_compute. auto.
Qed.

Print Assumptions C29_bin_contains_value.
Print Assumptions C29_bins_partition.
Print Assumptions C29_bin_width.
Print Assumptions C30_candidate_bounds.
Print Assumptions C31_frequency_histogram.
Print Assumptions C31_histogram_unique.
Print Assumptions C31_totals.
Print Assumptions C31_any_order.
Print Assumptions C31_dataset_histograms.
Print Assumptions C32_quantiles.
Print Assumptions C32_quantiles_of_bins.
Print Assumptions C32_negative_quantile.
Print Assumptions C32_empty_histogram.
Print Assumptions C33_ratio_dropped.
Print Assumptions C33_empty.
Print Assumptions C35_bucket_contains_value.
Print Assumptions C35_sum_histogram.
Print Assumptions C35_any_order.
Print Assumptions C36_preaggregated_histograms.
Print Assumptions C36_preaggregated_rows.
Print Assumptions C36_sampled_partitions_refuted.
