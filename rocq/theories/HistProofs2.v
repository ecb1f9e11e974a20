(** Proofs about the assembly of count histograms. *)
From Coq Require Import List ZArith QArith Bool Sorted Permutation Lia.
From Verif Require Import Base BackendModel BackendSpec ListLemmas BackendProofs HistModel HistSpec HistProofs.
Import ListNotations.
Local Open Scope Z_scope.

(** ** Sorting *)

Lemma insert_by_Permutation {A} (le : A -> A -> bool) x l : Permutation (insert_by le x l) (x :: l).
Proof.
  induction l as [|y l IH]; cbn; [reflexivity|].
  destruct (le x y); [reflexivity|]. rewrite IH. apply perm_swap.
Qed.

Lemma sort_by_Permutation {A} (le : A -> A -> bool) l : Permutation (sort_by le l) l.
Proof.
  induction l as [|x l IH]; cbn; [reflexivity|].
  rewrite insert_by_Permutation. constructor. exact IH.
Qed.

Lemma insert_by_sorted {A} (le : A -> A -> bool) x l :
  (forall a b, le a b = true \/ le b a = true) ->
  (forall a b c, le a b = true -> le b c = true -> le a c = true) ->
  StronglySorted (fun a b => le a b = true) l ->
  StronglySorted (fun a b => le a b = true) (insert_by le x l).
Proof.
  intros Tot Tr. induction l as [|y l IH]; intros S; cbn.
  - constructor; constructor.
  - inversion S as [|? ? S' F]; subst.
    destruct (le x y) eqn:E.
    + constructor; [exact S|]. constructor; [exact E|].
      eapply Forall_impl; [|exact F]. intros a Ha. exact (Tr x y a E Ha).
    + constructor; [exact (IH S')|].
      apply Forall_forall. intros a Ha.
      apply (Permutation_in _ (insert_by_Permutation le x l)) in Ha.
      destruct Ha as [<- | Ha].
      * destruct (Tot x y) as [T | T]; [congruence | exact T].
      * exact (proj1 (Forall_forall _ _) F a Ha).
Qed.

Lemma sort_by_sorted {A} (le : A -> A -> bool) l :
  (forall a b, le a b = true \/ le b a = true) ->
  (forall a b c, le a b = true -> le b c = true -> le a c = true) ->
  StronglySorted (fun a b => le a b = true) (sort_by le l).
Proof.
  intros Tot Tr. induction l as [|x l IH]; cbn; [constructor|].
  apply insert_by_sorted; assumption.
Qed.

(** Two strictly sorted lists with the same elements are equal. *)
Lemma strictly_sorted_unique {A} (R : A -> A -> Prop) (l : list A) : forall l',
  (forall a, In a l -> ~ R a a) -> (forall a b, In a l -> In b l -> R a b -> ~ R b a) ->
  StronglySorted R l -> StronglySorted R l' -> (forall x, In x l <-> In x l') -> l = l'.
Proof.
  induction l as [|a l IH]; intros l' Irr As S S' E.
  - destruct l' as [|b l']; [reflexivity|]. destruct (proj2 (E b)); left; reflexivity.
  - destruct l' as [|b l']; [destruct (proj1 (E a)); left; reflexivity|].
    inversion S as [|? ? S1 F1]; subst. inversion S' as [|? ? S2 F2]; subst.
    rewrite Forall_forall in F1, F2.
    assert (a = b) as <-.
    { destruct (proj1 (E a)) as [H | H]; [left; reflexivity | congruence |].
      destruct (proj2 (E b)) as [H' | H']; [left; reflexivity | congruence |].
      exfalso. apply (As a b); [left; reflexivity | right; exact H' | exact (F1 b H') | exact (F2 a H)]. }
    f_equal. apply IH; auto.
    + intros c Hc. apply Irr. right. exact Hc.
    + intros c d Hc Hd. apply As; right; assumption.
    + intros x. split; intros Hx.
      * destruct (proj1 (E x)) as [<- | H]; [right; exact Hx | | exact H].
        exfalso. apply (Irr a); [left; reflexivity|]. exact (F1 a Hx).
      * destruct (proj2 (E x)) as [<- | H]; [right; exact Hx | | exact H].
        exfalso. apply (Irr a); [left; reflexivity|]. exact (F2 a Hx).
Qed.

(** ** Sums of integers *)

Lemma sumZ_app a b : sumZ (a ++ b) = sumZ a + sumZ b.
Proof. induction a as [|x a IH]; cbn; [reflexivity|]. unfold sumZ in *. rewrite IH. lia. Qed.

Lemma sumZ_Permutation a b : Permutation a b -> sumZ a = sumZ b.
Proof. unfold sumZ. induction 1; cbn; lia. Qed.

Lemma sumZ_repeat v n : sumZ (repeat v n) = Z.of_nat n * v.
Proof. induction n as [|n IH]; [reflexivity|]. cbn [repeat]. unfold sumZ in *. cbn [fold_right]. lia. Qed.

Lemma sumZ_cons x l : sumZ (x :: l) = x + sumZ l.
Proof. reflexivity. Qed.

(** ** One bin *)

(** [r] is a bin with these ends describing exactly the data [xs]. *)
Definition holds (lo up : Z) (xs : list Z) (r : result (bin Z)) : Prop :=
  exists b, r = Ok b /\ b_lower b = lo /\ b_upper b = up /\
    b_count b = Z.of_nat (length xs) /\ b_sum b = sumZ xs /\
    maximum (b_max b) xs /\ minimum (b_min b) xs.

Lemma maximum_app m m' xs ys : maximum m xs -> maximum m' ys -> maximum (Z.max m m') (xs ++ ys).
Proof.
  intros [I F] [I' F']. split.
  - apply in_or_app. destruct (Z.max_spec m m') as [[_ ->] | [_ ->]]; auto.
  - apply Forall_app. split; eapply Forall_impl; try eassumption; cbn; intros; lia.
Qed.

Lemma minimum_app m m' xs ys : minimum m xs -> minimum m' ys -> minimum (Z.min m m') (xs ++ ys).
Proof.
  intros [I F] [I' F']. split.
  - apply in_or_app. destruct (Z.min_spec m m') as [[_ ->] | [_ ->]]; auto.
  - apply Forall_app. split; eapply Forall_impl; try eassumption; cbn; intros; lia.
Qed.

Lemma maximum_Permutation m xs ys : Permutation xs ys -> maximum m xs -> maximum m ys.
Proof.
  intros P [I F]. split; [exact (Permutation_in _ P I) | exact (Permutation_Forall P F)].
Qed.

Lemma minimum_Permutation m xs ys : Permutation xs ys -> minimum m xs -> minimum m ys.
Proof.
  intros P [I F]. split; [exact (Permutation_in _ P I) | exact (Permutation_Forall P F)].
Qed.

Lemma holds_Permutation lo up xs ys r : Permutation xs ys -> holds lo up xs r -> holds lo up ys r.
Proof.
  intros P (b & E & L & U & C & S & Mx & Mn). exists b.
  rewrite <- (Permutation_length P), <- (sumZ_Permutation _ _ P).
  repeat split; try assumption; first [apply (maximum_Permutation _ _ _ P Mx) | apply (minimum_Permutation _ _ _ P Mn)].
Qed.

Lemma holds_add lo up xs ys ra rb :
  holds lo up xs ra -> holds lo up ys rb -> holds lo up (xs ++ ys) (bin_add ra rb).
Proof.
  intros (a & -> & L & U & C & S & Mx & Mn) (b & -> & L' & U' & C' & S' & Mx' & Mn').
  unfold bin_add, rbind. rewrite L, U, L', U', !Z.eqb_refl. cbn [negb].
  eexists. split; [reflexivity|]. cbn [b_lower b_upper b_count b_sum b_max b_min].
  split; [reflexivity|]. split; [reflexivity|]. rewrite app_length, sumZ_app, C, C', S, S'.
  split; [lia|]. split; [reflexivity|]. split; [apply maximum_app | apply minimum_app]; assumption.
Qed.

(** The data represented by pairs (value, frequency). *)
Definition expand (counts : list (Z * Z)) : list Z :=
  flat_map (fun vf => repeat (fst vf) (Z.to_nat (snd vf))) counts.

Lemma expand_app a b : expand (a ++ b) = expand a ++ expand b.
Proof. apply flat_map_app. Qed.

Lemma holds_one v f lo up : 1 <= f -> log_bin v = (lo, up) ->
  holds lo up (expand [(v, f)]) (snd (to_frequency_bin (v, f))).
Proof.
  intros Hf E. unfold to_frequency_bin. rewrite E. cbn [snd].
  eexists. split; [reflexivity|]. cbn [b_lower b_upper b_count b_sum b_max b_min].
  unfold expand. cbn [flat_map fst snd]. rewrite app_nil_r, repeat_length, sumZ_repeat, Z2Nat.id by lia.
  repeat (split; [reflexivity|]).
  assert (In v (repeat v (Z.to_nat f))).
  { destruct (Z.to_nat f) eqn:E'; [lia|]. left. reflexivity. }
  assert (forall x, In x (repeat v (Z.to_nat f)) -> x = v) by (intros x; apply repeat_spec).
  split; (split; [assumption | apply Forall_forall; intros x Hx; rewrite (H0 x Hx); lia]).
Qed.

(** All pairs of [counts] belong to the bin. *)
Definition all_in_bin (lo up : Z) (counts : list (Z * Z)) : Prop :=
  forall v f, In (v, f) counts -> 1 <= f /\ log_bin v = (lo, up).

Lemma all_in_bin_app lo up a b :
  all_in_bin lo up (a ++ b) -> all_in_bin lo up a /\ all_in_bin lo up b.
Proof.
  intros H. split; intros v f I; apply H; apply in_or_app; auto.
Qed.

Lemma holds_tree lo up (t : tree (result (bin Z))) : forall counts,
  all_in_bin lo up counts ->
  leaves t = map (fun vf => snd (to_frequency_bin vf)) counts ->
  holds lo up (expand counts) (reduce_tree bin_add t).
Proof.
  induction t as [r | l IHl r IHr]; intros counts A E; cbn [leaves reduce_tree] in *.
  - destruct counts as [|[v f] [|]]; try discriminate. cbn [map] in E.
    injection E as ->. destruct (A v f ltac:(left; reflexivity)) as [Hf Eb].
    apply holds_one; assumption.
  - destruct (map_eq_app _ _ _ _ (eq_sym E)) as (c1 & c2 & -> & E1 & E2).
    destruct (all_in_bin_app _ _ _ _ A) as [A1 A2].
    rewrite expand_app. apply holds_add; auto.
Qed.

Lemma holds_fold lo up counts : forall r xs,
  all_in_bin lo up counts -> holds lo up xs r ->
  holds lo up (xs ++ expand counts)
    (fold_left bin_add (map (fun vf => snd (to_frequency_bin vf)) counts) r).
Proof.
  induction counts as [|[v f] counts IH]; intros r xs A H; cbn [map fold_left].
  - cbn [expand flat_map]. rewrite app_nil_r. exact H.
  - change ((v, f) :: counts) with ([(v, f)] ++ counts) in A |- *.
    destruct (all_in_bin_app _ _ _ _ A) as [A1 A2].
    rewrite expand_app, app_assoc. apply IH; [exact A2|].
    apply holds_add; [exact H|]. destruct (A1 v f ltac:(left; reflexivity)).
    apply holds_one; assumption.
Qed.

(** ** The whole histogram *)

Lemma sequence_map_ok {A B} (f : A -> B) (l : list A) : sequence (map (fun x => Ok (f x)) l) = Ok (map f l).
Proof. induction l as [|x l IH]; cbn; [reflexivity|]. rewrite IH. reflexivity. Qed.

Lemma sequence_Ok {A} (l : list (result A)) (P : A -> Prop) :
  (forall r, In r l -> exists a, r = Ok a /\ P a) ->
  exists xs, l = map Ok xs /\ sequence l = Ok xs /\ Forall P xs.
Proof.
  induction l as [|r l IH]; intros H.
  - exists []. repeat split; constructor.
  - destruct (H r (or_introl eq_refl)) as (a & -> & Pa).
    destruct IH as (xs & -> & E & F); [intros r Hr; apply H; right; exact Hr|].
    exists (a :: xs). cbn [map sequence rbind]. rewrite E. repeat split. constructor; assumption.
Qed.

Lemma lower_leb_total a b : lower_leb a b = true \/ lower_leb b a = true.
Proof. unfold lower_leb. rewrite !Z.leb_le. lia. Qed.
Lemma lower_leb_trans a b c : lower_leb a b = true -> lower_leb b c = true -> lower_leb a c = true.
Proof. unfold lower_leb. rewrite !Z.leb_le. lia. Qed.

Lemma within_In lo up xs x : In x (within lo up xs) <-> In x xs /\ lo <= x < up.
Proof. unfold within. rewrite filter_In, andb_true_iff, Z.leb_le, Z.ltb_lt. reflexivity. Qed.

Lemma within_expand lo up counts : leading_bin lo up ->
  (forall v f, In (v, f) counts -> 1 <= v) ->
  expand (filter (fun vf => eqb (fst (log_bin (fst vf))) lo) counts) = within lo up (expand counts).
Proof.
  intros B. induction counts as [|[v f] counts IH]; intros H; [reflexivity|].
  unfold within in *. cbn [filter fst]. change (expand ((v, f) :: counts)) with (repeat v (Z.to_nat f) ++ expand counts).
  rewrite filter_app. rewrite <- IH by (intros v' f' I; exact (H v' f' (or_intror I))).
  pose proof (H v f (or_introl eq_refl)) as Hv.
  destruct (log_bin_contains v Hv) as [Bv Rv].
  destruct (eqb (fst (log_bin v)) lo) eqn:E.
  - apply ListLemmas.eqb_eq in E.
    change (expand ((v, f) :: filter (fun vf => eqb (fst (log_bin (fst vf))) lo) counts))
      with (repeat v (Z.to_nat f) ++ expand (filter (fun vf => eqb (fst (log_bin (fst vf))) lo) counts)).
    f_equal. symmetry. apply filter_all. intros x Hx. apply repeat_spec in Hx. subst x.
    pose proof (leading_bin_pos _ _ Bv). pose proof (leading_bin_pos _ _ B).
    destruct (leading_bin_unique _ _ _ _ (fst (log_bin v)) Bv B ltac:(lia) ltac:(lia)) as [E1 E2].
    rewrite andb_true_iff, Z.leb_le, Z.ltb_lt. lia.
  - apply eqb_neq in E. rewrite (filter_none _ (repeat v (Z.to_nat f))); [reflexivity|].
    intros x Hx. apply repeat_spec in Hx. subst x.
    rewrite andb_false_iff, Z.leb_gt, Z.ltb_ge.
    destruct (Z.lt_ge_cases v lo); [left; assumption|].
    destruct (Z.lt_ge_cases v up); [|right; lia].
    destruct (leading_bin_unique _ _ _ _ v Bv B ltac:(lia) ltac:(lia)). congruence.
Qed.

(** A keyed collection of finished bins becomes the histogram. *)
Lemma cells_histogram xs (cells : list (Z * result (bin Z))) :
  NoDup (map fst cells) ->
  (forall lo r, In (lo, r) cells -> exists up, leading_bin lo up /\ holds lo up (within lo up xs) r) ->
  (forall x, In x xs -> exists lo up, In lo (map fst cells) /\ leading_bin lo up /\ lo <= x < up) ->
  exists h, bins_to_histogram cells = Ok h /\ histogram_of xs h.
Proof.
  intros N H Cov. unfold bins_to_histogram.
  destruct (sequence_Ok (map snd cells) (describes xs)) as (bs & Em & E & F).
  { intros r Hr. apply in_map_iff in Hr. destruct Hr as ([lo r'] & <- & I).
    destruct (H lo r' I) as (up & B & (b & -> & L & U & C & S & Mx & Mn)).
    exists b. split; [reflexivity|]. unfold describes. rewrite L, U. auto. }
  rewrite E. cbn [rmap]. exists (sort_by lower_leb bs). split; [reflexivity|].
  assert (Eb : map fst cells = map b_lower bs).
  { clear E F Cov N. revert bs Em H. induction cells as [|[lo r] cells IH]; intros bs Em H.
    - destruct bs; [reflexivity | discriminate].
    - destruct bs as [|b bs]; [discriminate|]. cbn [map fst] in *. injection Em as Er Em. f_equal.
      + destruct (H lo r (or_introl eq_refl)) as (up & _ & (b' & Eb' & L & _)).
        cbn [snd] in Er. congruence.
      + apply IH; [exact Em|]. intros lo' r' I. apply H. right. exact I. }
  pose proof (sort_by_Permutation lower_leb bs) as P.
  assert (Fs : Forall (describes xs) (sort_by lower_leb bs)) by (apply (Permutation_Forall (Permutation_sym P) F)).
  split; [|split; [exact Fs|]].
  - assert (N' : NoDup (map b_lower (sort_by lower_leb bs))).
    { apply (Permutation_NoDup (Permutation_sym (Permutation_map b_lower P))). rewrite <- Eb. exact N. }
    pose proof (sort_by_sorted lower_leb bs lower_leb_total lower_leb_trans) as S.
    clear P. revert Fs N' S. generalize (sort_by lower_leb bs) as sl. intros sl Fs N' S.
    induction S as [|a l S IH Fa]; constructor.
    + apply IH; [inversion Fs; assumption | inversion N'; assumption].
    + apply Forall_forall. intros b Hb.
      pose proof (proj1 (Forall_forall _ _) Fa b Hb) as Lab. unfold lower_leb in Lab. rewrite Z.leb_le in Lab.
      inversion Fs as [|? ? [Ba _] Fl]; subst.
      destruct (proj1 (Forall_forall _ _) Fl b Hb) as [Bb _].
      inversion N' as [|? ? Na _]; subst.
      destruct (Z.le_gt_cases (b_upper a) (b_lower b)) as [?|G]; [assumption|]. exfalso.
      pose proof (leading_bin_pos _ _ Bb).
      destruct (leading_bin_unique _ _ _ _ (b_lower b) Ba Bb ltac:(lia) ltac:(lia)) as [E1 _].
      apply Na. rewrite E1. apply in_map. exact Hb.
  - intros x Hx. destruct (Cov x Hx) as (lo & up & I & B & R).
    rewrite Eb in I. apply in_map_iff in I. destruct I as (b & Eb' & Ib).
    exists b. split; [apply (Permutation_in _ (Permutation_sym P) Ib)|].
    destruct (proj1 (Forall_forall _ _) F b Ib) as [Bb _]. rewrite Eb' in *.
    pose proof (leading_bin_pos _ _ B). pose proof (leading_bin_pos _ _ Bb).
    destruct (leading_bin_unique _ _ _ _ lo B Bb ltac:(lia) ltac:(lia)). lia.
Qed.

(** Which pairs (value, frequency) are meaningful. *)
Definition proper (counts : list (Z * Z)) : Prop := forall v f, In (v, f) counts -> 1 <= v /\ 1 <= f.

Lemma values_of_bins lo counts :
  values_of lo (map to_frequency_bin counts)
  = map (fun vf => snd (to_frequency_bin vf))
        (filter (fun vf => eqb (fst (log_bin (fst vf))) lo) counts).
Proof.
  unfold values_of. rewrite filter_map, map_map. f_equal.
  apply filter_ext_In. intros [v f] _. unfold to_frequency_bin. cbn [fst].
  destruct (log_bin v). reflexivity.
Qed.

Lemma fst_bins counts : map fst (map to_frequency_bin counts) = map (fun vf => fst (log_bin (fst vf))) counts.
Proof.
  rewrite map_map. apply map_ext. intros [v f]. unfold to_frequency_bin. cbn [fst].
  destruct (log_bin v). reflexivity.
Qed.

Lemma expand_In counts x : In x (expand counts) -> exists f, In (x, f) counts.
Proof.
  unfold expand. rewrite in_flat_map. intros ([v f] & I & Hx). apply repeat_spec in Hx. cbn in Hx.
  subst. eauto.
Qed.

Lemma key_bin counts lo : proper counts -> In lo (map (fun vf => fst (log_bin (fst vf))) counts) ->
  exists up, leading_bin lo up /\
    all_in_bin lo up (filter (fun vf => eqb (fst (log_bin (fst vf))) lo) counts) /\
    expand (filter (fun vf => eqb (fst (log_bin (fst vf))) lo) counts) = within lo up (expand counts).
Proof.
  intros Pr I. apply in_map_iff in I. destruct I as ([v f] & E & I). cbn [fst] in E. subst lo.
  destruct (Pr v f I) as [Hv Hf]. destruct (log_bin_contains v Hv) as [B R].
  exists (snd (log_bin v)). split; [exact B|]. split.
  - intros v' f' I'. apply filter_In in I'. destruct I' as [I' E]. apply ListLemmas.eqb_eq in E. cbn [fst] in E.
    destruct (Pr v' f' I') as [Hv' Hf']. split; [exact Hf'|].
    destruct (log_bin_contains v' Hv') as [B' R']. rewrite E in *.
    pose proof (leading_bin_pos _ _ B). pose proof (leading_bin_pos _ _ B').
    destruct (leading_bin_unique _ _ _ _ (fst (log_bin v)) B' B ltac:(lia) ltac:(lia)) as [_ E2].
    destruct (log_bin v') as [a b], (log_bin v) as [c d]. cbn in *. congruence.
  - apply within_expand; [exact B|]. intros v' f' I'. apply (Pr v' f' I').
Qed.

Lemma cover_keys counts x : proper counts -> In x (expand counts) ->
  exists lo up, In lo (map (fun vf => fst (log_bin (fst vf))) counts) /\ leading_bin lo up /\ lo <= x < up.
Proof.
  intros Pr Hx. apply expand_In in Hx. destruct Hx as [f I]. destruct (Pr x f I) as [Hx _].
  destruct (log_bin_contains x Hx) as [B R]. exists (fst (log_bin x)), (snd (log_bin x)).
  split; [|auto]. apply in_map_iff. exists (x, f). auto.
Qed.

Lemma plan_histogram counts plan : proper counts ->
  reduce_plan (map to_frequency_bin counts) plan ->
  exists h, histogram_by_plan plan = Ok h /\ histogram_of (expand counts) h.
Proof.
  intros Pr (N & K & Lv). unfold histogram_by_plan.
  assert (Ek : map fst (spark_by_key (reduce_tree bin_add) plan) = map fst plan).
  { unfold spark_by_key. rewrite map_map. reflexivity. }
  apply cells_histogram.
  - rewrite Ek. exact N.
  - intros lo r I. unfold spark_by_key in I. apply in_map_iff in I. destruct I as ([lo' t] & E & I).
    cbn [fst snd] in E. injection E as -> <-.
    assert (In lo (map fst plan)) as Ip by (apply in_map_iff; exists (lo, t); auto).
    apply K in Ip. rewrite fst_bins in Ip.
    destruct (key_bin counts lo Pr Ip) as (up & B & A & W). exists up. split; [exact B|].
    pose proof (Lv lo t I) as P. rewrite values_of_bins in P.
    destruct (Permutation_map_inv _ _ P) as (cs & El & Pc).
    rewrite <- W. apply (holds_Permutation lo up (expand cs)).
    + apply flat_map_Permutation. apply Permutation_sym. exact Pc.
    + apply holds_tree; [|exact El]. intros v f If. apply A. apply (Permutation_in _ (Permutation_sym Pc) If).
  - intros x Hx. destruct (cover_keys counts x Pr Hx) as (lo & up & I & B & R).
    exists lo, up. split; [|auto]. rewrite Ek. apply K. rewrite fst_bins. exact I.
Qed.

Lemma frequencies_histogram counts : proper counts ->
  exists h, histogram_of_frequencies counts = Ok h /\ histogram_of (expand counts) h.
Proof.
  intros Pr. unfold histogram_of_frequencies. apply cells_histogram.
  - rewrite combine_per_key_keys. apply NoDup_distinct.
  - intros lo r I. apply in_combine_per_key in I. rewrite values_of_bins in I.
    destruct (map (fun vf => snd (to_frequency_bin vf))
                  (filter (fun vf => eqb (fst (log_bin (fst vf))) lo) counts)) as [|a rest] eqn:Ev;
      [discriminate|].
    cbn [fold1] in I. injection I as <-.
    assert (In lo (map (fun vf => fst (log_bin (fst vf))) counts)) as Ip.
    { destruct (filter (fun vf => eqb (fst (log_bin (fst vf))) lo) counts) as [|vf l] eqn:E; [discriminate|].
      assert (In vf (vf :: l)) as I by (left; reflexivity). rewrite <- E in I. apply filter_In in I.
      destruct I as [I E']. apply ListLemmas.eqb_eq in E'. apply in_map_iff. exists vf. auto. }
    destruct (key_bin counts lo Pr Ip) as (up & B & A & W). exists up. split; [exact B|].
    rewrite <- W. destruct (filter (fun vf => eqb (fst (log_bin (fst vf))) lo) counts) as [|vf l]; [discriminate|].
    cbn [map] in Ev. injection Ev as <- <-.
    change (vf :: l) with ([vf] ++ l) in A |- *. destruct (all_in_bin_app _ _ _ _ A) as [A1 A2].
    rewrite expand_app. apply holds_fold; [exact A2|].
    destruct vf as [v f]. destruct (A1 v f ltac:(left; reflexivity)). apply holds_one; assumption.
  - intros x Hx. destruct (cover_keys counts x Pr Hx) as (lo & up & I & B & R).
    exists lo, up. split; [|auto]. rewrite combine_per_key_keys. apply in_distinct. rewrite fst_bins. exact I.
Qed.

(** ** Uniqueness *)

Lemma maximum_unique m m' xs : maximum m xs -> maximum m' xs -> m = m'.
Proof.
  intros [I F] [I' F']. rewrite Forall_forall in F, F'. specialize (F m' I'). specialize (F' m I). lia.
Qed.
Lemma minimum_unique m m' xs : minimum m xs -> minimum m' xs -> m = m'.
Proof.
  intros [I F] [I' F']. rewrite Forall_forall in F, F'. specialize (F m' I'). specialize (F' m I). lia.
Qed.

Lemma describes_In xs h b : histogram_of xs h -> In b h <-> describes xs b.
Proof.
  intros (_ & F & Cov). rewrite Forall_forall in F. split; [exact (F b)|].
  intros (B & C & S & Mx & Mn).
  destruct (within_In (b_lower b) (b_upper b) xs (b_max b)) as [W _].
  destruct (W (proj1 Mx)) as [Ix Rx].
  destruct (Cov _ Ix) as (b' & I' & R'). destruct (F b' I') as (B' & C' & S' & Mx' & Mn').
  destruct (leading_bin_unique _ _ _ _ _ B B' Rx R') as [E1 E2].
  rewrite <- E1, <- E2 in *.
  pose proof (maximum_unique _ _ _ Mx Mx'). pose proof (minimum_unique _ _ _ Mn Mn').
  replace b with b'; [exact I'|]. destruct b, b'. cbn in *. congruence.
Qed.

Lemma histogram_unique xs h h' : histogram_of xs h -> histogram_of xs h' -> h = h'.
Proof.
  intros H H'. apply (strictly_sorted_unique (fun a b => b_upper a <= b_lower b)).
  - intros a Ia L. destruct (proj1 (describes_In xs h a H) Ia) as [B _].
    pose proof (leading_bin_pos _ _ B). lia.
  - intros a b Ia Ib L L'. destruct (proj1 (describes_In xs h a H) Ia) as [B _].
    destruct (proj1 (describes_In xs h b H) Ib) as [B' _].
    pose proof (leading_bin_pos _ _ B). pose proof (leading_bin_pos _ _ B'). lia.
  - apply H.
  - apply H'.
  - intros b. rewrite (describes_In xs h b H), (describes_In xs h' b H'). reflexivity.
Qed.

Lemma within_Permutation lo up xs ys : Permutation xs ys -> Permutation (within lo up xs) (within lo up ys).
Proof. apply filter_Permutation. Qed.

Lemma describes_Permutation xs ys b : Permutation xs ys -> describes xs b -> describes ys b.
Proof.
  intros P (B & C & S & Mx & Mn). pose proof (within_Permutation (b_lower b) (b_upper b) _ _ P) as W.
  split; [exact B|]. cbn zeta.
  rewrite <- (Permutation_length W), <- (sumZ_Permutation _ _ W).
  split; [exact C|]. split; [exact S|].
  split; [exact (maximum_Permutation _ _ _ W Mx) | exact (minimum_Permutation _ _ _ W Mn)].
Qed.

Lemma histogram_Permutation xs ys h : Permutation xs ys -> histogram_of xs h -> histogram_of ys h.
Proof.
  intros P (S & F & Cov). split; [exact S|]. split.
  - eapply Forall_impl; [|exact F]. intros b. apply describes_Permutation. exact P.
  - intros x Hx. apply Cov. apply (Permutation_in _ (Permutation_sym P) Hx).
Qed.

(** ** Frequencies *)

Lemma expand_Permutation a b : Permutation a b -> Permutation (expand a) (expand b).
Proof. apply flat_map_Permutation. Qed.

Lemma repeat_eq_filter {A} `{EqDec A} (x : A) l : repeat x (occ x l) = filter (fun y => eqb y x) l.
Proof.
  induction l as [|y l IH]; [reflexivity|]. cbn [occ filter]. unfold eqb at 1.
  destruct (eq_dec x y) as [->|N]; destruct (eq_dec y y) as [?|?]; try congruence.
  - cbn. rewrite IH. destruct (eq_dec y y); congruence.
  - destruct (eq_dec y x); [congruence|]. cbn. exact IH.
Qed.

Lemma ungroup_distinct {A} `{EqDec A} (ks : list A) : forall l,
  NoDup ks -> (forall x, In x l -> In x ks) ->
  Permutation (flat_map (fun x => filter (fun y => eqb y x) l) ks) l.
Proof.
  induction ks as [|k ks IH]; intros l N C.
  - destruct l as [|x l]; [reflexivity|]. destruct (C x (or_introl eq_refl)).
  - inversion N as [|? ? Nk N']; subst. cbn [flat_map].
    rewrite (flat_map_ext_In _ (fun x => filter (fun y => eqb y x) (filter (fun y => negb (eqb y k)) l))).
    + rewrite IH; [apply Permutation_sym, filter_split_Permutation | exact N' |].
      intros x Hx. apply filter_In in Hx. destruct Hx as [Hx E].
      destruct (C x Hx) as [<- | ?]; [|assumption]. rewrite eqb_refl in E. discriminate.
    + intros x Hx. rewrite filter_filter. apply filter_ext_In. intros y _.
      destruct (eqb y x) eqn:E; [|rewrite ?andb_false_r; reflexivity].
      apply ListLemmas.eqb_eq in E. subst y.
      destruct (eqb x k) eqn:E; [|reflexivity]. apply ListLemmas.eqb_eq in E. subst. contradiction.
Qed.

Lemma expand_counts xs : Permutation (expand (count_per_element xs)) xs.
Proof.
  rewrite count_per_element_normal. unfold expand. rewrite flat_map_map. cbn [fst snd].
  rewrite (flat_map_ext_In _ (fun x => filter (fun y => eqb y x) xs)).
  - apply ungroup_distinct; [apply NoDup_distinct|]. intros x Hx. apply in_distinct. exact Hx.
  - intros x _. rewrite Nat2Z.id. apply repeat_eq_filter.
Qed.

Lemma occ_pos {A} `{EqDec A} (x : A) l : In x l -> (1 <= occ x l)%nat.
Proof.
  induction l as [|y l IH]; intros []; cbn.
  - subst. destruct (eq_dec x x); [lia | congruence].
  - specialize (IH H0). lia.
Qed.

Lemma counts_proper xs : Forall (fun x => 1 <= x) xs -> proper (count_per_element xs).
Proof.
  intros F v f I. rewrite count_per_element_normal in I. apply in_map_iff in I.
  destruct I as (x & E & I). injection E as <- <-. apply (proj1 (in_distinct _ _)) in I.
  rewrite Forall_forall in F. split; [exact (F x I)|]. pose proof (occ_pos x xs I). lia.
Qed.

Lemma frequency_histogram_spec xs : Forall (fun x => 1 <= x) xs ->
  exists h, frequency_histogram xs = Ok h /\ histogram_of xs h.
Proof.
  intros F. destruct (frequencies_histogram _ (counts_proper xs F)) as (h & E & H).
  exists h. split; [exact E|]. apply (histogram_Permutation _ _ _ (expand_counts xs) H).
Qed.

(** ** Totals *)

Lemma sum_over_bins {B} (g : B -> Z) (h : list B) (lo up : B -> Z) (f : list Z -> Z) (xs : list Z) :
  f [] = 0 -> (forall a b, f (a ++ b) = f a + f b) ->
  (forall a b, Permutation a b -> f a = f b) ->
  StronglySorted (fun a b => up a <= lo b) h ->
  Forall (fun b => lo b < up b /\ g b = f (within (lo b) (up b) xs)) h ->
  (forall x, In x xs -> exists b, In b h /\ lo b <= x < up b) ->
  sumZ (map g h) = f xs.
Proof.
  intros f0 fa fp S F Cov. revert xs F Cov. induction S as [|b h S IH Fb]; intros xs F Cov.
  - destruct xs as [|x xs]; [exact (eq_sym f0)|]. destruct (Cov x (or_introl eq_refl)) as (b & [] & _).
  - inversion F as [|? ? [L E] Fl]; subst. cbn [map]. rewrite sumZ_cons.
    rewrite (fp xs _ (filter_split_Permutation (fun x => (lo b <=? x) && (x <? up b)) xs)), fa.
    rewrite E. f_equal.
    apply IH.
    + apply Forall_forall. intros b' Ib'. rewrite Forall_forall in Fl, Fb.
      destruct (Fl b' Ib') as [L' E']. specialize (Fb b' Ib'). split; [exact L'|]. rewrite E'. f_equal.
      unfold within. rewrite filter_filter. apply filter_ext_In. intros x _.
      destruct ((lo b' <=? x) && (x <? up b')) eqn:C; [|rewrite ?andb_false_r; reflexivity].
      apply andb_true_iff in C. rewrite Z.leb_le, Z.ltb_lt in C.
      rewrite ?andb_true_r. symmetry. apply negb_true_iff. apply andb_false_iff.
      rewrite Z.leb_gt, Z.ltb_ge. lia.
    + intros x Hx. apply filter_In in Hx. destruct Hx as [Hx Nx].
      destruct (Cov x Hx) as (b' & [<- | Ib'] & R); [|eauto].
      apply negb_true_iff, andb_false_iff in Nx. rewrite Z.leb_gt, Z.ltb_ge in Nx. lia.
Qed.

Lemma histogram_total_count xs h : histogram_of xs h -> total_count h = Z.of_nat (length xs).
Proof.
  intros (S & F & Cov). unfold total_count.
  apply (sum_over_bins b_count h b_lower b_upper (fun l => Z.of_nat (length l)) xs); auto.
  - intros. rewrite app_length. lia.
  - intros a b P. rewrite (Permutation_length P). reflexivity.
  - eapply Forall_impl; [|exact F]. intros b (B & C & _). pose proof (leading_bin_pos _ _ B). split; [lia | exact C].
Qed.

Lemma histogram_total_sum xs h : histogram_of xs h -> total_sum h = sumZ xs.
Proof.
  intros (S & F & Cov). unfold total_sum.
  apply (sum_over_bins b_sum h b_lower b_upper sumZ xs); auto using sumZ_app, sumZ_Permutation.
  eapply Forall_impl; [|exact F]. intros b (B & _ & C & _). pose proof (leading_bin_pos _ _ B). split; [lia | exact C].
Qed.

Lemma sorted_snoc {A} (R : A -> A -> Prop) l a : StronglySorted R (l ++ [a]) ->
  StronglySorted R l /\ Forall (fun x => R x a) l.
Proof.
  induction l as [|x l IH]; intros S; [split; constructor|].
  inversion S as [|? ? S' F]; subst. destruct (IH S') as [S1 F1].
  apply Forall_app in F. destruct F as [F Fa]. inversion Fa; subst.
  split; constructor; assumption.
Qed.

Lemma histogram_max xs h : histogram_of xs h -> xs <> [] ->
  exists m, max_value h = Ok m /\ maximum m xs.
Proof.
  intros (S & F & Cov) N. unfold max_value.
  destruct (rev h) as [|b l] eqn:E.
  - assert (h = []) as -> by (rewrite <- (rev_involutive h), E; reflexivity).
    destruct xs as [|x xs]; [congruence|]. destruct (Cov x (or_introl eq_refl)) as (b & [] & _).
  - exists (b_max b). split; [reflexivity|].
    assert (h = rev l ++ [b]) as -> by (rewrite <- (rev_involutive h), E; reflexivity).
    apply Forall_app in F. destruct F as [F Fb]. inversion Fb as [|? ? (B & C & _ & Mx & _) _]; subst.
    destruct (sorted_snoc _ _ _ S) as [S1 F1].
    destruct (proj1 (within_In _ _ _ _) (proj1 Mx)) as [Ix Rx].
    split; [exact Ix|]. apply Forall_forall. intros x Hx.
    destruct (Cov x Hx) as (b' & Ib' & R). apply in_app_or in Ib'. destruct Ib' as [Ib' | [<- | []]].
    + rewrite Forall_forall in F1. specialize (F1 b' Ib'). cbn in F1. lia.
    + destruct Mx as [_ Fm]. rewrite Forall_forall in Fm. apply Fm. apply within_In. auto.
Qed.
