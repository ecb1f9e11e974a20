(** Lemmas on lists, sub-multisets, membership tests and [distinct]. *)
From Coq Require Import List ZArith Bool Permutation PeanoNat Lia.
From Verif Require Import Base BackendModel.
Import ListNotations.

(** ** Decidable equality *)
Lemma eqb_true_iff {A} `{EqDec A} (x y : A) : eqb x y = true <-> x = y.
Proof. unfold eqb. destruct (eq_dec x y); split; intro E; congruence. Qed.

Lemma eqb_false_iff {A} `{EqDec A} (x y : A) : eqb x y = false <-> x <> y.
Proof. unfold eqb. destruct (eq_dec x y); split; intro E; congruence. Qed.

Lemma eqb_eq {A} `{EqDec A} (x y : A) : eqb x y = true -> x = y.
Proof. apply eqb_true_iff. Qed.

Lemma eqb_neq {A} `{EqDec A} (x y : A) : eqb x y = false -> x <> y.
Proof. apply eqb_false_iff. Qed.

Lemma eqb_refl {A} `{EqDec A} (x : A) : eqb x x = true.
Proof. apply eqb_true_iff. reflexivity. Qed.

Lemma eqb_sym {A} `{EqDec A} (x y : A) : eqb x y = eqb y x.
Proof. unfold eqb. destruct (eq_dec x y), (eq_dec y x); congruence. Qed.

Lemma mem_true_iff {A} `{EqDec A} (x : A) l : mem x l = true <-> In x l.
Proof.
  unfold mem. rewrite existsb_exists. split.
  - intros [y [Hy E]]. apply eqb_eq in E. subst. exact Hy.
  - intro Hx. exists x. split; [exact Hx | apply eqb_refl].
Qed.

Lemma mem_false_iff {A} `{EqDec A} (x : A) l : mem x l = false <-> ~ In x l.
Proof.
  rewrite <- mem_true_iff. destruct (mem x l); split; intro E; congruence.
Qed.

Lemma mem_ext {A} `{EqDec A} (x : A) l l' :
  (In x l <-> In x l') -> mem x l = mem x l'.
Proof.
  intro E. destruct (mem x l) eqn:M.
  - apply mem_true_iff in M. symmetry. apply mem_true_iff. tauto.
  - apply mem_false_iff in M. symmetry. apply mem_false_iff. tauto.
Qed.

(** ** filter *)
Lemma filter_ext_In {A} (f g : A -> bool) l :
  (forall x, In x l -> f x = g x) -> filter f l = filter g l.
Proof.
  induction l as [|a l IH]; intro E; [reflexivity|]. cbn [filter].
  rewrite (E a) by (left; reflexivity).
  rewrite IH by (intros x Hx; apply E; right; exact Hx). reflexivity.
Qed.

Lemma filter_filter {A} (f g : A -> bool) l :
  filter f (filter g l) = filter (fun x => g x && f x) l.
Proof.
  induction l as [|a l IH]; [reflexivity|]. cbn [filter].
  destruct (g a); cbn [filter andb]; rewrite IH; reflexivity.
Qed.

Lemma filter_comm {A} (f g : A -> bool) l :
  filter f (filter g l) = filter g (filter f l).
Proof.
  rewrite !filter_filter. apply filter_ext_In. intros x _. apply andb_comm.
Qed.

Lemma filter_map {A B} (f : A -> B) (p : B -> bool) l :
  filter p (map f l) = map f (filter (fun x => p (f x)) l).
Proof.
  induction l as [|a l IH]; [reflexivity|]. cbn [map filter].
  destruct (p (f a)); cbn [map]; rewrite IH; reflexivity.
Qed.

Lemma filter_flat_map {A B} (f : A -> list B) (p : B -> bool) l :
  filter p (flat_map f l) = flat_map (fun x => filter p (f x)) l.
Proof.
  induction l as [|a l IH]; [reflexivity|]. cbn [flat_map].
  rewrite filter_app, IH. reflexivity.
Qed.

Lemma filter_all {A} (p : A -> bool) l :
  (forall x, In x l -> p x = true) -> filter p l = l.
Proof.
  induction l as [|a l IH]; intro E; [reflexivity|]. cbn [filter].
  rewrite (E a) by (left; reflexivity). f_equal. apply IH. intros x Hx.
  apply E. right. exact Hx.
Qed.

Lemma filter_none {A} (p : A -> bool) l :
  (forall x, In x l -> p x = false) -> filter p l = [].
Proof.
  induction l as [|a l IH]; intro E; [reflexivity|]. cbn [filter].
  rewrite (E a) by (left; reflexivity). apply IH. intros x Hx.
  apply E. right. exact Hx.
Qed.

Lemma filter_Permutation {A} (p : A -> bool) l l' :
  Permutation l l' -> Permutation (filter p l) (filter p l').
Proof.
  induction 1 as [|x l l' P IH|x y l|l l' l'' P1 IH1 P2 IH2].
  - constructor.
  - cbn [filter]. destruct (p x); [constructor|]; exact IH.
  - cbn [filter]. destruct (p x), (p y); try apply Permutation_refl.
    constructor.
  - eapply Permutation_trans; eassumption.
Qed.

Lemma filter_length_le {A} (p : A -> bool) l : length (filter p l) <= length l.
Proof.
  induction l as [|a l IH]; cbn [filter length]; [lia|].
  destruct (p a); cbn [length]; lia.
Qed.

Lemma filter_split_Permutation {A} (p : A -> bool) l :
  Permutation l (filter p l ++ filter (fun x => negb (p x)) l).
Proof.
  induction l as [|a l IH]; [constructor|]. cbn [filter].
  destruct (p a); cbn [negb app].
  - constructor. exact IH.
  - apply Permutation_cons_app. exact IH.
Qed.

(** ** flat_map *)
Lemma flat_map_ext_In {A B} (f g : A -> list B) l :
  (forall x, In x l -> f x = g x) -> flat_map f l = flat_map g l.
Proof.
  induction l as [|a l IH]; intro E; [reflexivity|]. cbn [flat_map].
  rewrite (E a) by (left; reflexivity). f_equal. apply IH.
  intros x Hx. apply E. right. exact Hx.
Qed.

Lemma flat_map_map {A B C} (f : B -> list C) (g : A -> B) l :
  flat_map f (map g l) = flat_map (fun x => f (g x)) l.
Proof. induction l as [|a l IH]; [reflexivity|]. cbn. rewrite IH. reflexivity. Qed.

Lemma map_flat_map {A B C} (f : B -> C) (g : A -> list B) l :
  map f (flat_map g l) = flat_map (fun x => map f (g x)) l.
Proof.
  induction l as [|a l IH]; [reflexivity|]. cbn. rewrite map_app, IH. reflexivity.
Qed.

Lemma flat_map_singleton {A B} (f : A -> B) l :
  flat_map (fun x => [f x]) l = map f l.
Proof. induction l as [|a l IH]; [reflexivity|]. cbn. rewrite IH. reflexivity. Qed.

Lemma flat_map_Permutation {A B} (f : A -> list B) l l' :
  Permutation l l' -> Permutation (flat_map f l) (flat_map f l').
Proof.
  induction 1 as [|x l l' P IH|x y l|l l' l'' P1 IH1 P2 IH2]; cbn [flat_map].
  - constructor.
  - apply Permutation_app_head. exact IH.
  - rewrite !app_assoc. apply Permutation_app_tail. apply Permutation_app_comm.
  - eapply Permutation_trans; eassumption.
Qed.

Lemma flat_map_pointwise_Permutation {A B} (f g : A -> list B) l :
  (forall x, In x l -> Permutation (f x) (g x)) ->
  Permutation (flat_map f l) (flat_map g l).
Proof.
  induction l as [|a l IH]; intro E; [constructor|]. cbn [flat_map].
  apply Permutation_app.
  - apply E. left. reflexivity.
  - apply IH. intros x Hx. apply E. right. exact Hx.
Qed.

Lemma flat_map_flat_map {A B C} (f : B -> list C) (g : A -> list B) l :
  flat_map f (flat_map g l) = flat_map (fun x => flat_map f (g x)) l.
Proof.
  induction l as [|a l IH]; [reflexivity|]. cbn. rewrite flat_map_app, IH. reflexivity.
Qed.

Lemma length_flat_map {A B} (f : A -> list B) l :
  length (flat_map f l) = sumN (map (fun x => length (f x)) l).
Proof.
  induction l as [|a l IH]; [reflexivity|]. cbn. rewrite app_length, IH. reflexivity.
Qed.

Lemma NoDup_map_inj {A B} (f : A -> B) l :
  (forall x y, In x l -> In y l -> f x = f y -> x = y) -> NoDup l -> NoDup (map f l).
Proof.
  induction l as [|a l IH]; intros I N; [constructor|]. inversion N; subst.
  cbn [map]. constructor.
  - intro Hin. apply in_map_iff in Hin. destruct Hin as [b [E Hb]].
    assert (a = b) by (apply I; [left; reflexivity | right; exact Hb | congruence]).
    subst. contradiction.
  - apply IH; [|assumption]. intros x y Hx Hy. apply I; right; assumption.
Qed.

Lemma NoDup_flat_map {A B} (f : A -> list B) l :
  NoDup l -> (forall x, In x l -> NoDup (f x)) ->
  (forall x y z, In x l -> In y l -> In z (f x) -> In z (f y) -> x = y) ->
  NoDup (flat_map f l).
Proof.
  induction l as [|a l IH]; intros N F D; [constructor|]. inversion N; subst.
  cbn [flat_map].
  assert (App : forall (l1 l2 : list B), NoDup l1 -> NoDup l2 ->
            (forall z, In z l1 -> ~ In z l2) -> NoDup (l1 ++ l2)).
  { induction l1 as [|b l1 IH1]; intros l2 N1 N2 D12; [exact N2|].
    inversion N1; subst. cbn. constructor.
    - rewrite in_app_iff. intros [H0|H0]; [contradiction|].
      apply (D12 b); [left; reflexivity | exact H0].
    - apply IH1; [assumption|assumption|]. intros z Hz. apply D12. right. exact Hz. }
  apply App.
  - apply F. left. reflexivity.
  - apply IH; [assumption| |].
    + intros x Hx. apply F. right. exact Hx.
    + intros x y z Hx Hy. apply D; right; assumption.
  - intros z Hz Hz'. apply in_flat_map in Hz'. destruct Hz' as [y [Hy Hzy]].
    assert (a = y) by (apply (D a y z); [left; reflexivity|right; exact Hy|exact Hz|exact Hzy]).
    subst. contradiction.
Qed.

Lemma NoDup_filter' {A} (p : A -> bool) l : NoDup l -> NoDup (filter p l).
Proof. apply NoDup_filter. Qed.

Lemma NoDup_map_fst_filter {A B} (p : A * B -> bool) (l : list (A * B)) :
  NoDup (map fst l) -> NoDup (map fst (filter p l)).
Proof.
  induction l as [|[a b] l IH]; intro N; [constructor|]. inversion N; subst.
  cbn [filter]. destruct (p (a, b)).
  - cbn [map fst]. constructor; [|apply IH; assumption].
    intro Hin. apply in_map_iff in Hin. destruct Hin as [[a' b'] [E Hin]].
    apply filter_In in Hin. destruct Hin as [Hin _]. cbn in E. subst.
    apply H1. apply in_map_iff. exists (a, b'). split; [reflexivity|exact Hin].
  - apply IH. assumption.
Qed.

Lemma NoDup_app_iff {A} (l1 l2 : list A) :
  NoDup (l1 ++ l2) <-> NoDup l1 /\ NoDup l2 /\ (forall z, In z l1 -> ~ In z l2).
Proof.
  induction l1 as [|a l1 IH]; cbn.
  - split; [intro N; split; [constructor|split; [exact N|tauto]] | tauto].
  - rewrite !NoDup_cons_iff, IH, in_app_iff. firstorder congruence.
Qed.

Lemma map_eq_In {A B} (f g : A -> B) l :
  (forall x, In x l -> f x = g x) -> map f l = map g l.
Proof. apply map_ext_in. Qed.

(** ** submset *)
Lemma submset_refl {A} (l : list A) : submset l l.
Proof. exists []. rewrite app_nil_r. apply Permutation_refl. Qed.

Lemma submset_nil {A} (l : list A) : submset [] l.
Proof. exists l. apply Permutation_refl. Qed.

Lemma submset_Permutation {A} (l l' : list A) : Permutation l l' -> submset l l'.
Proof. intro P. exists []. rewrite app_nil_r. symmetry. exact P. Qed.

Lemma submset_trans {A} (l1 l2 l3 : list A) : submset l1 l2 -> submset l2 l3 -> submset l1 l3.
Proof.
  intros [r1 P1] [r2 P2]. exists (r1 ++ r2). rewrite app_assoc.
  eapply Permutation_trans; [exact P2|]. apply Permutation_app_tail. exact P1.
Qed.

Lemma submset_map {A B} (f : A -> B) l l' : submset l l' -> submset (map f l) (map f l').
Proof.
  intros [r P]. exists (map f r). rewrite <- map_app. apply Permutation_map. exact P.
Qed.

Lemma submset_filter {A} (p : A -> bool) l l' : submset l l' -> submset (filter p l) (filter p l').
Proof.
  intros [r P]. exists (filter p r). rewrite <- filter_app. apply filter_Permutation. exact P.
Qed.

Lemma submset_filter_self {A} (p : A -> bool) l : submset (filter p l) l.
Proof. eexists. apply filter_split_Permutation. Qed.

Lemma submset_length {A} (l l' : list A) : submset l l' -> length l <= length l'.
Proof.
  intros [r P]. apply Permutation_length in P. rewrite app_length in P. lia.
Qed.

Lemma submset_In {A} (l l' : list A) x : submset l l' -> In x l -> In x l'.
Proof.
  intros [r P] Hx. eapply Permutation_in; [symmetry; exact P|]. apply in_or_app. left. exact Hx.
Qed.

Lemma submset_NoDup {A} (l l' : list A) : submset l l' -> NoDup l' -> NoDup l.
Proof.
  intros [r P] N. eapply Permutation_NoDup in N; [|exact P].
  apply NoDup_app_iff in N. tauto.
Qed.

Lemma submset_full {A} (l l' : list A) :
  submset l l' -> length l' <= length l -> Permutation l l'.
Proof.
  intros [r P] L. pose proof (Permutation_length P) as E. rewrite app_length in E.
  destruct r as [|x r]; [|cbn in E; lia]. rewrite app_nil_r in P. symmetry. exact P.
Qed.

Lemma submset_flat_map {A B} (f : A -> list B) l l' :
  submset l l' -> submset (flat_map f l) (flat_map f l').
Proof.
  intros [r P]. exists (flat_map f r). rewrite <- flat_map_app. apply flat_map_Permutation. exact P.
Qed.

Lemma submset_app {A} (a a' b b' : list A) :
  submset a a' -> submset b b' -> submset (a ++ b) (a' ++ b').
Proof.
  intros [r P] [s Q0]. exists (r ++ s).
  eapply Permutation_trans; [apply Permutation_app; eassumption|].
  rewrite <- !app_assoc. apply Permutation_app_head. rewrite !app_assoc.
  apply Permutation_app_tail. apply Permutation_app_comm.
Qed.

Lemma submset_flat_map_pointwise {A B} (f g : A -> list B) l :
  (forall x, In x l -> submset (f x) (g x)) -> submset (flat_map f l) (flat_map g l).
Proof.
  induction l as [|a l IH]; intro E; [apply submset_refl|]. cbn [flat_map].
  apply submset_app; [apply E; left; reflexivity | apply IH; intros x Hx; apply E; right; exact Hx].
Qed.

Lemma submset_occ {A} `{EqDec A} (l l' : list A) x : submset l l' -> occ x l <= occ x l'.
Proof.
  intros [r P].
  assert (OP : forall a b : list A, Permutation a b -> occ x a = occ x b).
  { induction 1 as [|y a b P' IH|y z a|a b c P1 IH1 P2 IH2]; cbn [occ]; lia. }
  assert (OA : forall a b : list A, occ x (a ++ b) = occ x a + occ x b).
  { induction a as [|y a IH]; intro b; cbn [occ app]; [reflexivity|]. rewrite IH. lia. }
  rewrite (OP _ _ P), OA. lia.
Qed.

(** ** distinct *)
Lemma in_distinct_from {A} `{EqDec A} (l seen : list A) x :
  In x (distinct_from seen l) <-> In x l /\ ~ In x seen.
Proof.
  revert seen. induction l as [|a l IH]; intro seen; cbn [distinct_from].
  - cbn. tauto.
  - destruct (mem a seen) eqn:M.
    + apply mem_true_iff in M. rewrite IH. cbn. split; [tauto|].
      intros [[E|Hx] N]; [subst; contradiction | tauto].
    + apply mem_false_iff in M. cbn [In]. rewrite IH. cbn [In].
      split.
      * intros [E|[Hx N]]; [subst; tauto | tauto].
      * intros [[E|Hx] N]; [tauto|]. destruct (eq_dec a x) as [E|E]; [tauto|]. right. tauto.
Qed.

Lemma in_distinct {A} `{EqDec A} (l : list A) x : In x (distinct l) <-> In x l.
Proof. unfold distinct. rewrite in_distinct_from. cbn. tauto. Qed.

Lemma NoDup_distinct_from {A} `{EqDec A} (l seen : list A) : NoDup (distinct_from seen l).
Proof.
  revert seen. induction l as [|a l IH]; intro seen; cbn [distinct_from]; [constructor|].
  destruct (mem a seen); [apply IH|]. constructor; [|apply IH].
  rewrite in_distinct_from. cbn. tauto.
Qed.

Lemma NoDup_distinct {A} `{EqDec A} (l : list A) : NoDup (distinct l).
Proof. apply NoDup_distinct_from. Qed.

Lemma distinct_from_seen_ext {A} `{EqDec A} (l s s' : list A) :
  (forall x, In x s <-> In x s') -> distinct_from s l = distinct_from s' l.
Proof.
  revert s s'. induction l as [|a l IH]; intros s s' E; cbn [distinct_from]; [reflexivity|].
  rewrite (mem_ext a s s') by apply E. destruct (mem a s'); [apply IH; exact E|].
  f_equal. apply IH. intro x. cbn. rewrite E. tauto.
Qed.

Lemma distinct_from_app {A} `{EqDec A} (l l' seen : list A) :
  distinct_from seen (l ++ l') = distinct_from seen l ++ distinct_from (l ++ seen) l'.
Proof.
  revert seen. induction l as [|a l IH]; intro seen; cbn [distinct_from app]; [reflexivity|].
  destruct (mem a seen) eqn:M.
  - rewrite IH. f_equal. apply distinct_from_seen_ext. intro x. cbn. rewrite in_app_iff.
    apply mem_true_iff in M. split; [tauto|]. intros [E|[E|E]]; [subst; tauto|tauto|tauto].
  - rewrite IH. cbn [app]. do 2 f_equal. apply distinct_from_seen_ext. intro x. cbn.
    rewrite !in_app_iff. cbn. tauto.
Qed.

Lemma distinct_snoc {A} `{EqDec A} (l : list A) x :
  distinct (l ++ [x]) = if mem x l then distinct l else distinct l ++ [x].
Proof.
  unfold distinct. rewrite distinct_from_app, app_nil_r. cbn [distinct_from].
  destruct (mem x l); [apply app_nil_r|reflexivity].
Qed.

Lemma distinct_from_filter {A} `{EqDec A} (p : A -> bool) (l seen : list A) :
  distinct_from seen (filter p l) = filter p (distinct_from seen l).
Proof.
  revert seen. induction l as [|a l IH]; intro seen; [reflexivity|].
  cbn [filter distinct_from]. destruct (p a) eqn:P.
  - cbn [distinct_from]. destruct (mem a seen); [apply IH|]. cbn [filter]. rewrite P, IH. reflexivity.
  - destruct (mem a seen); [apply IH|]. cbn [filter]. rewrite P.
    rewrite <- IH. clear IH.
    assert (G : forall l0 s, ~ In a l0 -> distinct_from s l0 = distinct_from (a :: s) l0).
    { induction l0 as [|b l0 IH0]; intros s N; [reflexivity|]. cbn [distinct_from].
      assert (Eb : mem b s = mem b (a :: s)).
      { apply mem_ext. cbn. split; [tauto|]. intros [E|E]; [|exact E]. subst. exfalso. apply N. left. reflexivity. }
      rewrite <- Eb. destruct (mem b s).
      - apply IH0. intro Hb. apply N. right. exact Hb.
      - f_equal. rewrite (distinct_from_seen_ext l0 (b :: a :: s) (a :: b :: s)) by (intro x; cbn; tauto).
        apply IH0. intro Hb. apply N. right. exact Hb. }
    apply G. rewrite filter_In. intros [_ E]. congruence.
Qed.

Lemma distinct_filter {A} `{EqDec A} (p : A -> bool) (l : list A) :
  distinct (filter p l) = filter p (distinct l).
Proof. apply distinct_from_filter. Qed.

Lemma distinct_NoDup_id {A} `{EqDec A} (l : list A) : NoDup l -> distinct l = l.
Proof.
  unfold distinct.
  assert (G : forall s, NoDup l -> (forall x, In x l -> ~ In x s) -> distinct_from s l = l).
  { induction l as [|a l IH]; intros s N D; [reflexivity|]. inversion N; subst. cbn [distinct_from].
    assert (M : mem a s = false) by (apply mem_false_iff; apply D; left; reflexivity).
    rewrite M. f_equal. apply IH; [assumption|]. intros x Hx. cbn. intros [E|E].
    - subst. contradiction.
    - apply (D x); [right; exact Hx | exact E]. }
  intro N. apply G; [exact N|]. intros x _ [].
Qed.

Lemma distinct_length_le {A} `{EqDec A} (l : list A) : length (distinct l) <= length l.
Proof.
  apply NoDup_incl_length; [apply NoDup_distinct|]. intros x. apply in_distinct.
Qed.

Lemma distinct_Permutation {A} `{EqDec A} (l l' : list A) :
  (forall x, In x l <-> In x l') -> Permutation (distinct l) (distinct l').
Proof.
  intro E. apply NoDup_Permutation; try apply NoDup_distinct.
  intro x. rewrite !in_distinct. apply E.
Qed.

(** ** pick and choose *)
Lemma pick_map {A B} (f : A -> B) idx vs : pick idx (map f vs) = map f (pick idx vs).
Proof.
  unfold pick. rewrite map_flat_map. apply flat_map_ext_In. intros i _.
  rewrite nth_error_map. destruct (nth_error vs i); reflexivity.
Qed.

Lemma choose_map {A B} (f : A -> B) idx n vs :
  choose idx n (map f vs) = map f (choose idx n vs).
Proof.
  unfold choose. rewrite map_length. destruct (n <? length vs); [apply pick_map | reflexivity].
Qed.

Lemma pick_seq_full {A} (vs : list A) : pick (seq 0 (length vs)) vs = vs.
Proof.
  unfold pick. induction vs as [|v vs IH]; [reflexivity|].
  cbn [length seq flat_map nth_error]. cbn [app]. f_equal.
  rewrite <- seq_shift, flat_map_map. cbn [nth_error]. exact IH.
Qed.

Lemma pick_length {A} (idx : list nat) (vs : list A) :
  Forall (fun i => i < length vs) idx -> length (pick idx vs) = length idx.
Proof.
  unfold pick. induction 1 as [|i idx Hi Hidx IH]; [reflexivity|]. cbn [flat_map].
  rewrite app_length, IH. destruct (nth_error vs i) eqn:E; [reflexivity|].
  apply nth_error_None in E. lia.
Qed.

Lemma pick_submset {A} (idx : list nat) (vs : list A) :
  NoDup idx -> Forall (fun i => i < length vs) idx -> submset (pick idx vs) vs.
Proof.
  intros N F.
  exists (pick (filter (fun i => negb (mem i idx)) (seq 0 (length vs))) vs).
  rewrite <- (pick_seq_full vs) at 1. unfold pick at 2 3. rewrite <- flat_map_app.
  apply flat_map_Permutation. apply NoDup_Permutation.
  - apply seq_NoDup.
  - apply NoDup_app_iff. split; [exact N|]. split; [apply NoDup_filter, seq_NoDup|].
    intros z Hz Hz'. apply filter_In in Hz'. destruct Hz' as [_ Hz'].
    apply negb_true_iff, mem_false_iff in Hz'. contradiction.
  - intro x. rewrite in_app_iff, filter_In, in_seq. rewrite Forall_forall in F.
    split.
    + intro Hx. destruct (mem x idx) eqn:M.
      * left. apply mem_true_iff. exact M.
      * right. split; [exact Hx|reflexivity].
    + intros [Hx|[Hx _]]; [|exact Hx]. apply F in Hx. lia.
Qed.
