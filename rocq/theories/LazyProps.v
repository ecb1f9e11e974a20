(** Property C65: LocalBackend builds pipelines lazily, of iterators that can be read once,
    and reading them gives what the collections of the other models contain. *)
From Coq Require Import List ZArith QArith Reals Bool PeanoNat Lia.
From Verif Require Import Base BackendModel BackendSpec BounderModel BounderSpec ParamsModel SensModel CombinerModel EngineModel EngineSpec HistModel ExpMechModel EngineProps.
From Verif Require Import LazyModel LazyEngineModel LazySpec LazyProofs LazyProofs2 LazyProofs3 LazyProofs4.
Import ListNotations.
Local Close Scope Q_scope. Local Close Scope R_scope. Local Open Scope nat_scope.

Section Props.
Context {U P : Type} `{EqDec U} `{EqDec P}.
Notation interp := (@interp U P).
Notation heap := (heap interp).
Implicit Types h : heap.

Lemma moves_only_adds h h' : moves interp [] h h' -> only_adds h h'.
Proof.
  intros (A & B & _). exists (skipn (length h) h'). rewrite <- (firstn_skipn (length h) h') at 1. f_equal.
  clear - A B. assert (K : forall b, b < length h -> nth_error h' b = nth_error h b) by (intros; apply B; auto). clear B. revert h' A K.
  induction h as [|x h IH]; intros h' A K; [reflexivity|]. destruct h' as [|y h']; [cbn in A; lia|]. cbn in A. cbn [length firstn]. f_equal.
  - specialize (K 0 ltac:(cbn; lia)). cbn in K. congruence.
  - apply IH; [lia|]. intros b L. apply (K (S b)). cbn. lia.
Qed.
Lemma user_col h t (c : col t) l : user_collection h c l -> exists F, is_col interp h F c t l.
Proof. intros [L|L]; [exists []; left; auto | exists [c]; right; apply den_items; exact L]. Qed.

Lemma bind_some {A B} (e : M interp A) (k : A -> M interp B) n h y h' : bind interp e k n h = Some (y, h') ->
  exists x h1, e n h = Some (x, h1) /\ k x n h1 = Some (y, h').
Proof. unfold bind. destruct (e n h) as [[x h1]|]; [eauto | discriminate]. Qed.
(** The result of an aggregation is not a list. *)
Lemma map_not_list s t (f : interp s -> interp t) (c : col s) n h c' h' : b_map interp f c n h = Some (c', h') ->
  forall l, lookup interp h' c' t <> Some (LList t l).
Proof.
  intros E l. apply bind_some in E as (i & h1 & _ & E). unfold new in E. injection E as <- <-. rewrite lookup_new. discriminate.
Qed.
Lemma filter_not_list t (f : interp t -> bool) (c : col t) n h c' h' : b_filter interp f c n h = Some (c', h') ->
  forall l, lookup interp h' c' t <> Some (LList t l).
Proof.
  intros E l. apply bind_some in E as (i & h1 & _ & E). unfold new in E. injection E as <- <-. rewrite lookup_new. discriminate.
Qed.
Lemma aggregate_not_list p sm sk nz pub (c : col (row TV)) n h c' h' : lazy_aggregate p sm sk nz pub c n h = Some (c', h') ->
  forall l, lookup interp h' c' (TPair TP TMet) <> Some (LList (TPair TP TMet) l).
Proof.
  unfold lazy_aggregate. destruct (create_compound_combiner p); [|discriminate]. intro E.
  do 5 (apply bind_some in E as (? & ? & _ & E)). apply bind_some in E as (c6 & h6 & E6 & E).
  destruct (post_aggregation_thresholding p).
  - eapply filter_not_list. exact E.
  - unfold ret in E. injection E as <- <-. eapply map_not_list. exact E6.
Qed.

Lemma read_metrics_ends h F (c : col (TPair TP TMet)) l : is_col interp h F c (TPair TP TMet) l ->
  exists h', ends (read_metrics c) h (map_result (fun r : P * result (list (mname * released)) => rmap (pair (fst r)) (snd r)) l) h' /\ moves interp F h h'.
Proof.
  intro C. destruct (force_rule interp h F (TPair TP TMet) c l C) as (n & h' & E & Mv & _). exists h'. split; [|exact Mv]. exists n. intros m L.
  unfold read_metrics, bind. rewrite (E m L). reflexivity.
Qed.

(** Building an aggregation of a list or an iterator: it raises where the parameters are
    wrong, or creates new objects only, without reading a row. *)
Lemma aggregate_built p sm sk nz pub public h F (c : col (row TV)) rows : is_col interp h F c (row TV) rows -> partitions_at h pub public ->
  (raises (lazy_aggregate p sm sk nz pub c) h /\ exists e, aggregate p sm sk nz public rows = Err e) \/
  exists c' h' F' l, ends (lazy_aggregate p sm sk nz pub c) h c' h' /\ is_col interp h' F' c' (TPair TP TMet) l /\
    fresh interp h F F' /\ moves interp [] h h' /\
    map_result (fun r : P * result (list (mname * released)) => rmap (pair (fst r)) (snd r)) l = aggregate p sm sk nz public rows.
Proof.
  intros C Pub. pose proof (aggregate_rule p sm sk nz pub public h F c rows C Pub) as R.
  unfold aggregate. destruct (create_compound_combiner p) as [cs|e]; cbn [rbind] in *; [|left; split; [exact R | eauto]].
  destruct (selected_accumulators p cs sm sk public rows) as [col|e]; cbn [rmap rbind makes_or_fails] in *; [|left; split; [exact R | eauto]].
  right. destruct R as (n & c' & h' & F' & E & C' & Fr & Mv). exists c', h', F', (metrics_rows p cs nz col).
  split; [exists n; exact E|]. split; [exact C'|]. split; [exact Fr|]. split; [exact Mv|]. apply metrics_rows_read.
Qed.

(** C65: aggregate, for a collection that is a list or an iterator and public partitions
    given as a list. *)
Theorem C65_aggregate_on_iterators p sm sk nz pub public h (c : col (row TV)) rows :
  user_collection h c rows -> partitions_at h pub public ->
  (raises (lazy_aggregate p sm sk nz pub c) h /\ exists e, aggregate p sm sk nz public rows = Err e) \/
  exists out h' h'', ends (lazy_aggregate p sm sk nz pub c) h out h' /\ only_adds h h' /\
    ends (read_metrics out) h' (aggregate p sm sk nz public rows) h''.
Proof.
  intros C Pub. destruct (user_col _ _ _ _ C) as (F & C'). destruct (aggregate_built p sm sk nz pub public h F c rows C' Pub) as [R|R]; [left; exact R|].
  right. destruct R as (out & h' & F' & l & E & Co & _ & Mv & Eq). destruct (read_metrics_ends h' F' out l Co) as (h'' & Er & _).
  exists out, h', h''. split; [exact E|]. split; [apply moves_only_adds; exact Mv|]. rewrite <- Eq. exact Er.
Qed.

(** The result itself can be read once: reading it again gives nothing. *)
Theorem C65_result_is_read_once p sm sk nz pub public h (c : col (row TV)) rows out h' :
  user_collection h c rows -> partitions_at h pub public -> ends (lazy_aggregate p sm sk nz pub c) h out h' ->
  exists h1 h2, ends (read_metrics out) h' (aggregate p sm sk nz public rows) h1 /\ ends (read_metrics out) h1 (Ok []) h2.
Proof.
  intros C Pub (n0 & E0). destruct (user_col _ _ _ _ C) as (F & C'). destruct (aggregate_built p sm sk nz pub public h F c rows C' Pub) as [R|R].
  { destruct R as [(n & R) _]. specialize (R (Nat.max n0 n) (Nat.le_max_r _ _)). rewrite E0 in R by lia. discriminate. }
  destruct R as (out1 & h1 & F' & l & (n1 & E1) & Co & _ & _ & Eq).
  assert (X : out1 = out /\ h1 = h').
  { specialize (E1 (Nat.max n0 n1) (Nat.le_max_r _ _)). rewrite E0 in E1 by lia. injection E1 as <- <-. auto. }
  destruct X as [-> ->]. destruct Co as [[L _]|D].
  { exfalso. eapply aggregate_not_list; [apply (E0 n0); lia | exact L]. }
  destruct (force_again interp h' F' (TPair TP TMet) out l D) as (n & h2 & h3 & K). exists h2, h3. rewrite <- Eq. split; exists n; intros m L.
  - unfold read_metrics, bind. destruct (K m L) as [-> _]. reflexivity.
  - unfold read_metrics, bind. destruct (K m L) as [_ ->]. reflexivity.
Qed.

(** A list can be aggregated twice: both aggregations are built, then both are read. *)
Theorem C65_list_aggregated_twice p1 p2 sm1 sm2 sk1 sk2 nz1 nz2 pub1 public1 pub2 public2 h (c : col (row TV)) rows :
  user_list h c rows -> partitions_at h pub1 public1 -> partitions_at h pub2 public2 ->
  forall o1 h1 o2 h2, ends (lazy_aggregate p1 sm1 sk1 nz1 pub1 c) h o1 h1 -> ends (lazy_aggregate p2 sm2 sk2 nz2 pub2 c) h1 o2 h2 ->
  exists h3 h4, ends (read_metrics o1) h2 (aggregate p1 sm1 sk1 nz1 public1 rows) h3 /\
                ends (read_metrics o2) h3 (aggregate p2 sm2 sk2 nz2 public2 rows) h4.
Proof.
  intros L Pub1 Pub2 o1 h1 o2 h2 (n1 & E1) (n2 & E2).
  assert (C1 : is_col interp h [] c (row TV) rows) by (left; auto).
  destruct (aggregate_built p1 sm1 sk1 nz1 pub1 public1 h [] c rows C1 Pub1) as [R|R].
  { destruct R as [(n & R) _]. specialize (R (Nat.max n1 n) (Nat.le_max_r _ _)). rewrite E1 in R by lia. discriminate. }
  destruct R as (o & h' & F1 & l1 & (n & E) & Co1 & Fr1 & Mv1 & Eq1).
  assert (X : o = o1 /\ h' = h1). { specialize (E (Nat.max n1 n) (Nat.le_max_r _ _)). rewrite E1 in E by lia. injection E as <- <-. auto. }
  destruct X as [-> ->]. clear E n.
  assert (C2 : is_col interp h1 [] c (row TV) rows) by (left; split; [eapply list_moves; eassumption | reflexivity]).
  assert (Pub2' : partitions_at h1 pub2 public2) by (eapply partitions_moves; eassumption).
  destruct (aggregate_built p2 sm2 sk2 nz2 pub2 public2 h1 [] c rows C2 Pub2') as [R|R].
  { destruct R as [(n & R) _]. specialize (R (Nat.max n2 n) (Nat.le_max_r _ _)). rewrite E2 in R by lia. discriminate. }
  destruct R as (o & h' & F2 & l2 & (n & E) & Co2 & Fr2 & Mv2 & Eq2).
  assert (X : o = o2 /\ h' = h2). { specialize (E (Nat.max n2 n) (Nat.le_max_r _ _)). rewrite E2 in E by lia. injection E as <- <-. auto. }
  destruct X as [-> ->]. clear E n.
  assert (Co1' : is_col interp h2 F1 o1 (TPair TP TMet) l1) by (eapply col_moves; [exact Co1 | exact Mv2 | tauto]).
  destruct (read_metrics_ends h2 F1 o1 l1 Co1') as (h3 & Er1 & Mv3).
  assert (Co2' : is_col interp h3 F2 o2 (TPair TP TMet) l2).
  { eapply col_moves; [exact Co2 | exact Mv3|]. intros b I J. destruct (Fr2 b I) as [[]|X].
    pose proof (col_range interp _ _ _ _ _ Co1 b J). lia. }
  destruct (read_metrics_ends h3 F2 o2 l2 Co2') as (h4 & Er2 & _). exists h3, h4. rewrite <- Eq1, <- Eq2. split; assumption.
Qed.

(** C65: select_partitions. *)
Theorem C65_select_partitions_on_iterators l0 ch sk h (c : col (TPair TU TP)) rows : user_collection h c rows ->
  exists out h' h'', ends (lazy_select_partitions l0 ch sk c) h out h' /\ only_adds h h' /\
    ends (force interp (t := TP) out) h' (select_partitions l0 ch sk rows) h''.
Proof.
  intro C. destruct (user_col _ _ _ _ C) as (F & C'). destruct (select_rule l0 ch sk h F c rows C') as (n & out & h' & F' & E & Co & _ & Mv).
  destruct (force_rule interp h' F' TP out _ Co) as (n2 & h'' & E2 & _). exists out, h', h''.
  split; [exists n; exact E|]. split; [apply moves_only_adds; exact Mv | exists n2; exact E2].
Qed.

(** C65: calculate_private_contribution_bounds, when the partitions are a list. *)
Theorem C65_contribution_bounds_on_iterators sigma bp filtered h (c : col (row TQ)) (pc : col TP) rows partitions :
  user_collection h c rows -> user_list h pc partitions ->
  exists out h' h'', ends (lazy_contribution_bounds sigma bp filtered c pc) h out h' /\
    ends (force interp (t := TBound) out) h' [calculate_private_contribution_bounds sigma bp partitions filtered (rows : list (U * P * Q))] h''.
Proof.
  intros C L. destruct (user_col _ _ _ _ C) as (F & C'). destruct (bounds_rule sigma bp filtered h F c pc rows partitions C' L) as (n & out & h' & F' & E & Co & _).
  destruct (force_rule interp h' F' TBound out _ Co) as (n2 & h'' & E2 & _). exists out, h', h''.
  split; [exists n; exact E | exists n2; exact E2].
Qed.
End Props.
Print Assumptions C65_aggregate_on_iterators.
Print Assumptions C65_result_is_read_once.
Print Assumptions C65_list_aggregated_twice.
Print Assumptions C65_select_partitions_on_iterators.
Print Assumptions C65_contribution_bounds_on_iterators.

(** *** What one-shot collections break *)

Notation zheap := (heap (@interp Z Z)).
Definition count_params : params := demo_params [COUNT] None.
Definition count_raw : raw_params := raw_of count_params.
(** The memory with the rows as a list and the public partitions as an iterator. *)
Definition public_iterator (rows : list (Z * Z * value)) (public : list Z) : zheap :=
  [existT _ (row TV) (LList (row TV) (rows : list (@interp Z Z (row TV)))); existT _ TP (GItems TP (public : list (@interp Z Z TP)))].
(** The partitions released by an aggregation that is built and read. *)
Definition releases_in (h : zheap) (pub : option (col TP)) (keys : list Z) : Prop :=
  forall sm sk nz, exists n out h' l h'',
    lazy_aggregate count_params sm sk nz pub 0 n h = Some (out, h') /\ read_metrics out n h' = Some (Ok l, h'') /\ map fst l = keys.

(** Public partitions given as an iterator: filtering the rows reads them, and the
    partitions that are read are not added to the result.  One person with one row in
    a partition that is not public makes all public partitions disappear from the
    result, so that the released partitions tell whether this person is in the data. *)
Theorem C65_public_partitions_as_iterator_refuted : exists public rows u,
  user_iterator (public_iterator rows public) (t := TP) 1 public /\
  accepted count_params /\
  (forall sm sk nz, exists l, aggregate count_params sm sk nz (Some public) rows = Ok l /\ map fst l = public) /\
  releases_in (public_iterator (without u rows) public) (Some 1) public /\
  releases_in (public_iterator rows public) (Some 1) [].
Proof.
  exists [7; 8]%Z, [(1, 9, Num 1)]%Z, 1%Z. split; [reflexivity|]. split; [exists count_raw; vm_compute; reflexivity|]. split; [|split].
  - intros sm sk nz. eexists. split; [vm_compute; reflexivity | reflexivity].
  - intros sm sk nz. exists 60. do 4 eexists. split; [vm_compute; reflexivity|]. split; [vm_compute; reflexivity | reflexivity].
  - intros sm sk nz. exists 60. do 4 eexists. split; [vm_compute; reflexivity|]. split; [vm_compute; reflexivity | reflexivity].
Qed.
Print Assumptions C65_public_partitions_as_iterator_refuted.

(** The same with public partitions as a list: nothing disappears. *)
Example C65_public_partitions_as_list :
  let h : zheap := [existT _ (row TV) (LList (row TV) ([(1, 9, Num 1)]%Z : list (@interp Z Z (row TV)))); existT _ TP (LList TP ([7; 8]%Z : list (@interp Z Z TP)))] in
  releases_in h (Some 1) [7; 8]%Z.
Proof.
  intros h sm sk nz. exists 60. do 4 eexists. split; [vm_compute; reflexivity|]. split; [vm_compute; reflexivity | reflexivity].
Qed.

(** An iterator is aggregated once: a second aggregation of it, built together with the
    first one, sees no rows. *)
Definition aggregate_twice (sm : sampling Z Z) (sk : Z -> Z -> bool) (nz : Z -> nat -> noises) (c : col (row TV)) :=
  o1 <- lazy_aggregate count_params sm sk nz None c ;;
  o2 <- lazy_aggregate count_params sm sk nz None c ;;
  l1 <- read_metrics o1 ;;
  l2 <- read_metrics o2 ;;
  ret (@interp Z Z) (l1, l2).
Theorem C65_iterator_aggregated_twice_refuted : exists sm sk rows (h : zheap), user_iterator h (t := row TV) 0 rows /\ forall nz,
  (exists l, aggregate count_params sm sk nz None rows = Ok l /\ map fst l = [7; 8]%Z) /\
  exists n, option_map fst (aggregate_twice sm sk nz 0 n h) = Some (aggregate count_params sm sk nz None rows, Ok []).
Proof.
  exists (first_sampling 2 2), (fun _ _ => true).
  exists [(1, 7, Num 1); (1, 8, Num 1); (2, 7, Num 1)]%Z, [existT _ (row TV) (GItems (row TV) ([(1, 7, Num 1); (1, 8, Num 1); (2, 7, Num 1)]%Z : list (@interp Z Z (row TV))))].
  split; [reflexivity|]. intro nz. split; [eexists; split; [vm_compute; reflexivity | reflexivity]|]. exists 60. vm_compute. reflexivity.
Qed.
Print Assumptions C65_iterator_aggregated_twice_refuted.

(** calculate_private_contribution_bounds with the partitions that select_partitions
    returned ("private partitions that were selected before calling this function"): the
    filter reads the partitions, none is left to be counted, the inputs of the calculation
    are incomplete (TypeError), and a row of a selected partition is lost. *)
Definition select_then_inputs (nb : Z) (c : col (row TQ)) (pairs : col (TPair TU TP)) :=
  partitions <- lazy_select_partitions 3 (fun _ k => seq 0 k) (fun _ _ => true) pairs ;;
  out <- lazy_l0_inputs nb false c partitions ;;
  force (@interp Z Z) (t := TList TInput) out.
Definition rows_and_pairs (rows : list (Z * Z * Q)) : zheap :=
  [existT _ (row TQ) (LList (row TQ) (rows : list (@interp Z Z (row TQ))));
   existT _ (TPair TU TP) (LList (TPair TU TP) (map fst rows : list (@interp Z Z (TPair TU TP))))].
Theorem C65_selected_partitions_refuted : exists rows selected,
  selected = select_partitions 3 (fun _ k => seq 0 k) (fun _ _ => true) (map fst rows) /\
  size_col (distinct selected) = [3%Z] /\ drop_partitions selected rows = rows /\
  exists n histogram, option_map fst (select_then_inputs 10 0 1 n (rows_and_pairs rows)) = Some [[IHistogram histogram]] /\
    histogram <> h_l0 (compute_dataset_histograms 10 rows) /\
    is_ok (h_l0 (compute_dataset_histograms 10 rows)) = true /\
    (forall sigma bp, bound_of_inputs sigma bp [IHistogram histogram] = Err TypeError).
Proof.
  exists [(1, 7, 1%Q); (1, 8, 1%Q); (1, 9, 1%Q); (2, 7, 1%Q)]%Z, [7; 8; 9]%Z.
  split; [vm_compute; reflexivity|]. split; [vm_compute; reflexivity|]. split; [vm_compute; reflexivity|].
  exists 80. eexists. split; [vm_compute; reflexivity|]. split; [vm_compute; discriminate|]. split; [vm_compute; reflexivity|]. reflexivity.
Qed.
Print Assumptions C65_selected_partitions_refuted.
(** An iterator over public partitions: those before the partition of the first row are
    not counted. *)
Definition rows_and_iterator (rows : list (Z * Z * Q)) (public : list Z) : zheap :=
  [existT _ (row TQ) (LList (row TQ) (rows : list (@interp Z Z (row TQ)))); existT _ TP (GItems TP (public : list (@interp Z Z TP)))].
Theorem C65_partitions_as_iterator_refuted : exists rows public, user_iterator (rows_and_iterator rows public) (t := TP) 1 public /\
  size_col (distinct public) = [4%Z] /\
  exists n, option_map fst ((out <- lazy_l0_inputs 10 false 0 1 ;; force (@interp Z Z) (t := TList TInput) out) n (rows_and_iterator rows public)) =
    Some [[IHistogram (h_l0 (compute_dataset_histograms 10 rows)); INumber 2]].
Proof.
  exists [(1, 8, 1%Q)]%Z, [7; 8; 9; 10]%Z. split; [reflexivity|]. split; [vm_compute; reflexivity|]. exists 80. vm_compute. reflexivity.
Qed.
Print Assumptions C65_partitions_as_iterator_refuted.

(** Hypotheses of the theorems are met: rows in an iterator, public partitions in a list. *)
Example C65_hypotheses_met : exists h : zheap,
  user_collection h (t := row TV) 0 demo_rows /\ partitions_at h (Some 1) (Some [10; 20; 30; 40]%Z) /\
  (forall sk nz, exists n out h', lazy_aggregate count_params (first_sampling 2 2) sk nz (Some 1) 0 n h = Some (out, h')) /\
  (forall sk nz, exists l, aggregate count_params (first_sampling 2 2) sk nz (Some [10; 20; 30; 40]%Z) demo_rows = Ok l /\ map fst l = [10; 20; 30; 40]%Z).
Proof.
  exists [existT _ (row TV) (GItems (row TV) (demo_rows : list (@interp Z Z (row TV)))); existT _ TP (LList TP ([10; 20; 30; 40]%Z : list (@interp Z Z TP)))].
  split; [right; reflexivity|]. split; [reflexivity|]. split.
  - intros sk nz. exists 0. do 2 eexists. reflexivity.
  - intros sk nz. eexists. split; [vm_compute; reflexivity | reflexivity].
Qed.
Example C65_raising_exists : exists (h : zheap) p, user_collection h (t := row TV) 0 [] /\ forall sm sk nz,
  exists e, aggregate p sm sk nz None ([] : list (Z * Z * value)) = Err e.
Proof.
  exists [existT _ (row TV) (LList (row TV) [])], (demo_params [COUNT] (Some 0%Z)). split; [left; reflexivity|]. intros. eexists. vm_compute. reflexivity.
Qed.
