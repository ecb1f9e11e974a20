(** Lemmas for C64: the data of a partition. *)
From Coq Require Import List ZArith QArith Bool Permutation Lia Lqa.
From Verif Require Import Base BaseLemmas BackendModel BackendSpec ListLemmas BackendProofs BounderModel BounderSpec BounderProofs
  ParamsModel SensModel CombinerModel CombinerSpec EngineModel EngineSpec EngineProofs EngineProofs2 HistModel HistProofs2 HistProofs4
  AnalysisModel AnalysisSpec AnalyzeModel AnalyzeSpec AnalyzeProofs.
Import ListNotations.

Definition pre_of (vs : list value) (n : nat) : pre :=
  (Z.of_nat (length vs), match total_of vs with Ok s => s | Err _ => Scalar 0 end, Z.of_nat n).

Lemma number_list_ok vs : (forall v, In v vs -> exists q, v = Num q) -> number_list vs = Ok (map num_of vs).
Proof.
  induction vs as [|v vs IH]; intro A; [reflexivity|]. destruct (A v (or_introl eq_refl)) as [q ->]. cbn.
  rewrite IH by (intros; apply A; right; assumption). reflexivity.
Qed.
Lemma total_numeric vs : (forall v, In v vs -> exists q, v = Num q) ->
  exists q, total_of vs = Ok (Scalar q) /\ (q == sumQ (map num_of vs))%Q.
Proof.
  intro A. destruct vs as [|v vs]; [exists 0%Q; split; reflexivity|].
  destruct (A v (or_introl eq_refl)) as [q ->]. destruct vs as [|v' vs].
  - exists q. split; [reflexivity|]. unfold sumQ. cbn. ring.
  - unfold total_of. rewrite number_list_ok by exact A. cbn [rmap]. eexists. split; reflexivity.
Qed.
Lemma preaggregated_ok vs n : (forall v, In v vs -> exists q, v = Num q) -> preaggregated vs n = Ok (pre_of vs n).
Proof.
  intro A. destruct (total_numeric vs A) as (q & E & _). unfold preaggregated, pre_of. rewrite E. reflexivity.
Qed.

Section Data.
Context {U P : Type} `{EqDec U} `{EqDec P}.
Implicit Types rows : list (U * P * value).

Lemma numeric_values u k rows : numeric_rows rows -> forall v, In v (values_in u k rows) -> exists q, v = Num q.
Proof.
  intros A v I. unfold values_in in I. apply in_map_iff in I. destruct I as (r & <- & I). apply filter_In in I. apply A. apply I.
Qed.
Lemma numeric_filter f rows : numeric_rows rows -> numeric_rows (filter f rows).
Proof. intros A r I. apply filter_In in I. apply A. apply I. Qed.

Lemma pre_of_spec cross rows k u : numeric_rows rows ->
  data_spec cross rows k u (pre_of (values_in u k rows) (n_choices cross u rows)).
Proof.
  intro A. destruct (total_numeric _ (numeric_values u k rows A)) as (q & E & Eq).
  unfold data_spec, pre_of. cbn [fst snd]. rewrite E. split; [reflexivity|]. split; [|reflexivity]. exists q. split; [reflexivity | exact Eq].
Qed.

Lemma l0linf_form keep rows : numeric_rows rows ->
  l0linf_bounded keep rows =
  Ok (entries_of (fun u => filter keep (partitions_of u rows))
        (fun u k => pre_of (values_in u k rows) (length (partitions_of u rows))) (id_list rows)).
Proof.
  intro A. unfold l0linf_bounded, collect_values, map_values, entries_of.
  rewrite group_by_key_normal, map_map. cbn [fst snd].
  replace (distinct (map fst (key_by_pid rows))) with (id_list rows)
    by (unfold id_list, key_by_pid; rewrite map_map; reflexivity).
  rewrite flat_map_map. cbn [fst snd].
  rewrite <- (map_id (flat_map (fun u => map _ (filter keep (partitions_of u rows))) (id_list rows))).
  rewrite <- (sequence_map_ok (fun x => x)). f_equal. rewrite map_flat_map. apply flat_map_ext_In. intros u _.
  rewrite group_by_key_normal. unfold key_by_pid. rewrite keys_nested, <- partitions_of_values, map_length, map_map.
  rewrite flat_map_map. cbn [fst snd].
  generalize (length (partitions_of u rows)). intro n.
  induction (partitions_of u rows) as [|k l IH]; [reflexivity|]. cbn [flat_map filter].
  destruct (keep k); cbn [app map]; rewrite IH; [|reflexivity]. f_equal.
  rewrite values_of_nested, <- values_in_of, preaggregated_ok by (apply numeric_values; exact A). reflexivity.
Qed.

Lemma linf_bounded_form keep rows : numeric_rows rows ->
  exists col, linf_bounded keep rows = Ok col /\
  let rows1 := filter (fun r => keep (snd (fst r))) rows in
  Permutation col (entries_of (fun u => partitions_of u rows1) (fun u k => pre_of (values_in u k rows1) 1) (id_list rows1)).
Proof.
  intro A. unfold linf_bounded. set (rows1 := filter (fun r => keep (snd (fst r))) rows).
  assert (A1 : numeric_rows rows1) by (apply numeric_filter; exact A).
  rewrite key_by_pid_pk_id, group_by_key_normal, map_map. cbn [fst snd].
  eexists. split.
  - rewrite (map_ext _ (fun x => Ok (x, pre_of (values_of x rows1) 1))).
    + apply sequence_map_ok.
    + intros [u k]. rewrite <- values_in_of, preaggregated_ok by (apply numeric_values; exact A1). reflexivity.
  - cbn zeta. unfold entries_of. rewrite <- (pairs_Permutation (map fst rows1)). unfold pairs. rewrite map_flat_map, id_list_keys.
    apply Permutation_refl'. apply flat_map_ext_In. intros u _. rewrite map_map, <- partitions_of_values. apply map_ext. intro k.
    rewrite values_in_of. reflexivity.
Qed.

Lemma flat_map_filter {A B} (c : A -> bool) (f : A -> B) l :
  flat_map (fun x => if c x then [f x] else []) l = map f (filter c l).
Proof. induction l as [|x l IH]; [reflexivity|]. cbn. destruct (c x); cbn; rewrite IH; reflexivity. Qed.

Lemma filter_ids k rows : Permutation (filter (fun u => mem k (partitions_of u rows)) (id_list rows)) (ids_of k rows).
Proof.
  apply NoDup_Permutation; [apply NoDup_filter, NoDup_distinct | apply NoDup_distinct |].
  intro u. rewrite filter_In, mem_true_iff, in_partitions_of. unfold id_list, ids_of. rewrite !in_distinct. split.
  - intros [_ I]. apply in_map_iff in I. destruct I as ([[u' k'] v] & E & I). cbn in E. injection E as -> ->.
    apply in_map_iff. exists (u, k, v). split; [reflexivity|]. apply filter_In. split; [exact I|]. cbn. apply eqb_refl.
  - intro I. apply in_map_iff in I. destruct I as ([[u' k'] v] & E & I). cbn in E. subst u'. apply filter_In in I.
    destruct I as [I E]. cbn in E. apply ListLemmas.eqb_eq in E. subst k'. split.
    + apply in_map_iff. exists (u, k, v). split; [reflexivity | exact I].
    + apply in_map_iff. exists (u, k, v). split; [reflexivity | exact I].
Qed.

Lemma values_in_sampled keep u k rows : keep k = true -> values_in u k (filter (fun r => keep (snd (fst r))) rows) = values_in u k rows.
Proof.
  intro K. unfold values_in. f_equal. induction rows as [|r rows IH]; [reflexivity|]. cbn [filter].
  destruct (keep (snd (fst r))) eqn:E; cbn [filter]; rewrite IH; [reflexivity|].
  destruct (eqb (snd (fst r)) k) eqn:E'; [apply ListLemmas.eqb_eq in E'; congruence|]. rewrite andb_false_r. reflexivity.
Qed.
Lemma ids_of_sampled keep k rows : ids_of k (filter (fun r => keep (snd (fst r))) rows) = if keep k then ids_of k rows else [].
Proof.
  assert (E : filter (fun r => eqb (snd (fst r)) k) (filter (fun r => keep (snd (fst r))) rows) =
              if keep k then filter (fun r => eqb (snd (fst r)) k) rows else []).
  { induction rows as [|r rows IH]; [destruct (keep k); reflexivity|]. cbn [filter].
    destruct (keep (snd (fst r))) eqn:E; cbn [filter]; destruct (eqb (snd (fst r)) k) eqn:E'; rewrite IH; try reflexivity;
      apply ListLemmas.eqb_eq in E'; rewrite E' in E; rewrite E; reflexivity. }
  unfold ids_of. rewrite E. destruct (keep k); reflexivity.
Qed.

(** The elements of partition [k] after contribution bounding. *)
Lemma bounded_data (cross : bool) keep rows : numeric_rows rows ->
  exists col, (if cross then l0linf_bounded keep rows else linf_bounded keep rows) = Ok col /\
  forall k, exists ids ds, values_of k (map (fun e => (snd (fst e), snd e)) col) = ds /\
    Permutation ids (if keep k then ids_of k rows else []) /\ Forall2 (data_spec cross rows k) ids ds.
Proof.
  intro A. destruct cross.
  - rewrite l0linf_form by exact A. eexists. split; [reflexivity|]. intro k.
    exists (filter (fun u => mem k (filter keep (partitions_of u rows))) (id_list rows)).
    eexists. split; [reflexivity|]. rewrite values_of_entries by (intros u _; apply NoDup_filter, NoDup_distinct). split.
    + assert (E : forall u, mem k (filter keep (partitions_of u rows)) = keep k && mem k (partitions_of u rows)).
      { intro u. destruct (keep k) eqn:K; cbn [andb].
        - destruct (mem k (partitions_of u rows)) eqn:M.
          + apply mem_true_iff. apply filter_In. split; [apply mem_true_iff; exact M | exact K].
          + apply mem_false_iff. intro I. apply filter_In in I. apply mem_false_iff in M. apply M, I.
        - apply mem_false_iff. intro I. apply filter_In in I. destruct I. congruence. }
      rewrite (filter_ext _ _ E). destruct (keep k); cbn [andb]; [apply filter_ids|].
      rewrite filter_none by (intros; reflexivity). apply Permutation_refl.
    + rewrite flat_map_filter. induction (filter _ (id_list rows)) as [|u l IH]; constructor; [|exact IH].
      apply (pre_of_spec true). exact A.
  - destruct (linf_bounded_form keep rows A) as (col & E & Pc). exists col. split; [exact E|]. intro k. cbn zeta in Pc.
    set (rows1 := filter (fun r => keep (snd (fst r))) rows) in *.
    assert (A1 : numeric_rows rows1) by (apply numeric_filter; exact A).
    assert (Pv := values_of_Permutation k _ _ (Permutation_map (fun e => (snd (fst e), snd e)) Pc)).
    rewrite values_of_entries in Pv by (intros u _; apply NoDup_distinct). rewrite flat_map_filter in Pv.
    assert (F : Forall2 (fun d u => data_spec false rows k u d)
       (map (fun u => pre_of (values_in u k rows1) 1) (filter (fun u => mem k (partitions_of u rows1)) (id_list rows1)))
       (filter (fun u => mem k (partitions_of u rows1)) (id_list rows1))).
    { assert (K : forall u, In u (filter (fun u => mem k (partitions_of u rows1)) (id_list rows1)) -> keep k = true).
      { intros u I. apply (Permutation_in _ (filter_ids k rows1)) in I. unfold rows1 in I. rewrite ids_of_sampled in I.
        destruct (keep k); [reflexivity | destruct I]. }
      clear Pv. induction (filter _ (id_list rows1)) as [|u l IH]; [constructor|]. cbn [map]. constructor; [|apply IH; intros; eapply K; right; eassumption].
      unfold rows1. rewrite values_in_sampled by (apply (K u); left; reflexivity). apply (pre_of_spec false). exact A. }
    destruct (Permutation_Forall2 (Permutation_sym Pv) F) as (ids & Pi & F').
    exists ids. eexists. split; [reflexivity|]. split.
    + eapply perm_trans; [apply Permutation_sym, Pi|]. eapply perm_trans; [apply filter_ids|]. unfold rows1. rewrite ids_of_sampled. apply Permutation_refl.
    + clear -F'. induction F'; constructor; auto.
Qed.

Lemma counted_drop p public rows : drop_non_public p public rows = counted p public rows.
Proof.
  unfold drop_non_public, counted. destruct public; [|reflexivity]. destruct (public_partitions_already_filtered p); [reflexivity|].
  apply drop_partitions_filter.
Qed.
Lemma numeric_counted p public rows : numeric_rows rows -> numeric_rows (counted p public rows).
Proof. intro A. unfold counted. destruct public; [|exact A]. destruct (public_partitions_already_filtered p); [exact A|]. apply numeric_filter. exact A. Qed.

Lemma counted_drop_any {W V} p public (rows : list (W * P * V)) : drop_non_public p public rows = counted p public rows.
Proof.
  unfold drop_non_public, counted. destruct public; [|reflexivity]. destruct (public_partitions_already_filtered p); [reflexivity|].
  apply drop_partitions_filter.
Qed.

(** Every element comes from a row of the same partition. *)
Lemma sequence_In {A} (l : list (result A)) l' x : sequence l = Ok l' -> In x l' -> In (Ok x) l.
Proof.
  revert l'. induction l as [|y l IH]; intros l' E I; cbn in E; [injection E as <-; destruct I|].
  destruct y as [a|]; [|discriminate]. cbn in E. destruct (sequence l) as [l2|]; [|discriminate]. cbn in E. injection E as <-.
  destruct I as [->|I]; [left; reflexivity | right; apply (IH l2 eq_refl I)].
Qed.
Lemma bounded_keys keep rows col : l0linf_bounded keep rows = Ok col ->
  forall e, In e col -> exists r, In r rows /\ snd (fst r) = snd (fst e).
Proof.
  intros E e I. unfold l0linf_bounded in E. apply (sequence_In _ _ e E) in I.
  apply in_flat_map in I. destruct I as ([u kvs] & I1 & I). apply in_flat_map in I. destruct I as ([k vs] & I2 & I).
  cbn [fst snd] in *. destruct (keep k); [|destruct I]. destruct I as [Ee|[]].
  destruct (preaggregated vs (length kvs)) as [d|]; [|discriminate]. cbn in Ee. injection Ee as <-. cbn [fst snd].
  unfold collect_values, map_values in I1. rewrite group_by_key_normal, map_map in I1. cbn [fst snd] in I1.
  apply in_map_iff in I1. destruct I1 as (u' & Eu & Iu). injection Eu as -> <-.
  rewrite group_by_key_normal in I2. apply in_map_iff in I2. destruct I2 as (k' & Ek & Ik). injection Ek as -> <-.
  unfold key_by_pid in Ik. rewrite keys_nested, <- partitions_of_values in Ik. apply in_partitions_of in Ik.
  apply in_map_iff in Ik. destruct Ik as (r & Er & Ir). exists r. split; [exact Ir|]. rewrite Er. reflexivity.
Qed.

Definition times_public (k : P) (public : option (list P)) : nat :=
  match public with Some pub => length (filter (eqb k) pub) | None => 0 end.

Lemma values_of_empties (k : P) (pub : list P) :
  values_of k (map (fun k => (k, @None pre)) pub) = repeat None (length (filter (eqb k) pub)).
Proof.
  unfold values_of. induction pub as [|x pub IH]; [reflexivity|]. cbn [map filter fst]. rewrite (eqb_sym x k).
  destruct (eqb k x); cbn [map length repeat snd]; rewrite IH; reflexivity.
Qed.
Lemma values_of_map_snd {A B} (f : A -> B) k (l : list (P * A)) : values_of k (map (fun kd => (fst kd, f (snd kd))) l) = map f (values_of k l).
Proof.
  unfold values_of. rewrite filter_map, !map_map. cbn [fst snd]. reflexivity.
Qed.

Lemma analysed_data p hash rate public rows : numeric_rows rows ->
  let cross := perform_cross_partition_contribution_bounding p in
  let rows1 := counted p public rows in
  exists contribs, analysed p hash rate public (Raw rows) = Ok contribs /\
  forall k, exists ids ds, values_of k contribs = map Some ds ++ repeat None (times_public k public) /\
    Permutation ids (if partition_kept hash rate k then ids_of k rows1 else []) /\ Forall2 (data_spec cross rows1 k) ids ds.
Proof.
  intros A cross rows1. unfold analysed. rewrite counted_drop. fold rows1. fold cross.
  destruct (bounded_data cross (partition_kept hash rate) rows1 (numeric_counted _ _ _ A)) as (col & -> & F).
  cbn [rmap]. eexists. split; [reflexivity|]. intro k. destruct (F k) as (ids & ds & E & Pi & D). exists ids, ds.
  split; [|split; assumption].
  destruct public as [[|k0 pub]|]; unfold add_empty_public_partitions.
  - rewrite values_of_map_snd, E, app_nil_r. reflexivity.
  - rewrite values_of_app, values_of_map_snd, E, values_of_empties. reflexivity.
  - rewrite values_of_map_snd, E, app_nil_r. reflexivity.
Qed.

Lemma given_Permutation l l' : Permutation l l' -> Permutation (given l) (given l').
Proof. unfold given. apply Permutation_flat_map. Qed.
Lemma given_somes ds n : given (map Some ds ++ repeat None n) = ds.
Proof.
  unfold given. rewrite flat_map_app, flat_map_map.
  assert (E : flat_map (fun d : option pre => match d with Some x => [x] | None => [] end) (repeat None n) = []) by (induction n; auto).
  rewrite E, app_nil_r. induction ds as [|d ds IH]; [reflexivity|]. cbn. f_equal. exact IH.
Qed.

Lemma plan_data p hash rate public rows contribs plan : numeric_rows rows ->
  analysed p hash rate public (Raw rows) = Ok contribs -> reduce_plan contribs plan ->
  let cross := perform_cross_partition_contribution_bounding p in
  let rows1 := counted p public rows in
  (forall k, In k (map fst plan) <->
     (exists pub, public = Some pub /\ In k pub) \/ (partition_kept hash rate k = true /\ ids_of k rows1 <> [])) /\
  forall k t, In (k, t) plan ->
  empties_number (leaves t) = times_public k public /\
  exists ids, Permutation ids (if partition_kept hash rate k then ids_of k rows1 else []) /\
    Forall2 (data_spec cross rows1 k) ids (given (leaves t)).
Proof.
  intros A E Pl cross rows1. destruct (analysed_data p hash rate public rows A) as (contribs' & E' & F).
  assert (contribs' = contribs) by congruence. subst contribs'. clear E'. fold cross rows1 in F.
  destruct Pl as (ND & K & V). split.
  - intro k. rewrite K. destruct (F k) as (ids & ds & Ev & Pi & D).
    assert (X : In k (map fst contribs) <-> values_of k contribs <> []).
    { split; [intros I N; apply values_of_nil_iff in N; contradiction|].
      intro N. destruct (in_dec eq_dec k (map fst contribs)) as [I|I]; [exact I|]. exfalso. apply N, values_of_nil_iff. exact I. }
    rewrite X, Ev. split.
    + intro N. destruct (times_public k public) as [|n] eqn:Et.
      * right. cbn [repeat] in N. rewrite app_nil_r in N. destruct ds as [|d ds]; [exfalso; apply N; reflexivity|]. inversion D; subst.
        destruct (partition_kept hash rate k); [split; [reflexivity|]|].
        -- intro Z. rewrite Z in Pi. apply Permutation_sym, Permutation_nil in Pi. discriminate.
        -- apply Permutation_sym, Permutation_nil in Pi. discriminate.
      * left. unfold times_public in Et. destruct public as [pub|]; [|discriminate]. exists pub. split; [reflexivity|].
        destruct (filter (eqb k) pub) as [|x l] eqn:El; [discriminate|].
        assert (I : In x (filter (eqb k) pub)) by (rewrite El; left; reflexivity). apply filter_In in I. destruct I as [I Ex].
        apply ListLemmas.eqb_eq in Ex. subst. exact I.
    + intros [(pub & -> & I)|[Kk N]] Z; apply app_eq_nil in Z; destruct Z as [Z1 Z2].
      * assert (I' : In k (filter (eqb k) pub)) by (apply filter_In; split; [exact I | apply eqb_refl]).
        cbn [times_public] in Z2. destruct (filter (eqb k) pub); [destruct I' | discriminate].
      * rewrite Kk in Pi. destruct ds; [|discriminate]. inversion D; subst. apply Permutation_nil in Pi. exact (N Pi).
  - intros k t I. specialize (V k t I). destruct (F k) as (ids & ds & Ev & Pi & D). rewrite Ev in V. split.
    + unfold empties_number. rewrite (Permutation_length (filter_Permutation _ _ _ V)). rewrite filter_app, app_length.
      rewrite filter_none, (filter_all _ (repeat None _)).
      * rewrite repeat_length. reflexivity.
      * intros x Ix. apply repeat_spec in Ix. subst x. reflexivity.
      * intros x Ix. apply in_map_iff in Ix. destruct Ix as (d & <- & _). reflexivity.
    + assert (G := given_Permutation _ _ (Permutation_sym V)). rewrite given_somes in G.
      assert (D' : Forall2 (fun d u => data_spec cross rows1 k u d) ds ids) by (clear -D; induction D; constructor; auto).
      destruct (Permutation_Forall2 G D') as (ids' & Pi' & F'). exists ids'. split.
      * eapply perm_trans; [apply Permutation_sym, Pi' | exact Pi].
      * clear -F'. induction F'; constructor; auto.
Qed.
End Data.
