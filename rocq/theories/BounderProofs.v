(** Lemmas about contribution bounding. *)
From Coq Require Import List ZArith Bool Permutation PeanoNat Lia.
From Verif Require Import Base BackendModel BackendSpec ListLemmas BackendProofs BounderModel BounderSpec.
Import ListNotations.

Lemma key_by_pid_pk_id {U P V} (rows : list (U * P * V)) : key_by_pid_pk rows = rows.
Proof.
  unfold key_by_pid_pk. rewrite (map_ext _ (fun x => x)); [apply map_id|].
  intros [[u p] v]. reflexivity.
Qed.

Lemma key_values_values_of {K V} `{EqDec K} (k : K) (col : list (K * V)) :
  key_values k col = values_of k col.
Proof. reflexivity. Qed.

Lemma in_keys {K V} (k : K) (v : V) l : In (k, v) l -> In k (map fst l).
Proof. intro Hin. apply in_map_iff. exists (k, v). auto. Qed.

Lemma keys_in {K V} (k : K) (l : list (K * V)) : In k (map fst l) -> exists v, In (k, v) l.
Proof.
  intro Hin. apply in_map_iff in Hin. destruct Hin as [[k' v] [E Hin]]. cbn in E. subst. eauto.
Qed.

Lemma filter_key_one {K V} `{EqDec K} (k : K) (v : V) l :
  NoDup (map fst l) -> In (k, v) l -> filter (fun x => eqb (fst x) k) l = [(k, v)].
Proof.
  induction l as [|[k' v'] l IH]; intros N Hin; [destruct Hin|].
  inversion N as [|? ? Na Nl]; subst. cbn [filter fst]. destruct Hin as [E|Hin].
  - inversion E; subst. rewrite eqb_refl. f_equal. apply filter_none.
    intros [a b] Hab. apply eqb_false_iff. cbn. intro E'. subst. apply Na. eapply in_keys. exact Hab.
  - destruct (eqb k' k) eqn:Ek.
    + apply eqb_eq in Ek. subst. exfalso. apply Na. eapply in_keys. exact Hin.
    + apply IH; assumption.
Qed.

Lemma filter_key_none {K V} `{EqDec K} (k : K) (l : list (K * V)) :
  ~ In k (map fst l) -> filter (fun x => eqb (fst x) k) l = [].
Proof.
  intro N. apply filter_none. intros [a b] Hab. apply eqb_false_iff. cbn. intro E. subst.
  apply N. eapply in_keys. exact Hab.
Qed.

Lemma NoDup_keys_functional {K V} (l : list (K * V)) k v v' :
  NoDup (map fst l) -> In (k, v) l -> In (k, v') l -> v = v'.
Proof.
  induction l as [|[a b] l IH]; intros N Hv Hv'; [destruct Hv|].
  inversion N as [|? ? Na Nl]; subst. destruct Hv as [E|Hv], Hv' as [E'|Hv'].
  - congruence.
  - inversion E; subst. exfalso. apply Na. eapply in_keys. exact Hv'.
  - inversion E'; subst. exfalso. apply Na. eapply in_keys. exact Hv.
  - eapply IH; eassumption.
Qed.

(** ** Local backend meets the contracts *)
Lemma sample_is_sample {K V} `{EqDec K} (ch : source K) n (col : list (K * V)) :
  valid_source n ch -> is_sample n col (sample_fixed_per_key ch n col).
Proof.
  intro Vs. unfold is_sample. rewrite sample_keys. split; [apply NoDup_distinct|].
  split; [intro k; apply in_distinct|].
  intros k vs Hin. apply in_sample in Hin. destruct Hin as [_ ->].
  split.
  - apply choose_length. intro L. apply Vs. exact L.
  - apply choose_submset. intro L. apply Vs. exact L.
Qed.

Lemma group_is_grouping {K V} `{EqDec K} (col : list (K * V)) :
  is_grouping col (group_by_key col).
Proof.
  unfold is_grouping. rewrite group_by_key_keys. split; [apply NoDup_distinct|].
  split; [intro k; apply in_distinct|].
  intros k vs Hin. apply in_group_by_key in Hin. destruct Hin as [_ ->]. apply Permutation_refl.
Qed.

(** ** unnest *)
Lemma in_unnest {U P A} (col : list (U * list (P * A))) u p a :
  In ((u, p), a) (unnest col) <-> exists pas, In (u, pas) col /\ In (p, a) pas.
Proof.
  unfold unnest. rewrite in_flat_map. split.
  - intros [[u' pas] [Hin Hm]]. apply in_map_iff in Hm. destruct Hm as [[p' a'] [E Hp]].
    cbn in *. inversion E; subst. eauto.
  - intros [pas [Hin Hp]]. exists (u, pas). split; [exact Hin|]. apply in_map_iff.
    exists (p, a). auto.
Qed.

Lemma unnest_NoDup {U P A} (col : list (U * list (P * A))) :
  NoDup (map fst col) -> (forall u pas, In (u, pas) col -> NoDup (map fst pas)) ->
  NoDup (map fst (unnest col)).
Proof.
  intros N G. unfold unnest. rewrite map_flat_map.
  assert (Nc : NoDup col) by (eapply NoDup_map_inv; exact N).
  apply NoDup_flat_map; [exact Nc| |].
  - intros [u pas] Hin. rewrite map_map. cbn [fst snd].
    rewrite <- (map_map fst (fun p => (u, p))). apply NoDup_map_inj; [congruence|].
    eapply G. exact Hin.
  - intros [u pas] [u' pas'] z Hx Hy Hz Hz'.
    rewrite map_map in Hz, Hz'. apply in_map_iff in Hz, Hz'.
    destruct Hz as [? [E _]], Hz' as [? [E' _]]. cbn in E, E'.
    assert (u = u') by congruence. subst. f_equal. eapply NoDup_keys_functional; eassumption.
Qed.

Lemma kept_of_unnest {U P A} `{EqDec U} (u : U) (col : list (U * list (P * A))) :
  kept_of u (unnest col) =
  map (fun pv => ((u, fst pv), snd pv)) (flat_map snd (filter (fun x => eqb (fst x) u) col)).
Proof.
  unfold kept_of, unnest. induction col as [|[u' pas] col IH]; [reflexivity|].
  cbn [flat_map filter fst snd]. rewrite filter_app, IH. destruct (eqb u' u) eqn:E.
  - apply eqb_eq in E. subst. cbn [flat_map snd]. rewrite map_app. f_equal.
    apply filter_all. intros x Hx. apply in_map_iff in Hx. destruct Hx as [? [Ex _]]. subst. apply eqb_refl.
  - rewrite filter_none; [reflexivity|].
    intros x Hx. apply in_map_iff in Hx. destruct Hx as [? [Ex _]]. subst. exact E.
Qed.

Lemma kept_of_unnest_in {U P A} `{EqDec U} (u : U) pas (col : list (U * list (P * A))) :
  NoDup (map fst col) -> In (u, pas) col ->
  kept_of u (unnest col) = map (fun pv => ((u, fst pv), snd pv)) pas.
Proof.
  intros N Hin. rewrite kept_of_unnest, (filter_key_one u pas) by assumption.
  cbn [flat_map snd]. rewrite app_nil_r. reflexivity.
Qed.

Lemma kept_of_unnest_out {U P A} `{EqDec U} (u : U) (col : list (U * list (P * A))) :
  ~ In u (map fst col) -> kept_of u (unnest col) = [].
Proof.
  intro N. rewrite kept_of_unnest, filter_key_none by assumption. reflexivity.
Qed.

Lemma kept_of_map_values {U P A B} `{EqDec U} (f : A -> B) u (out : list ((U * P) * A)) :
  kept_of u (map_values f out) = map_values f (kept_of u out).
Proof. unfold kept_of, map_values. rewrite filter_map. reflexivity. Qed.

(** ** Partitions of an id *)
Lemma in_partitions_of {U P V} `{EqDec U} `{EqDec P} (u : U) (p : P) (rows : list (U * P * V)) :
  In p (partitions_of u rows) <-> In (u, p) (map fst rows).
Proof.
  unfold partitions_of. rewrite in_distinct, !in_map_iff. split.
  - intros [[[u' p'] v] [E Hin]]. apply filter_In in Hin. destruct Hin as [Hin Eu]. cbn in *.
    apply eqb_eq in Eu. subst. exists (u, p, v). auto.
  - intros [[[u' p'] v] [E Hin]]. cbn in E. inversion E; subst. exists (u, p, v).
    split; [reflexivity|]. apply filter_In. split; [exact Hin|apply eqb_refl].
Qed.

Lemma partitions_of_nonempty {U P V} `{EqDec U} `{EqDec P} (u : U) (rows : list (U * P * V)) :
  partitions_of u rows <> [] -> In u (map fst (map fst rows)).
Proof.
  intro N. destruct (partitions_of u rows) as [|p ps] eqn:E; [congruence|].
  assert (Hp : In p (partitions_of u rows)) by (rewrite E; left; reflexivity).
  apply in_partitions_of in Hp. apply in_map_iff. exists (u, p). auto.
Qed.

Lemma partitions_of_empty {U P V} `{EqDec U} `{EqDec P} (u : U) (rows : list (U * P * V)) :
  ~ In u (map fst (map fst rows)) -> partitions_of u rows = [].
Proof.
  intro N. destruct (partitions_of u rows) as [|p ps] eqn:E; [reflexivity|].
  exfalso. apply N. apply (partitions_of_nonempty u rows). rewrite E. discriminate.
Qed.

(** Number of keyed entries of [u] when the keys are exactly the pairs of the rows. *)
Lemma pairs_count {U P V A} `{EqDec U} `{EqDec P} (u : U) (rows : list (U * P * V))
    (c : list ((U * P) * A)) :
  NoDup (map fst c) -> (forall k, In k (map fst c) <-> In k (map fst rows)) ->
  Permutation (map (fun e => snd (fst e)) (kept_of u c)) (partitions_of u rows).
Proof.
  intros N E. apply NoDup_Permutation.
  - unfold kept_of. rewrite <- (map_map fst snd).
    assert (N' := NoDup_map_fst_filter (fun e => eqb (fst (fst e)) u) c N).
    apply NoDup_map_inj; [|exact N'].
    intros [u1 p1] [u2 p2] H1 H2 Ep. cbn in Ep. subst.
    apply in_map_iff in H1, H2. destruct H1 as [x [E1 H1]], H2 as [y [E2 H2]].
    apply filter_In in H1, H2. destruct H1 as [_ H1], H2 as [_ H2].
    rewrite E1 in H1. rewrite E2 in H2. cbn in H1, H2. apply eqb_eq in H1, H2. congruence.
  - apply NoDup_distinct.
  - intro p. rewrite in_partitions_of, <- E. unfold kept_of. rewrite !in_map_iff. split.
    + intros [[[u' p'] a] [Ep Hin]]. apply filter_In in Hin. destruct Hin as [Hin Eu]. cbn in *.
      apply eqb_eq in Eu. subst. exists (u, p, a). auto.
    + intros [[[u' p'] a] [Ep Hin]]. cbn in Ep. inversion Ep; subst. exists (u, p, a).
      split; [reflexivity|]. apply filter_In. split; [exact Hin|apply eqb_refl].
Qed.

(** ** Cross- and per-partition bounding *)
Definition rekey_pid {U P A} (c : list ((U * P) * A)) : list (U * (P * A)) :=
  map (fun x => (fst (fst x), (snd (fst x), snd x))) c.

Lemma key_values_rekey {U P A} `{EqDec U} (u : U) (c : list ((U * P) * A)) :
  key_values u (rekey_pid c) = map (fun e => (snd (fst e), snd e)) (kept_of u c).
Proof.
  unfold key_values, rekey_pid, kept_of. rewrite filter_map, map_map. reflexivity.
Qed.

Lemma rekey_keys {U P A} (c : list ((U * P) * A)) : map fst (rekey_pid c) = map fst (map fst c).
Proof. unfold rekey_pid. rewrite !map_map. reflexivity. Qed.

Lemma in_map_values {K V W} (f : V -> W) (l : list (K * V)) k w :
  In (k, w) (map_values f l) <-> exists v, w = f v /\ In (k, v) l.
Proof.
  unfold map_values. rewrite in_map_iff. split.
  - intros [[k' v] [E Hin]]. cbn in E. inversion E; subst. eauto.
  - intros [v [-> Hin]]. exists (k, v). auto.
Qed.

Lemma same_pid_keys {U P A V} (c : list ((U * P) * A)) (rows : list (U * P * V)) :
  (forall k, In k (map fst c) <-> In k (map fst rows)) ->
  forall u, In u (map fst (map fst c)) <-> In u (map fst (map fst rows)).
Proof.
  intros E u. rewrite !in_map_iff. split; intros [x [Ex Hx]]; exists x; split; try exact Ex; apply E; exact Hx.
Qed.

Lemma cross_and_per_any_bounds {U P V A} `{EqDec U} `{EqDec P}
    l0 linf (agg : list V -> A) (rows : list (U * P * V)) out :
  bound_cross_and_per_any l0 linf agg rows out ->
  NoDup (map fst out) /\
  (forall u, length (kept_of u out) = Nat.min l0 (length (partitions_of u rows))) /\
  (forall u p a, In ((u, p), a) out ->
     In (u, p) (map fst rows) /\
     exists vs, a = agg vs /\ submset vs (values_of (u, p) rows) /\
                length vs = Nat.min linf (length (values_of (u, p) rows))).
Proof.
  intros [c1 [c4 [S1 [S4 Po]]]]. rewrite key_by_pid_pk_id in S1.
  destruct S1 as [N1 [K1 V1]].
  fold (rekey_pid (map_values agg c1)) in S4. destruct S4 as [N4 [K4 V4]].
  assert (N2 : NoDup (map fst (map_values agg c1))) by (rewrite map_values_keys; exact N1).
  assert (K2 : forall k, In k (map fst (map_values agg c1)) <-> In k (map fst rows))
    by (intro k; rewrite map_values_keys; apply K1).
  assert (G : forall u pas, In (u, pas) c4 -> NoDup (map fst pas)).
  { intros u pas Hin. destruct (V4 u pas Hin) as [_ Sub]. rewrite key_values_rekey in Sub.
    apply (submset_map fst) in Sub. rewrite map_map in Sub. cbn [fst] in Sub.
    eapply submset_NoDup; [exact Sub|].
    eapply Permutation_NoDup; [symmetry; apply (pairs_count u rows _ N2 K2)|]. apply NoDup_distinct. }
  split; [|split].
  - eapply Permutation_NoDup; [apply Permutation_map; symmetry; exact Po|].
    apply unnest_NoDup; assumption.
  - intro u.
    assert (Pk : Permutation (kept_of u out) (kept_of u (unnest c4))) by (apply filter_Permutation; exact Po).
    rewrite (Permutation_length Pk).
    destruct (in_dec eq_dec u (map fst c4)) as [Hu|Hu].
    + destruct (keys_in _ _ Hu) as [pas Hp]. rewrite (kept_of_unnest_in u pas) by assumption.
      rewrite map_length. destruct (V4 u pas Hp) as [L _]. rewrite L, key_values_rekey, map_length. f_equal.
      rewrite <- (map_length (fun e => snd (fst e))). apply Permutation_length.
      apply (pairs_count u rows _ N2 K2).
    + rewrite kept_of_unnest_out by exact Hu. rewrite partitions_of_empty; [cbn; lia|].
      intro Hin. apply Hu. apply K4. rewrite rekey_keys. apply (same_pid_keys _ rows K2). exact Hin.
  - intros u p a Hin. apply (Permutation_in _ Po) in Hin. apply in_unnest in Hin.
    destruct Hin as [pas [Hin Hpa]]. destruct (V4 u pas Hin) as [_ Sub].
    apply (submset_In _ _ _ Sub) in Hpa. rewrite key_values_rekey in Hpa.
    apply in_map_iff in Hpa. destruct Hpa as [[[u' p'] a'] [E Hk]]. cbn in E. inversion E; subst.
    unfold kept_of in Hk. apply filter_In in Hk. destruct Hk as [Hk Eu]. cbn in Eu.
    apply eqb_eq in Eu. subst. apply in_map_values in Hk. destruct Hk as [vs [-> Hc]].
    split; [apply K1; eapply in_keys; exact Hc|].
    destruct (V1 _ _ Hc) as [L Sub']. exists vs. auto.
Qed.

Lemma cross_and_per_local_any {U P V A} `{EqDec U} `{EqDec P}
    ch1 ch2 l0 linf (agg : list V -> A) (rows : list (U * P * V)) :
  valid_source linf ch1 -> valid_source l0 ch2 ->
  bound_cross_and_per_any l0 linf agg rows (bound_cross_and_per ch1 ch2 l0 linf agg rows).
Proof.
  intros V1 V2. eexists. eexists. split; [apply sample_is_sample; exact V1|].
  split; [apply sample_is_sample; exact V2|]. apply Permutation_refl.
Qed.

(** Normal form of the local bounder, for any source. *)
Lemma in_cross_and_per {U P V A} `{EqDec U} `{EqDec P}
    ch1 ch2 l0 linf (agg : list V -> A) (rows : list (U * P * V)) u p a :
  In ((u, p), a) (bound_cross_and_per ch1 ch2 l0 linf agg rows) ->
  exists pas, In (u, pas) (sample_fixed_per_key ch2 l0
     (rekey_pid (map_values agg (sample_fixed_per_key ch1 linf rows)))) /\ In (p, a) pas.
Proof.
  unfold bound_cross_and_per. rewrite key_by_pid_pk_id, in_unnest. intro E. exact E.
Qed.

(** ** The id's rows *)
Lemma as_rows_app {U P V} (a b : list ((U * P) * list V)) : as_rows (a ++ b) = as_rows a ++ as_rows b.
Proof. unfold as_rows. apply flat_map_app. Qed.

Lemma key_by_pid_keys {U P V} (rows : list (U * P * V)) :
  map fst (key_by_pid rows) = map fst (map fst rows).
Proof. unfold key_by_pid. rewrite !map_map. reflexivity. Qed.

Lemma key_values_pid {U P V} `{EqDec U} (u : U) (rows : list (U * P * V)) :
  key_values u (key_by_pid rows) = map (fun r => (snd (fst r), snd r)) (rows_of u rows).
Proof.
  unfold key_values, key_by_pid, rows_of. rewrite filter_map, map_map. reflexivity.
Qed.

Lemma values_of_rows_of {U P V} `{EqDec U} `{EqDec P} (u : U) p (rows : list (U * P * V)) :
  values_of p (map (fun r => (snd (fst r), snd r)) (rows_of u rows)) = values_of (u, p) rows.
Proof.
  unfold values_of, rows_of. rewrite filter_map, map_map. cbn [fst snd].
  rewrite filter_filter. f_equal. apply filter_ext_In. intros [[u' p'] v] _. cbn.
  unfold eqb. destruct (eq_dec (u', p') (u, p)) as [E|E]; destruct (eq_dec u' u); destruct (eq_dec p' p);
    cbn; congruence.
Qed.

Lemma as_rows_group {U P V} `{EqDec P} (u : U) (pvs : list (P * V)) :
  Permutation (as_rows (map (fun pv => ((u, fst pv), snd pv)) (group_by_key pvs)))
              (map (fun pv => (u, fst pv, snd pv)) pvs).
Proof.
  unfold as_rows. rewrite flat_map_map. cbn [fst snd].
  eapply Permutation_trans; [|apply Permutation_map; apply (group_by_key_ungroup pvs)].
  rewrite map_flat_map. apply flat_map_pointwise_Permutation. intros [p vs] _. cbn [fst snd].
  rewrite map_map. apply Permutation_refl.
Qed.

Lemma rows_of_back {U P V} `{EqDec U} (u : U) (rows : list (U * P * V)) :
  map (fun pv => (u, fst pv, snd pv)) (map (fun r => (snd (fst r), snd r)) (rows_of u rows)) = rows_of u rows.
Proof.
  rewrite map_map. rewrite (map_ext_in _ (fun x => x)); [apply map_id|].
  intros [[u' p] v] Hin. apply filter_In in Hin. destruct Hin as [_ E]. cbn in E |- *.
  apply eqb_eq in E. subst. reflexivity.
Qed.

Lemma kept_collect {U P V} `{EqDec U} `{EqDec P} (u : U) (c1 : list (U * list (P * V))) :
  NoDup (map fst c1) ->
  kept_of u (unnest (collect_values c1)) =
  match filter (fun x => eqb (fst x) u) c1 with
  | [] => []
  | (_, pvs) :: _ => map (fun pv => ((u, fst pv), snd pv)) (group_by_key pvs)
  end.
Proof.
  intro N. destruct (in_dec eq_dec u (map fst c1)) as [Hu|Hu].
  - destruct (keys_in _ _ Hu) as [pvs Hp]. rewrite (filter_key_one u pvs) by assumption.
    apply kept_of_unnest_in.
    + unfold collect_values. rewrite map_values_keys. exact N.
    + unfold collect_values. apply in_map_values. eauto.
  - rewrite filter_key_none by exact Hu. apply kept_of_unnest_out.
    unfold collect_values. rewrite map_values_keys. exact Hu.
Qed.

Lemma unnest_collect_NoDup {U P V} `{EqDec P} (c1 : list (U * list (P * V))) :
  NoDup (map fst c1) -> NoDup (map fst (unnest (collect_values c1))).
Proof.
  intro N. apply unnest_NoDup.
  - unfold collect_values. rewrite map_values_keys. exact N.
  - intros u pas Hin. apply in_map_values in Hin. destruct Hin as [pvs [-> _]].
    rewrite group_by_key_keys. apply NoDup_distinct.
Qed.

(** ** Total contribution bounding *)
Lemma per_privacy_id_any_bounds {U P V A} `{EqDec U} `{EqDec P}
    m (agg : list V -> A) (rows : list (U * P * V)) out :
  bound_per_privacy_id_any m agg rows out ->
  exists kept, Permutation out (map_values agg kept) /\
    NoDup (map fst kept) /\
    (forall k vs, In (k, vs) kept -> vs <> []) /\
    (forall u, submset (as_rows (kept_of u kept)) (rows_of u rows) /\
               length (as_rows (kept_of u kept)) = Nat.min m (length (rows_of u rows))).
Proof.
  intros [c1 [[N1 [K1 V1]] Po]]. exists (unnest (collect_values c1)).
  split; [exact Po|]. split; [apply unnest_collect_NoDup; exact N1|]. split.
  - intros [u p] vs Hin. apply in_unnest in Hin. destruct Hin as [pas [Hin Hp]].
    apply in_map_values in Hin. destruct Hin as [pvs [-> Hin]]. eapply group_nonempty. exact Hp.
  - intro u. rewrite kept_collect by exact N1.
    destruct (in_dec eq_dec u (map fst c1)) as [Hu|Hu].
    + destruct (keys_in _ _ Hu) as [pvs Hp]. rewrite (filter_key_one u pvs) by assumption.
      destruct (V1 u pvs Hp) as [L Sub]. rewrite key_values_pid in L, Sub.
      pose proof (as_rows_group u pvs) as Pg. split.
      * eapply submset_trans; [apply submset_Permutation; exact Pg|].
        apply (submset_map (fun pv => (u, fst pv, snd pv))) in Sub. rewrite rows_of_back in Sub. exact Sub.
      * rewrite (Permutation_length Pg), map_length, L, map_length. reflexivity.
    + rewrite filter_key_none by exact Hu. cbn.
      assert (E : rows_of u rows = []).
      { apply filter_none. intros [[u' p] v] Hin. apply eqb_false_iff. cbn. intro E. subst.
        apply Hu, K1. rewrite key_by_pid_keys. apply in_map_iff. exists (u, p).
        split; [reflexivity|]. eapply in_keys. exact Hin. }
      rewrite E. split; [apply submset_nil|]. cbn. lia.
Qed.

Lemma per_privacy_id_local_any {U P V A} `{EqDec U} `{EqDec P}
    ch m (agg : list V -> A) (rows : list (U * P * V)) :
  valid_source m ch -> bound_per_privacy_id_any m agg rows (bound_per_privacy_id ch m agg rows).
Proof.
  intro Vs. eexists. split; [apply sample_is_sample; exact Vs|]. apply Permutation_refl.
Qed.

(** ** Cross-partition bounding *)
Lemma collect_sample_in {U P V} `{EqDec U} `{EqDec P}
    (rows : list (U * P * V)) (c1 : list (U * list (P * V))) u pvs :
  is_grouping (key_by_pid rows) c1 -> In (u, pvs) c1 ->
  Permutation (map fst (group_by_key pvs)) (partitions_of u rows) /\
  (forall p vs, In (p, vs) (group_by_key pvs) ->
     In (u, p) (map fst rows) /\ Permutation vs (values_of (u, p) rows)).
Proof.
  intros [N1 [K1 V1]] Hin. specialize (V1 u pvs Hin). rewrite key_values_pid in V1.
  assert (Kp : forall p, In p (map fst pvs) <-> In (u, p) (map fst rows)).
  { intro p. rewrite <- in_partitions_of. unfold partitions_of. rewrite in_distinct.
    fold (rows_of u rows).
    assert (Pk := Permutation_map fst V1). rewrite map_map in Pk. cbn [fst] in Pk.
    split; intro Hp; [eapply Permutation_in; [exact Pk|exact Hp]
                     |eapply Permutation_in; [symmetry; exact Pk|exact Hp]]. }
  split.
  - rewrite group_by_key_keys. apply NoDup_Permutation; [apply NoDup_distinct|apply NoDup_distinct|].
    intro p. rewrite in_distinct, Kp, in_partitions_of. tauto.
  - intros p vs Hp. apply in_group_by_key in Hp. destruct Hp as [Hp ->].
    split; [apply Kp; exact Hp|]. rewrite <- values_of_rows_of.
    apply values_of_Permutation. exact V1.
Qed.

Lemma cross_partition_any_bounds {U P V A} `{EqDec U} `{EqDec P}
    ch l0 (agg : list V -> A) (rows : list (U * P * V)) out :
  valid_source l0 ch ->
  bound_cross_partition_any ch l0 agg rows out ->
  NoDup (map fst out) /\
  (forall u, length (kept_of u out) = Nat.min l0 (length (partitions_of u rows))) /\
  (forall u p a, In ((u, p), a) out ->
     In (u, p) (map fst rows) /\
     exists vs, a = agg vs /\ Permutation vs (values_of (u, p) rows)).
Proof.
  intros Vs [c1 [G Po]]. pose proof G as [N1 [K1 V1]].
  set (c3 := map (fun x => (fst x, choose (ch (fst x) (length (snd x))) l0 (snd x))) (collect_values c1)) in *.
  assert (Kc3 : map fst c3 = map fst c1).
  { unfold c3, collect_values. rewrite map_map. cbn [fst]. apply map_values_keys. }
  assert (N3 : NoDup (map fst c3)) by (rewrite Kc3; exact N1).
  assert (I3 : forall u pas, In (u, pas) c3 -> exists pvs, In (u, pvs) c1 /\
               pas = choose (ch u (length (group_by_key pvs))) l0 (group_by_key pvs)).
  { intros u pas Hin. unfold c3 in Hin. apply in_map_iff in Hin. destruct Hin as [[u' g] [E Hin]].
    cbn in E. inversion E; subst. apply in_map_values in Hin. destruct Hin as [pvs [-> Hin]]. eauto. }
  assert (S3 : forall u pas pvs, pas = choose (ch u (length (group_by_key pvs))) l0 (group_by_key pvs) ->
               submset pas (@group_by_key P V _ pvs)).
  { intros u pas pvs ->. apply choose_submset. intro L. apply Vs. exact L. }
  assert (ND : forall u pas, In (u, pas) c3 -> NoDup (map fst pas)).
  { intros u pas Hin. destruct (I3 u pas Hin) as [pvs [Hc E]]. apply S3 in E.
    apply (submset_map fst) in E. rewrite group_by_key_keys in E.
    eapply submset_NoDup; [exact E|apply NoDup_distinct]. }
  split; [|split].
  - eapply Permutation_NoDup; [apply Permutation_map; symmetry; exact Po|].
    rewrite map_values_keys. apply unnest_NoDup; assumption.
  - intro u.
    assert (Pk : Permutation (kept_of u out) (kept_of u (map_values agg (unnest c3)))) by (apply filter_Permutation; exact Po).
    rewrite (Permutation_length Pk), kept_of_map_values. unfold map_values. rewrite map_length.
    destruct (in_dec eq_dec u (map fst c3)) as [Hu|Hu].
    + destruct (keys_in _ _ Hu) as [pas Hp]. rewrite (kept_of_unnest_in u pas) by assumption.
      rewrite map_length. destruct (I3 u pas Hp) as [pvs [Hc ->]].
      rewrite choose_length by (intro L; apply Vs; exact L). f_equal.
      rewrite <- (map_length fst). apply Permutation_length.
      apply (collect_sample_in rows c1 u pvs G Hc).
    + rewrite kept_of_unnest_out by exact Hu. rewrite partitions_of_empty; [cbn; lia|].
      intro Hin. apply Hu. rewrite Kc3. apply K1. rewrite key_by_pid_keys. exact Hin.
  - intros u p a Hin. apply (Permutation_in _ Po) in Hin. apply in_map_values in Hin.
    destruct Hin as [vs [-> Hin]]. apply in_unnest in Hin. destruct Hin as [pas [Hin Hp]].
    destruct (I3 u pas Hin) as [pvs [Hc E]]. apply S3 in E. apply (submset_In _ _ _ E) in Hp.
    destruct (collect_sample_in rows c1 u pvs G Hc) as [_ Hval]. destruct (Hval p vs Hp) as [Hk Pv].
    split; [exact Hk|]. exists vs. auto.
Qed.

Lemma cross_partition_local_any {U P V A} `{EqDec U} `{EqDec P}
    ch l0 (agg : list V -> A) (rows : list (U * P * V)) :
  bound_cross_partition_any ch l0 agg rows (bound_cross_partition ch l0 agg rows).
Proof. eexists. split; [apply group_is_grouping|]. apply Permutation_refl. Qed.

(** The local backend keeps the order of values. *)
Lemma cross_partition_local_exact {U P V A} `{EqDec U} `{EqDec P}
    ch l0 (agg : list V -> A) (rows : list (U * P * V)) u p a :
  valid_source l0 ch ->
  In ((u, p), a) (bound_cross_partition ch l0 agg rows) -> a = agg (values_of (u, p) rows).
Proof.
  intros Vs Hin. unfold bound_cross_partition in Hin. apply in_map_values in Hin.
  destruct Hin as [vs [-> Hin]]. apply in_unnest in Hin. destruct Hin as [pas [Hin Hp]].
  apply in_map_iff in Hin. destruct Hin as [[u' g] [E Hin]]. cbn in E. inversion E; subst.
  apply in_map_values in Hin. destruct Hin as [pvs [-> Hin]].
  apply in_group_by_key in Hin. destruct Hin as [_ ->].
  assert (Sub : submset (choose (ch u (length (group_by_key (values_of u (key_by_pid rows))))) l0
                  (group_by_key (values_of u (key_by_pid rows))))
                  (group_by_key (values_of u (key_by_pid rows)))).
  { apply choose_submset. intro L. apply Vs. exact L. }
  apply (submset_In _ _ _ Sub) in Hp. apply in_group_by_key in Hp. destruct Hp as [_ ->].
  rewrite <- key_values_values_of, key_values_pid, values_of_rows_of. reflexivity.
Qed.

(** ** Linf and no-op *)
Lemma linf_any_bounds {U P V A} `{EqDec U} `{EqDec P}
    linf (agg : list V -> A) (rows : list (U * P * V)) out :
  bound_linf_any linf agg rows out ->
  NoDup (map fst out) /\
  (forall k, In k (map fst out) <-> In k (map fst rows)) /\
  (forall k a, In (k, a) out ->
     exists vs, a = agg vs /\ submset vs (values_of k rows) /\
                length vs = Nat.min linf (length (values_of k rows))).
Proof.
  intros [c1 [[N1 [K1 V1]] Po]]. rewrite key_by_pid_pk_id in *.
  pose proof (Permutation_map fst Po) as Pk. rewrite map_values_keys in Pk.
  split; [|split].
  - eapply Permutation_NoDup; [symmetry; exact Pk|exact N1].
  - intro k. rewrite <- K1. split; intro Hk; eapply Permutation_in; try exact Hk; [exact Pk|symmetry; exact Pk].
  - intros k a Hin. apply (Permutation_in _ Po) in Hin. apply in_map_values in Hin.
    destruct Hin as [vs [-> Hin]]. destruct (V1 k vs Hin) as [L Sub]. exists vs. auto.
Qed.

Lemma linf_local_any {U P V A} `{EqDec U} `{EqDec P} ch linf (agg : list V -> A) (rows : list (U * P * V)) :
  valid_source linf ch -> bound_linf_any linf agg rows (bound_linf ch linf agg rows).
Proof.
  intro Vs. eexists. split; [apply sample_is_sample; exact Vs|]. apply Permutation_refl.
Qed.

Lemma noop_exact {U P V A} `{EqDec U} `{EqDec P} (agg : list V -> A) (rows : list (U * P * V)) :
  NoDup (map fst (bound_noop agg rows)) /\
  (forall k a, In (k, a) (bound_noop agg rows) <-> In k (map fst rows) /\ a = agg (values_of k rows)).
Proof.
  unfold bound_noop. rewrite key_by_pid_pk_id, map_values_keys, group_by_key_keys.
  split; [apply NoDup_distinct|]. intros k a. rewrite in_map_values. split.
  - intros [vs [-> Hin]]. apply in_group_by_key in Hin. destruct Hin as [Hk ->]. auto.
  - intros [Hk ->]. eexists. split; [reflexivity|]. apply in_group_by_key. auto.
Qed.

(** ** Nothing is lost within the limits (any random source) *)
Definition all_kept {U P V A} `{EqDec U} `{EqDec P} (agg : list V -> A)
    (rows : list (U * P * V)) (out : list ((U * P) * A)) : Prop :=
  NoDup (map fst out) /\
  (forall k a, In (k, a) out <-> In k (map fst rows) /\ a = agg (values_of k rows)).

Lemma sample_no_loss {K V} `{EqDec K} (ch : source K) n (col : list (K * V)) :
  (forall k, length (values_of k col) <= n) -> sample_fixed_per_key ch n col = group_by_key col.
Proof.
  intro L. rewrite sample_normal, group_by_key_normal. apply map_ext_in. intros k _.
  rewrite choose_small by apply L. reflexivity.
Qed.

Lemma linf_no_loss {U P V A} `{EqDec U} `{EqDec P} ch linf (agg : list V -> A) (rows : list (U * P * V)) :
  (forall k, length (values_of k rows) <= linf) -> all_kept agg rows (bound_linf ch linf agg rows).
Proof.
  intro L. unfold bound_linf. rewrite key_by_pid_pk_id, sample_no_loss by exact L.
  pose proof (noop_exact agg rows) as E. unfold bound_noop in E. rewrite key_by_pid_pk_id in E. exact E.
Qed.

Lemma cross_and_per_no_loss {U P V A} `{EqDec U} `{EqDec P}
    ch1 ch2 l0 linf (agg : list V -> A) (rows : list (U * P * V)) :
  (forall k, length (values_of k rows) <= linf) ->
  (forall u, length (partitions_of u rows) <= l0) ->
  all_kept agg rows (bound_cross_and_per ch1 ch2 l0 linf agg rows).
Proof.
  intros L1 L0. unfold bound_cross_and_per. rewrite key_by_pid_pk_id, (sample_no_loss ch1) by exact L1.
  fold (rekey_pid (map_values agg (group_by_key rows))).
  assert (Nk : NoDup (map fst (map_values agg (group_by_key rows))))
    by (rewrite map_values_keys, group_by_key_keys; apply NoDup_distinct).
  assert (Kk : forall k, In k (map fst (map_values agg (group_by_key rows))) <-> In k (map fst rows))
    by (intro k; rewrite map_values_keys, group_by_key_keys; apply in_distinct).
  rewrite sample_no_loss.
  - split.
    + apply unnest_NoDup; [rewrite group_by_key_keys; apply NoDup_distinct|].
      intros u pas Hin. apply in_group_by_key in Hin. destruct Hin as [_ ->].
      change (values_of u) with (@key_values U (P * A) _ u). rewrite key_values_rekey, map_map. cbn [fst].
      eapply Permutation_NoDup; [symmetry; apply (pairs_count u rows _ Nk Kk)|apply NoDup_distinct].
    + intros [u p] a. rewrite in_unnest. pose proof (noop_exact agg rows) as [_ E].
      unfold bound_noop in E. rewrite key_by_pid_pk_id in E. rewrite <- E. split.
      * intros [pas [Hin Hp]]. apply in_group_by_key in Hin. destruct Hin as [_ ->].
        change (values_of u) with (@key_values U (P * A) _ u) in Hp. rewrite key_values_rekey in Hp.
        apply in_map_iff in Hp. destruct Hp as [[[u' p'] a'] [Ep Hk]]. cbn in Ep. inversion Ep; subst.
        apply filter_In in Hk. destruct Hk as [Hk Eu]. cbn in Eu. apply eqb_eq in Eu. subst. exact Hk.
      * intro Hin. eexists. split.
        { apply in_group_by_key. split; [|reflexivity]. rewrite rekey_keys.
          apply in_map_iff. exists (u, p). split; [reflexivity|]. eapply in_keys. exact Hin. }
        change (values_of u) with (@key_values U (P * A) _ u). rewrite key_values_rekey.
        apply in_map_iff. exists (u, p, a). split; [reflexivity|]. apply filter_In.
        split; [exact Hin|apply eqb_refl].
  - intro u. change (values_of u) with (@key_values U (P * A) _ u). rewrite key_values_rekey, map_length.
    rewrite <- (map_length (fun e => snd (fst e))).
    rewrite (Permutation_length (pairs_count u rows _ Nk Kk)). apply L0.
Qed.

Lemma group_pid_all_kept {U P V A} `{EqDec U} `{EqDec P} (agg : list V -> A) (rows : list (U * P * V)) :
  all_kept agg rows (map_values agg (unnest (collect_values (group_by_key (key_by_pid rows))))).
Proof.
  split.
  - rewrite map_values_keys. apply unnest_collect_NoDup. rewrite group_by_key_keys. apply NoDup_distinct.
  - intros [u p] a. rewrite in_map_values. split.
    + intros [vs [-> Hin]]. apply in_unnest in Hin. destruct Hin as [pas [Hin Hp]].
      apply in_map_values in Hin. destruct Hin as [pvs [-> Hin]].
      apply in_group_by_key in Hin. destruct Hin as [_ ->].
      apply in_group_by_key in Hp. destruct Hp as [Hp ->].
      change (values_of u) with (@key_values U (P * V) _ u) in *. rewrite key_values_pid in *.
      rewrite values_of_rows_of. split; [|reflexivity].
      rewrite map_map in Hp. cbn [fst] in Hp. apply in_map_iff in Hp.
      destruct Hp as [[[u' p'] v] [E Hin]]. cbn in E. subst. apply filter_In in Hin.
      destruct Hin as [Hin Eu]. cbn in Eu. apply eqb_eq in Eu. subst. eapply in_keys. exact Hin.
    + intros [Hk ->]. exists (values_of (u, p) rows). split; [reflexivity|]. apply in_unnest.
      exists (group_by_key (values_of u (key_by_pid rows))). split.
      * apply in_map_values. eexists. split; [reflexivity|]. apply in_group_by_key.
        split; [|reflexivity]. rewrite key_by_pid_keys. apply in_map_iff. exists (u, p). auto.
      * apply in_group_by_key. change (values_of u) with (@key_values U (P * V) _ u).
        rewrite key_values_pid, values_of_rows_of. split; [|reflexivity].
        apply keys_in in Hk. destruct Hk as [v Hv].
        rewrite map_map. cbn [fst]. apply in_map_iff. exists (u, p, v). split; [reflexivity|].
        apply filter_In. split; [exact Hv|apply eqb_refl].
Qed.

Lemma per_privacy_id_no_loss {U P V A} `{EqDec U} `{EqDec P}
    ch m (agg : list V -> A) (rows : list (U * P * V)) :
  (forall u, length (rows_of u rows) <= m) -> all_kept agg rows (bound_per_privacy_id ch m agg rows).
Proof.
  intro L. unfold bound_per_privacy_id. rewrite sample_no_loss.
  - apply group_pid_all_kept.
  - intro u. change (values_of u) with (@key_values U (P * V) _ u). rewrite key_values_pid, map_length. apply L.
Qed.

Lemma cross_partition_no_loss {U P V A} `{EqDec U} `{EqDec P}
    ch l0 (agg : list V -> A) (rows : list (U * P * V)) :
  (forall u, length (partitions_of u rows) <= l0) -> all_kept agg rows (bound_cross_partition ch l0 agg rows).
Proof.
  intro L. unfold bound_cross_partition.
  assert (E : map (fun x => (fst x, choose (ch (fst x) (length (snd x))) l0 (snd x)))
                (collect_values (group_by_key (key_by_pid rows)))
              = collect_values (group_by_key (key_by_pid rows))).
  { rewrite (map_ext_in _ (fun x => x)); [apply map_id|]. intros [u g] Hin. cbn [fst snd].
    rewrite choose_small; [reflexivity|]. apply in_map_values in Hin. destruct Hin as [pvs [-> Hin]].
    destruct (collect_sample_in rows _ u pvs (group_is_grouping _) Hin) as [Pk _].
    rewrite <- (map_length fst), (Permutation_length Pk). apply L. }
  rewrite E. apply group_pid_all_kept.
Qed.

(** ** Removing privacy ids commutes with bounding (same random source) *)
Lemma unnest_filter {U P A} (q : U -> bool) (col : list (U * list (P * A))) :
  filter (fun e => q (fst (fst e))) (unnest col) = unnest (filter (fun x => q (fst x)) col).
Proof.
  unfold unnest. induction col as [|[u pas] col IH]; [reflexivity|].
  cbn [flat_map filter fst snd]. rewrite filter_app, IH. destruct (q u) eqn:E.
  - cbn [flat_map fst snd]. f_equal. apply filter_all. intros x Hx. apply in_map_iff in Hx.
    destruct Hx as [? [Ex _]]. subst. exact E.
  - rewrite filter_none; [reflexivity|]. intros x Hx. apply in_map_iff in Hx.
    destruct Hx as [? [Ex _]]. subst. exact E.
Qed.

Lemma map_values_filter {K V W} (f : V -> W) (q : K -> bool) (col : list (K * V)) :
  filter (fun e => q (fst e)) (map_values f col) = map_values f (filter (fun e => q (fst e)) col).
Proof. unfold map_values. rewrite filter_map. reflexivity. Qed.

Lemma rekey_filter {U P A} (q : U -> bool) (c : list ((U * P) * A)) :
  rekey_pid (filter (fun e => q (fst (fst e))) c) = filter (fun e => q (fst e)) (rekey_pid c).
Proof. unfold rekey_pid. rewrite filter_map. reflexivity. Qed.

Lemma key_by_pid_filter {U P V} (q : U -> bool) (rows : list (U * P * V)) :
  key_by_pid (filter (fun r => q (fst (fst r))) rows) = filter (fun e => q (fst e)) (key_by_pid rows).
Proof. unfold key_by_pid. rewrite filter_map. reflexivity. Qed.

Lemma cross_and_per_filter {U P V A} `{EqDec U} `{EqDec P} (q : U -> bool)
    ch1 ch2 l0 linf (agg : list V -> A) (rows : list (U * P * V)) :
  bound_cross_and_per ch1 ch2 l0 linf agg (filter (fun r => q (fst (fst r))) rows) =
  filter (fun e => q (fst (fst e))) (bound_cross_and_per ch1 ch2 l0 linf agg rows).
Proof.
  unfold bound_cross_and_per. rewrite !key_by_pid_pk_id.
  rewrite (sample_filter_keys ch1 linf (fun k => q (fst k))).
  rewrite <- (map_values_filter agg (fun k => q (fst k))).
  fold (rekey_pid (filter (fun e : U * P * A => q (fst (fst e))) (map_values agg (sample_fixed_per_key ch1 linf rows)))).
  rewrite rekey_filter, sample_filter_keys. symmetry. apply unnest_filter.
Qed.

Lemma collect_filter {U P V} `{EqDec P} (q : U -> bool) (c : list (U * list (P * V))) :
  collect_values (filter (fun x => q (fst x)) c) = filter (fun x => q (fst x)) (collect_values c).
Proof. unfold collect_values. rewrite map_values_filter. reflexivity. Qed.

Lemma per_privacy_id_filter {U P V A} `{EqDec U} `{EqDec P} (q : U -> bool)
    ch m (agg : list V -> A) (rows : list (U * P * V)) :
  bound_per_privacy_id ch m agg (filter (fun r => q (fst (fst r))) rows) =
  filter (fun e => q (fst (fst e))) (bound_per_privacy_id ch m agg rows).
Proof.
  unfold bound_per_privacy_id. rewrite key_by_pid_filter, sample_filter_keys, collect_filter.
  rewrite <- unnest_filter. symmetry. apply (map_values_filter agg (fun k => q (fst k))).
Qed.

Lemma cross_partition_filter {U P V A} `{EqDec U} `{EqDec P} (q : U -> bool)
    ch l0 (agg : list V -> A) (rows : list (U * P * V)) :
  bound_cross_partition ch l0 agg (filter (fun r => q (fst (fst r))) rows) =
  filter (fun e => q (fst (fst e))) (bound_cross_partition ch l0 agg rows).
Proof.
  unfold bound_cross_partition. rewrite key_by_pid_filter, group_by_key_filter_keys, collect_filter.
  rewrite (map_values_filter agg (fun k => q (fst k))). f_equal. rewrite unnest_filter. f_equal.
  rewrite filter_map. reflexivity.
Qed.

Lemma linf_filter {U P V A} `{EqDec U} `{EqDec P} (q : U -> bool)
    ch linf (agg : list V -> A) (rows : list (U * P * V)) :
  bound_linf ch linf agg (filter (fun r => q (fst (fst r))) rows) =
  filter (fun e => q (fst (fst e))) (bound_linf ch linf agg rows).
Proof.
  unfold bound_linf. rewrite !key_by_pid_pk_id, (sample_filter_keys ch linf (fun k => q (fst k))).
  symmetry. apply (map_values_filter agg (fun k => q (fst k))).
Qed.

Lemma noop_filter {U P V A} `{EqDec U} `{EqDec P} (q : U -> bool)
    (agg : list V -> A) (rows : list (U * P * V)) :
  bound_noop agg (filter (fun r => q (fst (fst r))) rows) =
  filter (fun e => q (fst (fst e))) (bound_noop agg rows).
Proof.
  unfold bound_noop. rewrite !key_by_pid_pk_id, (group_by_key_filter_keys (fun k => q (fst k))).
  symmetry. apply (map_values_filter agg (fun k => q (fst k))).
Qed.

Lemma cross_partition_local_bounds {U P V A} `{EqDec U} `{EqDec P}
    (ch : source U) (l0 : nat) (agg : list V -> A) (rows : list (U * P * V)) :
  valid_source l0 ch ->
  let out := bound_cross_partition ch l0 agg rows in
  NoDup (map fst out) /\
  (forall u, length (kept_of u out) = Nat.min l0 (length (partitions_of u rows))) /\
  (forall u p a, In ((u, p), a) out ->
     In (u, p) (map fst rows) /\ a = agg (values_of (u, p) rows)).
Proof.
  intros Vs out.
  destruct (cross_partition_any_bounds ch l0 agg rows out Vs (cross_partition_local_any ch l0 agg rows))
    as [N [L I]].
  split; [exact N|]. split; [exact L|]. intros u p a Hin. split.
  - apply (I u p a Hin).
  - eapply cross_partition_local_exact; eassumption.
Qed.
