(** Contribution bounding on Beam and Spark against the local backend. *)
From Coq Require Import List ZArith Bool Permutation PeanoNat Lia.
From Verif Require Import Base BackendModel BackendSpec ListLemmas BackendProofs BackendProofs2 BounderModel BounderSpec BounderProofs
  ParamsModel SensModel CombinerModel EngineModel EngineSpec ClusterModel ClusterSpec ClusterProofs.
Import ListNotations.

Lemma is_sample_perm {K V} `{EqDec K} n (col col' : list (K * V)) out : Permutation col col' -> is_sample n col out -> is_sample n col' out.
Proof.
  intros Pm [N [E Hs]]. split; [exact N|split].
  - intro k. rewrite E. split; apply Permutation_in; [|apply Permutation_sym]; apply Permutation_map; exact Pm.
  - intros k vs I. destruct (Hs k vs I) as [L S0]. rewrite key_values_values_of in *.
    pose proof (values_of_Permutation k _ _ Pm) as Pv. rewrite <- (Permutation_length Pv). split; [exact L|].
    apply (submset_trans _ (values_of k col)); [exact S0 | apply submset_Permutation; exact Pv].
Qed.
Lemma is_grouping_perm {K V} `{EqDec K} (col col' : list (K * V)) out : Permutation col col' -> is_grouping col out -> is_grouping col' out.
Proof.
  intros Pm [N [E Hs]]. split; [exact N|split].
  - intro k. rewrite E. split; apply Permutation_in; [|apply Permutation_sym]; apply Permutation_map; exact Pm.
  - intros k vs I. rewrite (Hs k vs I), !key_values_values_of. apply values_of_Permutation. exact Pm.
Qed.

Lemma sampled_is_sample {K V} `{EqDec K} b n (col : list (K * V)) out : 1 <= n -> sampled_on b n col out -> is_sample n col out.
Proof.
  intros Hn Hs. destruct b; [exact Hs|]. destruct Hs as [plan [N [E [Ht ->]]]].
  destruct (spark_sampling n col plan Hn N E Ht) as [N' [E' Hv]]. split; [exact N'|split; [exact E'|]].
  intros k vs I. rewrite key_values_values_of. exact (Hv k vs I).
Qed.

Lemma grouping_local {K V} `{EqDec K} (col : list (K * V)) out : is_grouping col out -> krel (@Permutation V) out (group_by_key col).
Proof.
  intros [N [E Hs]]. split; [exact N|split; [rewrite group_by_key_keys; apply NoDup_distinct|split]].
  - intro k. rewrite group_by_key_keys, in_distinct. apply E.
  - intros k vs vs' I I'. apply in_group_by_key in I'. destruct I' as [_ ->]. rewrite (Hs k vs I), key_values_values_of. reflexivity.
Qed.

Lemma group_krel {K V} `{EqDec K} (l l' : list (K * V)) : Permutation l l' -> krel (@Permutation V) (group_by_key l) (group_by_key l').
Proof.
  intro Pm. apply grouping_local. apply (is_grouping_perm l); [exact Pm | apply group_is_grouping].
Qed.

Lemma collect_krel {U P V} `{EqDec P} (c c' : list (U * list (P * V))) :
  krel (@Permutation (P * V)) c c' -> krel (krel (@Permutation V)) (collect_values c) (collect_values c').
Proof. apply krel_map_values. intros a b. apply group_krel. Qed.

Lemma unnest_krel {U P A B} (R : A -> B -> Prop) (c : list (U * list (P * A))) (c' : list (U * list (P * B))) :
  krel (krel R) c c' -> krel R (unnest c) (unnest c').
Proof.
  intros [N [N' [E Hr]]].
  assert (Kl : forall u pas, In (u, pas) c -> NoDup (map fst pas)).
  { intros u pas I. destruct (fst_in u c' (proj1 (E u) (in_fst u pas c I))) as [pbs I']. exact (proj1 (Hr u pas pbs I I')). }
  assert (Kr : forall u pbs, In (u, pbs) c' -> NoDup (map fst pbs)).
  { intros u pbs I'. destruct (fst_in u c (proj2 (E u) (in_fst u pbs c' I'))) as [pas I]. exact (proj1 (proj2 (Hr u pas pbs I I'))). }
  split; [apply unnest_NoDup; assumption|split; [apply unnest_NoDup; assumption|split]].
  - intros [u p]. split; intro I; apply fst_in in I; destruct I as [a I]; apply in_unnest in I; destruct I as [pas [I Ip]].
    + destruct (fst_in u c' (proj1 (E u) (in_fst u pas c I))) as [pbs I'].
      destruct (Hr u pas pbs I I') as [_ [_ [Ek _]]]. destruct (fst_in p pbs (proj1 (Ek p) (in_fst p a pas Ip))) as [b Ib].
      apply (in_fst (u, p) b). apply in_unnest. exists pbs. split; assumption.
    + destruct (fst_in u c (proj2 (E u) (in_fst u pas c' I))) as [pbs I'].
      destruct (Hr u pbs pas I' I) as [_ [_ [Ek _]]]. destruct (fst_in p pbs (proj2 (Ek p) (in_fst p a pas Ip))) as [b Ib].
      apply (in_fst (u, p) b). apply in_unnest. exists pbs. split; assumption.
  - intros [u p] a b Ia Ib. apply in_unnest in Ia. apply in_unnest in Ib. destruct Ia as [pas [I1 I2]], Ib as [pbs [I3 I4]].
    destruct (Hr u pas pbs I1 I3) as [_ [_ [_ Hv]]]. exact (Hv p a b I2 I4).
Qed.

Lemma in_values_rekey {U P A} `{EqDec U} (u : U) (c : list ((U * P) * A)) p a : In (p, a) (values_of u (rekey_pid c)) <-> In ((u, p), a) c.
Proof.
  rewrite <- key_values_values_of, key_values_rekey, in_map_iff. split.
  - intros [[[u' p'] a'] [E I]]. cbn in E. injection E as -> ->. apply filter_In in I. destruct I as [I E]. cbn in E. apply eqb_eq in E. subst. exact I.
  - intro I. exists ((u, p), a). split; [reflexivity|]. apply filter_In. split; [exact I | cbn; apply ListLemmas.eqb_refl].
Qed.
Lemma values_rekey_keys {U P A} `{EqDec U} (u : U) (c : list ((U * P) * A)) : NoDup (map fst c) -> NoDup (map fst (values_of u (rekey_pid c))).
Proof.
  intro N. rewrite <- key_values_values_of, key_values_rekey, map_map. cbn [fst].
  assert (Nk : NoDup (map fst (kept_of u c))).
  { unfold kept_of. rewrite map_fst_filter_keys with (p := fun k => eqb (fst k) u). apply NoDup_filter. exact N. }
  assert (Ek : map fst (kept_of u c) = map (fun p => (u, p)) (map (fun x : U * P * A => snd (fst x)) (kept_of u c))).
  { rewrite map_map. apply map_ext_in. intros [[u' p] a] I. apply filter_In in I. destruct I as [_ E]. cbn in E |- *. apply eqb_eq in E. subst. reflexivity. }
  rewrite Ek in Nk. apply NoDup_map_inv in Nk. exact Nk.
Qed.
Lemma rekey_krel {U P A B} `{EqDec U} (R : A -> B -> Prop) (c : list ((U * P) * A)) (c' : list ((U * P) * B)) : krel R c c' ->
  (forall u, In u (map fst (rekey_pid c)) <-> In u (map fst (rekey_pid c'))) /\
  forall u, krel R (values_of u (rekey_pid c)) (values_of u (rekey_pid c')).
Proof.
  intros [N [N' [E Hr]]]. split.
  - intro u. rewrite !rekey_keys, !in_map_iff. split; intros [k [Ek I]]; exists k; (split; [exact Ek | apply E; exact I]).
  - intro u. split; [apply values_rekey_keys; exact N|split; [apply values_rekey_keys; exact N'|split]].
    + intro p. split; intro I; apply fst_in in I; destruct I as [a I]; apply in_values_rekey in I.
      * destruct (fst_in _ c' (proj1 (E (u, p)) (in_fst _ a c I))) as [b Ib]. apply (in_fst p b). apply in_values_rekey. exact Ib.
      * destruct (fst_in _ c (proj2 (E (u, p)) (in_fst _ a c' I))) as [b Ib]. apply (in_fst p b). apply in_values_rekey. exact Ib.
    + intros p a b Ia Ib. apply in_values_rekey in Ia. apply in_values_rekey in Ib. exact (Hr _ a b Ia Ib).
Qed.

Definition nat_bound (o : option Z) : nat := match o with Some z => Z.to_nat z | None => 0 end.
Lemma plain_source {K} n : @valid_source K n (fun _ _ => any_draw n).
Proof. intros k m L. apply any_draw_valid. exact L. Qed.

Section Bounding.
Context {U P V A : Type} `{EqDec U} `{EqDec P}.
Variable (R : A -> A -> Prop) (agg : list V -> A).
Hypothesis agg_perm : forall vs vs', Permutation vs vs' -> R (agg vs) (agg vs').

Lemma bounded_local b p ex (rows rows' : list (U * P * V)) out :
  positive_bounds p -> Permutation rows rows' -> bounded_on b p ex agg rows out ->
  exists (sm : sampling U P) out', valid_sampling p sm /\ bound_contributions p ex sm agg rows' = Ok out' /\ krel R out out'.
Proof.
  intros [Pc [Pl Pn]] Pm Hb. unfold bounded_on in Hb. unfold bound_contributions, valid_sampling.
  assert (P1 : Permutation (key_by_pid rows) (key_by_pid rows')) by (apply Permutation_map; exact Pm).
  assert (P2 : Permutation (key_by_pid_pk rows) (key_by_pid_pk rows')) by (apply Permutation_map; exact Pm).
  assert (Kagg : forall c c' : list ((U * P) * list V), krel (@Permutation V) c c' -> krel R (map_values agg c) (map_values agg c')).
  { intros c c'. apply krel_map_values. exact agg_perm. }
  destruct (max_contributions p) as [m|] eqn:Em.
  - destruct Hb as [Nz [c1 [Hs St]]]. specialize (Pc m eq_refl).
    apply sampled_is_sample in Hs; [|lia]. apply (is_sample_perm _ _ _ _ P1) in Hs. destruct (sample_local _ _ _ Hs) as [ch [Vc Kc]].
    exists (Sampling _ _ (fun _ _ => []) ch), (bound_per_privacy_id ch (Z.to_nat m) agg rows').
    rewrite (proj2 (Z.eqb_neq m 0)) by lia. split; [exact Vc|split; [reflexivity|]].
    apply (krel_perm_l _ _ _ _ St). unfold bound_per_privacy_id. apply Kagg, unnest_krel, collect_krel. exact Kc.
  - set (dp := fun (_ : U * P) (_ : nat) => any_draw (nat_bound (max_contributions_per_partition p))).
    set (du := fun (_ : U) (_ : nat) => any_draw (nat_bound (max_partitions_contributed p))).
    assert (Vp : forall linf, max_contributions_per_partition p = Some linf -> valid_source (Z.to_nat linf) dp).
    { intros linf El. unfold dp. rewrite El. apply plain_source. }
    assert (Vu : forall l0, max_partitions_contributed p = Some l0 -> valid_source (Z.to_nat l0) du).
    { intros l0 El. unfold du. rewrite El. apply plain_source. }
    destruct (perform_cross_partition_contribution_bounding p); destruct ex.
    + destruct (max_partitions_contributed p) as [l0|] eqn:El; [|contradiction].
      destruct (max_contributions_per_partition p) as [linf|] eqn:En; [|contradiction].
      destruct Hb as [c1 [c3 [c4 [H1 [S3 [H4 St]]]]]]. specialize (Pl l0 eq_refl). specialize (Pn linf eq_refl).
      apply sampled_is_sample in H1; [|lia]. apply sampled_is_sample in H4; [|lia].
      apply (is_sample_perm _ _ _ _ P2) in H1. apply (is_sample_perm _ _ _ _ S3) in H4.
      destruct (sample_local _ _ _ H1) as [ch1 [V1 K1]]. apply Kagg in K1.
      destruct (rekey_krel R _ _ K1) as [Ek Kv].
      destruct (sample_local_keyed R _ _ _ _ Ek (fun u _ => Kv u) H4) as [ch2 [V2 K2]].
      exists (Sampling _ _ ch1 ch2), (bound_cross_and_per ch1 ch2 (Z.to_nat l0) (Z.to_nat linf) agg rows').
      split; [split; intros z Ez; injection Ez as <-; assumption|split; [reflexivity|]].
      apply (krel_perm_l _ _ _ _ St). apply unnest_krel. exact K2.
    + destruct (max_partitions_contributed p) as [l0|] eqn:El; [|contradiction].
      destruct Hb as [c1 [draws [Hg [Vd St]]]]. apply (is_grouping_perm _ _ _ P1) in Hg.
      destruct (choose_local_keyed (@Permutation V) (Z.to_nat l0) draws (collect_values c1) (collect_values (group_by_key (key_by_pid rows'))) Vd) as [ch [Vc Kc]].
      { apply collect_krel. apply grouping_local. exact Hg. }
      exists (Sampling _ _ dp ch), (bound_cross_partition ch (Z.to_nat l0) agg rows').
      split; [split; [intros z Ez; injection Ez as <-; exact Vc | exact Vp]|split; [reflexivity|]].
      apply (krel_perm_l _ _ _ _ St). unfold bound_cross_partition. apply Kagg, unnest_krel. exact Kc.
    + destruct (max_contributions_per_partition p) as [linf|] eqn:En; [|contradiction].
      destruct Hb as [c1 [H1 St]]. specialize (Pn linf eq_refl). apply sampled_is_sample in H1; [|lia]. apply (is_sample_perm _ _ _ _ P2) in H1.
      destruct (sample_local _ _ _ H1) as [ch [Vc Kc]].
      exists (Sampling _ _ ch du), (bound_linf ch (Z.to_nat linf) agg rows').
      split; [split; [exact Vu | intros z Ez; injection Ez as <-; exact Vc]|split; [reflexivity|]].
      apply (krel_perm_l _ _ _ _ St). unfold bound_linf. apply Kagg. exact Kc.
    + destruct Hb as [c1 [Hg St]]. apply (is_grouping_perm _ _ _ P2) in Hg.
      exists (Sampling _ _ dp du), (bound_noop agg rows'). split; [split; assumption|split; [reflexivity|]].
      apply (krel_perm_l _ _ _ _ St). unfold bound_noop. apply Kagg, grouping_local. exact Hg.
Qed.
End Bounding.
