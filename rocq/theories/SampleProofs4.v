(** Lemmas for C77: whole bounders, and the draws of the local backend. *)
From Coq Require Import List ZArith QArith Bool Lia Permutation PeanoNat Setoid.
From Coq Require Import Lqa.
From Verif Require Import Base BaseLemmas ListLemmas BackendModel BackendSpec BackendProofs BounderModel BounderSpec BounderProofs.
From Verif Require Import ParamsModel EngineModel AnalyzeSpec AnalyzeProofs.
From Verif Require Import SampleModel SampleSpec SampleProofs SampleProofs3.
Import ListNotations.
Local Open Scope Q_scope.

Section Bounders.
Context {U P V : Type} `{EqDec U} `{EqDec P}.
Implicit Types (rows : list (U * P * V)) (d : dist (sampling U P)).

Lemma fair_cross_and_per d n1 n2 rows (f : U * P * V -> Q) g2 :
  fair_draws n1 n2 (pair_groups rows) g2 d ->
  (forall u, In u (id_list rows) -> In (u, length (partitions_of u rows)) g2) ->
  expect d (fun sm => total f (as_rows (bound_cross_and_per (ch_pid_pk sm) (ch_pid sm) n2 n1 (fun vs => vs) rows))) ==
  total (fun r => chance n2 (length (partitions_of (fst (fst r)) rows)) *
                  chance n1 (length (values_in (fst (fst r)) (snd (fst r)) rows)) * f r) rows.
Proof.
  intros F G. rewrite total_rows.
  rewrite (expect_ext _ _ (fun sm => total (fun u => total (fun k => total (fun v => f (u, k, v))
      (choose (ch_pid_pk sm (u, k) (length (values_in u k rows))) n1 (values_in u k rows)))
      (choose (ch_pid sm u (length (partitions_of u rows))) n2 (partitions_of u rows))) (id_list rows)))
    by (intros sm _; rewrite cross_and_per_form; apply total_entries).
  rewrite expect_total. apply total_ext. intros u Iu. cbn [fst snd].
  rewrite (elements_of_id _ _ _ _ _ F u (partitions_of u rows) _
             (fun k => chance n1 (length (values_in u k rows)) * total (fun v => f (u, k, v)) (values_in u k rows)) (G u Iu)).
  - rewrite <- total_scale. apply total_ext. intros k _. rewrite <- !total_scale. apply total_ext. intros v _. ring.
  - intros k j Ik Lj. apply (values_and_partition _ _ _ _ _ F); [apply in_pair_groups, Ik|apply G, Iu|exact Lj].
Qed.
Lemma fair_cross d n1 n2 rows (f : U * P * V -> Q) g1 g2 :
  fair_draws n1 n2 g1 g2 d ->
  (forall u, In u (id_list rows) -> In (u, length (partitions_of u rows)) g2) ->
  expect d (fun sm => total f (as_rows (bound_cross_partition (ch_pid sm) n2 (fun vs => vs) rows))) ==
  total (fun r => chance n2 (length (partitions_of (fst (fst r)) rows)) * f r) rows.
Proof.
  intros F G. rewrite total_rows.
  rewrite (expect_ext _ _ (fun sm => total (fun u => total (fun k => total (fun v => f (u, k, v)) (values_in u k rows))
      (choose (ch_pid sm u (length (partitions_of u rows))) n2 (partitions_of u rows))) (id_list rows)))
    by (intros sm _; rewrite cross_partition_form; apply total_entries).
  rewrite expect_total. apply total_ext. intros u Iu. cbn [fst snd].
  rewrite (elements_alone _ _ _ _ _ F u (partitions_of u rows) _ (G u Iu)).
  rewrite <- total_scale. apply total_ext. intros k _. rewrite <- !total_scale. reflexivity.
Qed.
Lemma fair_linf d n1 n2 rows (f : U * P * V -> Q) g2 :
  fair_draws n1 n2 (pair_groups rows) g2 d ->
  expect d (fun sm => total f (as_rows (bound_linf (ch_pid_pk sm) n1 (fun vs => vs) rows))) ==
  total (fun r => chance n1 (length (values_in (fst (fst r)) (snd (fst r)) rows)) * f r) rows.
Proof.
  intros F. rewrite total_rows.
  rewrite (expect_ext _ _ (fun sm => total (fun u => total (fun k => total (fun v => f (u, k, v))
      (choose (ch_pid_pk sm (u, k) (length (values_in u k rows))) n1 (values_in u k rows)))
      (partitions_of u rows)) (id_list rows)))
    by (intros sm _; rewrite (total_Permutation f _ _ (as_rows_Permutation _ _ (linf_form (ch_pid_pk sm) n1 rows))); apply total_entries).
  rewrite expect_total. apply total_ext. intros u Iu. rewrite expect_total. apply total_ext. intros k Ik. cbn [fst snd].
  rewrite (values_alone _ _ _ _ _ F); [|apply in_pair_groups, Ik]. rewrite <- total_scale. reflexivity.
Qed.
Lemma fair_noop rows (f : U * P * V -> Q) :
  total f (as_rows (bound_noop (fun vs => vs) rows)) == total f rows.
Proof.
  rewrite (total_Permutation f _ _ (as_rows_Permutation _ _ (noop_form rows))), total_entries. symmetry. apply total_rows.
Qed.
Lemma per_id_rows ch m rows (f : U * P * V -> Q) :
  total f (as_rows (bound_per_privacy_id ch m (fun vs => vs) rows)) ==
  total (fun u => total f (choose (ch u (length (rows_of u rows))) m (rows_of u rows))) (id_list rows).
Proof.
  unfold bound_per_privacy_id, map_values, unnest, collect_values, map_values, as_rows.
  rewrite flat_map_map. rewrite sample_normal, !map_map. rewrite flat_map_map. cbn [fst snd].
  rewrite total_flat_map, total_flat_map.
  replace (distinct (map fst (key_by_pid rows))) with (id_list rows)
    by (unfold id_list, key_by_pid; rewrite map_map; reflexivity).
  apply total_ext. intros u _. rewrite <- total_flat_map.
  assert (Ev : values_of u (key_by_pid rows) = map (fun r => (snd (fst r), snd r)) (rows_of u rows)).
  { unfold values_of, key_by_pid, rows_of. rewrite filter_map, !map_map. reflexivity. }
  rewrite Ev, map_length.
  assert (Ec : forall idx, choose idx m (map (fun r => (snd (fst r), snd r)) (rows_of u rows)) =
                           map (fun r => (snd (fst r), snd r)) (choose idx m (rows_of u rows))).
  { intro idx. unfold choose. rewrite map_length. destruct (m <? length (rows_of u rows))%nat; [|reflexivity].
    unfold pick. rewrite map_flat_map. apply flat_map_ext_In. intros i _. rewrite nth_error_map. destruct (nth_error _ i); reflexivity. }
  rewrite Ec. set (kept := choose _ m (rows_of u rows)).
  assert (Ki : forall r, In r kept -> fst (fst r) = u).
  { intros r I. assert (I' : In r (rows_of u rows)).
    { unfold kept, choose in I. destruct (m <? length (rows_of u rows))%nat; [|exact I].
      unfold pick in I. apply in_flat_map in I. destruct I as (i & _ & I). destruct (nth_error (rows_of u rows) i) eqn:E; [|destruct I].
      destruct I as [<-|[]]. apply (nth_error_In _ _ E). }
    apply filter_In in I'. destruct I' as [_ E]. apply eqb_eq in E. exact E. }
  pose proof (as_rows_group u (map (fun r => (snd (fst r), snd r)) kept)) as A. unfold as_rows in A. rewrite flat_map_map in A. cbn [fst snd] in A.
  rewrite (total_Permutation f _ kept); [reflexivity|]. rewrite flat_map_map. cbn [fst snd]. rewrite A, map_map. cbn [fst snd].
  rewrite (map_ext_in _ (fun x => x)); [rewrite map_id; reflexivity|]. intros [[u' k] v] I. cbn [fst snd]. rewrite <- (Ki _ I). reflexivity.
Qed.
Lemma fair_per_id d n1 n2 rows (f : U * P * V -> Q) g1 g2 :
  fair_draws n1 n2 g1 g2 d ->
  (forall u, In u (id_list rows) -> In (u, length (rows_of u rows)) g2) ->
  expect d (fun sm => total f (as_rows (bound_per_privacy_id (ch_pid sm) n2 (fun vs => vs) rows))) ==
  total (fun r => chance n2 (length (rows_of (fst (fst r)) rows)) * f r) rows.
Proof.
  intros F G. rewrite (rows_by_id _ rows).
  rewrite (expect_ext _ _ (fun sm => total (fun u => total f (choose (ch_pid sm u (length (rows_of u rows))) n2 (rows_of u rows))) (id_list rows)))
    by (intros sm _; apply per_id_rows).
  rewrite expect_total. apply total_ext. intros u Iu. rewrite (elements_alone _ _ _ _ _ F u (rows_of u rows) _ (G u Iu)).
  rewrite <- total_scale. apply total_ext. intros r Ir. apply filter_In in Ir. destruct Ir as [_ E]. apply eqb_eq in E. rewrite E. reflexivity.
Qed.

Lemma fair_bounders d p ex rows (f : U * P * V -> Q) out :
  fair_draws (value_bound p) (id_bound p) (pair_groups rows) (id_groups p rows) d ->
  (forall sm, possible d sm -> bound_contributions p ex sm (fun vs => vs) rows = Ok (out sm)) ->
  expect d (fun sm => total f (as_rows (out sm))) == total (fun r => row_chance p ex rows r * f r) rows.
Proof.
  intros F B.
  assert (Ne : exists sm, possible d sm).
  { destruct d as [|[w sm] d']; [|exists sm, w; left; reflexivity]. exfalso. destruct F as [[_ F] _]. unfold expect in F. cbn in F. discriminate. }
  destruct Ne as (s0 & I0). pose proof (B s0 I0) as B0.
  assert (G : forall u, In u (id_list rows) -> In (u, match max_contributions p with Some _ => length (rows_of u rows) | None => length (partitions_of u rows) end) (id_groups p rows))
    by (intros u I; apply in_id_groups, I).
  unfold row_chance. unfold bound_contributions in B, B0. unfold value_bound, id_bound in *.
  destruct (max_contributions p) as [m|].
  - destruct (m =? 0)%Z; [discriminate|].
    rewrite <- (fair_per_id d _ _ rows f _ _ F G). apply expect_ext. intros sm I. specialize (B sm I). injection B as <-. reflexivity.
  - destruct (perform_cross_partition_contribution_bounding p).
    + destruct ex.
      * destruct (max_partitions_contributed p) as [l0|]; [|discriminate]. destruct (max_contributions_per_partition p) as [linf|]; [|discriminate].
        rewrite <- (fair_cross_and_per d _ _ rows f _ F G). apply expect_ext. intros sm I. specialize (B sm I). injection B as <-. reflexivity.
      * destruct (max_partitions_contributed p) as [l0|]; [|discriminate].
        transitivity (total (fun r => chance (bound_of (Some l0)) (length (partitions_of (fst (fst r)) rows)) * f r) rows);
          [|apply total_ext; intros; ring].
        rewrite <- (fair_cross d _ _ rows f _ _ F G). apply expect_ext. intros sm I. specialize (B sm I). injection B as <-. reflexivity.
    + destruct ex.
      * destruct (max_contributions_per_partition p) as [linf|]; [|discriminate].
        transitivity (total (fun r => chance (bound_of (Some linf)) (length (values_in (fst (fst r)) (snd (fst r)) rows)) * f r) rows);
          [|apply total_ext; intros; ring].
        rewrite <- (fair_linf d _ _ rows f _ F). apply expect_ext. intros sm I. specialize (B sm I). injection B as <-. reflexivity.
      * transitivity (total f rows); [|apply total_ext; intros; ring].
        rewrite <- (expect_const d (total f rows) (proj1 F)). apply expect_ext. intros sm I. specialize (B sm I). injection B as <-. apply fair_noop.
Qed.
End Bounders.

(** ** The draws of the local backend *)
Section Draws.
Context {K : Type} `{EqDec K}.

Lemma draw_all_dist n (groups : list (K * nat)) : is_distribution (draw_all n groups).
Proof.
  induction groups as [|[k m] rest IH]; [apply dist_ret|]. cbn [draw_all].
  apply dist_bind; [apply draw_dist; lia|]. intros idx _. apply dist_bind; [exact IH|]. intros. apply dist_ret.
Qed.
Lemma draw_all_possible n (groups : list (K * nat)) s k m : NoDup (map fst groups) -> In (k, m) groups ->
  possible (draw_all n groups) s -> possible (draw (Nat.min n m) m) (s k m).
Proof.
  revert s. induction groups as [|[k' m'] rest IH]; intros s N I S; [destruct I|]. cbn [map fst] in N. inversion N as [|? ? Nk N']; subst.
  cbn [draw_all] in S. apply possible_bind in S. destruct S as (idx & Si & S). apply possible_bind in S. destruct S as (s' & Ss & S).
  apply possible_ret in S. subst s. destruct I as [E|I].
  - injection E as -> ->. rewrite eqb_refl. exact Si.
  - destruct (eqb k k') eqn:E; [|apply IH; assumption]. apply eqb_eq in E. subst. exfalso. apply Nk. apply in_map_iff. exists (k', m). auto.
Qed.
Lemma draw_all_expect n (groups : list (K * nat)) k m g : NoDup (map fst groups) -> In (k, m) groups ->
  expect (draw_all n groups) (fun s => g (s k m)) == expect (draw (Nat.min n m) m) g.
Proof.
  induction groups as [|[k' m'] rest IH]; intros N I; [destruct I|]. cbn [map fst] in N. inversion N as [|? ? Nk N']; subst.
  cbn [draw_all]. rewrite expect_bind. destruct I as [E|I].
  - injection E as -> ->. apply expect_ext. intros idx _. rewrite expect_bind.
    rewrite (expect_ext _ _ (fun _ => g idx)); [apply expect_const, draw_all_dist|]. intros s _. rewrite expect_ret, eqb_refl. reflexivity.
  - rewrite <- IH by assumption. rewrite (expect_ext _ _ (fun _ => expect (draw_all n rest) (fun s => g (s k m)))).
    + apply expect_const, draw_dist. lia.
    + intros idx _. rewrite expect_bind. apply expect_ext. intros s _. rewrite expect_ret.
      destruct (eqb k k') eqn:E; [|reflexivity]. apply eqb_eq in E. subst. exfalso. apply Nk. apply in_map_iff. exists (k', m). auto.
Qed.
End Draws.

Lemma local_draws_fair {U P} `{EqDec U} `{EqDec P} n1 n2 (g1 : list ((U * P) * nat)) (g2 : list (U * nat)) :
  NoDup (map fst g1) -> NoDup (map fst g2) -> fair_draws n1 n2 g1 g2 (local_draws n1 n2 g1 g2).
Proof.
  intros N1 N2. unfold local_draws.
  assert (E : forall g, expect (bind (draw_all n1 g1) (fun s1 => bind (draw_all n2 g2) (fun s2 => ret (Sampling U P s1 s2)))) g ==
                        expect (draw_all n1 g1) (fun s1 => expect (draw_all n2 g2) (fun s2 => g (Sampling U P s1 s2)))).
  { intro g. rewrite expect_bind. apply expect_ext. intros s1 _. rewrite expect_bind. apply expect_ext. intros s2 _. apply expect_ret. }
  split; [|split; [|split; [|split]]].
  - apply dist_bind; [apply draw_all_dist|]. intros s1 _. apply dist_bind; [apply draw_all_dist|]. intros. apply dist_ret.
  - intros sm S. apply possible_bind in S. destruct S as (s1 & S1 & S). apply possible_bind in S. destruct S as (s2 & S2 & S).
    apply possible_ret in S. subst sm. cbn [ch_pid_pk ch_pid]. split; intros k m I L.
    + pose proof (draw_all_possible n1 g1 s1 k m N1 I S1) as X. rewrite Nat.min_l in X by lia. apply draw_valid, X.
    + pose proof (draw_all_possible n2 g2 s2 k m N2 I S2) as X. rewrite Nat.min_l in X by lia. apply draw_valid, X.
  - intros k m j I L Lj. rewrite E. cbn [ch_pid_pk].
    rewrite (expect_ext _ _ (fun s1 => indicator (mem j (s1 k m)))) by (intros; apply expect_const, draw_all_dist).
    rewrite (draw_all_expect n1 g1 k m (fun s => indicator (mem j s)) N1 I). rewrite Nat.min_l by lia. apply draw_mem; lia.
  - intros u m j I L Lj. rewrite E. cbn [ch_pid]. rewrite expect_const by apply draw_all_dist.
    rewrite (draw_all_expect n2 g2 u m (fun s => indicator (mem j s)) N2 I). rewrite Nat.min_l by lia. apply draw_mem; lia.
  - intros k m j u m' j' I L Lj I' L' Lj'. rewrite E. cbn [ch_pid ch_pid_pk].
    rewrite (expect_ext _ _ (fun s1 => indicator (mem j (s1 k m)) * (num n2 / num m'))).
    + rewrite expect_scale_r. rewrite (draw_all_expect n1 g1 k m (fun s => indicator (mem j s)) N1 I). rewrite Nat.min_l by lia.
      rewrite draw_mem by lia. reflexivity.
    + intros s1 _. rewrite expect_scale. rewrite (draw_all_expect n2 g2 u m' (fun s => indicator (mem j' s)) N2 I').
      rewrite Nat.min_l by lia. rewrite draw_mem by lia. reflexivity.
Qed.
