(** Runs of the engine on Beam and Spark against runs on the local backend. *)
From Coq Require Import List ZArith QArith Bool Permutation PeanoNat Lia.
From Verif Require Import Base BaseLemmas BackendModel BackendSpec ListLemmas BackendProofs BackendProofs2 BounderModel BounderSpec BounderProofs
  ParamsModel SensModel CombinerModel CombinerSpec CombinerProofs EngineModel EngineSpec ClusterModel ClusterSpec ClusterProofs ClusterProofs2 ClusterProofs3.
Import ListNotations.

Lemma map_result_F2 {A B} (f : A -> result B) l r : map_result f l = Ok r <-> Forall2 (fun a b => f a = Ok b) l r.
Proof.
  revert r. induction l as [|a l IH]; intro r; cbn [map_result].
  - split; [intro E; injection E as <-; constructor | intro F; inversion F; reflexivity].
  - split.
    + destruct (f a) as [b|e] eqn:Ea; [|discriminate]. destruct (map_result f l) as [r0|e] eqn:El; [|discriminate]. cbn.
      intro E. injection E as <-. constructor; [exact Ea | apply IH; reflexivity].
    + intro F. inversion F as [|a0 b l0 r0 E0 F0 X1 X2]; subst. rewrite E0. apply IH in F0. rewrite F0. reflexivity.
Qed.

Lemma krel_filter {K A B} (R : A -> B -> Prop) (f : K * A -> bool) (g : K * B -> bool) l l' :
  (forall k a b, R a b -> f (k, a) = g (k, b)) -> krel R l l' -> krel R (filter f l) (filter g l').
Proof.
  intros M [N [N' [E Hr]]]. split; [apply NoDup_map_fst_filter; exact N|split; [apply NoDup_map_fst_filter; exact N'|split]].
  - intro k. split; intro I; apply fst_in in I; destruct I as [x I]; apply filter_In in I; destruct I as [I Hf].
    + destruct (fst_in k l' (proj1 (E k) (in_fst k x l I))) as [y Iy]. apply (in_fst k y). apply filter_In. split; [exact Iy|].
      rewrite <- (M k x y (Hr k x y I Iy)). exact Hf.
    + destruct (fst_in k l (proj2 (E k) (in_fst k x l' I))) as [y Iy]. apply (in_fst k y). apply filter_In. split; [exact Iy|].
      rewrite (M k y x (Hr k y x Iy I)). exact Hf.
  - intros k a b Ia Ib. apply filter_In in Ia. apply filter_In in Ib. apply (Hr k); [apply Ia | apply Ib].
Qed.

Section Run.
Context {U P : Type} {EU : EqDec U} {EP : EqDec P}.

(** ** Dropping the other partitions *)
Lemma filtered_local b (s : partition_set P) (col out : list (P * (U * P * value))) :
  (b = Spark -> forall l, s = Collection l -> NoDup l) -> filtered_on b s col out -> Permutation out (filter_by_key col (set_keys s)).
Proof.
  intros Hn Hf. destruct b, s as [l|l]; cbn [filtered_on set_keys] in *; unfold stage in Hf.
  - rewrite Hf, (proj1 (in_memory_filters col l)). reflexivity.
  - rewrite Hf. apply beam_filter_join_Permutation.
  - rewrite Hf, (proj2 (in_memory_filters col l)). reflexivity.
  - rewrite Hf, (spark_filter_rdd_NoDup col l (Hn eq_refl l eq_refl)). reflexivity.
Qed.

Definition rows_kept (p : params) (public : option (list P)) (rows : list (U * P * value)) : list (U * P * value) :=
  match public with
  | Some pub => if public_partitions_already_filtered p then rows else drop_partitions pub rows
  | None => rows
  end.

Lemma prepared_local b p public rows rows1 :
  (b = Spark -> public_partitions_already_filtered p = false -> forall l, public = Some (Collection l) -> NoDup l) ->
  prepared_on b p public rows rows1 -> Permutation rows1 (rows_kept p (option_map set_keys public) rows).
Proof.
  intros Hn Hp. unfold prepared_on in Hp. unfold rows_kept. destruct public as [s|]; cbn [option_map]; [|rewrite Hp; reflexivity].
  destruct (public_partitions_already_filtered p); [rewrite Hp; reflexivity|]. destruct Hp as [kept0 [Hf Hs]]. unfold stage in Hs.
  rewrite Hs. unfold drop_partitions. apply Permutation_map. apply (filtered_local b); [|exact Hf].
  intros E l El. apply (Hn E eq_refl). rewrite El. reflexivity.
Qed.

(** ** Accumulators *)
Lemma Forall2_refl_of {A} (R : A -> A -> Prop) (Rr : forall a, R a a) l : Forall2 R l l.
Proof. induction l; constructor; auto. Qed.

Definition some_sampling (p : params) : sampling U P :=
  Sampling _ _ (fun _ _ => any_draw (nat_bound (max_contributions_per_partition p)))
    (fun _ _ => any_draw (nat_bound (match max_contributions p with Some m => Some m | None => max_partitions_contributed p end))).
Lemma some_sampling_valid p : valid_sampling p (some_sampling p).
Proof.
  unfold valid_sampling, some_sampling. destruct (max_contributions p) as [m|]; cbn [ch_pid ch_pid_pk]; [apply plain_source|].
  split; intros n E; rewrite E; apply plain_source.
Qed.

Lemma unkey_prel {A} (R : A -> A -> Prop) (out out' : list ((U * P) * A)) col :
  Permutation col (map (fun e => (snd (fst e), snd e)) out) -> prel R out out' -> prel R col (map (fun e => (snd (fst e), snd e)) out').
Proof.
  intros Hs [l'' [Pl F]]. exists (map (fun e => (snd (fst e), snd e)) l''). split.
  - rewrite Hs. apply Permutation_map. exact Pl.
  - clear - F. induction F as [|x y l l' [E Rr] F IH]; [constructor|]. cbn [map]. constructor; [|exact IH]. cbn. rewrite E. split; [reflexivity | exact Rr].
Qed.

Lemma contributed_local b p cs (rows1 : list (U * P * value)) col public rows :
  positive_bounds p -> Permutation rows1 (rows_kept p public rows) -> contributed_on b p cs rows1 col ->
  exists sm col', valid_sampling p sm /\ contributions p cs sm public rows = Ok col' /\ prel cacc_eq col col'.
Proof.
  intros Pb Pm Hc. unfold contributed_on in Hc. unfold contributions. fold (rows_kept p public rows).
  destruct (contribution_bounds_already_enforced p).
  - exists (some_sampling p), (map (fun r => (snd (fst r), compound_create cs [snd r])) (rows_kept p public rows)).
    split; [apply some_sampling_valid|split; [reflexivity|]]. eexists. split; [unfold stage in Hc; rewrite Hc; apply Permutation_map; exact Pm|].
    apply Forall2_refl_of. intro a. split; [reflexivity | apply cacc_eq_refl].
  - destruct Hc as [out [Hb Hs]].
    destruct (bounded_local cacc_eq (compound_create cs) (compound_create_perm cs) b p _ rows1 (rows_kept p public rows) out Pb Pm Hb) as [sm [out' [Vs [Eo Hk]]]].
    exists sm, (map (fun e => (snd (fst e), snd e)) out'). split; [exact Vs|]. rewrite Eo. split; [reflexivity|].
    apply (unkey_prel _ out); [exact Hs | apply krel_prel; exact Hk].
Qed.

Lemma prel_app {K A B} (R : A -> B -> Prop) (a c : list (K * A)) (b d : list (K * B)) : prel R a b -> prel R c d -> prel R (a ++ c) (b ++ d).
Proof.
  intros [a' [P1 F1]] [c' [P2 F2]]. exists (a' ++ c'). split; [apply Permutation_app; assumption | apply Forall2_app; assumption].
Qed.
Lemma prel_perm {K A B} (R : A -> B -> Prop) (a c : list (K * A)) (b : list (K * B)) : Permutation c a -> prel R a b -> prel R c b.
Proof. intros Pm [a' [P1 F1]]. exists a'. split; [rewrite Pm; exact P1 | exact F1]. Qed.

Lemma with_empty_local cs (public : option (partition_set P)) col col1 col' :
  prel cacc_eq col col' -> with_empty_on cs public col col1 ->
  prel cacc_eq col1 (match option_map set_keys public with
                     | Some (k :: ks) => add_empty_public_partitions col' (k :: ks) (compound_create cs [])
                     | _ => col' end).
Proof.
  intros Hp He. destruct public as [s|]; cbn [option_map] in *; [|cbn in He; rewrite He; exact Hp].
  unfold with_empty_on in He.
  assert (Hx : is_truthy s = true -> prel cacc_eq col1 (col' ++ map (fun k => (k, compound_create cs [])) (set_keys s))).
  { intro Et. rewrite Et in He. apply (prel_perm _ _ _ _ He). apply prel_app; [exact Hp|].
    eexists. split; [reflexivity|]. apply Forall2_refl_of. intro a. split; [reflexivity | apply cacc_eq_refl]. }
  destruct s as [[|k ks]|[|k ks]]; cbn [is_truthy set_keys] in *; try (unfold add_empty_public_partitions; apply Hx; reflexivity).
  - rewrite He. exact Hp.
  - specialize (Hx eq_refl). cbn in Hx. rewrite app_nil_r in Hx. exact Hx.
Qed.

Lemma chosen_local p sk (public : option (partition_set P)) accs sel accs' :
  krel cacc_eq accs accs' -> chosen_on p sk public accs sel ->
  exists sel', (if selects_privately p (option_map set_keys public) then
      match max_rows_per_privacy_id p with
      | Some m => Ok (select_private_partitions m sk accs')
      | None => Err TypeError
      end else Ok accs') = Ok sel' /\ krel cacc_eq sel sel'.
Proof.
  intros Hk Hc. unfold chosen_on in Hc. destruct (selects_privately p (option_map set_keys public)).
  - destruct Hc as [m [Em Hs]]. rewrite Em. eexists. split; [reflexivity|]. apply (krel_perm_l _ _ _ _ Hs). unfold select_private_partitions.
    apply krel_filter; [|exact Hk]. intros k a b [E _]. cbn [fst snd]. rewrite E. reflexivity.
  - subst sel. exists accs'. split; [reflexivity | exact Hk].
Qed.

Lemma Forall2_in_l {A B} (R : A -> B -> Prop) l r a : Forall2 R l r -> In a l -> exists b, In b r /\ R a b.
Proof. intros F I. induction F as [|x y l r E F IH]; [contradiction|]. destruct I as [<- | I]; [exists y; split; [left; reflexivity | exact E]|]. destruct (IH I) as [b [Ib Rb]]. exists b. split; [right; exact Ib | exact Rb]. Qed.
Lemma Forall2_in_r {A B} (R : A -> B -> Prop) l r b : Forall2 R l r -> In b r -> exists a, In a l /\ R a b.
Proof. intros F I. induction F as [|x y l r E F IH]; [contradiction|]. destruct I as [<- | I]; [exists x; split; [left; reflexivity | exact E]|]. destruct (IH I) as [a [Ia Ra]]. exists a. split; [right; exact Ia | exact Ra]. Qed.
Lemma map_result_all_ok {A B} (f : A -> result B) l : (forall a, In a l -> exists b, f a = Ok b) -> exists r, map_result f l = Ok r.
Proof.
  induction l as [|a l IH]; intro Hf; [exists []; reflexivity|]. destruct (Hf a (or_introl eq_refl)) as [b Eb].
  destruct IH as [r Er]; [intros x I; apply Hf; right; exact I|]. exists (b :: r). cbn. rewrite Eb, Er. reflexivity.
Qed.

Lemma released_local p cs nz (sel sel' : list (P * cacc)) out :
  (forall k i, numeric_noise (nz k i)) -> krel cacc_eq sel sel' -> released_on p cs nz sel out ->
  exists mets', map_result (fun row => rmap (pair (fst row)) (compound_metrics (nz (fst row)) cs (snd row))) sel' = Ok mets' /\
    krel same_metrics out (if post_aggregation_thresholding p then filter (fun row => above_threshold (snd row)) mets' else mets').
Proof.
  intros Hn Hk [mets [Em Hs]]. set (f := fun row : P * cacc => rmap (pair (fst row)) (compound_metrics (nz (fst row)) cs (snd row))) in *.
  assert (Cong : forall k a b m, cacc_eq a b -> f (k, a) = Ok m -> exists m', f (k, b) = Ok (k, m') /\ fst m = k /\ same_metrics (snd m) m').
  { intros k a b m [_ E] Hf. unfold f in *. cbn [fst snd] in *. unfold compound_metrics in *.
    destruct (combine_metrics (nz k) 0 cs (snd a) []) as [d|e] eqn:Ed; [|discriminate]. cbn in Hf. injection Hf as <-.
    destruct (combine_metrics_cong (nz k) cs (Hn k) 0 (snd a) (snd b) [] [] d E (Forall2_nil _) Ed) as [d' [Ed' Sd]].
    exists d'. rewrite Ed'. split; [reflexivity|split; [reflexivity | exact Sd]]. }
  apply map_result_F2 in Em. destruct Hk as [N [N' [Ek Hr]]].
  destruct (map_result_all_ok f sel') as [mets' Em'].
  { intros [k b] Ib. destruct (fst_in k sel (proj2 (Ek k) (in_fst k b sel' Ib))) as [a Ia].
    destruct (Forall2_in_l _ _ _ _ Em Ia) as [m [_ Hm]]. destruct (Cong k a b m (Hr k a b Ia Ib) Hm) as [m' [Em' _]]. exists (k, m'). exact Em'. }
  exists mets'. split; [exact Em'|]. apply map_result_F2 in Em'.
  assert (K1 : forall l r, Forall2 (fun a b => f a = Ok b) l r -> map fst r = map fst l).
  { intros l r F. induction F as [|x y l r E F IH]; [reflexivity|]. cbn [map]. rewrite IH. f_equal. unfold f in E.
    destruct (compound_metrics _ _ _); [|discriminate]. cbn in E. injection E as <-. reflexivity. }
  assert (Hkm : krel same_metrics mets mets').
  { unfold krel. rewrite (K1 _ _ Em), (K1 _ _ Em'). split; [exact N|split; [exact N'|split; [exact Ek|]]].
    intros k m m' Im Im'. destruct (Forall2_in_r _ _ _ _ Em Im) as [[k1 a] [Ia Ea]]. destruct (Forall2_in_r _ _ _ _ Em' Im') as [[k2 b] [Ib Eb]].
    assert (X1 : k1 = k). { unfold f in Ea. destruct (compound_metrics _ _ _); [|discriminate]. cbn in Ea. injection Ea as -> _. reflexivity. }
    assert (X2 : k2 = k). { unfold f in Eb. destruct (compound_metrics _ _ _); [|discriminate]. cbn in Eb. injection Eb as -> _. reflexivity. }
    subst k1 k2. destruct (Cong k a b (k, m) (Hr k a b Ia Ib) Ea) as [m2 [E2 [_ Sm]]]. rewrite E2 in Eb. injection Eb as <-. exact Sm. }
  apply (krel_perm_l _ _ _ _ Hs). destruct (post_aggregation_thresholding p); [|exact Hkm].
  apply krel_filter; [|exact Hkm]. intros k a b Sm. cbn [snd]. apply above_cong. exact Sm.
Qed.

Theorem aggregate_on_local b p sk nz public (rows : list (U * P * value)) out :
  positive_bounds p -> (forall k i, numeric_noise (nz k i)) ->
  (b = Spark -> public_partitions_already_filtered p = false -> forall l, public = Some (Collection l) -> NoDup l) ->
  aggregate_on b p sk nz public rows out ->
  exists sm out', valid_sampling p sm /\ aggregate p sm sk nz (option_map set_keys public) rows = Ok out' /\ krel same_metrics out out'.
Proof.
  intros Pb Hn Hd [cs [rows1 [col [col1 [accs [sel [Ec [Hp [Hc [He [Hm [Hs Hr]]]]]]]]]]]].
  pose proof (prepared_local b p public rows rows1 Hd Hp) as Pm.
  destruct (contributed_local b p cs rows1 col (option_map set_keys public) rows Pb Pm Hc) as [sm [col' [Vs [Eco Pc]]]].
  pose proof (with_empty_local cs public col col1 col' Pc He) as P1.
  pose proof (krel_trans cacc_eq (fun x y z => cs_trans _ _ (compound_comm_semigroup cs) x y z) _ _ _ (combined_local b cs col1 accs Hm) (combine_prel cs _ _ P1)) as Ka.
  destruct (chosen_local p sk public accs sel _ Ka Hs) as [sel' [Es Ks]].
  destruct (released_local p cs nz sel sel' out Hn Ks Hr) as [mets' [Er Kr]].
  exists sm. eexists. split; [exact Vs|]. split; [|exact Kr]. unfold aggregate. rewrite Ec. cbn [rbind].
  unfold selected_accumulators, raw_accumulators. rewrite Eco. cbn [rmap rbind]. rewrite Es. cbn [rbind]. rewrite Er. reflexivity.
Qed.

Lemma krel_same_release (a b : list (P * list (mname * released))) : krel same_metrics a b -> same_release a b.
Proof. intro Hk. exact (krel_prel _ _ _ Hk). Qed.

(** ** select_partitions *)
Lemma tagged_choice (d : source U) (sel : U * list P -> list P) l0 (a0 : cacc) (l : list (U * list P)) :
  map (fun e => (snd (fst e), snd e)) (unnest (map (fun x => (fst x, choose (d (fst x) (length (snd x))) l0 (snd x)))
    (map (fun x => (fst x, map (fun k => (k, a0)) (sel x))) l))) =
  map (fun x => (snd x, a0)) (flat_map (fun x => map (fun k => (fst x, k)) (choose (d (fst x) (length (sel x))) l0 (sel x))) l).
Proof.
  unfold unnest. induction l as [|x l IH]; [reflexivity|]. cbn [map flat_map fst snd]. rewrite !map_app, IH. f_equal.
  rewrite map_length, choose_map, !map_map. reflexivity.
Qed.

Theorem select_on_local b l0 sk (rows : list (U * P)) out :
  select_partitions_on b l0 sk rows out ->
  exists ch : source U, valid_source l0 ch /\ Permutation out (select_partitions l0 ch sk rows).
Proof.
  intros [grouped [unique [draws [col [accs [Hg [Hu [Vd [Hc [Hm Ho]]]]]]]]]].
  set (a0 := compound_create [] []) in *. set (tag := fun k : P => (k, a0)).
  pose proof (grouping_local rows grouped Hg) as [N [N' [Ek Hr]]].
  set (g := map (fun x : U * list P => (fst x, map tag (unique (fst x)))) grouped).
  set (g' := map (fun x : U * list P => (fst x, map tag (distinct (snd x)))) (group_by_key rows)).
  assert (Kg : krel (krel cacc_eq) g g').
  { unfold krel at 1. unfold g, g'. rewrite !map_map. cbn [fst]. split; [exact N|split; [exact N'|split; [exact Ek|]]].
    intros u vs vs' I I'. apply in_map_iff in I. destruct I as [[u1 pks] [E1 I1]]. apply in_map_iff in I'. destruct I' as [[u2 pks'] [E2 I2]].
    cbn [fst snd] in *. injection E1 as -> <-. injection E2 as -> <-. destruct (Hu u pks I1) as [Nu Eu]. pose proof (Hr u pks pks' I1 I2) as Pu.
    unfold krel. rewrite !map_map. cbn [fst tag]. rewrite !map_id. split; [exact Nu|split; [apply NoDup_distinct|split]].
    - intro k. rewrite Eu, in_distinct. split; apply Permutation_in; [|apply Permutation_sym]; exact Pu.
    - intros k a c Ia Ic. apply in_map_iff in Ia. apply in_map_iff in Ic. destruct Ia as [ka [Ea _]], Ic as [kc [Ec _]].
      unfold tag in Ea, Ec. injection Ea as _ <-. injection Ec as _ <-. apply cacc_eq_refl. }
  destruct (choose_local_keyed cacc_eq l0 draws g g' Vd Kg) as [ch [Vc Kc]].
  exists ch. split; [exact Vc|]. apply unnest_krel in Kc.
  assert (Kc2 : prel cacc_eq col (map (fun x => (snd x, a0)) (flat_map (fun x => map (fun k => (fst x, k)) (choose (ch (fst x) (length (distinct (snd x)))) l0 (distinct (snd x)))) (group_by_key rows)))).
  { apply krel_prel in Kc. pose proof (fun S0 => unkey_prel cacc_eq _ _ col S0 Kc) as X. unfold g, g' in X.
    rewrite (tagged_choice ch (fun x => distinct (snd x)) l0 a0) in X. rewrite (tagged_choice draws (fun x => unique (fst x)) l0 a0) in X.
    apply X. exact Hc. }
  unfold stage in Ho. rewrite Ho. unfold select_partitions, partition_counts. fold a0.
  pose proof (krel_trans cacc_eq (fun x y z => cs_trans _ _ (compound_comm_semigroup []) x y z) _ _ _ (combined_local b [] col accs Hm) (combine_prel [] _ _ Kc2)) as Ka.
  assert (Ks : krel cacc_eq (select_private_partitions 1 sk accs)
     (select_private_partitions 1 sk (combine_per_key (compound_merge []) (map (fun x => (snd x, a0)) (flat_map (fun x => map (fun k => (fst x, k)) (choose (ch (fst x) (length (distinct (snd x)))) l0 (distinct (snd x)))) (group_by_key rows)))))).
  { unfold select_private_partitions. apply krel_filter; [|exact Ka]. intros k a c [E _]. cbn [fst snd]. rewrite E. reflexivity. }
  apply (prel_keys _ _ _ (krel_prel _ _ _ Ks)).
Qed.
End Run.
