(** Lemmas for C61: the calls; the outcome as a function of the answers that are used. *)
From Coq Require Import List ZArith QArith Bool Permutation Lia.
From Verif Require Import Base BaseLemmas BackendModel ListLemmas BackendSpec BackendProofs BounderSpec ParamsModel SensModel CombinerModel CombinerProofs3 EngineModel EngineSpec
  EngineProofs EngineProofs2 EngineProofs3 EngineProofs4 EngineProofs5 EngineProps EngineProps2 VectorModel LaplaceModel LaplaceSpec LaplaceProofs
  SelectSpec SelectProofs3 EnforcedSpec EnforcedProofs EnforcedProofs2 EnforcedProps QuantileModel QuantileProps VectorSpec VectorProofs3 DistSpec DpSpec DpProofs.
Import ListNotations.
Local Close Scope Q_scope.

(** ** The combiners *)
Definition is_thresh (cs : list combiner) (i : nat) : bool := match nth_error cs i with Some CThresh => true | _ => false end.

(** The metrics for which a combiner is created. *)
Definition origin (p : params) (c : combiner) : Prop :=
  match c with
  | CThresh => post_aggregation_thresholding p = true
  | CVariance _ _ _ => has VARIANCE (metrics p) = true
  | CQuantile ps => ps <> []
  | CVector _ => has VECTOR_SUM (metrics p) = true
  | _ => True
  end.

Lemma append_if_forall' (R : combiner -> Prop) b mk k l :
  append_if b mk k = Ok l -> (forall c, b = true -> mk = Ok c -> R c) -> (forall l', k = Ok l' -> Forall R l') -> Forall R l.
Proof.
  intros E Hc Hk. apply append_if_split in E. destruct E as [[Hb [c [l' [E1 [E2 ->]]]]]|[_ E]]; auto.
Qed.

Lemma combiner_origin p cs : create_compound_combiner p = Ok cs -> Forall (origin p) cs.
Proof.
  intro E. unfold create_compound_combiner, compound_init in E. destruct (create_combiners p) as [cs'|] eqn:E1; cbn [rbind] in E; [|discriminate].
  apply raise_if_ok in E. destruct E as [_ E]. inversion E; subst cs'. clear E. unfold create_combiners in E1.
  set (k2 := append_if (has PRIVACY_ID_COUNT (metrics p)) _ _) in E1.
  assert (H2 : forall l, k2 = Ok l -> Forall (origin p) l).
  { intros l El. unfold k2 in El. eapply append_if_forall'; [exact El| |].
    - intros c _ Ec. destruct (post_aggregation_thresholding p) eqn:Hp; apply rmap_const_inv in Ec; destruct Ec as [_ ->]; [exact Hp | exact I].
    - intros l' El'. eapply append_if_forall'; [exact El'| |].
      + intros c Hb Ec. unfold new_vector in Ec. destruct (vector_size p); inversion Ec; subst; exact Hb.
      + intros l3 E3. eapply append_if_forall'; [exact E3| |].
        * intros c Hb Ec. inversion Ec. subst c. cbn [origin]. destruct (percentiles (metrics p)); [discriminate Hb | discriminate].
        * intros l4 E4. inversion E4. constructor. }
  clearbody k2. destruct (has VARIANCE (metrics p)) eqn:Hva.
  { eapply append_if_forall'; [exact E1| |exact H2]. intros c _ Ec. unfold new_variance in Ec.
    destruct (min_value p), (max_value p); try discriminate. inversion Ec. exact Hva. }
  destruct (has MEAN (metrics p)).
  { eapply append_if_forall'; [exact E1| |exact H2]. intros c _ Ec. unfold new_mean in Ec.
    destruct (min_value p), (max_value p); try discriminate. destruct (sens_count p); cbn [rbind] in Ec; [|discriminate].
    apply rmap_const_inv in Ec. destruct Ec as [_ ->]. exact I. }
  eapply append_if_forall'; [exact E1| |].
  - intros c _ Ec. apply rmap_const_inv in Ec. destruct Ec as [_ ->]. exact I.
  - intros l El. eapply append_if_forall'; [exact El| |exact H2]. intros c _ Ec. unfold new_sum in Ec.
    destruct (sens_sum p); cbn [rbind] in Ec; [|discriminate]. destruct (bounds_per_partition_are_set p).
    + destruct (min_sum_per_partition p), (max_sum_per_partition p); try discriminate; inversion Ec; exact I.
    + destruct (min_value p), (max_value p); try discriminate; inversion Ec; exact I.
Qed.

Lemma nth_origin p cs i c : create_compound_combiner p = Ok cs -> nth_error cs i = Some c -> origin p c.
Proof.
  intros E Hi. assert (F := combiner_origin p cs E). rewrite Forall_forall in F. apply F. eapply nth_error_In. exact Hi.
Qed.

Lemma has_In m ms : has m ms = true -> (forall x, m <> PERCENTILE x) -> In m ms.
Proof.
  unfold has. intros E N. apply existsb_exists in E. destruct E as [x [I E]].
  destruct m, x; try discriminate; try exact I. exfalso. eapply N. reflexivity.
Qed.

Lemma unique_name {A B} (f : A -> list B) cs : NoDup (flat_map f cs) -> forall i j c c' x,
  nth_error cs i = Some c -> nth_error cs j = Some c' -> In x (f c) -> In x (f c') -> i = j.
Proof.
  induction cs as [|c0 cs IH]; intros N i j c c' x Ei Ej I J; [destruct i; discriminate|].
  cbn [flat_map] in N. apply (NoDup_app_iff (f c0)) in N. destruct N as [_ [N2 N3]].
  destruct i as [|i], j as [|j]; cbn in Ei, Ej; [reflexivity| | |].
  - exfalso. inversion Ei; subst c0. apply (N3 x I). apply in_flat_map. exists c'. split; [eapply nth_error_In; exact Ej | exact J].
  - exfalso. inversion Ej; subst c0. apply (N3 x J). apply in_flat_map. exists c. split; [eapply nth_error_In; exact Ei | exact I].
  - f_equal. exact (IH N2 i j c c' x Ei Ej I J).
Qed.

Lemma one_thresh p cs : create_compound_combiner p = Ok cs -> post_aggregation_thresholding p = true -> In PRIVACY_ID_COUNT (metrics p) ->
  exists j, nth_error cs j = Some CThresh /\ (forall i, nth_error cs i = Some CThresh -> i = j).
Proof.
  intros E Tp M. assert (E0 := E). unfold create_compound_combiner, compound_init in E.
  destruct (create_combiners p) as [cs'|] eqn:E1; cbn [rbind] in E; [|discriminate].
  unfold raise_if in E. destruct (has_duplicates (flat_map names_of cs')) eqn:D; [discriminate|]. inversion E; subst cs'. clear E.
  apply no_duplicates_NoDup in D. destruct (create_combiners_names p cs E1) as [_ N].
  assert (I : In NPidCount (flat_map names_of cs)) by (apply N; apply in_map_iff; exists PRIVACY_ID_COUNT; auto).
  apply in_flat_map in I. destruct I as [c [Ic In1]]. rewrite (thresh_only p cs c E0 Tp Ic In1) in Ic.
  destruct (In_nth_error _ _ Ic) as [j Ej]. exists j. split; [exact Ej|].
  intros i Ei. apply (unique_name names_of cs D i j CThresh CThresh NPidCount Ei Ej); left; reflexivity.
Qed.

(** ** The partitions *)
Lemma raw_keys_in {U P} `{EqDec U} `{EqDec P} p cs (sm : sampling U P) public rows col :
  contribution_bounds_already_enforced p = true \/ valid_sampling p sm ->
  raw_accumulators p cs sm public rows = Ok col ->
  (forall k, In k (map fst col) -> In k (row_keys (to_bound p public rows)) \/ (exists pub, public = Some pub /\ In k pub)) /\
  (forall pub, public = Some pub -> incl pub (map fst col)).
Proof.
  intros Hm E. assert (E0 := E). destruct (raw_keys _ _ _ _ _ _ E0) as [_ [c0 [Ec Kc]]].
  assert (G : forall pairs, (forall k, In k (map fst pairs) -> In k (row_keys (to_bound p public rows))) ->
     col = combine_per_key (compound_merge cs) (with_accs cs (pairs ++ empties public)) ->
     forall k, In k (map fst col) -> In k (row_keys (to_bound p public rows)) \/ (exists pub, public = Some pub /\ In k pub)).
  { intros pairs Hpairs -> k Hk. rewrite combine_per_key_keys, in_distinct in Hk. unfold with_accs in Hk. rewrite map_values_keys in Hk.
    rewrite map_app in Hk. apply in_app_or in Hk. destruct Hk as [Hk|Hk]; [left; apply Hpairs; exact Hk|].
    right. destruct public as [pub|]; [|destruct Hk]. exists pub. split; [reflexivity|]. cbn in Hk.
    rewrite map_map in Hk. cbn in Hk. rewrite map_id in Hk. exact Hk. }
  split; [|intros pub -> k Hk; apply Kc; right; exact Hk].
  destruct (contribution_bounds_already_enforced p) eqn:Hb.
  - rewrite (raw_trusted p cs sm public rows Hb) in E. apply (G (row_pairs (to_bound p public rows))); [|congruence].
    intros k Hk. unfold row_pairs in Hk. rewrite map_map in Hk. exact Hk.
  - destruct Hm as [Hm|Hv]; [discriminate|]. destruct (raw_accumulators_pairs _ _ _ _ _ _ Hb E) as [kept [Ek ->]].
    destruct (kept_keys _ _ _ _ _ Hv Ek) as [_ Ik].
    apply (G (map (fun e => (snd (fst e), snd e)) kept)); [|reflexivity].
    intros k Hk. rewrite map_map in Hk. cbn [fst] in Hk. apply in_map_iff in Hk. destruct Hk as [e [<- He]]. apply (in_map fst) in He. apply Ik in He.
    apply in_map_iff in He. destruct He as [r [Er Hr]]. rewrite <- Er. unfold row_keys. apply (in_map (fun r => snd (fst r))) in Hr. exact Hr.
Qed.

Record call_facts {U P} `{EqDec U} `{EqDec P} (c : call U P) (col : list (P * cacc)) : Prop := Facts {
  f_run : bounded_run (c_params c) (c_combiners c) (c_sampling c) (c_public c) (c_rows c) (c_keys c) col;
  f_accepted : accepted (c_params c);
  f_check : check_aggregate_params true true (c_params c) = Ok tt;
  f_combiners : create_compound_combiner (c_params c) = Ok (c_combiners c);
  f_distinct : NoDup (c_keys c);
  f_raw : raw_accumulators (c_params c) (c_combiners c) (c_sampling c) (c_public c) (c_rows c) = Ok col;
  f_usable : all_usable (c_combiners c) col;
  f_vector : forall i n, nth_error (c_combiners c) i = Some (CVector n) -> vector_covered (c_params c) (c_public c) /\ vector_size (c_params c) = Some n;
  f_no_thresh : post_aggregation_thresholding (c_params c) = false -> forall i, nth_error (c_combiners c) i <> Some CThresh;
  f_thresh : post_aggregation_thresholding (c_params c) = true ->
     exists j, nth_error (c_combiners c) j = Some CThresh /\ (forall i, nth_error (c_combiners c) i = Some CThresh -> i = j);
  f_thresh_run : post_aggregation_thresholding (c_params c) = true ->
     standard_run (c_params c) (c_combiners c) (c_sampling c) (c_public c) (c_rows c) (c_keys c) col;
  f_keys : incl (map fst col) (c_keys c);
  f_public : selects_privately (c_params c) (c_public c) = false -> post_aggregation_thresholding (c_params c) = false ->
     incl (c_keys c) (map fst col);
  f_private : selects_privately (c_params c) (c_public c) = true ->
     c_public c = None /\ post_aggregation_thresholding (c_params c) = false /\ public_partitions_already_filtered (c_params c) = false;
  f_contrib : c_public c = None \/ post_aggregation_thresholding (c_params c) = true -> max_contributions (c_params c) = None;
  f_variance : forall i lo hi n, nth_error (c_combiners c) i = Some (CVariance lo hi n) ->
     max_contributions (c_params c) = None /\ squares_covered lo hi;
  f_quantile : forall i ps, nth_error (c_combiners c) i = Some (CQuantile ps) ->
     exists lo hi, min_value (c_params c) = Some lo /\ max_value (c_params c) = Some hi /\ (lo < hi)%Q;
  f_sum : contribution_bounds_already_enforced (c_params c) = true -> forall i lo hi, nth_error (c_combiners c) i <> Some (CSum true lo hi) }.

Lemma row_keys_without {U P} `{EqDec U} u (rows : list (U * P * value)) : incl (row_keys (without u rows)) (row_keys rows).
Proof.
  intros k Hk. unfold row_keys in *. apply in_map_iff in Hk. destruct Hk as [r [<- Hr]]. unfold without in Hr. apply filter_In in Hr.
  apply in_map_iff. exists r. tauto.
Qed.

Lemma checked_metrics p : check_aggregate_params true true p = Ok tt ->
  (max_contributions p <> None -> has VARIANCE (metrics p) = false) /\
  (post_aggregation_thresholding p = true -> In PRIVACY_ID_COUNT (metrics p) /\ contribution_bounds_already_enforced p = false).
Proof.
  unfold check_aggregate_params. intro C. apply raise_if_ok in C. destruct C as [C1 C]. do 2 (apply raise_if_ok in C; destruct C as [_ C]).
  apply raise_if_ok in C. destruct C as [C2 C]. apply raise_if_ok in C. destruct C as [C3 _]. split.
  - intro N. destruct (max_contributions p); [|congruence]. cbn [is_some andb] in C1. apply negb_false_iff in C1.
    unfold only in C1. rewrite forallb_forall in C1. apply not_true_is_false. intro X. apply has_In in X; [|discriminate].
    apply C1 in X. discriminate.
  - intro Tp. rewrite Tp in C3. cbn [andb] in C3. apply negb_false_iff in C3. rewrite C3, andb_true_r in C2.
    split; [|exact C2]. apply has_In; [exact C3 | discriminate].
Qed.

Lemma valid_call_facts {U P} `{EqDec U} `{EqDec P} (c : call U P) : valid_call c -> exists col, call_facts c col.
Proof.
  intros [[Hch [Hnv [Hc [Hva [Hq Hs]]]]] [Hk [Hvec [col Run]]]]. exists col.
  assert (B : accepted (c_params c) /\ create_compound_combiner (c_params c) = Ok (c_combiners c) /\ NoDup (c_keys c) /\
    raw_accumulators (c_params c) (c_combiners c) (c_sampling c) (c_public c) (c_rows c) = Ok col /\
    (contribution_bounds_already_enforced (c_params c) = true \/ valid_sampling (c_params c) (c_sampling c))).
  { destruct Run as [[Ha [Hcs [Hb [Hv [Hp [Nk E]]]]]]|[Ha [Hcs [Hb [W [Nk E]]]]]]; auto 10. }
  destruct B as [Ha [Hcs [Nk [E Hm]]]].
  destruct (raw_keys_in _ _ _ _ _ _ Hm E) as [K1 K2]. destruct (checked_metrics _ Hch) as [M1 M2].
  assert (O := fun i cb => nth_origin (c_params c) (c_combiners c) i cb Hcs).
  assert (K := fun i cb => nth_constructed (c_params c) (c_combiners c) i cb Hcs).
  assert (Vm : forall i n, nth_error (c_combiners c) i = Some (CVector n) -> In VECTOR_SUM (metrics (c_params c)))
    by (intros i n I; apply O in I; cbn in I; apply has_In; [exact I | discriminate]).
  assert (Vs : forall i n, nth_error (c_combiners c) i = Some (CVector n) -> vector_size (c_params c) = Some n).
  { intros i n I. destruct (Hnv (Vm i n I)) as [_ [_ [n' [_ [_ [_ [En _]]]]]]]. apply K in I. cbn [constructed] in I.
    unfold new_vector in I. rewrite En in I |- *. congruence. }
  split; auto.
  - intros k a Ia. assert (Kd := raw_kinds _ _ _ _ _ _ k a E Ia).
    assert (Kv : forall i n b, nth_error (c_combiners c) i = Some (CVector n) -> nth_error (snd a) i = Some b -> exists l, b = AVec l).
    { intros i n b Ei Eb. destruct (Hnv (Vm i n Ei)) as [Pn [Hb [n' [kind [mn [linf [En [Pn' [_ [_ [_ [_ [El _]]]]]]]]]]]]].
      assert (Hm' : max_contributions (c_params c) = None) by (apply Hc; left; exact Pn).
      destruct (accepted_facts _ Ha) as [_ [_ [_ Hf]]]. rewrite Hm' in Hf. destruct Hf as [l0 [linf' [_ [El' [_ Pl]]]]]. rewrite El in El'. inversion El'; subst linf'.
      destruct Run as [R|R]; [|exfalso; destruct R as [_ [_ [X _]]]; congruence]. rewrite Pn in R.
      destruct (vector_accs _ _ _ _ _ _ i n linf R Hm' El Pl Ei (Hvec (Vm i n Ei) n (Vs i n Ei)) k a Ia) as [l [E1 _]]. exists l. congruence. }
    clear -Kd Kv. remember (snd a) as accs. clear Heqaccs. revert Kv. induction Kd as [|cb b cs accs Kb Kd IH]; intro Kv; constructor.
    + split; [exact Kb|]. intros n ->. exact (Kv 0 n b eq_refl eq_refl).
    + apply IH. intros i n b' Ei Eb. exact (Kv (S i) n b' Ei Eb).
  - intros i n I. split; [apply Hnv; exact (Vm i n I) | exact (Vs i n I)].
  - intros Tp i X. apply O in X. cbn in X. congruence.
  - intro Tp. apply (one_thresh (c_params c)); [exact Hcs | exact Tp | apply M2; exact Tp].
  - intro Tp. destruct Run as [R|R]; [exact R|]. exfalso. destruct R as [_ [_ [Hb _]]]. destruct (M2 Tp) as [_ X]. congruence.
  - intros k I. apply K1 in I. unfold to_bound in I. destruct (c_public c) as [pub|].
    + destruct Hk as [Hk Hf]. apply Hk. destruct I as [I|[pub' [E' I]]]; [|inversion E'; subst; exact I].
      destruct (public_partitions_already_filtered (c_params c)); [apply Hf; auto|].
      unfold row_keys in I. apply in_map_iff in I. destruct I as [r [<- I]]. rewrite drop_partitions_filter in I. apply filter_In in I.
      apply mem_true_iff. apply I.
    + destruct I as [I|[pub' [E' _]]]; [|discriminate]. apply Hk. exact I.
  - intros Sp Tp. unfold selects_privately in Sp. rewrite Tp in Sp. destruct (c_public c) as [pub|].
    + intros k I. apply (K2 pub eq_refl). destruct Hk as [Hk _]. apply Hk. exact I.
    + destruct Hk as [-> _] in Sp. discriminate.
  - unfold selects_privately. intro Sp. apply andb_true_iff in Sp. destruct Sp as [Sp Fp]. apply andb_true_iff in Sp. destruct Sp as [Sp Tp].
    destruct (c_public c); [discriminate|]. apply negb_true_iff in Tp, Fp. auto.
  - intros i lo hi n X. assert (X1 := O _ _ X). assert (X2 := K _ _ X). cbn [origin constructed] in X1, X2. split.
    + destruct (max_contributions (c_params c)) eqn:Em; [|reflexivity]. exfalso. rewrite M1 in X1; [discriminate | congruence].
    + apply has_In in X1; [|discriminate]. unfold new_variance in X2.
      destruct (min_value (c_params c)) as [lo'|], (max_value (c_params c)) as [hi'|]; try discriminate. inversion X2; subst.
      exact (Hva X1 lo hi eq_refl eq_refl).
  - intros i ps X. assert (X1 := O _ _ X). assert (X2 := K _ _ X). cbn [origin constructed] in X1, X2.
    destruct ps as [|x ps]; [congruence|]. assert (I : In x (percentiles (metrics (c_params c)))) by (rewrite <- X2; left; reflexivity).
    unfold percentiles in I. apply in_flat_map in I. destruct I as [m [Im I]]. destruct m; try (exfalso; exact I).
    exact (Hq _ Im).
  - intros Hb i lo hi X. apply K in X. cbn [constructed] in X. unfold new_sum in X. destruct (sens_sum (c_params c)); cbn [rbind] in X; [|discriminate].
    unfold bounds_per_partition_are_set in X. rewrite (Hs Hb) in X. cbn [is_some andb] in X.
    destruct (min_value (c_params c)), (max_value (c_params c)); discriminate.
Qed.

Lemma vectors_without {U P} `{EqDec U} n u (rows : list (U * P * value)) : vectors n (map snd rows) -> vectors n (map snd (without u rows)).
Proof.
  intros V v I. apply V. apply in_map_iff in I. destruct I as [r [<- I]]. unfold without in I. apply filter_In in I. apply in_map. apply I.
Qed.

Lemma promised_without {U P V} `{EqDec U} `{EqDec P} p u (rows : list (U * P * V)) : promised p rows -> promised p (without u rows).
Proof.
  intros Hp X u' l0 E. eapply Z.le_trans; [|apply (Hp X u' l0 E)]. apply Nat2Z.inj_le. unfold partitions_of.
  apply NoDup_incl_length; [apply NoDup_distinct|]. intros k I. apply (proj1 (in_distinct _ _)) in I. apply (proj2 (in_distinct _ _)).
  apply in_map_iff in I. destruct I as [r [<- I]]. apply filter_In in I. destruct I as [I1 I2]. unfold without in I1. apply filter_In in I1.
  apply in_map_iff. exists r. split; [reflexivity|]. apply filter_In. tauto.
Qed.

Lemma forget_valid {U P} `{EqDec U} `{EqDec P} (u : U) (c : call U P) : valid_call c -> valid_call (forget u c).
Proof.
  intros [Hpar [Hk [Hvec [col Run]]]]. split; [exact Hpar|]. split; [|split].
  - cbn. destruct (c_public c) as [pub|].
    + destruct Hk as [Hk Hf]. split; [exact Hk|]. intro X. eapply incl_tran; [apply row_keys_without | apply Hf; exact X].
    + destruct Hk as [Hk Hf]. split; [exact Hk|]. eapply incl_tran; [apply row_keys_without | exact Hf].
  - cbn. intros I n En. apply vectors_without. exact (Hvec I n En).
  - cbn. assert (E : raw_accumulators (c_params c) (c_combiners c) (c_sampling c) (c_public c) (c_rows c) = Ok col)
      by (destruct Run as [[_ [_ [_ [_ [_ [_ E]]]]]]|[_ [_ [_ [_ [_ E]]]]]]; exact E).
    destruct (raw_without_ok _ _ _ _ _ u _ E) as [col' E']. exists col'. clear E.
    destruct Run as [[Ha [Hcs [Hb [Hv [Hp [Nk E]]]]]]|[Ha [Hcs [Hb [W [Nk E]]]]]]; [left|right].
    + repeat (split; [assumption|]). split; [|split; assumption]. apply promised_without. exact Hp.
    + repeat (split; [assumption|]). split; [|split; assumption]. apply without_within. exact W.
Qed.

(** ** The answers that are used *)
Section Answers.
Context {U P : Type} `{EqDec U} `{EqDec P}.

Definition ledger (c : call U P) (b : budgets) : list (nat * quantity * result sens * (Q * Q)) :=
  flat_map (fun e => match budget_of c b (fst (fst e)) (snd (fst e)) with Some (s, eb) => [(fst e, s, eb)] | None => [] end)
           (noised_quantities (c_params c) (c_combiners c)).
Definition used (c : call U P) (b : budgets) : list (nat * quantity * result sens * (Q * Q)) :=
  filter (fun en => negb (is_thresh (c_combiners c) (fst (fst (fst en))))) (ledger c b).
Definition base (c : call U P) (b : budgets) : list (nat * quantity * P) :=
  concat (map (fun en => map (pair (fst (fst en))) (c_keys c)) (used c b)).
Definition value_at (col : list (P * cacc)) (s : nat * quantity * P) : Q :=
  raw_value (quantity_of (snd (fst s))) (fst (fst s)) (snd s) col.
Definition thresh_index (cs : list combiner) : nat :=
  match find (is_thresh cs) (seq 0 (length cs)) with Some j => j | None => 0 end.
Definition thresh_count (c : call U P) (col : list (P * cacc)) (k : P) : Z :=
  Qnum (raw_value count_of (thresh_index (c_combiners c)) k col).
Definition trees (c : call U P) : list (nat * list Q) :=
  flat_map (fun ic => match snd ic with CQuantile ps => [(fst ic, ps)] | CVector _ => [(fst ic, [])] | _ => [] end) (combine (seq 0 (length (c_combiners c))) (c_combiners c)).
Definition tree_base (c : call U P) : list (nat * list Q * P) :=
  concat (map (fun en => map (pair en) (c_keys c)) (trees c)).
Definition list_at (c : call U P) (col : list (P * cacc)) (i : nat) (k : P) : list Q :=
  match nth_error (c_combiners c) i with Some (CVector _) => raw_vector i k col | _ => raw_tree i k col end.
Definition question_at (c : call U P) (col : list (P * cacc)) (s : nat * list Q * P) : nat * P * (list Q * list Q) :=
  (fst (fst s), snd s, (list_at c col (fst (fst s)) (snd s), map (fun x => x / 100)%Q (snd (fst s)))).
Definition assigned {S A} `{EqDec S} (d : A) (bs : list S) (ys : list A) (s : S) : A :=
  match find (fun e => eqb (fst e) s) (combine bs ys) with Some e => snd e | None => d end.
Definition answer_of (c : call U P) (zs : list (list Q)) (k : P) (i : nat) : list Q :=
  match nth_error (c_combiners c) i with
  | Some (CQuantile ps) => assigned [] (tree_base c) zs (i, ps, k)
  | Some (CVector _) => assigned [] (tree_base c) zs (i, [], k)
  | _ => []
  end.
Definition shape (c : call U P) (b : budgets) (sel : list (option Q)) (ys : list Q) (zs : list (list Q)) : outcome P :=
  Ok (map (fun ks => option_map (fun q => render (c_combiners c) (fun i qt => assigned 0%Q (base c b) ys (i, qt, fst ks)) (fun _ => Some q)
                                            (answer_of c zs (fst ks))) (snd ks))
          (combine (c_keys c) sel), []).
Definition chosen (c : call U P) (col : list (P * cacc)) (keep : P * Z -> bool) (noised : nat * P * Z -> option Q) (k : P) : option Q :=
  if selects_privately (c_params c) (c_public c) then (if keep (k, estimate (c_params c) k col) then Some 0%Q else None)
  else if post_aggregation_thresholding (c_params c) then noised (thresh_index (c_combiners c), k, thresh_count c col k)
  else Some 0%Q.

Lemma thresh_index_spec cs j : nth_error cs j = Some CThresh -> (forall i, nth_error cs i = Some CThresh -> i = j) -> thresh_index cs = j.
Proof.
  intros Ej Un. unfold thresh_index. destruct (find (is_thresh cs) (seq 0 (length cs))) as [i|] eqn:F.
  - apply find_some in F. destruct F as [_ F]. apply Un. unfold is_thresh in F. destruct (nth_error cs i) as [[]|]; try discriminate. reflexivity.
  - exfalso. assert (X : is_thresh cs j = false).
    { apply (find_none _ _ F j). apply in_seq. assert (N : nth_error cs j <> None) by congruence. apply nth_error_Some in N. lia. }
    unfold is_thresh in X. rewrite Ej in X. discriminate.
Qed.

Lemma plan_quantities p c : NoDup (map fst (noise_plan p c)).
Proof.
  assert (N : forall x : quantity, NoDup [x]) by (intro; constructor; [intros [] | constructor]).
  destruct c; cbn [noise_plan map fst]; try apply N; try constructor.
  - cbn. intros [X|[]]; discriminate.
  - apply N.
  - destruct (max_contributions_per_partition p); [|apply N]. rewrite !map_app.
    destruct (Qeq_bool _ _), (Qeq_bool _ _); cbn; repeat constructor; cbn; intuition discriminate.
Qed.

Lemma noised_keys p cs : NoDup (map fst (noised_quantities p cs)).
Proof.
  unfold noised_quantities. generalize 0 as n. induction cs as [|c cs IH]; intro n; [constructor|].
  cbn [length seq combine flat_map fst snd]. rewrite map_app, map_map. cbn [fst]. apply NoDup_app_intro.
  - rewrite <- (map_map fst (pair n)). apply FinFun.Injective_map_NoDup; [intros x y E; congruence | apply plan_quantities].
  - apply IH.
  - intros [i qt] X Y. apply in_map_iff in X. destruct X as [x [X _]]. inversion X; subst i.
    apply in_map_iff in Y. destruct Y as [[[i' qt'] s] [E Y]]. cbn in E. inversion E; subst.
    apply in_flat_map in Y. destruct Y as [[i c'] [Y1 Y2]]. apply in_map_iff in Y2. destruct Y2 as [z [Y2 _]]. cbn in Y2. inversion Y2; subst.
    apply combine_seq_nth in Y1. lia.
Qed.

Lemma combine_fst {A B} (l : list A) (l' : list B) : length l' = length l -> map fst (combine l l') = l.
Proof. revert l'. induction l as [|x l IH]; intros [|y l'] L; try discriminate; [reflexivity|]. cbn. f_equal. apply IH. cbn in L. lia. Qed.

Lemma flat_map_keys {A B C} (key : B -> C) (f : A -> list B) (g : A -> C) l :
  (forall x, exists y, f x = [] \/ f x = [y] /\ key y = g x) -> NoDup (map g l) -> NoDup (map key (flat_map f l)).
Proof.
  intros F. assert (I : forall l, incl (map key (flat_map f l)) (map g l)).
  { intros l' x X. apply in_map_iff in X. destruct X as [y [<- X]]. apply in_flat_map in X. destruct X as [a [Ia X]].
    destruct (F a) as [y' [E|[E K]]]; rewrite E in X; [destruct X|]. destruct X as [<-|[]]. rewrite K. apply in_map. exact Ia. }
  induction l as [|x l IH]; intro N; [constructor|]. cbn [map] in N. inversion N; subst. cbn [flat_map].
  destruct (F x) as [y [E|[E K]]]; rewrite E; cbn [app]; [auto|]. cbn [map]. constructor; [|auto].
  intro X. rewrite K in X. apply H3. apply I. exact X.
Qed.

Lemma ledger_keys (c : call U P) b : NoDup (map (fun en => fst (fst en)) (ledger c b)).
Proof.
  unfold ledger. apply flat_map_keys with (g := fst); [|apply noised_keys].
  intros [[i qt] s]. cbn [fst snd]. destruct (budget_of c b i qt) as [[s' eb]|].
  - eexists. right. split; reflexivity.
  - exists (i, qt, s, (0, 0)%Q). left. reflexivity.
Qed.

(** The budgets of a combiner. *)
Lemma slices_length cs : forall bs i cb, length bs = list_sum (map requests cs) -> nth_error cs i = Some cb ->
  length (nth i (slices cs bs) []) = requests cb.
Proof.
  induction cs as [|c cs IH]; intros bs i cb L Ei; [destruct i; discriminate|].
  change (list_sum (map requests (c :: cs))) with (requests c + list_sum (map requests cs)) in L.
  destruct i as [|i]; cbn [nth_error] in Ei; cbn [slices nth].
  - inversion Ei; subst. rewrite firstn_length. lia.
  - apply IH; [|exact Ei]. rewrite skipn_length. lia.
Qed.

Definition enough_budgets (c : call U P) (b : budgets) : Prop := length (b_noise b) = list_sum (map requests (c_combiners c)).

Lemma own_length (c : call U P) b i cb : enough_budgets c b -> nth_error (c_combiners c) i = Some cb -> length (own c b i) = requests cb.
Proof. intros L Ei. unfold own. apply slices_length; assumption. Qed.

Lemma found_once {A B} `{EqDec A} (l : list (A * B)) x y : NoDup (map fst l) -> In (x, y) l -> find (fun e => eqb (fst e) x) l = Some (x, y).
Proof.
  induction l as [|[x' y'] l IH]; intros N I; [destruct I|]. cbn [map fst] in N. inversion N; subst. cbn [find fst].
  destruct (eqb x' x) eqn:E.
  - apply eqb_eq in E. subst x'. destruct I as [I|I]; [congruence|]. exfalso. apply H4. apply in_map_iff. exists (x, y). auto.
  - destruct I as [I|I]; [inversion I; subst; rewrite eqb_refl in E; discriminate|]. apply IH; assumption.
Qed.

Lemma shares_complete p cb bs qt : length bs = requests cb -> In qt (map fst (noise_plan p cb)) ->
  exists eb, find (fun e => eqb (fst e) qt) (shares cb bs) = Some (qt, eb).
Proof.
  intros L I. destruct cb as [| | |b lo hi|lo hi names|lo hi names|ps|n]; cbn [requests] in L; destruct bs as [|b1 [|b2 [|b3 bs]]]; try discriminate L; try (exfalso; exact I).
  1-4: destruct I as [<-|[]]; eexists; reflexivity.
  - destruct I as [<-|[<-|[]]]; eexists; reflexivity.
  - destruct b1 as [e d]. destruct qt; eexists; reflexivity.
Qed.

Lemma budget_of_some (c : call U P) b i cb qt s : enough_budgets c b -> nth_error (c_combiners c) i = Some cb ->
  In (qt, s) (noise_plan (c_params c) cb) -> exists eb, budget_of c b i qt = Some (s, eb).
Proof.
  intros L Ei I. unfold budget_of. rewrite Ei, (found_once _ _ _ (plan_quantities _ _) I).
  destruct (shares_complete (c_params c) cb (own c b i) qt (own_length _ _ _ _ L Ei)) as [eb ->]; [apply (in_map fst) in I; exact I|]. eauto.
Qed.

Lemma in_indexed {A} (cs : list A) i c : nth_error cs i = Some c -> In (i, c) (combine (seq 0 (length cs)) cs).
Proof.
  intro Ei. assert (G : forall n, In (n + i, c) (combine (seq n (length cs)) cs)).
  { revert i Ei. clear. induction cs as [|c' cs IH]; intros [|j] Ej n; cbn in Ej; try discriminate.
    - inversion Ej. left. f_equal. lia.
    - right. replace (n + S j) with (S n + j) by lia. apply IH. exact Ej. }
  exact (G 0).
Qed.

Lemma noised_complete p cs i c qt : nth_error cs i = Some c -> In qt (map fst (noise_plan p c)) ->
  exists s, In (i, qt, s) (noised_quantities p cs).
Proof.
  intros Ei I. apply in_map_iff in I. destruct I as [[qt' s] [E I]]. cbn in E. subst qt'. exists s.
  unfold noised_quantities. apply in_flat_map. exists (i, c). split; [|apply in_map_iff; exists (qt, s); auto].
  assert (G : forall n, In (n + i, c) (combine (seq n (length cs)) cs)).
  { revert i Ei. clear. induction cs as [|c' cs IH]; intros [|j] Ej n; cbn in Ej; try discriminate.
    - inversion Ej. left. f_equal. lia.
    - right. replace (n + S j) with (S n + j) by lia. apply IH. exact Ej. }
  exact (G 0).
Qed.

Lemma uses_planned (c : call U P) col i cb qt : call_facts c col -> nth_error (c_combiners c) i = Some cb -> In qt (uses cb) ->
  In qt (map fst (noise_plan (c_params c) cb)).
Proof.
  intros F Ei. destruct cb as [| | |b lo hi|lo hi names|lo hi names|ps|n]; try (cbn; tauto). cbn [uses noise_plan].
  destruct (f_variance _ _ F _ _ _ _ Ei) as [M _]. destruct (accepted_facts _ (f_accepted _ _ F)) as [_ [_ [_ Hf]]]. rewrite M in Hf.
  destruct Hf as [l0 [linf [_ [-> _]]]]. rewrite !map_app. cbn [map fst app].
  destruct (Qeq_bool lo hi), (Qeq_bool (fst (squares_interval lo hi)) (snd (squares_interval lo hi))); cbn; tauto.
Qed.

Lemma base_complete (c : call U P) b col i cb qt k : call_facts c col -> enough_budgets c b ->
  nth_error (c_combiners c) i = Some cb -> In qt (uses cb) -> In k (c_keys c) -> In (i, qt, k) (base c b).
Proof.
  intros F L Ei Iq Ik. assert (Ip := uses_planned c col i cb qt F Ei Iq).
  apply in_map_iff in Ip. destruct Ip as [[qt' s] [Eq Ip]]. cbn in Eq. subst qt'.
  destruct (budget_of_some c b i cb qt s L Ei Ip) as [eb Eb].
  assert (Is : In (i, qt, s) (noised_quantities (c_params c) (c_combiners c))).
  { unfold noised_quantities. apply in_flat_map. exists (i, cb). split; [apply in_indexed; exact Ei | apply in_map_iff; exists (qt, s); auto]. }
  unfold base. apply in_concat. exists (map (pair (i, qt)) (c_keys c)). split; [|apply in_map; exact Ik].
  apply in_map_iff. exists (i, qt, s, eb). split; [reflexivity|]. unfold used. apply filter_In. split.
  - unfold ledger. apply in_flat_map. exists (i, qt, s). split; [exact Is|]. cbn [fst snd]. rewrite Eb. left. reflexivity.
  - cbn [fst]. unfold is_thresh. rewrite Ei. destruct cb; try reflexivity. destruct Iq.
Qed.

Definition asks (c : call U P) (i : nat) (ps : list Q) : Prop :=
  nth_error (c_combiners c) i = Some (CQuantile ps) \/ ((exists n, nth_error (c_combiners c) i = Some (CVector n)) /\ ps = []).

Lemma in_trees (c : call U P) i ps : In (i, ps) (trees c) <-> asks c i ps.
Proof.
  unfold trees, asks. rewrite in_flat_map. split.
  - intros [[j cb] [I J]]. apply combine_seq_nth in I. rewrite Nat.sub_0_r in I. destruct I as [I _]. cbn [fst snd] in J.
    destruct cb; try (exfalso; exact J); destruct J as [J|[]]; inversion J; subst; eauto.
  - intros [Ei|[[n Ei] ->]].
    + exists (i, CQuantile ps). split; [apply in_indexed; exact Ei | left; reflexivity].
    + exists (i, CVector n). split; [apply in_indexed; exact Ei | left; reflexivity].
Qed.

Lemma tree_base_complete (c : call U P) i ps k : asks c i ps -> In k (c_keys c) -> In (i, ps, k) (tree_base c).
Proof.
  intros Ei Ik. unfold tree_base. apply in_concat. exists (map (pair (i, ps)) (c_keys c)). split; [|apply in_map; exact Ik].
  apply in_map_iff. exists (i, ps). split; [reflexivity | apply in_trees; exact Ei].
Qed.

Lemma filter_keys {A B} (f : A -> B) q l : NoDup (map f l) -> NoDup (map f (filter q l)).
Proof.
  induction l as [|x l IH]; intro N; [constructor|]. inversion N; subst. cbn [filter]. destruct (q x); [|auto].
  cbn [map]. constructor; [|auto]. intro X. apply H3. apply in_map_iff in X. destruct X as [y [E X]]. apply filter_In in X.
  apply in_map_iff. exists y. tauto.
Qed.

Lemma base_NoDup (c : call U P) b : NoDup (c_keys c) -> NoDup (base c b).
Proof.
  intros Nk. assert (N := filter_keys _ (fun en => negb (is_thresh (c_combiners c) (fst (fst (fst en))))) _ (ledger_keys c b)).
  fold (used c b) in N. unfold base. induction (used c b) as [|en l IH]; [constructor|]. cbn [map] in N. inversion N; subst.
  cbn [map concat]. apply NoDup_app_intro.
  - apply FinFun.Injective_map_NoDup; [intros x y E; congruence | exact Nk].
  - apply IH. assumption.
  - intros x X Y. apply in_map_iff in X. destruct X as [k [<- _]]. apply in_concat in Y. destruct Y as [g [G Y]].
    apply in_map_iff in G. destruct G as [en' [<- G]]. apply in_map_iff in Y. destruct Y as [k' [E _]].
    apply H3. apply in_map_iff. exists en'. split; [congruence | exact G].
Qed.

Lemma groups_NoDup {A} (es : list A) (keys : list P) : NoDup es -> NoDup keys -> NoDup (concat (map (fun en => map (pair en) keys) es)).
Proof.
  intros N Nk. induction es as [|en l IH]; [constructor|]. inversion N; subst.
  cbn [map concat]. apply NoDup_app_intro.
  - apply FinFun.Injective_map_NoDup; [intros x y E; congruence | exact Nk].
  - apply IH. assumption.
  - intros x X Y. apply in_map_iff in X. destruct X as [k [<- _]]. apply in_concat in Y. destruct Y as [g [G Y]].
    apply in_map_iff in G. destruct G as [en' [<- G]]. apply in_map_iff in Y. destruct Y as [k' [E _]].
    apply H3. congruence.
Qed.

Lemma trees_keys (c : call U P) : NoDup (map fst (trees c)).
Proof.
  unfold trees. apply flat_map_keys with (g := fst).
  - intros [i cb]. cbn [fst snd]. destruct cb; try (exists (0, []); left; reflexivity); (eexists; right; split; reflexivity).
  - rewrite map_fst_combine by (apply seq_length). apply seq_NoDup.
Qed.

Lemma tree_base_NoDup (c : call U P) : NoDup (c_keys c) -> NoDup (tree_base c).
Proof. intro Nk. apply groups_NoDup; [|exact Nk]. apply (NoDup_map_inv fst). apply trees_keys. Qed.

Lemma assigned_map {S A} `{EqDec S} (d : A) (bs : list S) h s : In s bs -> assigned d bs (map h bs) s = h s.
Proof.
  intro I. unfold assigned. induction bs as [|x bs IH]; [destruct I|]. cbn [map combine find fst].
  destruct (eqb x s) eqn:E; [apply eqb_eq in E; subst; reflexivity|]. apply IH. destruct I as [->|I]; [|exact I].
  rewrite eqb_refl in E. discriminate.
Qed.

Lemma combine_map_self {A B} (f : A -> B) l : combine l (map f l) = map (fun x => (x, f x)) l.
Proof. induction l as [|x l IH]; [reflexivity|]. cbn. rewrite IH. reflexivity. Qed.

Lemma estimate_known p (k : P) col : accepted p -> exists m, max_rows_per_privacy_id p = Some m /\
  divide_and_round_up (row_count k col) m = estimate p k col.
Proof.
  intro Ha. assert (M : exists m, max_rows_per_privacy_id p = Some m).
  { unfold max_rows_per_privacy_id. destruct (contribution_bounds_already_enforced p); [|eauto].
    destruct (accepted_facts p Ha) as [_ [_ [_ Hf]]]. destruct (max_contributions p) as [m|].
    - destruct Hf as [Pm _]. destruct (Z.eqb_spec m 0); [lia|]. eauto.
    - destruct Hf as [l0 [linf [_ [-> _]]]]. eauto. }
  destruct M as [m M]. exists m. split; [exact M|]. unfold estimate. rewrite M. reflexivity.
Qed.

Lemma aggregate_seen (c : call U P) b col keep noise noised answers : call_facts c col -> enough_budgets c b ->
  rmap (seen (c_keys c))
    (aggregate (c_params c) (c_sampling c) (fun k n => keep (k, n))
       (fun k i => Noises (fun x => noise (i, QCount, k, x)) (fun x => noise (i, QSum, k, x)) (fun x => noise (i, QSquares, k, x))
                          (fun n => noised (i, k, n)) (fun l qs => answers (i, k, (l, qs))) (fun v => answers (i, k, (v, []))))
       (c_public c) (c_rows c)) =
  shape c b (map (fun k => if mem k (map fst col) then chosen c col keep noised k else None) (c_keys c))
            (map (fun s => noise (s, value_at col s)) (base c b))
            (map (fun s => answers (question_at c col s)) (tree_base c)).
Proof.
  intros F L. assert (Ha := f_accepted _ _ F). assert (Hcs := f_combiners _ _ F). assert (E := f_raw _ _ F).
  set (nz := fun (k : P) i => Noises (fun x => noise (i, QCount, k, x)) (fun x => noise (i, QSum, k, x)) (fun x => noise (i, QSquares, k, x))
                          (fun n => noised (i, k, n)) (fun l qs => answers (i, k, (l, qs))) (fun v => answers (i, k, (v, [])))).
  destruct (aggregate_total (c_params c) (c_combiners c) (c_sampling c) (fun k n => keep (k, n)) nz (c_public c) (c_rows c) col Ha Hcs
              E (f_usable _ _ F)) as [out Eo].
  rewrite Eo. cbn [rmap]. unfold shape, seen. f_equal.
  set (ys := map (fun s => noise (s, value_at col s)) (base c b)).
  set (zs := map (fun s => answers (question_at c col s)) (tree_base c)).
  set (T := fun k i qt => assigned 0%Q (base c b) ys (i, qt, k)).
  assert (ET : forall k, In k (c_keys c) -> forall i cb qt, nth_error (c_combiners c) i = Some cb -> In qt (uses cb) ->
     T k i qt = noise_at (nz k i) qt (raw_value (quantity_of qt) i k col)).
  { intros k Ik i cb qt Ei Iq. unfold T, ys. rewrite assigned_map by (eapply base_complete; eassumption).
    destruct qt; reflexivity. }
  assert (EA : forall k, In k (c_keys c) -> forall i ps, nth_error (c_combiners c) i = Some (CQuantile ps) ->
     answer_of c zs k i = n_quantiles (nz k i) (raw_tree i k col) (map (fun x => x / 100)%Q ps)).
  { intros k Ik i ps Ei. unfold answer_of, zs. rewrite Ei, assigned_map by (apply tree_base_complete; [left; exact Ei | exact Ik]).
    unfold question_at, list_at. cbn [fst snd]. rewrite Ei. reflexivity. }
  assert (EV : forall k, In k (c_keys c) -> forall i n, nth_error (c_combiners c) i = Some (CVector n) ->
     answer_of c zs k i = n_vector (nz k i) (raw_vector i k col)).
  { intros k Ik i n Ei. unfold answer_of, zs. rewrite Ei, assigned_map by (apply tree_base_complete; [right; split; [exists n; exact Ei | reflexivity] | exact Ik]).
    unfold question_at, list_at. cbn [fst snd map]. rewrite Ei. reflexivity. }
  f_equal.
  - rewrite combine_map_self, map_map. apply map_ext_in. intros k Ik. cbn [fst snd].
    pose (o := fun _ : nat => if post_aggregation_thresholding (c_params c) then noised (thresh_index (c_combiners c), k, thresh_count c col k) else Some 0%Q).
    destruct (found_in_result (c_params c) (c_combiners c) (c_sampling c) (fun k n => keep (k, n)) nz (c_public c) (c_rows c) col out
      (T k) o (answer_of c zs k) k (f_usable _ _ F) Hcs E Eo (ET k Ik)) as [R _].
    { intros i Ei. unfold o. destruct (post_aggregation_thresholding (c_params c)) eqn:Tp.
      - destruct (f_thresh _ _ F Tp) as [j [Ej Un]]. rewrite (Un i Ei). unfold thresh_count. rewrite (thresh_index_spec _ j Ej Un). reflexivity.
      - exfalso. exact (f_no_thresh _ _ F Tp i Ei). }
    { exact (EA k Ik). }
    { exact (EV k Ik). }
    rewrite R. destruct (mem k (map fst col)); [|reflexivity]. cbn [andb]. unfold chosen.
    destruct (estimate_known (c_params c) k col Ha) as [m [Em Es]]. rewrite Em, Es.
    destruct (selects_privately (c_params c) (c_public c)) eqn:Sp.
    + destruct (f_private _ _ F Sp) as [_ [Tp _]]. unfold o. rewrite Tp, andb_true_r.
      destruct (keep (k, estimate (c_params c) k col)); reflexivity.
    + cbn [andb]. destruct (post_aggregation_thresholding (c_params c)) eqn:Tp; [|unfold o; rewrite ?Tp; reflexivity].
      destruct (f_thresh _ _ F Tp) as [j [Ej Un]].
      rewrite (above_render (c_params c) (c_combiners c) (T k) o (answer_of c zs k) j Hcs Ej Un).
      unfold o. rewrite ?Tp. destruct (noised _); reflexivity.
  - assert (I : incl (map fst out) (map fst col)).
    { destruct (map fst out) as [|k0 l] eqn:X; [intros k []|]. rewrite <- X.
      refine (proj2 (found_in_result (c_params c) (c_combiners c) (c_sampling c) (fun k n => keep (k, n)) nz (c_public c) (c_rows c) col out
        (fun i qt => noise_at (nz k0 i) qt (raw_value (quantity_of qt) i k0 col)) (fun i => n_thresh (nz k0 i) (Qnum (raw_value count_of i k0 col)))
        (fun i => match nth_error (c_combiners c) i with Some (CQuantile ps) => n_quantiles (nz k0 i) (raw_tree i k0 col) (map (fun x => x / 100)%Q ps)
                   | Some (CVector _) => n_vector (nz k0 i) (raw_vector i k0 col) | _ => [] end) k0
        (f_usable _ _ F) Hcs E Eo _ _ _ _)); [reflexivity | reflexivity | |]; [intros i ps -> | intros i n ->]; reflexivity. }
    assert (A := incl_tran I (f_keys _ _ F)). clear -A. induction (map fst out) as [|k l IH]; [reflexivity|].
    cbn [filter]. assert (M : mem k (c_keys c) = true) by (apply mem_true_iff; apply A; left; reflexivity). rewrite M. cbn [negb].
    apply IH. intros x X. apply A. right. exact X.
Qed.
End Answers.
