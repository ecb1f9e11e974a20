(** Sensitivity of the raw results. *)
From Coq Require Import List ZArith QArith Qabs Qminmax Bool Permutation Lia Lqa.
From Verif Require Import Base BaseLemmas BackendModel BackendSpec ListLemmas BackendProofs
  BounderModel BounderSpec BounderProofs ParamsModel SensModel CombinerModel CombinerSpec CombinerProofs
  CombinerProofs2 EngineModel EngineSpec EngineProofs.
Import ListNotations.
Local Open Scope Q_scope.

(** Rows that reach contribution bounding. *)
Definition to_bound {U P V} `{EqDec P} (p : params) (public : option (list P)) (rows : list (U * P * V)) :=
  match public with
  | Some pub => if public_partitions_already_filtered p then rows else drop_partitions pub rows
  | None => rows
  end.

Lemma drop_partitions_filter {U P V} `{EqDec P} pub (rows : list (U * P * V)) :
  drop_partitions pub rows = filter (fun r => mem (snd (fst r)) pub) rows.
Proof.
  unfold drop_partitions, filter_by_key. rewrite filter_map, map_map. cbn [fst snd]. apply map_id.
Qed.

Lemma to_bound_filter {U P V} `{EqDec P} p public (q : U -> bool) (rows : list (U * P * V)) :
  to_bound p public (filter (fun r => q (fst (fst r))) rows) =
  filter (fun r => q (fst (fst r))) (to_bound p public rows).
Proof.
  unfold to_bound. destruct public as [pub|]; [|reflexivity].
  destruct (public_partitions_already_filtered p); [reflexivity|].
  rewrite !drop_partitions_filter. apply filter_comm.
Qed.

Lemma to_bound_incl {U P V} `{EqDec P} p public (rows : list (U * P * V)) r :
  In r (to_bound p public rows) -> In r rows.
Proof.
  unfold to_bound. destruct public as [pub|]; [|auto].
  destruct (public_partitions_already_filtered p); [auto|].
  rewrite drop_partitions_filter. intro Hin. apply filter_In in Hin. tauto.
Qed.

Definition empties {P} (public : option (list P)) : list (P * list value) :=
  match public with Some pub => map (fun k => (k, [])) pub | None => [] end.
Definition pairs_of {U P} (kept : list ((U * P) * list value)) (public : option (list P)) : list (P * list value) :=
  map (fun e => (snd (fst e), snd e)) kept ++ empties public.

Lemma raw_accumulators_pairs {U P} `{EqDec U} `{EqDec P} p cs (sm : sampling U P) public rows col :
  contribution_bounds_already_enforced p = false ->
  raw_accumulators p cs sm public rows = Ok col ->
  exists kept, bound_contributions p (compound_expects_sampling cs) sm (fun vs => vs) (to_bound p public rows) = Ok kept
    /\ col = combine_per_key (compound_merge cs) (with_accs cs (pairs_of kept public)).
Proof.
  intros Hb. unfold raw_accumulators, contributions. rewrite Hb. fold (to_bound p public rows).
  rewrite bound_natural.
  destruct (bound_contributions p _ sm (fun vs => vs) (to_bound p public rows)) as [kept|]; cbn [rmap]; [|discriminate].
  intro E. exists kept. split; [reflexivity|]. inversion E; subst. f_equal.
  unfold with_accs, pairs_of, map_values. rewrite map_app, !map_map. cbn [fst snd].
  destruct public as [[|k ks]|]; cbn [empties map].
  - rewrite app_nil_r. reflexivity.
  - unfold add_empty_public_partitions. cbn [map fst snd]. rewrite map_map. reflexivity.
  - rewrite app_nil_r. reflexivity.
Qed.

(** The (partition, amount) entries of privacy id [u]. *)
Definition entries {U P} `{EqDec U} (f : acc -> Q) (c : combiner) (u : U) (kept : list ((U * P) * list value))
  : list (P * Q) :=
  map (fun e => (snd (fst e), f (create c (snd e)))) (kept_of u kept).

Lemma sum_split {A} (q : A -> bool) (f : A -> Q) l :
  sumQ (map f l) == sumQ (map f (filter (fun x => negb (q x)) l)) + sumQ (map f (filter q l)).
Proof.
  induction l as [|a l IH]; [reflexivity|]. cbn [filter map sumQ fold_right].
  change (fold_right Qplus 0) with sumQ. rewrite IH. destruct (q a); cbn [negb map sumQ fold_right];
    change (fold_right Qplus 0) with sumQ; ring.
Qed.

Lemma raw_value_diff {U P} `{EqDec U} `{EqDec P} f p cs i c (sm : sampling U P) public rows u col col' :
  additive f -> nth_error cs i = Some c ->
  contribution_bounds_already_enforced p = false ->
  raw_accumulators p cs sm public rows = Ok col ->
  raw_accumulators p cs sm public (without u rows) = Ok col' ->
  exists kept, bound_contributions p (compound_expects_sampling cs) sm (fun vs => vs) (to_bound p public rows) = Ok kept
    /\ forall k, raw_value f i k col - raw_value f i k col' == change (entries f c u kept) k.
Proof.
  intros Af Hi Hb E E'.
  destruct (raw_accumulators_pairs _ _ _ _ _ _ Hb E) as [kept [Ek ->]].
  destruct (raw_accumulators_pairs _ _ _ _ _ _ Hb E') as [kept' [Ek' ->]].
  exists kept. split; [exact Ek|]. intro k.
  rewrite !(raw_value_sum f cs i c) by assumption.
  unfold without in Ek'. rewrite (to_bound_filter p public (fun x => negb (eqb x u))) in Ek'.
  rewrite (bound_filter (fun x => negb (eqb x u))), Ek in Ek'. cbn [rmap] in Ek'. inversion Ek'; subst kept'. clear.
  unfold pairs_of. rewrite !values_of_app, !map_app, !sumQ_app.
  unfold change, entries, values_of, kept_of. rewrite !filter_map, !map_map. cbn [fst snd].
  rewrite !filter_filter.
  rewrite (sum_split (fun e => eqb (fst (fst e)) u) _ (filter (fun e => eqb (snd (fst e)) k) kept)), !filter_filter.
  rewrite (filter_ext_In (fun x => eqb (snd (fst x)) k && negb (eqb (fst (fst x)) u))
                         (fun x => negb (eqb (fst (fst x)) u) && eqb (snd (fst x)) k)) by (intros; apply andb_comm).
  rewrite (filter_ext_In (fun x => eqb (snd (fst x)) k && eqb (fst (fst x)) u)
                         (fun x => eqb (fst (fst x)) u && eqb (snd (fst x)) k)) by (intros; apply andb_comm).
  ring.
Qed.

(** ** What bounding guarantees *)
Lemma length_partitions_incl {U P V} `{EqDec U} `{EqDec P} u (rows rows' : list (U * P * V)) :
  (forall r, In r rows' -> In r rows) ->
  (length (partitions_of u rows') <= length (partitions_of u rows))%nat.
Proof.
  intro I. apply NoDup_incl_length; [apply NoDup_distinct|]. intros k Hk.
  apply in_partitions_of in Hk. apply in_partitions_of. apply in_map_iff in Hk. destruct Hk as [r [Er Hr]].
  apply in_map_iff. exists r. auto.
Qed.

Lemma kept_facts {U P V} `{EqDec U} `{EqDec P} p ex (sm : sampling U P) (rows rows0 : list (U * P * V)) kept l0 :
  max_contributions p = None -> max_partitions_contributed p = Some l0 ->
  valid_sampling p sm -> promised p rows0 -> (forall r, In r rows -> In r rows0) ->
  bound_contributions p ex sm (fun vs => vs) rows = Ok kept ->
  NoDup (map fst kept) /\
  (forall u, (length (kept_of u kept) <= Z.to_nat l0)%nat) /\
  (ex = true -> forall linf, max_contributions_per_partition p = Some linf ->
     forall e, In e kept -> (length (snd e) <= Z.to_nat linf)%nat) /\
  (forall e, In e kept -> submset (snd e) (values_of (fst e) rows)).
Proof.
  intros Hm Hl0 Hv Hp Hi. unfold bound_contributions, valid_sampling in *. rewrite Hm, Hl0 in *.
  destruct Hv as [V1 V2]. specialize (V1 l0 eq_refl).
  assert (Pr : perform_cross_partition_contribution_bounding p = false ->
               forall u, (length (partitions_of u rows) <= Z.to_nat l0)%nat).
  { intros Hc u. specialize (Hp Hc u l0 Hl0). assert (L := length_partitions_incl u rows0 rows Hi). lia. }
  assert (Cnt : forall (c : list ((U * P) * list V)), NoDup (map fst c) ->
            (forall k, In k (map fst c) <-> In k (map fst rows)) ->
            forall u, length (kept_of u c) = length (partitions_of u rows)).
  { intros c Nc Ec u. rewrite <- (Permutation_length (pairs_count u rows c Nc Ec)), map_length. reflexivity. }
  destruct (perform_cross_partition_contribution_bounding p); destruct ex.
  - destruct (max_contributions_per_partition p) as [linf|] eqn:El; [|discriminate]. specialize (V2 linf eq_refl).
    intro E. inversion E; subst kept. clear E.
    destruct (cross_and_per_any_bounds _ _ (fun vs : list V => vs) rows _
                (cross_and_per_local_any (ch_pid_pk sm) (ch_pid sm) _ _ _ rows V2 V1)) as [N [L F]].
    split; [exact N|]. split; [intro u; rewrite L; lia|]. split.
    + intros _ linf' E [[u pk] vs] Hin. inversion E; subst. destruct (F u pk vs Hin) as [_ [vs' [-> [_ Lv]]]].
      cbn [snd]. lia.
    + intros [[u pk] vs] Hin. destruct (F u pk vs Hin) as [_ [vs' [-> [S _]]]]. exact S.
  - intro E. inversion E; subst kept. clear E.
    destruct (cross_partition_local_bounds (ch_pid sm) (Z.to_nat l0) (fun vs : list V => vs) rows V1) as [N [L F]].
    split; [exact N|]. split; [intro u; rewrite L; lia|]. split; [discriminate|].
    intros [[u pk] vs] Hin. destruct (F u pk vs Hin) as [_ ->]. apply submset_refl.
  - destruct (max_contributions_per_partition p) as [linf|] eqn:El; [|discriminate]. specialize (V2 linf eq_refl).
    intro E. inversion E; subst kept. clear E.
    destruct (linf_any_bounds _ (fun vs : list V => vs) rows _ (linf_local_any (ch_pid_pk sm) _ _ rows V2)) as [N [K F]].
    split; [exact N|]. split; [intro u; rewrite (Cnt _ N K u); apply Pr; reflexivity|]. split.
    + intros _ linf' E [k vs] Hin. inversion E; subst. destruct (F k vs Hin) as [vs' [-> [_ Lv]]]. cbn [snd]. lia.
    + intros [k vs] Hin. destruct (F k vs Hin) as [vs' [-> [S _]]]. exact S.
  - intro E. inversion E; subst kept. clear E.
    destruct (noop_exact (fun vs : list V => vs) rows) as [N K].
    assert (K' : forall k, In k (map fst (bound_noop (fun vs : list V => vs) rows)) <-> In k (map fst rows)).
    { intro k. split.
      - intro Hk. apply keys_in in Hk. destruct Hk as [a Ha]. apply K in Ha. tauto.
      - intro Hk. apply (in_keys k (values_of k rows)). apply K. auto. }
    split; [exact N|]. split; [intro u; rewrite (Cnt _ N K' u); apply Pr; reflexivity|]. split; [discriminate|].
    intros [k vs] Hin. apply K in Hin. destruct Hin as [_ ->]. apply submset_refl.
Qed.

Lemma kept_facts_total {U P V} `{EqDec U} `{EqDec P} p ex (sm : sampling U P) (rows : list (U * P * V)) kept m :
  max_contributions p = Some m -> valid_sampling p sm ->
  bound_contributions p ex sm (fun vs => vs) rows = Ok kept ->
  NoDup (map fst kept) /\ (forall e, In e kept -> snd e <> []) /\
  (forall u, (length (as_rows (kept_of u kept)) <= Z.to_nat m)%nat).
Proof.
  intros Hm Hv. unfold bound_contributions, valid_sampling in *. rewrite Hm in *.
  destruct (m =? 0)%Z; [discriminate|]. intro E. inversion E; subst kept. clear E.
  destruct (per_privacy_id_any_bounds _ (fun vs : list V => vs) rows _
              (per_privacy_id_local_any (ch_pid sm) _ _ rows Hv)) as [kept [Pm [N [Ne B]]]].
  rewrite map_values_id in Pm.
  split; [eapply Permutation_NoDup; [symmetry; apply Permutation_map; exact Pm | exact N]|].
  split.
  - intros [k vs] Hin. apply (Ne k vs). eapply Permutation_in; [exact Pm | exact Hin].
  - intro u. destruct (B u) as [_ L].
    assert (PL : length (as_rows (kept_of u (bound_per_privacy_id (ch_pid sm) (Z.to_nat m) (fun vs : list V => vs) rows)))
            = length (as_rows (kept_of u kept))).
    { apply Permutation_length. unfold as_rows. apply Permutation_flat_map.
      unfold kept_of. apply filter_Permutation. exact Pm. }
    lia.
Qed.

Lemma entries_NoDup {U P} `{EqDec U} f c (u : U) (kept : list ((U * P) * list value)) :
  NoDup (map fst kept) -> NoDup (map fst (entries f c u kept)).
Proof.
  intro N. unfold entries. rewrite map_map. cbn [fst].
  rewrite <- (map_map fst snd).
  assert (N' := NoDup_map_fst_filter (fun e => eqb (fst (fst e)) u) kept N).
  apply NoDup_map_inj; [|exact N'].
  intros [u1 p1] [u2 p2] H1 H2 Ep. cbn in Ep. subst.
  apply in_map_iff in H1, H2. destruct H1 as [x [E1 H1]], H2 as [y [E2 H2]].
  apply filter_In in H1, H2. destruct H1 as [_ H1], H2 as [_ H2].
  rewrite E1 in H1. rewrite E2 in H2. cbn in H1, H2. apply eqb_eq in H1, H2. congruence.
Qed.

(** ** From entries to sensitivities *)
Lemma respects_ext {P} s keys (d d' : P -> Q) :
  (forall k, d k == d' k) -> respects s keys d' -> respects s keys d.
Proof.
  intros E [R0 [Ri [[l1 [S1 R1]] [l2 [S2 R2]]]]]. repeat split.
  - intros l0 H0. assert (X : changed keys d = changed keys d').
    { unfold changed. f_equal. apply filter_ext_In. intros k _. f_equal.
      apply eq_true_iff_eq. rewrite !Qeq_bool_iff, E. reflexivity. }
    rewrite X. auto.
  - intros linf Hl k Hk. rewrite E. auto.
  - exists l1. split; [exact S1|]. eapply Qle_trans; [|exact R1]. apply Qle_lteq. right.
    apply sumQ_ext. intros k _. rewrite E. reflexivity.
  - exists l2. split; [exact S2|]. eapply Qle_trans; [|exact R2]. apply Qle_lteq. right.
    apply sumQ_ext. intros k _. rewrite E. reflexivity.
Qed.

Lemma mk_sens_l0linf l0 linf s :
  mk_sens l0 linf None None = Ok s -> is_some l0 = true \/ is_some linf = true ->
  exists z q, l0 = Some z /\ linf = Some q /\ (0 < z)%Z /\ 0 < q /\
    s = Sens (Some z) (Some q) (Some (inject_Z z * q)) (Some (inject_Z z * (q * q))).
Proof.
  unfold mk_sens, raise_if. destruct l0 as [z|], linf as [q|]; cbn [nonpos]; intros E Hs.
  - destruct (z <=? 0)%Z eqn:A; [discriminate|]. destruct (Qle_bool q 0) eqn:B; [discriminate|].
    inversion E. exists z, q. apply Z.leb_gt in A. apply Qle_bool_false in B. auto.
  - destruct (z <=? 0)%Z; discriminate.
  - destruct (Qle_bool q 0); discriminate.
  - destruct Hs; discriminate.
Qed.

Lemma mk_sens_l1l2 l1 l2 s :
  mk_sens None None (Some l1) (Some l2) = Ok s -> 0 < l1 /\ 0 < l2 /\ s = Sens None None (Some l1) (Some l2).
Proof.
  unfold mk_sens, raise_if. cbn [nonpos]. destruct (Qle_bool l1 0) eqn:A; [discriminate|].
  destruct (Qle_bool l2 0) eqn:B; [discriminate|]. intro E. inversion E.
  apply Qle_bool_false in A, B. auto.
Qed.

Lemma respects_l0linf {P} `{EqDec P} keys (es : list (P * Q)) z q :
  (0 < z)%Z -> 0 <= q -> NoDup keys -> NoDup (map fst es) ->
  (length es <= Z.to_nat z)%nat -> (forall e, In e es -> Qabs (snd e) <= q) ->
  respects (Sens (Some z) (Some q) (Some (inject_Z z * q)) (Some (inject_Z z * (q * q)))) keys (change es).
Proof.
  intros Hz Hq Nk Ne L F. assert (Lz : inject_Z (Z.of_nat (length es)) <= inject_Z z) by (rewrite <- Zle_Qle; lia).
  assert (Pz : 0 <= inject_Z (Z.of_nat (length es))) by (change 0 with (inject_Z 0); rewrite <- Zle_Qle; lia).
  repeat split; cbn [s_l0 s_linf s_l1 s_l2sq].
  - intros l0 E. inversion E; subst. assert (X := changed_change keys es Nk Ne). lia.
  - intros linf E k _. inversion E; subst. apply change_bound; assumption.
  - eexists. split; [reflexivity|]. eapply Qle_trans; [apply l1_change; assumption|].
    eapply Qle_trans; [apply (sumQ_upper (fun e => Qabs (snd e)) q es F)|].
    apply Qmult_le_compat_r; assumption.
  - eexists. split; [reflexivity|]. eapply Qle_trans; [apply l2_change; assumption|].
    eapply Qle_trans; [apply (sumQ_upper (fun e => snd e * snd e) (q * q) es)|].
    + intros e He. apply Qsq_le. auto.
    + apply Qmult_le_compat_r; [assumption | apply Qsq_nonneg].
Qed.

Lemma respects_l1l2 {P} `{EqDec P} keys (es : list (P * Q)) l1 l2 :
  NoDup keys -> NoDup (map fst es) ->
  sumQ (map (fun e => Qabs (snd e)) es) <= l1 -> sumQ (map (fun e => snd e * snd e) es) <= l2 ->
  respects (Sens None None (Some l1) (Some l2)) keys (change es).
Proof.
  intros Nk Ne A B. repeat split; cbn [s_l0 s_linf s_l1 s_l2sq]; try discriminate.
  - eexists. split; [reflexivity|]. eapply Qle_trans; [apply l1_change; assumption | exact A].
  - eexists. split; [reflexivity|]. eapply Qle_trans; [apply l2_change; assumption | exact B].
Qed.

(** Master lemma, max_partitions_contributed mode. *)
Lemma sensitivity_l0linf {U P} `{EqDec U} `{EqDec P} f p cs i c (sm : sampling U P) public rows u col col' keys l0 (q : Q) s :
  additive f -> nth_error cs i = Some c ->
  max_contributions p = None -> contribution_bounds_already_enforced p = false ->
  valid_sampling p sm -> promised p rows ->
  raw_accumulators p cs sm public rows = Ok col ->
  raw_accumulators p cs sm public (without u rows) = Ok col' ->
  NoDup keys ->
  mk_sens (max_partitions_contributed p) (Some q) None None = Ok s ->
  (forall kept e, bound_contributions p (compound_expects_sampling cs) sm (fun vs => vs) (to_bound p public rows) = Ok kept ->
     max_partitions_contributed p = Some l0 ->
     In e kept ->
     (compound_expects_sampling cs = true -> forall linf, max_contributions_per_partition p = Some linf ->
        (length (snd e) <= Z.to_nat linf)%nat) ->
     Qabs (f (create c (snd e))) <= q) ->
  max_partitions_contributed p = Some l0 ->
  respects s keys (fun k => raw_value f i k col - raw_value f i k col').
Proof.
  intros Af Hi Hm Hb Hv Hp E E' Nk Hs Bd Hl0.
  destruct (raw_value_diff f p cs i c sm public rows u col col' Af Hi Hb E E') as [kept [Ek D]].
  destruct (mk_sens_l0linf _ _ _ Hs) as [z [q' [Ez [Eq [Pz [Pq ->]]]]]]; [right; reflexivity|].
  inversion Eq; subst q'. rewrite Hl0 in Ez. inversion Ez; subst z.
  destruct (kept_facts p _ sm _ rows kept l0 Hm Hl0 Hv Hp (to_bound_incl p public rows) Ek) as [N [L [Li _]]].
  eapply respects_ext; [exact D|]. apply respects_l0linf; auto.
  - lra.
  - apply entries_NoDup. exact N.
  - unfold entries. rewrite map_length. apply L.
  - intros [k x] He. unfold entries in He. apply in_map_iff in He. destruct He as [e [Ee He]].
    inversion Ee; subst. cbn [snd]. unfold kept_of in He. apply filter_In in He. destruct He as [He _].
    apply (Bd kept e Ek Hl0 He). intros Hx linf Hl. apply (Li Hx linf Hl e He).
Qed.

Lemma expects_in cs i c : nth_error cs i = Some c -> expects_sampling c = true -> compound_expects_sampling cs = true.
Proof.
  intros Hi Hx. unfold compound_expects_sampling. apply existsb_exists. exists c. split; [|exact Hx].
  eapply nth_error_In. exact Hi.
Qed.

Lemma inject_nat_le n z : (n <= Z.to_nat z)%nat -> (0 < z)%Z -> inject_Z (Z.of_nat n) <= inject_Z z.
Proof. intros. rewrite <- Zle_Qle. lia. Qed.

Lemma inject_nat_abs n : Qabs (inject_Z (Z.of_nat n)) == inject_Z (Z.of_nat n).
Proof. apply Qabs_pos. change 0 with (inject_Z 0). rewrite <- Zle_Qle. lia. Qed.

Lemma sum_abs {A} (f : A -> Q) b l :
  (forall x, In x l -> Qabs (f x) <= b) -> Qabs (sumQ (map f l)) <= inject_Z (Z.of_nat (length l)) * b.
Proof.
  intro F. assert (A1 : Qabs (sumQ (map f l)) <= sumQ (map (fun x => Qabs (f x)) l)).
  { clear F. induction l as [|a l IH]; [cbn; lra|]. cbn [map sumQ fold_right]. change (fold_right Qplus 0) with sumQ.
    eapply Qle_trans; [apply Qabs_triangle|]. lra. }
  eapply Qle_trans; [exact A1|]. apply sumQ_upper. exact F.
Qed.

(** ** Ranges of clipped values *)
Lemma abs_le x b : - b <= x -> x <= b -> Qabs x <= b.
Proof. intros. apply Qabs_Qle_condition. split; assumption. Qed.

Lemma max_abs_range lo hi x : lo <= x -> x <= hi -> Qabs x <= max_abs lo hi.
Proof.
  intros A B. unfold max_abs.
  assert (L1 := Q.le_max_l (Qabs lo) (Qabs hi)). assert (L2 := Q.le_max_r (Qabs lo) (Qabs hi)).
  assert (X := Qle_Qabs hi). assert (Y := Qle_Qabs (- lo)). rewrite Qabs_opp in Y.
  apply abs_le; lra.
Qed.

Lemma middle_range lo hi x : lo <= x -> x <= hi -> Qabs (x - middle lo hi) <= (hi - lo) / 2.
Proof.
  intros A B. unfold middle. apply abs_le; unfold Qdiv; change (/ 2) with (1 # 2); lra.
Qed.
