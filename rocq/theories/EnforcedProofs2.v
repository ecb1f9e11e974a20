(** Lemmas for C69 and C70: what one privacy id changes. *)
From Coq Require Import List ZArith QArith Qabs Bool Permutation Lia Lqa.
From Verif Require Import Base BaseLemmas BackendModel BackendSpec ListLemmas BackendProofs
  BounderModel BounderSpec BounderProofs ParamsModel SensModel CombinerModel CombinerSpec CombinerProofs
  CombinerProofs2 CombinerProofs3 EngineModel EngineSpec EngineProofs EngineProofs2 EngineProofs3 EngineProofs4 EngineProofs5
  EngineProps EnforcedSpec EnforcedProofs.
Import ListNotations.
Local Close Scope Q_scope.

(** ** Noised quantities *)
Definition some_sampling {U P} (p : params) : sampling U P :=
  Sampling U P (fun _ => first_n (match max_contributions_per_partition p with Some n => Z.to_nat n | None => 0 end))
    (fun _ => first_n (match max_contributions p with
                       | Some m => Z.to_nat m
                       | None => match max_partitions_contributed p with Some n => Z.to_nat n | None => 0 end end)).

Lemma some_sampling_valid {U P} p : valid_sampling (enforcing p) (@some_sampling U P p).
Proof.
  unfold valid_sampling. cbn [enforcing max_contributions max_partitions_contributed max_contributions_per_partition].
  unfold some_sampling. cbn [ch_pid ch_pid_pk]. destruct (max_contributions p) as [m|]; [apply first_n_valid|].
  split; intros n ->; apply first_n_valid.
Qed.

Lemma within_promised {U P V} `{EqDec U} `{EqDec P} p (rows : list (U * P * V)) : within_bounds p rows -> promised (enforcing p) rows.
Proof. intros [_ [B _]] _ u l0 E. apply B. exact E. Qed.

Lemma without_within {U P V} `{EqDec U} `{EqDec P} p u (rows : list (U * P * V)) : within_bounds p rows -> within_bounds p (without u rows).
Proof. apply within_filter. Qed.

Lemma enforcing_runs {U P} `{EqDec U} `{EqDec P} p cs (sm : sampling U P) public rows : accepted p ->
  exists col, raw_accumulators (enforcing p) cs sm public rows = Ok col.
Proof.
  intro Ha. unfold raw_accumulators, contributions. cbn [enforcing contribution_bounds_already_enforced].
  fold (to_bound (enforcing p) public rows).
  destruct (bound_ok (enforcing p) (compound_expects_sampling cs) sm (compound_create cs) (to_bound (enforcing p) public rows)
              (enforcing_accepted p Ha)) as [o Eo].
  change (match public with
          | Some pub => if public_partitions_already_filtered (enforcing p) then rows else drop_partitions pub rows
          | None => rows end) with (to_bound (enforcing p) public rows).
  fold (enforcing p). rewrite Eo. cbn [rmap]. eauto.
Qed.

(** A combiner whose accumulators do not depend on how the rows are grouped. *)
Definition row_wise (c : combiner) : Prop :=
  match c with CSum true _ _ | CPidCount | CThresh => False | _ => True end.

Lemma trusted_sensitivity {U P} `{EqDec U} `{EqDec P} p cs (sm : sampling U P) public rows keys col u i c qt rs :
  trusted_run p cs sm public rows keys col -> nth_error cs i = Some c -> row_wise c ->
  (forall lo hi n, c = CVariance lo hi n -> max_contributions p = None) ->
  In (qt, rs) (noise_plan p c) ->
  (forall lo hi n, qt = QSquares -> c = CVariance lo hi n -> squares_covered lo hi) ->
  exists col' s, raw_accumulators p cs sm public (without u rows) = Ok col' /\ rs = Ok s /\
    respects s keys (fun k => raw_value (quantity_of qt) i k col - raw_value (quantity_of qt) i k col')%Q.
Proof.
  intros [Ha [Hcs [Hb [W [Nk E]]]]] Hi Rw Hvar Hplan Hsq.
  destruct (raw_without_ok p cs sm public rows u col E) as [col' E'].
  destruct (enforcing_runs p cs (some_sampling p) public rows Ha) as [col2 E2].
  destruct (all_sensitivities (enforcing p) cs i c (some_sampling p) public rows u col2 keys qt rs
              (enforcing_accepted p Ha) ltac:(rewrite enforcing_combiners; exact Hcs) Hi eq_refl Hvar
              (some_sampling_valid p) (within_promised p rows W) Nk E2
              ltac:(rewrite enforcing_plan; exact Hplan) Hsq) as [col2' [s [E2' [Es R]]]].
  exists col', s. split; [exact E'|]. split; [exact Es|]. eapply respects_ext; [|exact R]. intro k. cbn beta.
  rewrite (same_values p cs sm (some_sampling p) public rows col col2 i c qt k); auto.
  - rewrite (same_values p cs sm (some_sampling p) public (without u rows) col' col2' i c qt k); auto.
    + reflexivity.
    + apply without_within. exact W.
    + intros lo hi ->. exact Rw.
    + intros ->. exact Rw.
    + intros ->. exact Rw.
  - intros lo hi ->. exact Rw.
  - intros ->. exact Rw.
  - intros ->. exact Rw.
Qed.

(** ** Partition selection *)
Lemma row_count_trusted {U P} `{EqDec U} `{EqDec P} p cs (sm : sampling U P) public rows col k :
  contribution_bounds_already_enforced p = true -> raw_accumulators p cs sm public rows = Ok col ->
  row_count k col = Z.of_nat (length (filter (fun r => eqb (snd (fst r)) k) (to_bound p public rows)) + length (values_of k (empties public))).
Proof.
  intros Hb E. rewrite (raw_trusted p cs sm public rows Hb) in E. inversion E; subst col.
  rewrite row_count_pairs, values_of_app, app_length. f_equal. f_equal. unfold values_of, row_pairs. rewrite filter_map, !map_length. reflexivity.
Qed.

Lemma length_split {A} (q : A -> bool) l : length l = length (filter (fun x => negb (q x)) l) + length (filter q l).
Proof. induction l as [|a l IH]; [reflexivity|]. cbn [filter length]. destruct (q a); cbn [negb length]; lia. Qed.

Lemma split_partition {U P V} `{EqDec U} `{EqDec P} (u : U) (k : P) (rows : list (U * P * V)) :
  length (filter (fun r => eqb (snd (fst r)) k) rows) =
  length (filter (fun r => eqb (snd (fst r)) k) (without u rows)) + length (values_of (u, k) rows).
Proof.
  rewrite (length_split (fun r => eqb (fst (fst r)) u)), !filter_filter. unfold without, values_of. rewrite map_length, filter_filter.
  f_equal.
  - f_equal. apply filter_ext_In. intros r _. apply andb_comm.
  - f_equal. apply filter_ext_In. intros [[u' k'] v] _. cbn [fst snd]. apply eq_true_iff_eq.
    rewrite andb_true_iff, !eqb_true_iff. split; [intros [-> ->]; reflexivity | intro X; inversion X; auto].
Qed.

Lemma ceil_step a j m : (0 < m -> 0 <= j <= m -> 0 <= divide_and_round_up (a + j) m - divide_and_round_up a m <= 1)%Z.
Proof.
  intros Pm Pj. unfold divide_and_round_up.
  assert ((a + m - 1) / m <= (a + j + m - 1) / m)%Z by (apply Z.div_le_mono; lia).
  assert ((a + j + m - 1) / m <= (a + m - 1 + 1 * m) / m)%Z by (apply Z.div_le_mono; lia).
  rewrite Z.div_add in H0 by lia. lia.
Qed.

Lemma to_bound_without {U P V} `{EqDec U} `{EqDec P} p public u (rows : list (U * P * V)) :
  to_bound p public (without u rows) = without u (to_bound p public rows).
Proof. unfold without. apply (to_bound_filter p public (fun x => negb (eqb x u))). Qed.

Lemma values_rows {U P V} `{EqDec U} `{EqDec P} u k (rows : list (U * P * V)) : length (values_of (u, k) rows) <= length (rows_of u rows).
Proof.
  unfold values_of, rows_of. rewrite map_length.
  rewrite (filter_ext_In (fun kv : U * P * V => eqb (fst kv) (u, k)) (fun r => eqb (fst (fst r)) u && eqb (snd (fst r)) k)).
  - rewrite <- filter_filter. apply filter_length_le.
  - intros [[u' k'] v] _. cbn [fst snd]. apply eq_true_iff_eq. rewrite andb_true_iff, !eqb_true_iff.
    split; [intro X; inversion X; auto | intros [-> ->]; reflexivity].
Qed.

Lemma partitions_rows {U P V} `{EqDec U} `{EqDec P} u (rows : list (U * P * V)) : length (partitions_of u rows) <= length (rows_of u rows).
Proof.
  unfold partitions_of, rows_of. rewrite <- (map_length (fun r : U * P * V => snd (fst r)) (filter (fun r => eqb (fst (fst r)) u) rows)).
  apply NoDup_incl_length; [apply NoDup_distinct|]. intros k Hk. apply in_distinct. exact Hk.
Qed.

(** The partitions in which one privacy id has rows. *)
Lemma touched {U P V} `{EqDec U} `{EqDec P} u (rows : list (U * P * V)) (q : P -> bool) keys : NoDup keys ->
  (forall k, q k = true -> values_of (u, k) rows <> []) -> length (filter q keys) <= length (partitions_of u rows).
Proof.
  intros N Q. apply NoDup_incl_length; [apply NoDup_filter'; exact N|]. intros k Hk. apply filter_In in Hk. destruct Hk as [_ Hk].
  specialize (Q k Hk). apply in_partitions_of.
  destruct (in_dec eq_dec (u, k) (map fst rows)) as [I|I]; [exact I|]. exfalso. apply Q. apply values_of_nil_iff. exact I.
Qed.

Lemma max_rows_facts {U P V} `{EqDec U} `{EqDec P} p (rows : list (U * P * V)) b : accepted p -> contribution_bounds_already_enforced p = true -> within_bounds p rows ->
  match max_contributions p with Some m => b = m | None => max_partitions_contributed p = Some b end ->
  exists m, max_rows_per_privacy_id p = Some m /\ (0 < m)%Z /\
    (forall u k, (Z.of_nat (length (values_of (u, k) rows)) <= m)%Z) /\
    forall u, (Z.of_nat (length (partitions_of u rows)) <= b)%Z.
Proof.
  intros Ha Hb [A [B C]] Hm. destruct (accepted_facts p Ha) as [_ [_ [_ Hf]]]. unfold max_rows_per_privacy_id. rewrite Hb.
  destruct (max_contributions p) as [m|].
  - destruct Hf as [Pm _]. destruct (Z.eqb_spec m 0); [lia|]. exists m. subst b. split; [reflexivity|]. split; [exact Pm|]. split.
    + intros u k. specialize (A m eq_refl u). assert (L := values_rows u k rows). lia.
    + intro u. specialize (A m eq_refl u). assert (L := partitions_rows u rows). lia.
  - destruct Hf as [l0 [linf [E0 [Ei [P0 Pi]]]]]. exists linf. split; [exact Ei|]. split; [exact Pi|]. split.
    + exact (C linf Ei).
    + exact (B b Hm).
Qed.

Lemma trusted_influence {U P} `{EqDec U} `{EqDec P} p cs (sm : sampling U P) public rows col col' u keys b :
  accepted p -> contribution_bounds_already_enforced p = true -> within_bounds p rows -> NoDup keys ->
  raw_accumulators p cs sm public rows = Ok col ->
  raw_accumulators p cs sm public (without u rows) = Ok col' ->
  match max_contributions p with Some m => b = m | None => max_partitions_contributed p = Some b end ->
  (forall k, 0 <= estimate p k col - estimate p k col' <= 1)%Z /\
  (Z.of_nat (length (filter (fun k => negb (estimate p k col =? estimate p k col')%Z) keys)) <= b)%Z.
Proof.
  intros Ha Hb W Nk E E' Hm. assert (W1 := within_to_bound p public rows W).
  destruct (max_rows_facts p (to_bound p public rows) b Ha Hb W1 Hm) as [m [Em [Pm [Lv Lp]]]].
  unfold estimate. rewrite Em.
  assert (R : forall k, (row_count k col = row_count k col' + Z.of_nat (length (values_of (u, k) (to_bound p public rows))))%Z).
  { intro k. rewrite (row_count_trusted p cs sm public rows col k Hb E), (row_count_trusted p cs sm public (without u rows) col' k Hb E').
    rewrite to_bound_without, (split_partition u k (to_bound p public rows)). lia. }
  split.
  - intro k. rewrite (R k). apply ceil_step; [exact Pm|]. specialize (Lv u k). lia.
  - specialize (Lp u).
    assert (T := touched u (to_bound p public rows)
      (fun k => negb (divide_and_round_up (row_count k col) m =? divide_and_round_up (row_count k col') m)%Z) keys Nk).
    assert (Q0 : forall k, negb (divide_and_round_up (row_count k col) m =? divide_and_round_up (row_count k col') m)%Z = true ->
                  values_of (u, k) (to_bound p public rows) <> []).
    { intros k Hk V. apply negb_true_iff, Z.eqb_neq in Hk. apply Hk. rewrite (R k), V. cbn [length]. rewrite Z.add_0_r. reflexivity. }
    specialize (T Q0).
    lia.
Qed.

(** ** Trees *)
Definition values_in {U P} `{EqDec P} (k : P) (rows : list (U * P * value)) : list Q :=
  map (fun r => num_of (snd r)) (filter (fun r => eqb (snd (fst r)) k) rows).

Lemma values_in_without {U P} `{EqDec U} `{EqDec P} u k (rows : list (U * P * value)) :
  Permutation (values_in k rows) (values_in k (without u rows) ++ map num_of (values_of (u, k) rows)).
Proof.
  unfold values_in, values_of. rewrite map_map. cbn [snd]. rewrite <- (map_app (fun r : U * P * value => num_of (snd r))).
  apply Permutation_map.
  eapply Permutation_trans; [apply (filter_split_Permutation (fun r => eqb (fst (fst r)) u))|].
  eapply Permutation_trans; [apply Permutation_app_comm|]. unfold without. rewrite !filter_filter.
  rewrite (filter_ext_In (fun x : U * P * value => eqb (snd (fst x)) k && negb (eqb (fst (fst x)) u))
             (fun x => negb (eqb (fst (fst x)) u) && eqb (snd (fst x)) k)) by (intros; apply andb_comm).
  rewrite (filter_ext_In (fun x : U * P * value => eqb (snd (fst x)) k && eqb (fst (fst x)) u) (fun kv => eqb (fst kv) (u, k))); [reflexivity|].
  intros [[u' k'] v] _. cbn [fst snd]. apply eq_true_iff_eq. rewrite andb_true_iff, !eqb_true_iff.
  split; [intros [-> ->]; reflexivity | intro X; inversion X; auto].
Qed.

Lemma as_rows_without {U P V} `{EqDec U} (u : U) (kept : list ((U * P) * list V)) :
  as_rows (filter (fun e => negb (eqb (fst (fst e)) u)) kept) = without u (as_rows kept).
Proof.
  unfold without. induction kept as [|[[u' k] vs] kept IH]; [reflexivity|].
  change (as_rows (((u', k), vs) :: kept)) with (map (fun v => ((u', k), v)) vs ++ as_rows kept).
  cbn [filter fst]. rewrite filter_app, <- IH.
  assert (X : filter (fun r : U * P * V => negb (eqb (fst (fst r)) u)) (map (fun v => ((u', k), v)) vs) =
              if eqb u' u then [] else map (fun v => ((u', k), v)) vs).
  { clear. induction vs as [|v vs IHv]; cbn [map filter fst]; [destruct (eqb u' u); reflexivity|].
    rewrite IHv. destruct (eqb u' u); reflexivity. }
  rewrite X. destruct (eqb u' u); reflexivity.
Qed.

Lemma values_as_rows {K V} `{EqDec K} (k : K) (kept : list (K * list V)) n : NoDup (map fst kept) ->
  (forall e, In e kept -> length (snd e) <= n) ->
  length (values_of k (flat_map (fun e => map (fun v => (fst e, v)) (snd e)) kept)) <= n.
Proof.
  intros N L. assert (G : forall l, ~ In k (map fst l) -> values_of k (flat_map (fun e : K * list V => map (fun v => (fst e, v)) (snd e)) l) = []).
  { intro l. induction l as [|[k' vs] l IH]; intro Nk; [reflexivity|]. cbn [flat_map fst snd]. rewrite values_of_app.
    rewrite (values_of_same k k' (fun v => v)). rewrite IH by (intro X; apply Nk; right; exact X).
    destruct (eqb k' k) eqn:Ek; [|reflexivity]. apply eqb_eq in Ek. subst. exfalso. apply Nk. left. reflexivity. }
  induction kept as [|[k' vs] kept IH]; [cbn; lia|]. cbn [map fst] in N. inversion N as [|? ? Nk N']; subst.
  cbn [flat_map fst snd]. rewrite values_of_app, (values_of_same k k' (fun v => v)). destruct (eqb k' k) eqn:Ek.
  - apply eqb_eq in Ek. subst k'. rewrite (G kept Nk), app_nil_r, map_length. apply (L (k, vs)). left. reflexivity.
  - cbn [app]. apply IH; [exact N'|]. intros e He. apply L. right. exact He.
Qed.

Lemma partitions_as_rows {U P V} `{EqDec U} `{EqDec P} u (kept : list ((U * P) * list V)) :
  length (partitions_of u (as_rows kept)) <= length (kept_of u kept).
Proof.
  rewrite <- (map_length (fun e => snd (fst e)) (kept_of u kept)). apply NoDup_incl_length; [apply NoDup_distinct|].
  intros k Hk. apply in_partitions_of in Hk. apply in_map_iff in Hk. destruct Hk as [[[u' k'] v] [Er Hr]]. cbn in Er. inversion Er; subst.
  unfold as_rows in Hr. apply in_flat_map in Hr. destruct Hr as [[[u2 k2] vs] [Hk Hv]]. apply in_map_iff in Hv. destruct Hv as [v' [Ev _]].
  inversion Ev; subst. apply in_map_iff. exists ((u, k), vs). split; [reflexivity|]. apply filter_In. split; [exact Hk | apply eqb_refl].
Qed.

Lemma rows_tree_change {U P} `{EqDec U} `{EqDec P} u (rows : list (U * P * value)) keys l0 linf : NoDup keys ->
  (forall k, (Z.of_nat (length (values_of (u, k) rows)) <= linf)%Z) -> (Z.of_nat (length (partitions_of u rows)) <= l0)%Z ->
  tree_change l0 linf keys (fun k => values_in k rows) (fun k => values_in k (without u rows)).
Proof.
  intros N Lv Lp. exists (fun k => map num_of (values_of (u, k) rows)). split; [|split].
  - intro k. apply values_in_without.
  - intro k. rewrite map_length. apply Lv.
  - assert (T := touched u rows (fun k => match map num_of (values_of (u, k) rows) with [] => false | _ => true end) keys N).
    specialize (T ltac:(intros k Hk V; cbn beta in Hk; rewrite V in Hk; discriminate)). lia.
Qed.

Lemma tree_change_ext {P} l0 linf keys (t t' s s' : P -> list Q) : (forall k, t k = s k) -> (forall k, t' k = s' k) ->
  tree_change l0 linf keys s s' -> tree_change l0 linf keys t t'.
Proof.
  intros E E' [x [A [B C]]]. exists x. split; [|split; [exact B | exact C]]. intro k. rewrite E, E'. apply A.
Qed.

Lemma standard_trees {U P} `{EqDec U} `{EqDec P} p cs (sm : sampling U P) public rows keys col col' u i ps l0 linf :
  standard_run p cs sm public rows keys col -> nth_error cs i = Some (CQuantile ps) ->
  raw_accumulators p cs sm public (without u rows) = Ok col' ->
  max_partitions_contributed p = Some l0 -> max_contributions_per_partition p = Some linf ->
  tree_change l0 linf keys (fun k => raw_tree i k col) (fun k => raw_tree i k col').
Proof.
  intros [Ha [Hcs [Hb [Hv [Hp [Nk E]]]]]] Hi E' E0 Ei.
  destruct (accepted_facts p Ha) as [_ [_ [_ Hf]]].
  destruct (max_contributions p) as [m|] eqn:Em; [destruct Hf as [_ [X _]]; congruence|].
  destruct Hf as [a [b [Xa [Xb [Pa Pb]]]]]. rewrite E0 in Xa. rewrite Ei in Xb. inversion Xa; inversion Xb; subst a b. clear Xa Xb.
  destruct (raw_tree_kept p cs sm public rows col i ps Hb Hi E) as [kept [Ek T]].
  destruct (raw_tree_kept p cs sm public (without u rows) col' i ps Hb Hi E') as [kept' [Ek' T']].
  unfold without in Ek'. rewrite (to_bound_filter p public (fun x => negb (eqb x u))) in Ek'.
  rewrite (bound_filter (fun x => negb (eqb x u))), Ek in Ek'. cbn [rmap] in Ek'. inversion Ek'; subst kept'. clear Ek'.
  destruct (kept_facts p _ sm _ rows kept l0 Em E0 Hv Hp (to_bound_incl p public rows) Ek) as [N [L [Li _]]].
  eapply tree_change_ext with (s := fun k => values_in k (as_rows kept)) (s' := fun k => values_in k (without u (as_rows kept))).
  - exact T.
  - intro k. rewrite T'. unfold values_in. rewrite as_rows_without. reflexivity.
  - apply rows_tree_change; [exact Nk| |].
    + intro k. assert (X := values_as_rows (u, k) kept (Z.to_nat linf) N).
      specialize (X (Li (expects_in cs i _ Hi eq_refl) linf Ei)). fold (@as_rows U P value kept) in X. lia.
    + assert (X := partitions_as_rows u kept). specialize (L u). lia.
Qed.

Lemma trusted_trees {U P} `{EqDec U} `{EqDec P} p cs (sm : sampling U P) public rows keys col col' u i ps l0 linf :
  trusted_run p cs sm public rows keys col -> nth_error cs i = Some (CQuantile ps) ->
  raw_accumulators p cs sm public (without u rows) = Ok col' ->
  max_partitions_contributed p = Some l0 -> max_contributions_per_partition p = Some linf ->
  tree_change l0 linf keys (fun k => raw_tree i k col) (fun k => raw_tree i k col').
Proof.
  intros [Ha [Hcs [Hb [W [Nk E]]]]] Hi E' E0 Ei.
  destruct (within_to_bound p public rows W) as [_ [B C]].
  eapply tree_change_ext with (s := fun k => values_in k (to_bound p public rows)) (s' := fun k => values_in k (without u (to_bound p public rows))).
  - intro k. apply (raw_tree_trusted p cs sm public rows col i ps k Hb Hi E).
  - intro k. rewrite (raw_tree_trusted p cs sm public (without u rows) col' i ps k Hb Hi E'), to_bound_without. reflexivity.
  - apply rows_tree_change; [exact Nk | exact (C linf Ei u) | exact (B l0 E0 u)].
Qed.
