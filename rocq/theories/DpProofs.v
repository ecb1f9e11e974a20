(** Lemmas for C61: the result of aggregate as a function of the random answers. *)
From Coq Require Import List ZArith QArith Bool Permutation Lia.
From Verif Require Import Base BaseLemmas BackendModel ListLemmas BackendSpec BackendProofs ParamsModel SensModel CombinerModel CombinerProofs3 EngineModel EngineSpec
  EngineProofs EngineProofs2 EngineProofs3 EngineProofs4 EngineProofs5 EngineProps EngineProps2 VectorModel LaplaceSpec LaplaceProofs EnforcedSpec VectorSpec DpSpec.
Import ListNotations.
Local Close Scope Q_scope.

(** The accumulators that metrics are computed from. *)
Definition usable (c : combiner) (a : acc) : Prop := kind_ok c a /\ (forall n, c = CVector n -> exists l, a = AVec l).
Definition vector_of (a : acc) : list Q := match a with AVec l => l | _ => [] end.
Definition blank (c : combiner) : acc := match c with CVector _ => AVec [] | _ => create c [] end.

(** ** Metrics as a function of the noisy values *)
Definition constant_noises (T : quantity -> Q) (o : option Q) (A : list Q) : noises :=
  Noises (fun _ => T QCount) (fun _ => T QSum) (fun _ => T QSquares) (fun _ => o) (fun _ _ => A) (fun _ => A).
Definition noise_at (nz : noises) (qt : quantity) : Q -> Q :=
  match qt with QCount => n_count nz | QSum => n_sum nz | QSquares => n_squares nz end.

(** The quantities that a combiner adds noise to. *)
Definition uses (c : combiner) : list quantity :=
  match c with
  | CCount | CPidCount => [QCount]
  | CSum _ _ _ => [QSum]
  | CMean _ _ _ => [QCount; QSum]
  | CVariance lo hi _ =>
      QCount :: (if Qeq_bool lo hi then [] else [QSum])
      ++ (if Qeq_bool (fst (squares_interval lo hi)) (snd (squares_interval lo hi)) then [] else [QSquares])
  | _ => []
  end.

Lemma metrics_of_values nz c a T o A : usable c a ->
  (forall qt, In qt (uses c) -> T qt = noise_at nz qt (quantity_of qt a)) ->
  (c = CThresh -> o = n_thresh nz (Qnum (count_of a))) ->
  (forall ps, c = CQuantile ps -> A = n_quantiles nz (tree_of a) (map (fun x => x / 100)%Q ps)) ->
  (forall n, c = CVector n -> A = n_vector nz (vector_of a)) ->
  compute_metrics nz c a = compute_metrics (constant_noises T o A) c (blank c).
Proof.
  intros [K Kv] ET Eo Ea Ev. assert (E1 := ET QCount). assert (E2 := ET QSum). assert (E3 := ET QSquares). cbn [noise_at] in E1, E2, E3. clear ET.
  destruct c as [| | |b lo hi|lo hi names|lo hi names|ps|n]; destruct a; try (cbn in K; contradiction).
  - cbn in *. rewrite E1 by tauto. reflexivity.
  - cbn in *. rewrite E1 by tauto. reflexivity.
  - cbn in *. rewrite (Eo eq_refl). reflexivity.
  - destruct b; cbn in *; rewrite E2 by tauto; reflexivity.
  - cbn in *. unfold compute_mean. cbn. rewrite E1, E2 by tauto. reflexivity.
  - change (blank (CVariance lo hi names)) with (AVar 0 0 0). cbn [compute_metrics].
    cbn [uses quantity_of count_of sum_of squares_of] in *.
    unfold compute_dp_var, mean_for_normalized_sum. cbn [constant_noises n_count n_sum n_squares]. cbv zeta.
    rewrite E1 by (left; reflexivity).
    destruct (Qeq_bool lo hi), (Qeq_bool (fst (squares_interval lo hi)) (snd (squares_interval lo hi)));
      try rewrite E2 by (cbn; tauto); try rewrite E3 by (cbn; tauto); reflexivity.
  - cbn [compute_metrics blank create tree_of constant_noises n_quantiles] in *. rewrite (Ea ps eq_refl). reflexivity.
  - destruct (Kv n eq_refl); discriminate.
  - cbn [compute_metrics blank vector_of constant_noises n_vector] in *. rewrite (Ev n eq_refl). reflexivity.
  - destruct (Kv n eq_refl); discriminate.
Qed.

Lemma all_metrics_of_values nzs T o A cs : forall i accs sofar, Forall2 usable cs accs ->
  (forall j c a, nth_error cs j = Some c -> nth_error accs j = Some a ->
     forall qt, In qt (uses c) -> T (i + j) qt = noise_at (nzs (i + j)) qt (quantity_of qt a)) ->
  (forall j a, nth_error cs j = Some CThresh -> nth_error accs j = Some a -> o (i + j) = n_thresh (nzs (i + j)) (Qnum (count_of a))) ->
  (forall j a ps, nth_error cs j = Some (CQuantile ps) -> nth_error accs j = Some a ->
     A (i + j) = n_quantiles (nzs (i + j)) (tree_of a) (map (fun x => x / 100)%Q ps)) ->
  (forall j a n, nth_error cs j = Some (CVector n) -> nth_error accs j = Some a -> A (i + j) = n_vector (nzs (i + j)) (vector_of a)) ->
  combine_metrics nzs i cs accs sofar =
  combine_metrics (fun j => constant_noises (T j) (o j) (A j)) i cs (map blank cs) sofar.
Proof.
  induction cs as [|c cs IH]; intros i accs sofar K ET Eo Ea Ev; inversion K; subst; [reflexivity|].
  cbn [map combine_metrics].
  rewrite (metrics_of_values (nzs i) c y (T i) (o i) (A i)); [| assumption | | | |].
  - destruct (compute_metrics _ c (blank c)) as [d|]; [|reflexivity]. cbn [rbind].
    destruct (existsb _ d); [reflexivity|]. apply IH; try assumption.
    + intros j c' a Ec Ej qt. replace (S i + j) with (i + S j) by lia. apply (ET (S j) c' a Ec Ej qt).
    + intros j a Ec Ej. replace (S i + j) with (i + S j) by lia. apply (Eo (S j) a Ec Ej).
    + intros j a ps Ec Ej. replace (S i + j) with (i + S j) by lia. apply (Ea (S j) a ps Ec Ej).
    + intros j a n Ec Ej. replace (S i + j) with (i + S j) by lia. apply (Ev (S j) a n Ec Ej).
  - intro qt. specialize (ET 0 c y eq_refl eq_refl qt). rewrite Nat.add_0_r in ET. exact ET.
  - intros ->. specialize (Eo 0 y eq_refl eq_refl). rewrite Nat.add_0_r in Eo. exact Eo.
  - intros ps ->. specialize (Ea 0 y ps eq_refl eq_refl). rewrite Nat.add_0_r in Ea. exact Ea.
  - intros n ->. specialize (Ev 0 y n eq_refl eq_refl). rewrite Nat.add_0_r in Ev. exact Ev.
Qed.

(** ** The metrics can always be computed *)
Lemma compute_total nz c a : usable c a -> well_named c ->
  exists d, compute_metrics nz c a = Ok d /\ incl (map fst d) (names_of c).
Proof.
  intros [K Kv] W. destruct c as [| | |b lo hi|lo hi names|lo hi names|ps|n]; destruct a; try (cbn in K; contradiction); try (destruct (Kv n eq_refl); discriminate).
  1-4: eexists; split; [reflexivity|]; cbn; apply incl_refl.
  - destruct W as [b1 [b2 ->]]. cbn [compute_metrics]. unfold compute_mean. eexists. split; [reflexivity|].
    intros x I. destruct b1, b2; cbn in *; tauto.
  - destruct W as [b0 [b1 [b2 ->]]]. cbn [compute_metrics]. unfold compute_dp_var. eexists. split; [reflexivity|].
    intros x I. destruct b0, b1, b2; cbn in *; tauto.
  - cbn [compute_metrics]. eexists. split; [reflexivity|]. intros x I. apply in_map_iff in I. destruct I as [[y v] [<- I]].
    apply in_combine_l in I. exact I.
  - eexists. split; [reflexivity|]. cbn. apply incl_refl.
Qed.

Lemma combine_metrics_total nzs cs : forall i accs sofar prev,
  Forall2 usable cs accs -> Forall well_named cs ->
  incl (map fst sofar) prev -> NoDup (prev ++ flat_map names_of cs) ->
  exists d, combine_metrics nzs i cs accs sofar = Ok d.
Proof.
  induction cs as [|c cs IH]; intros i accs sofar prev F W Is N; inversion F; subst; [eexists; reflexivity|].
  inversion W; subst. destruct (compute_total (nzs i) c y) as [d [Ed Id]]; try assumption.
  cbn [combine_metrics]. rewrite Ed. cbn [rbind]. cbn [flat_map] in N.
  assert (D : existsb (fun kv => existsb (eqb (fst kv)) (map fst sofar)) d = false).
  { apply not_true_is_false. intro T. apply existsb_exists in T. destruct T as [kv [Hkv T]].
    apply existsb_exists in T. destruct T as [x [Hx T]]. apply eqb_eq in T. subst x.
    apply (NoDup_app_iff prev) in N. destruct N as [_ [_ N]]. apply (N _ (Is _ Hx)).
    apply in_or_app. left. apply Id. apply in_map. exact Hkv. }
  rewrite D. apply (IH (S i) l' (sofar ++ d) (prev ++ names_of c)); try assumption.
  - rewrite map_app. apply incl_app; [apply incl_appl; exact Is | apply incl_appr; exact Id].
  - rewrite <- app_assoc. exact N.
Qed.

Lemma compound_total p cs nzs n accs : create_compound_combiner p = Ok cs -> Forall2 usable cs accs ->
  exists d, compound_metrics nzs cs (n, accs) = Ok d.
Proof.
  intros E F. unfold create_compound_combiner in E.
  destruct (create_combiners p) as [cs'|] eqn:Ec; cbn [rbind] in E; [|discriminate].
  unfold compound_init, raise_if in E. destruct (has_duplicates (flat_map names_of cs')) eqn:D; [discriminate|].
  inversion E; subst cs'. apply no_duplicates_NoDup in D.
  destruct (create_combiners_names p cs Ec) as [W _]. unfold compound_metrics. cbn [snd].
  apply combine_metrics_total with (prev := []); auto. apply incl_refl.
Qed.

Definition render (cs : list combiner) (T : nat -> quantity -> Q) (o : nat -> option Q) (A : nat -> list Q) : list (mname * released) :=
  match compound_metrics (fun j => constant_noises (T j) (o j) (A j)) cs (1%Z, map blank cs) with Ok m => m | Err _ => [] end.

Lemma no_pid_entries (d : list (mname * released)) : (forall n v, In (n, v) d -> n <> NPidCount) ->
  existsb (fun kv => match kv with (NPidCount, RNone) => true | _ => false end) d = false.
Proof.
  intro F. apply not_true_is_false. intro X. apply existsb_exists in X. destruct X as [[n v] [I E]]. apply (F n v I). destruct n; try discriminate E. reflexivity.
Qed.

Lemma thresh_entries nz c a d : compute_metrics nz c a = Ok d ->
  existsb (fun kv => match kv with (NPidCount, RNone) => true | _ => false end) d = true ->
  c = CThresh /\ exists z, a = AInt z /\ n_thresh nz z = None.
Proof.
  intros E X. destruct c as [| | |b lo hi|lo hi names|lo hi names|ps|n]; destruct a; cbn [compute_metrics] in E; try discriminate.
  - exfalso. inversion E; subst d. discriminate.
  - exfalso. inversion E; subst d. discriminate.
  - split; [reflexivity|]. exists z. split; [reflexivity|].
    inversion E; subst d. cbn in X. destruct (n_thresh nz z); [discriminate | reflexivity].
  - exfalso. inversion E; subst d. discriminate.
  - exfalso. unfold compute_mean in E. inversion E; subst d. clear E. cbn in X.
    destruct (existsb (eqb NCount) names), (existsb (eqb NSum) names); discriminate.
  - exfalso. unfold compute_dp_var in E. cbv zeta in E. inversion E; subst d. clear E. cbn in X.
    destruct (existsb (eqb NCount) names), (existsb (eqb NSum) names), (existsb (eqb NMean) names); discriminate.
  - exfalso. inversion E; subst d. rewrite no_pid_entries in X; [discriminate|].
    intros n v I. apply in_combine_l in I. cbn [names_of] in I. apply in_map_iff in I. destruct I as [q [<- _]]. discriminate.
  - exfalso. inversion E; subst d. discriminate.
Qed.

Lemma above_app a b : above_threshold (a ++ b) = above_threshold a && above_threshold b.
Proof. unfold above_threshold. rewrite existsb_app, negb_orb. reflexivity. Qed.

Lemma above_render_from o T A cs : forall i accs sofar m, length accs = length cs ->
  combine_metrics (fun j => constant_noises (T j) (o j) (A j)) i cs accs sofar = Ok m ->
  above_threshold m = above_threshold sofar &&
    forallb (fun jc => match snd jc with CThresh => is_some (o (fst jc)) | _ => true end) (combine (seq i (length cs)) cs).
Proof.
  induction cs as [|c cs IH]; intros i accs sofar m L E.
  - destruct accs; [|discriminate]. cbn in E. inversion E; subst. cbn. rewrite andb_true_r. reflexivity.
  - destruct accs as [|a accs]; [discriminate|]. cbn [combine_metrics] in E.
    destruct (compute_metrics (constant_noises (T i) (o i) (A i)) c a) as [d|] eqn:Ed; cbn [rbind] in E; [|discriminate].
    destruct (existsb _ d) in E; [discriminate|]. apply IH in E; [|cbn in L; lia].
    rewrite E, above_app. cbn [length seq combine forallb fst snd]. rewrite <- andb_assoc. f_equal. f_equal.
    unfold above_threshold. destruct (existsb _ d) eqn:X; cbn [negb].
    + destruct (thresh_entries _ _ _ _ Ed X) as [-> [z [_ N]]]. cbn in N. rewrite N. reflexivity.
    + destruct c; try reflexivity. destruct a; cbn in Ed; try discriminate. inversion Ed; subst d. cbn in X.
      destruct (o i); [reflexivity | discriminate].
Qed.

Lemma blank_usable cs : Forall2 usable cs (map blank cs).
Proof.
  induction cs as [|c cs IH]; constructor; [|exact IH]. split.
  - destruct c; try (apply create_kind). exact I.
  - intros n ->. exists []. reflexivity.
Qed.

Lemma render_ok p cs T o A : create_compound_combiner p = Ok cs ->
  compound_metrics (fun j => constant_noises (T j) (o j) (A j)) cs (1%Z, map blank cs) = Ok (render cs T o A).
Proof.
  intro Hcs. unfold render.
  destruct (compound_total p cs (fun j => constant_noises (T j) (o j) (A j)) 1%Z _ Hcs (blank_usable cs)) as [d E].
  rewrite E. reflexivity.
Qed.

Lemma above_render p cs T o A j : create_compound_combiner p = Ok cs ->
  nth_error cs j = Some CThresh ->
  (forall i, nth_error cs i = Some CThresh -> i = j) ->
  above_threshold (render cs T o A) = is_some (o j).
Proof.
  intros Hcs Ej Un. assert (Em := render_ok p cs T o A Hcs). remember (render cs T o A) as m eqn:Rm. clear Rm. unfold compound_metrics in Em.
  rewrite (above_render_from o T A cs 0 _ _ _ (map_length _ _) Em). cbn [andb].
  change (above_threshold []) with true. cbn [andb].
  destruct (o j) as [q|] eqn:Eo; cbn [is_some].
  - apply forallb_forall. intros [i c] I. cbn [fst snd]. apply combine_seq_nth in I. rewrite Nat.sub_0_r in I. destruct I as [I _].
    destruct c; try reflexivity. apply Un in I. subst i. rewrite Eo. reflexivity.
  - apply not_true_is_false. intro F. rewrite forallb_forall in F.
    assert (I : In (j, CThresh) (combine (seq 0 (length cs)) cs)).
    { clear -Ej. assert (G : forall n, In (n + j, CThresh) (combine (seq n (length cs)) cs)).
      { revert j Ej. induction cs as [|c cs IH]; intros [|j] Ej n; cbn in Ej; try discriminate.
        - inversion Ej. left. f_equal. lia.
        - right. replace (n + S j) with (S n + j) by lia. apply IH. exact Ej. }
      exact (G 0). }
    specialize (F _ I). cbn in F. rewrite Eo in F. discriminate.
Qed.

(** ** The accumulators *)
Lemma raw_kinds {U P} `{EqDec U} `{EqDec P} p cs (sm : sampling U P) public rows col k a :
  raw_accumulators p cs sm public rows = Ok col -> In (k, a) col -> Forall2 kind_ok cs (snd a).
Proof.
  intros E I. destruct (raw_pairs _ _ _ _ _ _ E) as [pairs ->]. apply (proj1 (in_combine_per_key _ _ _ _)) in I.
  unfold with_accs in I. rewrite values_of_map_values in I. destruct (values_of k pairs) as [|g gs]; cbn in I; [discriminate|].
  inversion I; subst a.
  change (compound_create cs g) with (1%Z, map (fun c => create c g) cs).
  rewrite compound_fold. cbn [snd]. clear.
  induction cs as [|c cs IH]; constructor; [|exact IH].
  assert (G : forall l a, kind_ok c a -> kind_ok c (fold_left (merge c) (map (create c) l) a)).
  { induction l as [|x l IHl]; intros a K; [exact K|]. cbn [map fold_left]. apply IHl. apply merge_kind; [exact K | apply create_kind]. }
  apply G. apply create_kind.
Qed.

Lemma raw_value_at {P} `{EqDec P} (col : list (P * cacc)) f i k a b :
  NoDup (map fst col) -> In (k, a) col -> nth_error (snd a) i = Some b -> raw_value f i k col = f b.
Proof.
  intros N I E. unfold raw_value. rewrite (find_In_NoDup col k N a I). cbn [snd]. rewrite E. reflexivity.
Qed.

Lemma raw_tree_at {P} `{EqDec P} (col : list (P * cacc)) i k a b :
  NoDup (map fst col) -> In (k, a) col -> nth_error (snd a) i = Some b -> raw_tree i k col = tree_of b.
Proof.
  intros N I E. unfold raw_tree. rewrite (find_In_NoDup col k N a I). cbn [snd]. rewrite E. reflexivity.
Qed.

Lemma raw_vector_at {P} `{EqDec P} (col : list (P * cacc)) i k a b :
  NoDup (map fst col) -> In (k, a) col -> nth_error (snd a) i = Some b -> raw_vector i k col = vector_of b.
Proof.
  intros N I E. unfold raw_vector. rewrite (find_In_NoDup col k N a I). cbn [snd]. rewrite E. reflexivity.
Qed.

(** All accumulators of a collection are usable. *)
Definition all_usable {P} (cs : list combiner) (col : list (P * cacc)) : Prop :=
  forall k a, In (k, a) col -> Forall2 usable cs (snd a).

(** Without the vector combiner they always are. *)
Definition plain (c : combiner) : Prop := forall n, c <> CVector n.
Lemma plain_usable {U P} `{EqDec U} `{EqDec P} p cs (sm : sampling U P) public rows col :
  Forall plain cs -> raw_accumulators p cs sm public rows = Ok col -> all_usable cs col.
Proof.
  intros Pc E k a I. assert (K := raw_kinds p cs sm public rows col k a E I). clear E I.
  induction K as [|c x cs l Kc K IH]; constructor; inversion Pc; subst.
  - split; [exact Kc|]. intros n ->. exfalso. exact (H3 n eq_refl).
  - apply IH. assumption.
Qed.

Lemma in_fst {P A} (col : list (P * A)) k : In k (map fst col) -> exists a, In (k, a) col.
Proof. intro I. apply in_map_iff in I. destruct I as [[k' a] [E I]]. cbn in E. subst k'. eauto. Qed.


(** What the result shows of partition [k]. *)
Lemma found_in_result {U P} `{EqDec U} `{EqDec P} p cs (sm : sampling U P) keep nz public rows col out T o A k :
  all_usable cs col -> create_compound_combiner p = Ok cs ->
  raw_accumulators p cs sm public rows = Ok col ->
  aggregate p sm keep nz public rows = Ok out ->
  (forall i c qt, nth_error cs i = Some c -> In qt (uses c) -> T i qt = noise_at (nz k i) qt (raw_value (quantity_of qt) i k col)) ->
  (forall i, nth_error cs i = Some CThresh -> o i = n_thresh (nz k i) (Qnum (raw_value count_of i k col))) ->
  (forall i ps, nth_error cs i = Some (CQuantile ps) -> A i = n_quantiles (nz k i) (raw_tree i k col) (map (fun x => x / 100)%Q ps)) ->
  (forall i n, nth_error cs i = Some (CVector n) -> A i = n_vector (nz k i) (raw_vector i k col)) ->
  option_map snd (find (fun e => eqb (fst e) k) out) =
  (if mem k (map fst col) &&
      (if selects_privately p public
       then match max_rows_per_privacy_id p with Some m => keep k (divide_and_round_up (row_count k col) m) | None => false end
       else true) &&
      (if post_aggregation_thresholding p then above_threshold (render cs T o A) else true)
   then Some (render cs T o A) else None) /\
  incl (map fst out) (map fst col).
Proof.
  intros Pc Hcs Er E ET Eo Ea Ev.
  destruct (aggregate_split _ _ _ _ _ _ _ E) as [cs' [sel [out0 [Hcs' [Es [F Eout]]]]]].
  rewrite Hcs in Hcs'. inversion Hcs'; subst cs'. clear Hcs'.
  assert (Nc := proj1 (raw_keys p cs sm public rows col Er)).
  destruct (selected_raw _ _ _ _ _ _ _ Es) as [raw [Er' [Is [Sf St]]]]. rewrite Er in Er'. inversion Er'; subst raw. clear Er'.
  assert (Ko := forall2_keys (fun row => compound_metrics (nz (fst row)) cs (snd row)) sel out0 F).
  assert (Ns : NoDup (map fst sel)).
  { destruct (selects_privately p public) eqn:Sp; [destruct (St eq_refl) as [m [_ ->]]; apply select_keys; exact Nc|].
    rewrite (Sf eq_refl). exact Nc. }
  assert (Ks : forall k, In k (map fst sel) <-> In k (map fst col) /\
     (if selects_privately p public
      then match max_rows_per_privacy_id p with Some m => keep k (divide_and_round_up (row_count k col) m) | None => false end
      else true) = true).
  { intro k'. destruct (selects_privately p public) eqn:Sp.
    - destruct (St eq_refl) as [m [-> ->]]. apply select_keys. exact Nc.
    - rewrite (Sf eq_refl). tauto. }
  assert (Io : incl (map fst out) (map fst sel)).
  { intros k' X. rewrite <- Ko. subst out. destruct (post_aggregation_thresholding p); [|exact X].
    apply in_map_iff in X. destruct X as [e [Ee X]]. apply filter_In in X. apply in_map_iff. exists e. tauto. }
  split; [|intros k' X; apply Ks, Io, X].
  specialize (Ks k).
  destruct (in_dec eq_dec k (map fst sel)) as [Hk|Hk].
  - destruct (proj1 Ks Hk) as [Mk Kk]. rewrite Kk. apply mem_true_iff in Mk. rewrite Mk. cbn [andb].
    destruct (in_fst _ _ Hk) as [a Ia].
    assert (R : compound_metrics (nz k) cs a = compound_metrics (fun j => constant_noises (T j) (o j) (A j)) cs (1%Z, map blank cs)).
    { apply Is in Ia. unfold compound_metrics. apply all_metrics_of_values; [exact (Pc k a Ia) | | | |].
      - intros j c b Ec Ej qt Iq. cbn [Nat.add]. rewrite (ET j c qt Ec Iq). f_equal. apply (raw_value_at col _ j k a b Nc Ia Ej).
      - intros j b Ec Ej. cbn [Nat.add]. rewrite (Eo j Ec). f_equal. f_equal. apply (raw_value_at col _ j k a b Nc Ia Ej).
      - intros j b ps Ec Ej. cbn [Nat.add]. rewrite (Ea j ps Ec). f_equal. apply (raw_tree_at col j k a b Nc Ia Ej).
      - intros j b n Ec Ej. cbn [Nat.add]. rewrite (Ev j n Ec). f_equal. apply (raw_vector_at col j k a b Nc Ia Ej). }
    assert (M : exists m, In (k, m) out0 /\ compound_metrics (nz k) cs a = Ok m).
    { clear -F Ia. induction F as [|row res sel out0 E F IH]; [destruct Ia|]. destruct Ia as [->|I].
      - cbn [fst snd] in E. destruct (compound_metrics (nz k) cs a) as [m|]; [|discriminate]. inversion E.
        exists m. split; [left; reflexivity | reflexivity].
      - destruct (IH I) as [m [I' Em]]. exists m. split; [right; exact I' | exact Em]. }
    destruct M as [m [Im Em]]. rewrite R, (render_ok p cs T o A Hcs) in Em. inversion Em; subst m. clear Em.
    assert (No : NoDup (map fst out0)) by (rewrite Ko; exact Ns).
    set (m := render cs T o A) in *. clearbody m.
    subst out. destruct (post_aggregation_thresholding p).
    + destruct (above_threshold m) eqn:Am.
      * rewrite (find_In_NoDup _ k (NoDup_map_fst_filter _ _ No) m); [reflexivity|]. apply filter_In. auto.
      * rewrite find_none_keys; [reflexivity|]. intro X. destruct (in_fst _ _ X) as [m' Im']. apply filter_In in Im'.
        destruct Im' as [Im' Am']. cbn in Am'. assert (X1 := find_In_NoDup out0 k No m Im).
        rewrite (find_In_NoDup out0 k No m' Im') in X1. congruence.
    + rewrite (find_In_NoDup _ k No m Im). reflexivity.
  - rewrite find_none_keys by (intro X; apply Hk, Io, X).
    destruct (mem k (map fst col)) eqn:Mk; [|reflexivity]. apply mem_true_iff in Mk. cbn [andb].
    destruct (if selects_privately p public
      then match max_rows_per_privacy_id p with Some m => keep k (divide_and_round_up (row_count k col) m) | None => false end
      else true) eqn:Kk; [exfalso; apply Hk; apply Ks; auto|]. reflexivity.
Qed.

(** aggregate does not fail. *)
Lemma aggregate_total {U P} `{EqDec U} `{EqDec P} p cs (sm : sampling U P) keep nz public rows col :
  accepted p -> create_compound_combiner p = Ok cs -> raw_accumulators p cs sm public rows = Ok col -> all_usable cs col ->
  exists out, aggregate p sm keep nz public rows = Ok out.
Proof.
  intros Ha Hcs Ec Pc. destruct (selected_ok p cs sm keep public rows Ha) as [sel Es].
  destruct (selected_raw _ _ _ _ _ _ _ Es) as [raw [Er [Is _]]]. rewrite Ec in Er. inversion Er; subst raw. clear Er.
  destruct (map_result_ok (fun row => rmap (pair (fst row)) (compound_metrics (nz (fst row)) cs (snd row))) sel) as [out0 E0].
  { intros [k [n a]] Hin. destruct (compound_total p cs (nz k) n a Hcs) as [d E].
    - exact (Pc k (n, a) (Is _ Hin)).
    - cbn [fst snd]. rewrite E. cbn. eauto. }
  unfold aggregate. rewrite Hcs. cbn [rbind]. rewrite Es. cbn [rbind]. rewrite E0. cbn [rmap]. eauto.
Qed.
