(** Properties C19 (VECTOR_SUM) and C49 (clipping of vectors). *)
From Coq Require Import List ZArith QArith Qreals Reals Lia Lqa Lra.
From Verif Require Import Base BaseLemmas ListLemmas BackendModel BackendSpec BounderSpec ParamsModel SensModel CombinerModel EngineModel EngineSpec
  EngineProofs2 EngineProofs3 EngineProps EngineProps2 VectorModel VectorSpec VectorProofs VectorProofs2.
Import ListNotations.
Local Open Scope R_scope.

(** C49 for vectors. *)
Theorem C49_clipped_vector v max_norm k w :
  0 <= max_norm -> clip_vector v max_norm k = Ok w ->
  length w = length v /\ norm k w <= max_norm /\ (norm k v <= max_norm -> w = v).
Proof. exact (clip_facts v max_norm k w). Qed.
Print Assumptions C49_clipped_vector.

Theorem C49_vector_clipping_defined v max_norm k : k <> L0 <-> exists w, clip_vector v max_norm k = Ok w.
Proof. destruct k; cbn; split; intro H; try congruence; try (eexists; reflexivity); destruct H; discriminate. Qed.
Print Assumptions C49_vector_clipping_defined.

(** Clipping in the Linf and L2 norms does not move two vectors apart. *)
Theorem C49_linf_clipping_distance max_norm x y wx wy j :
  length x = length y -> clip_vector x max_norm Linf = Ok wx -> clip_vector y max_norm Linf = Ok wy ->
  Rabs (nth j wx 0 - nth j wy 0) <= Rabs (nth j x 0 - nth j y 0).
Proof.
  intros L Ex Ey. cbn [clip_vector] in *. inversion Ex. inversion Ey. clear Ex Ey H0 H1.
  set (f := fun z => Rmin (Rmax z (- max_norm)) max_norm). destruct (Nat.lt_ge_cases j (length x)) as [B|B].
  - rewrite (nth_indep (map f x) 0 (f 0)) by (rewrite map_length; exact B).
    rewrite (nth_indep (map f y) 0 (f 0)) by (rewrite map_length; lia).
    rewrite !map_nth. apply clip_R_distance.
  - rewrite !nth_overflow by (try rewrite map_length; lia). lra.
Qed.
Print Assumptions C49_linf_clipping_distance.

Theorem C49_l2_clipping_distance max_norm x y wx wy :
  0 <= max_norm -> length x = length y -> clip_vector x max_norm L2 = Ok wx -> clip_vector y max_norm L2 = Ok wy ->
  norm_l2 (map (fun ab => fst ab - snd ab) (combine wx wy)) <= norm_l2 (map (fun ab => fst ab - snd ab) (combine x y)).
Proof.
  intros M L Ex Ey. destruct (clip_facts x max_norm L2 wx M Ex) as [Lx _]. destruct (clip_facts y max_norm L2 wy M Ey) as [Ly _].
  cbn [clip_vector] in *. assert (G : forall a b, length a = length b -> map (fun ab => fst ab - snd ab) (combine a b) = vsub a b).
  { clear. induction a as [|p a IH]; intros [|q b] L; try discriminate; [reflexivity|]. cbn in *. f_equal. apply IH. lia. }
  rewrite !G by congruence. inversion Ex. inversion Ey. apply l2_nonexpansive. exact M.
Qed.
Print Assumptions C49_l2_clipping_distance.

Example C49_clipping_cases :
  clip_vector [3; -4] 1 Linf = Ok [1; -1] /\ clip_vector [3; -4] 1 L1 = Ok [3 / 7; -4 / 7] /\
  clip_vector [3; -4] 10 L2 = Ok [3; -4] /\ clip_vector [3; -4] 1 L0 = Err NotImplementedError.
Proof.
  assert (N1 : norm_l1 [3; -4] = 7).
  { unfold norm_l1. cbn. rewrite (Rabs_pos_eq 3), (Rabs_left (-4)) by lra. lra. }
  assert (N2 : norm_l2 [3; -4] = 5).
  { unfold norm_l2. cbn. replace (3 * 3 + (-4 * -4 + 0)) with (5 * 5) by ring. apply sqrt_square. lra. }
  split; [|split; [|split]].
  - cbn. rewrite (Rmax_left 3), (Rmin_right 3), (Rmax_right (-4)), (Rmin_left (- (1))) by lra. reflexivity.
  - cbn [clip_vector]. unfold scale_to. rewrite N1. destruct Req_EM_T; [lra|]. cbn [map].
    rewrite Rmin_right by lra. replace (3 * (1 / 7)) with (3 / 7) by lra. replace (-4 * (1 / 7)) with (-4 / 7) by lra. reflexivity.
  - cbn [clip_vector]. unfold scale_to. rewrite N2. destruct Req_EM_T; [lra|]. cbn [map].
    rewrite Rmin_left by lra. rewrite !Rmult_1_r. reflexivity.
  - reflexivity.
Qed.

(** ** C19 *)
Lemma mechanism_covers {P} (p : params) l0 linf n (keys : list P) (d : nat -> P -> R) eps delta :
  max_partitions_contributed p = Some l0 -> max_contributions_per_partition p = Some linf -> vector_size p = Some n ->
  (forall j, sumR (map (fun k => Rabs (d j k)) keys) <= IZR l0 * IZR linf /\
             sumR (map (fun k => d j k * d j k) keys) <= IZR l0 * (IZR linf * IZR linf)) ->
  exists m, vector_mechanism p eps delta = Ok m /\ forall j, covers_real m keys (d j).
Proof.
  intros E0 Ei En B. unfold vector_mechanism. rewrite E0, Ei, En.
  assert (I : forall z, Q2R (inject_Z z) = IZR z) by (intro z; unfold Q2R, inject_Z; cbn; field).
  destruct (noise_kind p); (eexists; split; [reflexivity|]); intro j; cbn [covers_real]; unfold l1_sensitivity, l2sq_sensitivity;
    rewrite !Q2R_mult, !I; apply B.
Qed.

Lemma few_partitions {P A} `{EqDec P} (K : list A) (f : A -> P) (keys : list P) (d : P -> R) l0 linf :
  (length K <= Z.to_nat l0)%nat -> (0 < l0)%Z -> (0 < linf)%Z -> NoDup keys ->
  (forall k, ~ In k (map f K) -> d k = 0) -> (forall k, In k (map f K) -> Rabs (d k) <= IZR linf) ->
  sumR (map (fun k => Rabs (d k)) keys) <= IZR l0 * IZR linf /\
  sumR (map (fun k => d k * d k) keys) <= IZR l0 * (IZR linf * IZR linf).
Proof.
  intros L P0 Pi N Z B. assert (Pr : 0 < IZR linf) by (apply IZR_lt; exact Pi).
  destruct (few_changes keys (map f K) d (IZR linf)) as [S1 S2]; try assumption; [lra| |].
  { intro k. destruct (mem k (map f K)) eqn:I; [apply mem_true_iff in I; apply B; exact I|]. apply mem_false_iff in I.
    rewrite (Z k I), Rabs_R0. lra. }
  rewrite map_length in *.
  assert (LI : INR (length K) <= IZR l0). { rewrite INR_IZR_INZ. apply IZR_le. lia. }
  split; (eapply Rle_trans; [eassumption|]); apply Rmult_le_compat_r; try assumption; [lra|]. apply Rmult_le_pos; lra.
Qed.

(** If every row is a vector whose norm is at most 1 (Linf or L2, the norm that is
    clipped), each coordinate changes within its noise calibration.
    Missing for C19: rows of larger norm, the L1 norm; see the refutation. *)
Theorem C19_unit_vectors_partial {U P} `{EqDec U} `{EqDec P} p cs (sm : sampling U P) rows keys col u i n kind max_norm eps delta :
  standard_run p cs sm None rows keys col ->
  nth_error cs i = Some (CVector n) -> max_contributions p = None -> vector_size p = Some n ->
  kind = Linf \/ kind = L2 -> vector_norm_kind p = Some kind ->
  vector_max_norm p = Some max_norm -> (0 <= max_norm)%Q ->
  vectors n (map snd rows) -> norm_at_most kind 1 (map snd rows) ->
  exists col' m,
    raw_accumulators p cs sm None (without u rows) = Ok col' /\
    vector_mechanism p eps delta = Ok m /\
    forall j, covers_real m keys
      (fun k => clipped_coordinate kind (Q2R max_norm) i j k col - clipped_coordinate kind (Q2R max_norm) i j k col').
Proof.
  intros R Hi Hm Hn Hk Ekind Emax M Hvec Hnorm.
  assert (F := accepted_facts p (proj1 R)). rewrite Hm in F. destruct F as [_ [_ [_ [l0 [linf [E0 [Ei [P0 Pi]]]]]]]].
  assert (MR : 0 <= Q2R max_norm). { apply Qle_Rle in M. rewrite RMicromega.Q2R_0 in M. exact M. }
  destruct (vector_run p cs sm rows keys col u i n l0 linf R Hi Hm E0 Ei) as [col' [kept [E' [L [G [Same Diff]]]]]].
  specialize (Diff Hvec). exists col'.
  destruct (mechanism_covers p l0 linf n keys
    (fun j k => clipped_coordinate kind (Q2R max_norm) i j k col - clipped_coordinate kind (Q2R max_norm) i j k col') eps delta E0 Ei Hn)
    as [m [Em C]]; [|exists m; auto].
  intro j. destruct R as [_ [_ [_ [_ [_ [Nk _]]]]]].
  apply (few_partitions (kept_of u kept) (fun e => snd (fst e)) keys _ l0 linf L P0 Pi Nk).
  - intros k Hout. unfold clipped_coordinate. rewrite (Same k Hout). lra.
  - intros k Hin. destruct (Diff k Hin) as [g [Hg D]]. destruct (G _ Hg) as [Lg Vg]. cbn [snd] in Lg, Vg.
    unfold clipped_coordinate.
    destruct (proj1 (C49_vector_clipping_defined (map Q2R (raw_vector i k col)) (Q2R max_norm) kind)) as [wx Ex];
      [destruct Hk as [-> | ->]; discriminate|].
    destruct (proj1 (C49_vector_clipping_defined (map Q2R (raw_vector i k col')) (Q2R max_norm) kind)) as [wy Ey];
      [destruct Hk as [-> | ->]; discriminate|].
    rewrite Ex, Ey. eapply Rle_trans; [apply (clip_change kind (Q2R max_norm) _ _ (map of_value g) wx wy j MR Hk Ex Ey)|].
    + intro a. rewrite !nth_Q2R, <- Q2R_minus, (Qeq_eqR _ _ (D a)), Q2R_sum, map_map. f_equal. apply map_ext.
      intro v. symmetry. apply of_value_coord.
    + intros w Hw. apply in_map_iff in Hw. destruct Hw as [v [<- Hv]]. specialize (Vg v Hv).
      destruct (Hvec v Vg) as [l [-> _]]. apply Hnorm. exact Vg.
    + rewrite map_length, INR_IZR_INZ. apply IZR_le. lia.
Qed.
Print Assumptions C19_unit_vectors_partial.

(** Whatever the rows are, the calibration is sufficient when
    2 * vector_max_norm <= max_contributions_per_partition. *)
Theorem C19_small_norm_partial {U P} `{EqDec U} `{EqDec P} p cs (sm : sampling U P) rows keys col u i n kind max_norm linf eps delta :
  standard_run p cs sm None rows keys col ->
  nth_error cs i = Some (CVector n) -> max_contributions p = None -> vector_size p = Some n ->
  vector_norm_kind p = Some kind -> vector_max_norm p = Some max_norm -> (0 <= max_norm)%Q ->
  max_contributions_per_partition p = Some linf -> (2 * max_norm <= inject_Z linf)%Q ->
  exists col' m,
    raw_accumulators p cs sm None (without u rows) = Ok col' /\
    vector_mechanism p eps delta = Ok m /\
    forall j, covers_real m keys
      (fun k => clipped_coordinate kind (Q2R max_norm) i j k col - clipped_coordinate kind (Q2R max_norm) i j k col').
Proof.
  intros R Hi Hm Hn Ekind Emax M Ei Small.
  assert (F := accepted_facts p (proj1 R)). rewrite Hm in F. destruct F as [_ [_ [_ [l0 [linf' [E0 [Ei' [P0 Pi]]]]]]]].
  assert (linf' = linf) by congruence. subst linf'.
  assert (MR : 0 <= Q2R max_norm). { apply Qle_Rle in M. rewrite RMicromega.Q2R_0 in M. exact M. }
  assert (SR : 2 * Q2R max_norm <= IZR linf).
  { apply Qle_Rle in Small. rewrite Q2R_mult in Small. unfold Q2R in Small at 1 3. cbn in Small. lra. }
  destruct (vector_run p cs sm rows keys col u i n l0 linf R Hi Hm E0 Ei) as [col' [kept [E' [L [G [Same _]]]]]].
  exists col'.
  destruct (mechanism_covers p l0 linf n keys
    (fun j k => clipped_coordinate kind (Q2R max_norm) i j k col - clipped_coordinate kind (Q2R max_norm) i j k col') eps delta E0 Ei Hn)
    as [m [Em C]]; [|exists m; auto].
  intro j. destruct R as [_ [_ [_ [_ [_ [Nk _]]]]]].
  apply (few_partitions (kept_of u kept) (fun e => snd (fst e)) keys _ l0 linf L P0 Pi Nk).
  - intros k Hout. unfold clipped_coordinate. rewrite (Same k Hout). lra.
  - intros k _.
    assert (B : forall c, Rabs (clipped_coordinate kind (Q2R max_norm) i j k c) <= Q2R max_norm).
    { intro c. unfold clipped_coordinate. destruct (clip_vector _ _ _) as [w|] eqn:E; [|rewrite Rabs_R0; exact MR].
      destruct (clip_facts _ _ _ _ MR E) as [_ [Nw _]]. destruct (nth_in_or_default j w 0) as [I|D].
      - eapply Rle_trans; [apply (coord_norm kind w _ I) | exact Nw].
      - rewrite D, Rabs_R0. exact MR. }
    eapply Rle_trans; [apply Rabs_triang|]. rewrite Rabs_Ropp. assert (A := B col). assert (A' := B col'). lra.
Qed.
Print Assumptions C19_small_norm_partial.

(** The full statement is false: vector_max_norm = 5, two partitions and two
    contributions per partition allowed.  One row [5] changes the coordinate by 5,
    the noise is calibrated to 4. *)
Theorem C19_vector_sum_refuted :
  exists p cs (sm : sampling Z Z) rows keys col u i n kind max_norm col' m,
    standard_run p cs sm None rows keys col /\
    nth_error cs i = Some (CVector n) /\ max_contributions p = None /\ vector_size p = Some n /\
    vector_norm_kind p = Some kind /\ vector_max_norm p = Some max_norm /\
    vectors n (map snd rows) /\ norm_at_most kind (Q2R max_norm) (map snd rows) /\
    raw_accumulators p cs sm None (without u rows) = Ok col' /\
    vector_mechanism p 1 0 = Ok m /\
    ~ covers_real m keys
       (fun k => clipped_coordinate kind (Q2R max_norm) i 0 k col - clipped_coordinate kind (Q2R max_norm) i 0 k col').
Proof.
  exists vector_params, [CVector 1%Z], (first_sampling 2 2), [(1%Z, 10%Z, Vec [(5#1)%Q])], [10%Z],
    [(10, (1, [AVec [(5#1)%Q]]))]%Z, 1%Z, 0%nat, 1%Z, Linf, (5#1)%Q, [], (Laplace (1 / inject_Z 1) (l1_sensitivity 2 (inject_Z 2))).
  assert (Q5 : Q2R (5 # 1) = 5) by (unfold Q2R; cbn; lra).
  split.
  { split; [exists (raw_of vector_params); reflexivity|]. split; [reflexivity|]. split; [reflexivity|].
    split; [split; intros x X; inversion X; subst; apply first_n_valid|]. split; [discriminate|].
    split; [repeat constructor; intros []|]. vm_compute. reflexivity. }
  do 5 (split; [reflexivity|]).
  split. { intros v [<-|[]]. exists [(5#1)%Q]. split; reflexivity. }
  split. { intros l [E|[]]. inversion E; subst. cbn [norm map]. apply linf_le_iff; rewrite Q5; [lra|].
           intros x [<-|[]]. rewrite Rabs_pos_eq; lra. }
  split; [reflexivity|]. split; [reflexivity|].
  cbn [covers_real map sumR fold_right]. unfold clipped_coordinate, raw_vector. cbn. rewrite Q5.
  rewrite Rmax_left, Rmin_left by lra. rewrite Rminus_0_r, Rabs_pos_eq by lra. unfold Q2R. cbn. lra.
Qed.
Print Assumptions C19_vector_sum_refuted.

(** It is false for every larger norm: with clipping to [M] and [linf < 2 * M], a person
    with one row [2 * M] next to a person with one row [-M] moves the coordinate from
    [-M] to [M]. *)
Definition large_norm_params (noise : noise) (kind : norm_kind) (M : Q) (linf : Z) : params :=
  Params [VECTOR_SUM] noise (Some 1%Z) (Some linf) None 1 None None None None false (Some kind) (Some M) (Some 1%Z)
         false false ParamsModel.TruncatedGeometric None false true.

Lemma choose_one {V} idx n (v : V) : (1 <= n)%nat -> choose idx n [v] = [v].
Proof. intros L. unfold choose. cbn [length]. destruct (Nat.ltb_spec n 1); [lia | reflexivity]. Qed.

Lemma norm_of_one kind x : kind <> L0 -> norm kind [x] = Rabs x.
Proof.
  intros K. destruct kind; try contradiction; cbn [norm]; unfold norm_l1, norm_l2, norm_linf, sumR; cbn [map fold_right];
    rewrite ?Rplus_0_r; first [reflexivity | apply sqrt_Rsqr_abs | apply Rmax_left, Rabs_pos].
Qed.

Theorem C19_large_norm_refuted : forall noise kind M linf eps delta,
  kind <> L0 -> (1 <= linf)%Z -> (inject_Z linf < 2 * M)%Q ->
  exists p (sm : sampling Z Z) rows keys col u col' m,
    standard_run p [CVector 1] sm None rows keys col /\ max_contributions p = None /\ vector_size p = Some 1%Z /\
    noise_kind p = noise /\ vector_norm_kind p = Some kind /\ vector_max_norm p = Some M /\
    max_contributions_per_partition p = Some linf /\
    raw_accumulators p [CVector 1] sm None (without u rows) = Ok col' /\
    vector_mechanism p eps delta = Ok m /\
    ~ covers_real m keys
       (fun k => clipped_coordinate kind (Q2R M) 0 0 k col - clipped_coordinate kind (Q2R M) 0 0 k col').
Proof.
  intros noise kind M linf eps delta K L Big.
  assert (L' : (1 <= Z.to_nat linf)%nat) by lia.
  assert (PM : (0 < M)%Q).
  { assert (E : (inject_Z 1 <= inject_Z linf)%Q) by (rewrite <- Zle_Qle; exact L). change (inject_Z 1) with 1%Q in E. Lqa.lra. }
  exists (large_norm_params noise kind M linf), (first_sampling 1 (Z.to_nat linf)), [(1, 3, Vec [- M]%Q); (2, 3, Vec [2 * M]%Q)]%Z, [3%Z],
    [(3, (2, [AVec [(- M + 2 * M)%Q]]))]%Z, 2%Z, [(3, (1, [AVec [(- M)%Q]]))]%Z.
  exists (match noise with
          | LaplaceNoise => Laplace (eps / inject_Z 1) (l1_sensitivity 1 (inject_Z linf))
          | GaussianNoise => Gaussian (eps / inject_Z 1) (delta / inject_Z 1) (l2sq_sensitivity 1 (inject_Z linf))
          end).
  split.
  { split. { exists (raw_of (large_norm_params noise kind M linf)). cbn. unfold raise_if. rewrite (proj2 (Z.leb_gt _ _)) by lia. reflexivity. }
    split; [reflexivity|]. split; [reflexivity|].
    split; [split; intros y E; inversion E; subst; apply first_n_valid|].
    split; [discriminate|]. split; [repeat constructor; intros []|].
    cbn -[choose Z.to_nat]. rewrite ?choose_one by (first [exact L' | reflexivity]). cbn -[choose Z.to_nat].
    rewrite ?choose_one by (first [exact L' | reflexivity]). reflexivity. }
  do 6 (split; [reflexivity|]). split.
  { cbn -[choose Z.to_nat]. rewrite ?choose_one by (first [exact L' | reflexivity]). cbn -[choose Z.to_nat].
    rewrite ?choose_one by (first [exact L' | reflexivity]). reflexivity. }
  split; [destruct noise; reflexivity|].
  set (d := fun k : Z => _).
  assert (PR : 0 < Q2R M). { apply Qlt_Rlt in PM. rewrite RMicromega.Q2R_0 in PM. exact PM. }
  assert (BR : IZR linf < 2 * Q2R M).
  { apply Qlt_Rlt in Big. rewrite Q2R_mult in Big. unfold Q2R in Big at 1 2. cbn in Big. lra. }
  assert (LR : 1 <= IZR linf) by (apply IZR_le; exact L).
  assert (V : d 3%Z = 2 * Q2R M).
  { unfold d, clipped_coordinate, raw_vector. cbn [find fst snd nth_error map].
    change (eqb 3%Z 3%Z) with true. cbv iota. cbn [snd nth_error map].
    assert (C : forall x, Rabs (Q2R x) <= Q2R M -> clip_vector [Q2R x] (Q2R M) kind = Ok [Q2R x]).
    { intros x B. destruct (proj1 (C49_vector_clipping_defined [Q2R x] (Q2R M) kind) K) as [w E]. rewrite E. f_equal.
      destruct (C49_clipped_vector [Q2R x] (Q2R M) kind w ltac:(lra) E) as (_ & _ & Sm). apply Sm.
      rewrite norm_of_one by exact K. exact B. }
    rewrite (C (- M + 2 * M)%Q), (C (- M)%Q).
    - cbn [nth]. rewrite Q2R_plus, Q2R_mult, Q2R_opp. unfold Q2R at 2. cbn. lra.
    - rewrite Q2R_opp, Rabs_Ropp, Rabs_pos_eq; lra.
    - replace (Q2R (- M + 2 * M)) with (Q2R M) by (apply Qeq_eqR; ring). rewrite Rabs_pos_eq; lra. }
  assert (I : Q2R (inject_Z linf) = IZR linf) by (unfold Q2R, inject_Z; cbn; field).
  destruct noise; cbn [large_norm_params noise_kind covers_real map]; unfold sumR; cbn [fold_right]; rewrite V;
    unfold l1_sensitivity, l2sq_sensitivity; rewrite !Q2R_mult, I; replace (Q2R (inject_Z 1)) with 1 by (unfold Q2R; cbn; lra).
  - rewrite Rabs_pos_eq by lra. lra.
  - nra.
Qed.
Print Assumptions C19_large_norm_refuted.

(** So [2 * vector_max_norm <= max_contributions_per_partition] is the exact condition. *)
Theorem C19_exactly : forall kind M linf eps delta, kind <> L0 -> (0 <= M)%Q -> (1 <= linf)%Z ->
  (forall p cs (sm : sampling Z Z) rows keys col u i n,
     standard_run p cs sm None rows keys col -> nth_error cs i = Some (CVector n) ->
     max_contributions p = None -> vector_size p = Some n ->
     vector_norm_kind p = Some kind -> vector_max_norm p = Some M -> max_contributions_per_partition p = Some linf ->
     exists col' m, raw_accumulators p cs sm None (without u rows) = Ok col' /\ vector_mechanism p eps delta = Ok m /\
       forall j, covers_real m keys
         (fun k => clipped_coordinate kind (Q2R M) i j k col - clipped_coordinate kind (Q2R M) i j k col')) <->
  (2 * M <= inject_Z linf)%Q.
Proof.
  intros kind M linf eps delta K PM L. split.
  - intros A. apply Qnot_lt_le. intro Big.
    destruct (C19_large_norm_refuted LaplaceNoise kind M linf eps delta K L Big)
      as (p & sm & rows & keys & col & u & col' & m & R & H1 & H2 & _ & H3 & H4 & H5 & E & Em & No).
    destruct (A p [CVector 1] sm rows keys col u 0%nat 1%Z R eq_refl H1 H2 H3 H4 H5) as (c2 & m2 & E2 & Em2 & C).
    assert (c2 = col') by congruence. assert (m2 = m) by congruence. subst. exact (No (C 0%nat)).
  - intros Small p cs sm rows keys col u i n R Hi Hm Hn Hk HM Hl.
    exact (C19_small_norm_partial p cs sm rows keys col u i n kind M linf eps delta R Hi Hm Hn Hk HM PM Hl Small).
Qed.
Print Assumptions C19_exactly.

(** The coordinates share the budget of the combiner evenly: the mechanisms of the [n]
    coordinates together use exactly the epsilon and (for Gaussian noise) the delta. *)
Definition mechanism_budget (m : mechanism) : option (Q * Q) :=
  match m with
  | Laplace eps _ => Some (eps, 0%Q)
  | Gaussian eps delta _ => Some (eps, delta)
  | _ => None
  end.
Theorem C19_coordinates_share_budget : forall p n eps delta m,
  vector_size p = Some n -> (0 < n)%Z -> vector_mechanism p eps delta = Ok m ->
  exists e d, mechanism_budget m = Some (e, d) /\ (sumQ (repeat e (Z.to_nat n)) == eps)%Q /\
    (sumQ (repeat d (Z.to_nat n)) == match noise_kind p with LaplaceNoise => 0 | GaussianNoise => delta end)%Q.
Proof.
  intros p n eps delta m En Pn E. unfold vector_mechanism in E. rewrite En in E.
  assert (Sm : forall x k, (sumQ (repeat x k) == inject_Z (Z.of_nat k) * x)%Q).
  { intros x k. induction k as [|k IH]; [cbn; ring|]. rewrite Nat2Z.inj_succ. unfold Z.succ. rewrite inject_Z_plus.
    change (sumQ (repeat x (S k))) with (x + sumQ (repeat x k))%Q. rewrite IH. change (inject_Z 1) with 1%Q. ring. }
  assert (N0 : ~ (inject_Z n == 0)%Q) by (unfold Qeq; cbn; lia).
  destruct (max_partitions_contributed p), (max_contributions_per_partition p); try discriminate.
  destruct (noise_kind p); injection E as <-; eexists; eexists; (split; [reflexivity|]); rewrite !Sm, Z2Nat.id by lia;
    split; try (field; exact N0); ring.
Qed.
Print Assumptions C19_coordinates_share_budget.

Example C19_hypotheses_met :
  exists col, standard_run vector_params [CVector 1%Z] (first_sampling 2 2) None
    [(1, 10, Vec [(1#2)%Q]); (1, 10, Vec [1%Q]); (2, 10, Vec [(-1#1)%Q]); (1, 20, Vec [1%Q]); (1, 30, Vec [1%Q])]%Z [10; 20; 30]%Z col.
Proof.
  eexists. split; [exists (raw_of vector_params); reflexivity|]. split; [reflexivity|]. split; [reflexivity|].
  split; [split; intros x X; inversion X; subst; apply first_n_valid|]. split; [discriminate|].
  split; [repeat constructor; cbn; intuition discriminate|]. vm_compute. reflexivity.
Qed.
