(** Proofs about sum histograms. *)
From Coq Require Import List ZArith QArith Qround Bool Sorted Permutation Lia Lqa.
From Verif Require Import Base BaseLemmas BackendModel BackendSpec ListLemmas BackendProofs HistModel HistSpec
  HistProofs HistProofs2 HistProofs4.
Import ListNotations.
Local Open Scope Q_scope.

(** ** Buckets *)

Lemma Qle_bool_true x y : Qle_bool x y = true <-> x <= y.
Proof. apply Qle_bool_iff. Qed.

Lemma inject_Z_pos n : (1 <= n)%Z -> 0 < inject_Z n.
Proof. intros. change 0 with (inject_Z 0). rewrite <- Zlt_Qlt. lia. Qed.

Lemma width_nonneg left right n : left <= right -> (1 <= n)%Z -> 0 <= (right - left) / inject_Z n.
Proof.
  intros L N. apply Qle_shift_div_l; [apply inject_Z_pos; exact N|]. lra.
Qed.

Lemma width_total left right n : (1 <= n)%Z -> inject_Z n * ((right - left) / inject_Z n) == right - left.
Proof. intros N. pose proof (inject_Z_pos n N). field. lra. Qed.

Lemma width_pos left right n : left < right -> (1 <= n)%Z -> 0 < (right - left) / inject_Z n.
Proof.
  intros L N. apply Qlt_shift_div_l; [apply inject_Z_pos; exact N|]. lra.
Qed.

(** The bucket of a value. *)
Lemma bucket_of left right n g x :
  (1 <= n)%Z -> make_generator left right n = Ok g -> left <= x -> x <= right ->
  exists i, (0 <= i < n)%Z /\
    fst (lower_upper g x) == left + inject_Z i * ((right - left) / inject_Z n) /\
    snd (lower_upper g x) == left + inject_Z (i + 1) * ((right - left) / inject_Z n) /\
    fst (lower_upper g x) <= x /\ x <= snd (lower_upper g x) /\
    (x < snd (lower_upper g x) \/ snd (lower_upper g x) == right).
Proof.
  intros N G Lx Rx. unfold make_generator in G.
  destruct (Qle_bool left right) eqn:LR; cbn [negb] in G; [|discriminate].
  destruct (Z.eqb_spec n 0); [lia|]. injection G as <-.
  set (w := (right - left) / inject_Z n).
  unfold lower_upper, bucket_index. cbn [g_left g_right g_num g_len fst snd].
  pose proof (width_total left right n N) as T. fold w in T.
  destruct (Qle_bool right left) eqn:D; cbn [negb].
  - (* all values equal *)
    apply Qle_bool_iff in D.
    assert (W : w == 0).
    { unfold w. assert (right - left == 0) as -> by lra. unfold Qdiv. ring. }
    exists 0%Z.
    destruct (Qle_bool right x) eqn:E.
    + change (1 - 1)%Z with 0%Z. change (inject_Z 0) with 0. change (0 + 1)%Z with 1%Z.
      change (inject_Z 1) with 1. repeat split; try reflexivity; try lia; try (rewrite W; lra).
    + exfalso. apply Qle_bool_false in E. lra.
  - apply Qle_bool_false in D. pose proof (width_pos left right n D N) as W. fold w in W.
    destruct (Qle_bool right x) eqn:E.
    + apply Qle_bool_iff in E. exists (n - 1)%Z.
      replace (n - 1 + 1)%Z with n by lia. split; [lia|]. split; [reflexivity|]. split; [reflexivity|].
      unfold Z.sub. rewrite inject_Z_plus. change (inject_Z (-(1))) with (- (1)). rewrite Qmult_plus_distr_l.
      rewrite T. split; [lra|]. split; [lra|]. right. lra.
    + apply Qle_bool_false in E. destruct (Qle_bool x left) eqn:E'.
      * apply Qle_bool_iff in E'. exists 0%Z. change (0 + 1)%Z with 1%Z.
        change (inject_Z 0) with 0. change (inject_Z 1) with 1.
        split; [lia|]. split; [reflexivity|]. split; [reflexivity|]. split; [lra|]. split; [lra|]. left. lra.
      * apply Qle_bool_false in E'.
        assert (Y0 : 0 <= (x - left) / w) by (apply Qle_shift_div_l; lra).
        assert (Yn : (x - left) / w < inject_Z n) by (apply Qlt_shift_div_r; lra).
        assert (Yx : (x - left) / w * w == x - left) by (field; lra).
        unfold py_int. rewrite (proj2 (Qle_bool_iff _ _) Y0).
        set (y := (x - left) / w) in *. clearbody y.
        pose proof (Qfloor_le y) as F1. pose proof (Qlt_floor y) as F2.
        set (i := Qfloor y) in *. clearbody i.
        assert (inject_Z i < inject_Z n) as Hi by lra. rewrite <- Zlt_Qlt in Hi.
        assert (inject_Z 0 < inject_Z (i + 1)) as Hi' by (change (inject_Z 0) with 0; lra). rewrite <- Zlt_Qlt in Hi'.
        exists i. split; [lia|]. split; [reflexivity|]. split; [reflexivity|].
        assert (inject_Z i * w <= y * w) by (apply Qmult_le_compat_r; lra).
        assert (y * w < inject_Z (i + 1) * w) by (apply Qmult_lt_compat_r; lra).
        split; [lra|]. split; [lra|]. left. lra.
Qed.

Lemma make_generator_ok left right n : (1 <= n)%Z -> left <= right -> exists g, make_generator left right n = Ok g.
Proof.
  intros N L. unfold make_generator. rewrite (proj2 (Qle_bool_iff _ _) L). cbn [negb].
  destruct (Z.eqb_spec n 0); [lia|]. eauto.
Qed.

Lemma in_bucket_iff right lo up x :
  in_bucket right lo up x = true <-> lo <= x /\ (x < up \/ up == right).
Proof.
  unfold in_bucket. rewrite andb_true_iff, orb_true_iff, Qle_bool_iff, Qeq_bool_iff, negb_true_iff, Qle_bool_false.
  reflexivity.
Qed.

(** A bucket that contains a value is determined by it. *)
Lemma bucket_unique left right n i j x lo up lo' up' :
  (1 <= n)%Z -> left <= right -> (0 <= i < n)%Z -> (0 <= j < n)%Z ->
  let w := (right - left) / inject_Z n in
  lo == left + inject_Z i * w -> up == left + inject_Z (i + 1) * w ->
  lo' == left + inject_Z j * w -> up' == left + inject_Z (j + 1) * w ->
  in_bucket right lo up x = true -> in_bucket right lo' up' x = true ->
  lo == lo' /\ up == up'.
Proof.
  intros N LR Hi Hj w E1 E2 E3 E4 B B'.
  apply in_bucket_iff in B, B'.
  pose proof (width_total left right n N) as T. fold w in T.
  pose proof (width_nonneg left right n LR N) as W0. fold w in W0.
  destruct (Qlt_le_dec left right) as [L | L].
  2: { assert (w == 0) as W. { unfold w. assert (right - left == 0) as -> by lra. unfold Qdiv. ring. }
       rewrite W in *. rewrite Qmult_0_r in *. split; lra. }
  pose proof (width_pos left right n L N) as W. fold w in W.
  assert (Mono : forall a b, (a <= b)%Z -> inject_Z a * w <= inject_Z b * w).
  { intros a b Hab. apply Qmult_le_compat_r; [|lra]. rewrite <- Zle_Qle. exact Hab. }
  assert (Last : forall a, inject_Z (a + 1) * w == right - left -> (a + 1 = n)%Z).
  { intros a Ha. rewrite <- T in Ha. apply inject_Z_injective. apply (Qmult_inj_r _ _ w); [lra | exact Ha]. }
  destruct (Z.lt_trichotomy i j) as [C | [-> | C]]; [exfalso | split; lra | exfalso].
  - pose proof (Mono (i + 1)%Z j ltac:(lia)). destruct B as [_ [B | B]]; [lra|].
    assert (i + 1 = n)%Z by (apply Last; lra). lia.
  - pose proof (Mono (j + 1)%Z i ltac:(lia)). destruct B' as [_ [B' | B']]; [lra|].
    assert (j + 1 = n)%Z by (apply Last; lra). lia.
Qed.

(** ** One bin *)

Lemma Qmax2_spec a b : (a <= b /\ Qmax2 a b = b \/ b <= a /\ Qmax2 a b = a).
Proof.
  unfold Qmax2. destruct (Qle_bool b a) eqn:E; [right | left]; split; try reflexivity.
  - apply Qle_bool_iff. exact E.
  - apply Qle_bool_false in E. lra.
Qed.
Lemma Qmin2_spec a b : (a <= b /\ Qmin2 a b = a \/ b <= a /\ Qmin2 a b = b).
Proof.
  unfold Qmin2. destruct (Qle_bool a b) eqn:E; [left | right]; split; try reflexivity.
  - apply Qle_bool_iff. exact E.
  - apply Qle_bool_false in E. lra.
Qed.

Lemma maximumQ_snoc m xs x : maximumQ m xs -> maximumQ (Qmax2 m x) (xs ++ [x]).
Proof.
  intros [(y & I & E) F].
  destruct (Qmax2_spec m x) as [[L ->] | [L ->]]; split.
  - exists x. split; [apply in_or_app; right; left; reflexivity | reflexivity].
  - apply Forall_app. split; [eapply Forall_impl; [|exact F]; cbn; intros; lra | constructor; [lra | constructor]].
  - exists y. split; [apply in_or_app; left; exact I | exact E].
  - apply Forall_app. split; [exact F | constructor; [lra | constructor]].
Qed.
Lemma minimumQ_snoc m xs x : minimumQ m xs -> minimumQ (Qmin2 m x) (xs ++ [x]).
Proof.
  intros [(y & I & E) F].
  destruct (Qmin2_spec m x) as [[L ->] | [L ->]]; split.
  - exists y. split; [apply in_or_app; left; exact I | exact E].
  - apply Forall_app. split; [exact F | constructor; [lra | constructor]].
  - exists x. split; [apply in_or_app; right; left; reflexivity | reflexivity].
  - apply Forall_app. split; [eapply Forall_impl; [|exact F]; cbn; intros; lra | constructor; [lra | constructor]].
Qed.

Definition one_bin (g : generator) (x : Q) : result (bin Q) :=
  Ok (mkBin (fst (lower_upper g x)) (snd (lower_upper g x)) 1%Z x x x).

Definition holdsQ (lo up : Q) (xs : list Q) (r : result (bin Q)) : Prop :=
  exists b, r = Ok b /\ b_lower b == lo /\ b_upper b == up /\
    b_count b = Z.of_nat (length xs) /\ b_sum b == sumQ xs /\
    maximumQ (b_max b) xs /\ minimumQ (b_min b) xs.

Lemma holdsQ_add lo up g xs x r :
  holdsQ lo up xs r -> fst (lower_upper g x) == lo -> snd (lower_upper g x) == up ->
  holdsQ lo up (xs ++ [x]) (bin_addQ r (one_bin g x)).
Proof.
  intros (a & -> & L & U & C & S & Mx & Mn) El Eu.
  unfold bin_addQ, one_bin, rbind. cbn [b_lower b_upper b_count b_sum b_max b_min].
  rewrite (proj2 (Qeq_bool_iff (b_lower a) _)) by lra.
  rewrite (proj2 (Qeq_bool_iff (b_upper a) _)) by lra. cbn [negb].
  eexists. split; [reflexivity|]. cbn [b_lower b_upper b_count b_sum b_max b_min].
  split; [exact L|]. split; [exact U|]. rewrite app_length, sumQ_app. cbn [length sumQ fold_right].
  split; [lia|]. split; [rewrite S; ring|]. split; [apply maximumQ_snoc | apply minimumQ_snoc]; assumption.
Qed.

Lemma holdsQ_one g x : holdsQ (fst (lower_upper g x)) (snd (lower_upper g x)) [x] (one_bin g x).
Proof.
  eexists. split; [reflexivity|]. cbn [b_lower b_upper b_count b_sum b_max b_min length sumQ fold_right].
  repeat split; try reflexivity; try ring; try (exists x; split; [left; reflexivity | reflexivity]);
    constructor; try lra; constructor.
Qed.

Lemma holdsQ_fold lo up g xs : forall ys r,
  (forall x, In x xs -> fst (lower_upper g x) == lo /\ snd (lower_upper g x) == up) ->
  holdsQ lo up ys r -> holdsQ lo up (ys ++ xs) (fold_left bin_addQ (map (one_bin g) xs) r).
Proof.
  induction xs as [|x xs IH]; intros ys r H Hr; cbn [map fold_left].
  - rewrite app_nil_r. exact Hr.
  - replace (ys ++ x :: xs) with ((ys ++ [x]) ++ xs) by (rewrite <- app_assoc; reflexivity).
    apply IH; [intros y I; apply H; right; exact I|].
    destruct (H x (or_introl eq_refl)) as [El Eu]. exact (holdsQ_add lo up g ys x r Hr El Eu).
Qed.

(** ** Minimum and maximum of the data *)

Lemma min_max_spec vs : vs <> [] -> exists lo hi, min_max vs = Some (lo, hi) /\ minimumQ lo vs /\ maximumQ hi vs.
Proof.
  intros N. destruct vs as [|v vs]; [congruence|]. unfold min_max. cbn [map].
  assert (G : forall l seen lo hi, minimumQ lo seen -> maximumQ hi seen ->
    exists lo' hi', fold_left (fun x y => (Qmin2 (fst x) (fst y), Qmax2 (snd x) (snd y)))
                              (map (fun x => (x, x)) l) (lo, hi) = (lo', hi') /\
                    minimumQ lo' (seen ++ l) /\ maximumQ hi' (seen ++ l)).
  { induction l as [|x l IH]; intros seen lo hi Hl Hh; cbn [map fold_left].
    - exists lo, hi. rewrite app_nil_r. auto.
    - cbn [fst snd]. destruct (IH (seen ++ [x]) (Qmin2 lo x) (Qmax2 hi x) (minimumQ_snoc _ _ _ Hl) (maximumQ_snoc _ _ _ Hh))
        as (lo' & hi' & E & Hl' & Hh').
      rewrite <- app_assoc in Hl', Hh'. exists lo', hi'. auto. }
  destruct (G vs [v] v v) as (lo & hi & E & Hl & Hh).
  - split; [exists v; split; [left; reflexivity | reflexivity] | constructor; [lra | constructor]].
  - split; [exists v; split; [left; reflexivity | reflexivity] | constructor; [lra | constructor]].
  - exists lo, hi. rewrite E. auto.
Qed.

(** ** The whole histogram *)

Lemma lower_lebQ_total a b : lower_lebQ a b = true \/ lower_lebQ b a = true.
Proof. unfold lower_lebQ. rewrite !Qle_bool_iff. lra. Qed.
Lemma lower_lebQ_trans a b c : lower_lebQ a b = true -> lower_lebQ b c = true -> lower_lebQ a c = true.
Proof. unfold lower_lebQ. rewrite !Qle_bool_iff. lra. Qed.

Lemma Qred_eq_iff a b : Qred a = Qred b <-> a == b.
Proof.
  split; [|apply Qred_complete]. intros E. rewrite <- (Qred_correct a), <- (Qred_correct b), E. reflexivity.
Qed.

Lemma sum_histogram_spec n vs : (1 <= n)%Z -> vs <> [] ->
  exists h, sum_histogram n vs = Ok (Some h) /\ sum_histogram_of n vs h.
Proof.
  intros N Ne. unfold sum_histogram.
  destruct (min_max_spec vs Ne) as (left & right & -> & Hl & Hr).
  assert (Rng : forall x, In x vs -> left <= x /\ x <= right).
  { intros x I. destruct Hl as [_ Fl], Hr as [_ Fr]. rewrite Forall_forall in Fl, Fr. auto. }
  assert (LR : left <= right).
  { destruct vs as [|v vs]; [congruence|]. destruct (Rng v (or_introl eq_refl)). lra. }
  destruct (make_generator_ok left right n N LR) as [g G]. rewrite G. cbn [rbind].
  rewrite (map_ext _ (fun x => (Qred (fst (lower_upper g x)), one_bin g x))).
  2: { intros x. unfold one_bin. destruct (lower_upper g x). reflexivity. }
  set (col := map (fun x => (Qred (fst (lower_upper g x)), one_bin g x)) vs).
  set (cells := combine_per_key bin_addQ col).
  assert (Cell : forall k r, In (k, r) cells -> exists b, r = Ok b /\ Qred (b_lower b) = k /\
                   describes_bucket left right n vs b).
  { intros k r I. apply in_combine_per_key in I.
    assert (Ev : values_of k col = map (one_bin g) (filter (fun x => eqb (Qred (fst (lower_upper g x))) k) vs)).
    { unfold values_of, col. rewrite filter_map, map_map. reflexivity. }
    rewrite Ev in I.
    destruct (filter (fun x => eqb (Qred (fst (lower_upper g x))) k) vs) as [|x0 xs] eqn:Ef; [discriminate|].
    cbn [map fold1] in I. injection I as <-.
    assert (Sub : forall x, In x (x0 :: xs) -> In x vs /\ Qred (fst (lower_upper g x)) = k).
    { intros x Ix. rewrite <- Ef in Ix. apply filter_In in Ix. destruct Ix as [Ix E].
      apply ListLemmas.eqb_eq in E. auto. }
    destruct (Sub x0 (or_introl eq_refl)) as [I0 E0].
    destruct (Rng x0 I0) as [L0 R0].
    destruct (bucket_of left right n g x0 N G L0 R0) as (i & Hi & Elo & Eup & B1 & B2 & B3).
    assert (Bk : in_bucket right (fst (lower_upper g x0)) (snd (lower_upper g x0)) x0 = true)
      by (apply in_bucket_iff; auto).
    (* membership in the bucket is having this key *)
    assert (Mem : forall x, In x vs -> in_bucket right (fst (lower_upper g x0)) (snd (lower_upper g x0)) x
                                       = eqb (Qred (fst (lower_upper g x))) k).
    { intros x Ix. destruct (Rng x Ix) as [Lx Rx].
      destruct (bucket_of left right n g x N G Lx Rx) as (j & Hj & Elo' & Eup' & C1 & C2 & C3).
      destruct (eqb (Qred (fst (lower_upper g x))) k) eqn:E.
      - apply ListLemmas.eqb_eq in E. rewrite <- E0 in E. apply Qred_eq_iff in E.
        apply in_bucket_iff. split; [lra|].
        assert (snd (lower_upper g x) == snd (lower_upper g x0)) as E2.
        { set (w := (right - left) / inject_Z n) in *.
          assert (inject_Z (j + 1) * w == inject_Z j * w + w) by (rewrite inject_Z_plus; ring).
          assert (inject_Z (i + 1) * w == inject_Z i * w + w) by (rewrite inject_Z_plus; ring). lra. }
        destruct C3; [left | right]; lra.
      - destruct (in_bucket right (fst (lower_upper g x0)) (snd (lower_upper g x0)) x) eqn:E'; [|reflexivity].
        assert (in_bucket right (fst (lower_upper g x)) (snd (lower_upper g x)) x = true) as B'
          by (apply in_bucket_iff; auto).
        destruct (bucket_unique left right n i j x _ _ _ _ N LR Hi Hj Elo Eup Elo' Eup' E' B') as [E1 _].
        apply Qred_complete in E1. apply eqb_neq in E. congruence. }
    assert (Here : filter (in_bucket right (fst (lower_upper g x0)) (snd (lower_upper g x0))) vs = x0 :: xs).
    { rewrite <- Ef. apply filter_ext_In. exact Mem. }
    assert (Hold : holdsQ (fst (lower_upper g x0)) (snd (lower_upper g x0)) ([x0] ++ xs)
                     (fold_left bin_addQ (map (one_bin g) xs) (one_bin g x0))).
    { apply holdsQ_fold; [|apply holdsQ_one].
      intros x Ix. destruct (Sub x (or_intror Ix)) as [Iv Ex]. rewrite <- E0 in Ex. apply Qred_eq_iff in Ex.
      split; [exact Ex|].
      destruct (Rng x Iv) as [Lx Rx].
      destruct (bucket_of left right n g x N G Lx Rx) as (j & Hj & Elo' & Eup' & _).
      set (w := (right - left) / inject_Z n) in *.
      assert (inject_Z (j + 1) * w == inject_Z j * w + w) by (rewrite inject_Z_plus; ring).
      assert (inject_Z (i + 1) * w == inject_Z i * w + w) by (rewrite inject_Z_plus; ring). lra. }
    destruct Hold as (b & -> & Lb & Ub & C & S & Mx & Mn).
    exists b. split; [reflexivity|]. split; [rewrite (Qred_complete _ _ Lb); exact E0|].
    split.
    - exists i. split; [exact Hi|]. split; lra.
    - cbn zeta.
      replace (filter (in_bucket right (b_lower b) (b_upper b)) vs) with ([x0] ++ xs); [auto|].
      cbn [app]. rewrite <- Here. apply filter_ext_In. intros x _.
      apply eq_true_iff_eq. rewrite !in_bucket_iff. rewrite Lb, Ub. reflexivity. }
  destruct (sequence_Ok (map snd cells) (describes_bucket left right n vs)) as (bs & Em & E & F).
  { intros r Ir. apply in_map_iff in Ir. destruct Ir as ([k r'] & <- & I).
    destruct (Cell k r' I) as (b & -> & _ & D). exists b. auto. }
  rewrite E. cbn [rmap]. exists (sort_by lower_lebQ bs). split; [reflexivity|].
  assert (Ek : map fst cells = map (fun b => Qred (b_lower b)) bs).
  { clear E F. revert bs Em Cell. generalize cells as cs. induction cs as [|[k r] cs IH]; intros bs Em Cell.
    - destruct bs; [reflexivity | discriminate].
    - destruct bs as [|b bs]; [discriminate|]. cbn [map fst snd] in *. injection Em as Er Em. f_equal.
      + destruct (Cell k r (or_introl eq_refl)) as (b' & Eb & Kb & _). congruence.
      + apply IH; [exact Em|]. intros k' r' I. apply Cell. right. exact I. }
  pose proof (sort_by_Permutation lower_lebQ bs) as P.
  exists left, right. split; [exact Hl|]. split; [exact Hr|]. split; [|split].
  - assert (N' : NoDup (map (fun b => Qred (b_lower b)) (sort_by lower_lebQ bs))).
    { apply (Permutation_NoDup (Permutation_sym (Permutation_map _ P))). rewrite <- Ek.
      unfold cells. rewrite combine_per_key_keys. apply NoDup_distinct. }
    pose proof (sort_by_sorted lower_lebQ bs lower_lebQ_total lower_lebQ_trans) as S.
    clear P. revert N' S. generalize (sort_by lower_lebQ bs) as sl. intros sl N' S.
    induction S as [|a l S IH Fa]; constructor.
    + apply IH. inversion N'; assumption.
    + apply Forall_forall. intros b Ib. rewrite Forall_forall in Fa. specialize (Fa b Ib).
      unfold lower_lebQ in Fa. apply Qle_bool_iff in Fa.
      inversion N' as [|? ? Na _]; subst.
      destruct (Qlt_le_dec (b_lower a) (b_lower b)) as [?|L]; [assumption|]. exfalso. apply Na.
      apply in_map_iff. exists b. split; [|exact Ib]. apply Qred_complete. lra.
  - apply (Permutation_Forall (Permutation_sym P) F).
  - intros x Ix. destruct (Rng x Ix) as [Lx Rx].
    destruct (bucket_of left right n g x N G Lx Rx) as (j & Hj & Elo & Eup & C1 & C2 & C3).
    assert (In (Qred (fst (lower_upper g x))) (map fst cells)) as Ikey.
    { unfold cells. rewrite combine_per_key_keys. apply in_distinct. unfold col. rewrite map_map. cbn [fst].
      apply in_map_iff. exists x. auto. }
    rewrite Ek in Ikey. apply in_map_iff in Ikey. destruct Ikey as (b & Eb & Ib).
    exists b. split; [apply (Permutation_in _ (Permutation_sym P) Ib)|].
    apply Qred_eq_iff in Eb.
    rewrite Forall_forall in F. destruct (F b Ib) as [(i & Hi & El & Eu) _].
    set (w := (right - left) / inject_Z n) in *.
    assert (inject_Z (j + 1) * w == inject_Z j * w + w) by (rewrite inject_Z_plus; ring).
    assert (inject_Z (i + 1) * w == inject_Z i * w + w) by (rewrite inject_Z_plus; ring).
    assert (b_upper b == snd (lower_upper g x)) by lra.
    apply in_bucket_iff. split; [lra|]. destruct C3; [left | right]; lra.
Qed.

(** ** Totals *)

Lemma sum_histogram_totals n vs h : (1 <= n)%Z -> sum_histogram_of n vs h ->
  total_count h = Z.of_nat (length vs) /\ sumQ (map b_sum h) == sumQ vs.
Proof.
  intros N (left & right & Hl & Hr & S & F & Cov).
  assert (LR : left <= right).
  { destruct Hl as [(x & Ix & Ex) _], Hr as [_ Fr]. rewrite Forall_forall in Fr. specialize (Fr x Ix). cbn in Fr. lra. }
  assert (Sub : forall x, In x vs -> In x vs) by auto.
  clear Hl Hr. unfold total_count.
  (* generalise: [here] of each bin taken from the remaining data *)
  assert (G : forall (h : list (bin Q)) xs, StronglySorted (fun a b => b_lower a < b_lower b) h ->
    Forall (fun b => (exists i, (0 <= i < n)%Z /\
       b_lower b == left + inject_Z i * ((right - left) / inject_Z n) /\
       b_upper b == left + inject_Z (i + 1) * ((right - left) / inject_Z n)) /\
       b_count b = Z.of_nat (length (filter (in_bucket right (b_lower b) (b_upper b)) xs)) /\
       b_sum b == sumQ (filter (in_bucket right (b_lower b) (b_upper b)) xs)) h ->
    (forall x, In x xs -> exists b, In b h /\ in_bucket right (b_lower b) (b_upper b) x = true) ->
    sumZ (map b_count h) = Z.of_nat (length xs) /\ sumQ (map b_sum h) == sumQ xs).
  { clear S F Cov h Sub vs. induction h as [|b h IH]; intros xs S F Cov.
    - destruct xs as [|x xs]; [split; reflexivity|]. destruct (Cov x (or_introl eq_refl)) as (b & [] & _).
    - inversion S as [|? ? S' Fb]; subst. inversion F as [|? ? ((i & Hi & El & Eu) & C & Sm) F']; subst.
      set (p := in_bucket right (b_lower b) (b_upper b)) in *.
      pose proof (filter_split_Permutation p xs) as Pm.
      destruct (IH (filter (fun x => negb (p x)) xs) S') as [I1 I2].
      + rewrite Forall_forall in F', Fb |- *. intros b' Ib'. destruct (F' b' Ib') as ((j & Hj & El' & Eu') & C' & Sm').
        split; [exists j; auto|].
        replace (filter (in_bucket right (b_lower b') (b_upper b')) (filter (fun x => negb (p x)) xs))
          with (filter (in_bucket right (b_lower b') (b_upper b')) xs); [auto|].
        rewrite filter_filter. apply filter_ext_In. intros x _.
        destruct (in_bucket right (b_lower b') (b_upper b') x) eqn:E; [|rewrite ?andb_false_r; reflexivity].
        rewrite ?andb_true_r. symmetry. apply negb_true_iff. destruct (p x) eqn:E'; [|reflexivity].
        destruct (bucket_unique left right n i j x _ _ _ _ N LR Hi Hj El Eu El' Eu' E' E) as [E1 _].
        specialize (Fb b' Ib'). cbn in Fb. lra.
      + intros x Ix. apply filter_In in Ix. destruct Ix as [Ix Np].
        destruct (Cov x Ix) as (b' & [<- | Ib'] & B); [|eauto]. fold p in B. rewrite B in Np. discriminate.
      + cbn [map]. rewrite sumZ_cons, I1, C. split.
        * rewrite (Permutation_length Pm), app_length. lia.
        * rewrite (sumQ_Permutation _ _ Pm), sumQ_app, <- I2, <- Sm. reflexivity. }
  apply G; [exact S | | exact Cov].
  eapply Forall_impl; [|exact F]. intros b (B & C & Sm & _). auto.
Qed.

(** ** Uniqueness up to equality of rationals *)

Lemma same_data_filter p q xs ys : (forall x y, x == y -> p x = q y) ->
  same_data xs ys -> same_data (filter p xs) (filter q ys).
Proof.
  intros C (zs & P & F). exists (filter p zs). split; [apply filter_Permutation; exact P|].
  clear P. induction F as [|x y zs ys E F IH]; [constructor|]. cbn [filter]. rewrite (C x y E).
  destruct (q y); [constructor; assumption | exact IH].
Qed.

Lemma same_data_length xs ys : same_data xs ys -> length xs = length ys.
Proof.
  intros (zs & P & F). rewrite (Permutation_length P). exact (Forall2_len _ _ _ F).
Qed.

Lemma same_data_sum xs ys : same_data xs ys -> sumQ xs == sumQ ys.
Proof.
  intros (zs & P & F). rewrite (sumQ_Permutation _ _ P). apply sumQ_Forall2. exact F.
Qed.

Lemma same_data_In xs ys x : same_data xs ys -> In x xs -> exists y, In y ys /\ x == y.
Proof.
  intros (zs & P & F) I. apply (Permutation_in _ P) in I. clear P.
  induction F as [|a b zs ys E F IH]; [destruct I|]. destruct I as [-> | I].
  - exists b. split; [left; reflexivity | exact E].
  - destruct (IH I) as (y & Iy & Ey). exists y. split; [right; exact Iy | exact Ey].
Qed.

Lemma same_data_sym xs ys : same_data xs ys -> same_data ys xs.
Proof.
  intros (zs & P & F).
  assert (F' : Forall2 Qeq ys zs) by (apply Forall2_Qeq_sym; exact F).
  destruct (Permutation_Forall2 (Permutation_sym P) F) as (ws & P' & F2).
  exists ws. split; [exact P' |]. apply Forall2_Qeq_sym. exact F2.
Qed.

Lemma maximumQ_same m m' xs ys : same_data xs ys -> maximumQ m xs -> maximumQ m' ys -> m == m'.
Proof.
  intros D [(x & Ix & Ex) F] [(y & Iy & Ey) F']. rewrite Forall_forall in F, F'.
  destruct (same_data_In _ _ x D Ix) as (y' & Iy' & E').
  destruct (same_data_In _ _ y (same_data_sym _ _ D) Iy) as (x' & Ix' & E2).
  specialize (F x' Ix'). specialize (F' y' Iy'). cbn in F, F'. lra.
Qed.
Lemma minimumQ_same m m' xs ys : same_data xs ys -> minimumQ m xs -> minimumQ m' ys -> m == m'.
Proof.
  intros D [(x & Ix & Ex) F] [(y & Iy & Ey) F']. rewrite Forall_forall in F, F'.
  destruct (same_data_In _ _ x D Ix) as (y' & Iy' & E').
  destruct (same_data_In _ _ y (same_data_sym _ _ D) Iy) as (x' & Ix' & E2).
  specialize (F x' Ix'). specialize (F' y' Iy'). cbn in F, F'. lra.
Qed.

Lemma in_bucket_compat r r' lo lo' up up' x x' :
  r == r' -> lo == lo' -> up == up' -> x == x' -> in_bucket r lo up x = in_bucket r' lo' up' x'.
Proof.
  intros E1 E2 E3 E4. apply eq_true_iff_eq. rewrite !in_bucket_iff.
  split; intros [A [B | B]]; (split; [lra|]); first [left; lra | right; lra].
Qed.

Lemma same_bin_exists n xs ys h h' b : (1 <= n)%Z ->
  same_data xs ys -> sum_histogram_of n xs h -> sum_histogram_of n ys h' ->
  In b h -> exists b', In b' h' /\ same_bin b b'.
Proof.
  intros N D (left & right & Hl & Hr & S & F & Cov) (left' & right' & Hl' & Hr' & S' & F' & Cov') Ib.
  pose proof (minimumQ_same _ _ _ _ D Hl Hl') as El. pose proof (maximumQ_same _ _ _ _ D Hr Hr') as Er.
  assert (LR : left' <= right').
  { destruct Hl' as [(x & Ix & Ex) _], Hr' as [_ Fr]. rewrite Forall_forall in Fr. specialize (Fr x Ix). cbn in Fr. lra. }
  rewrite Forall_forall in F. destruct (F b Ib) as ((i & Hi & Eb & Eu) & C & Sm & Mx & Mn).
  destruct Mx as [(x & Ix & Ex) Fx]. apply filter_In in Ix. destruct Ix as [Ix Bx].
  destruct (same_data_In _ _ x D Ix) as (y & Iy & Exy).
  destruct (Cov' y Iy) as (b' & Ib' & By). exists b'. split; [exact Ib'|].
  rewrite Forall_forall in F'. destruct (F' b' Ib') as ((j & Hj & Eb' & Eu') & C' & Sm' & Mx' & Mn').
  assert (W : (right - left) / inject_Z n == (right' - left') / inject_Z n) by (rewrite El, Er; reflexivity).
  assert (Bx' : in_bucket right' (b_lower b) (b_upper b) y = true).
  { rewrite <- Bx. apply in_bucket_compat; lra. }
  destruct (bucket_unique left' right' n i j y (b_lower b) (b_upper b) (b_lower b') (b_upper b') N LR Hi Hj) as [E1 E2];
    auto; try (rewrite <- W, <- El; assumption).
  assert (Dh : same_data (filter (in_bucket right (b_lower b) (b_upper b)) xs)
                         (filter (in_bucket right' (b_lower b') (b_upper b')) ys)).
  { apply same_data_filter; [|exact D]. intros u v Euv. apply in_bucket_compat; assumption. }
  split; [exact E1|]. split; [exact E2|].
  split; [rewrite C, C', (same_data_length _ _ Dh); reflexivity|].
  split; [rewrite Sm, Sm'; apply same_data_sum; exact Dh|].
  split; [|exact (minimumQ_same _ _ _ _ Dh Mn Mn')].
  refine (maximumQ_same _ _ _ _ Dh _ Mx'). split; [|exact Fx].
  exists x. split; [apply filter_In; auto | exact Ex].
Qed.

Lemma sorted_same_bins (h : list (bin Q)) : forall h',
  StronglySorted (fun a b => b_lower a < b_lower b) h ->
  StronglySorted (fun a b => b_lower a < b_lower b) h' ->
  (forall b, In b h -> exists b', In b' h' /\ same_bin b b') ->
  (forall b', In b' h' -> exists b, In b h /\ same_bin b b') ->
  Forall2 same_bin h h'.
Proof.
  induction h as [|a h IH]; intros h' S S' A B.
  - destruct h' as [|b h']; [constructor|]. destruct (B b (or_introl eq_refl)) as (? & [] & _).
  - destruct h' as [|b h']; [destruct (A a (or_introl eq_refl)) as (? & [] & _)|].
    inversion S as [|? ? S1 F1]; subst. inversion S' as [|? ? S2 F2]; subst.
    rewrite Forall_forall in F1, F2.
    assert (Eab : same_bin a b).
    { destruct (A a (or_introl eq_refl)) as (b' & [<- | Ib'] & E); [exact E|].
      destruct (B b (or_introl eq_refl)) as (a' & [<- | Ia'] & E'); [exact E'|]. exfalso.
      specialize (F1 a' Ia'). specialize (F2 b' Ib'). cbn in F1, F2.
      destruct E as [E _], E' as [E' _]. lra. }
    constructor; [exact Eab|]. apply IH; auto.
    + intros c Ic. destruct (A c (or_intror Ic)) as (b' & [<- | Ib'] & E); [|eauto]. exfalso.
      specialize (F1 c Ic). cbn in F1. destruct E as [E _], Eab as [Eab _]. lra.
    + intros c Ic. destruct (B c (or_intror Ic)) as (a' & [<- | Ia'] & E); [|eauto]. exfalso.
      specialize (F2 c Ic). cbn in F2. destruct E as [E _], Eab as [Eab _]. lra.
Qed.

Lemma same_bin_sym a b : same_bin a b -> same_bin b a.
Proof. intros (A & B & C & D & E & F). repeat split; symmetry; assumption. Qed.

Lemma sum_histogram_same n xs ys : (1 <= n)%Z -> same_data xs ys ->
  same_sum_histogram (sum_histogram n xs) (sum_histogram n ys).
Proof.
  intros N D. destruct xs as [|x xs].
  - destruct ys as [|y ys]; [exact I|]. apply same_data_length in D. discriminate.
  - destruct ys as [|y ys]; [apply same_data_length in D; discriminate|].
    destruct (sum_histogram_spec n (x :: xs) N) as (h & E & H); [discriminate|].
    destruct (sum_histogram_spec n (y :: ys) N) as (h' & E' & H'); [discriminate|].
    rewrite E, E'. cbn. apply sorted_same_bins.
    + destruct H as (l & r & _ & _ & S & _). exact S.
    + destruct H' as (l & r & _ & _ & S & _). exact S.
    + intros b Ib. exact (same_bin_exists n _ _ _ _ b N D H H' Ib).
    + intros b Ib. destruct (same_bin_exists n _ _ _ _ b N (same_data_sym _ _ D) H' H Ib) as (b' & Ib' & E2).
      exists b'. split; [exact Ib' | apply same_bin_sym; exact E2].
Qed.

(** ** Raw against pre-aggregated *)

Lemma sum_values_sum vs : sum_values vs == sumQ vs.
Proof. destruct vs as [|v [|w vs]]; cbn; try reflexivity. unfold sumQ. cbn. ring. Qed.

Lemma linf_sum_equal {P K} `{EqDec P} `{EqDec K} n (rows : list ((P * K) * Q)) : (1 <= n)%Z ->
  same_sum_histogram (linf_sum_histogram n rows) (pre_linf_sum n (preaggregate (fun _ => true) rows)).
Proof.
  intros N. unfold linf_sum_histogram, pre_linf_sum. apply sum_histogram_same; [exact N|].
  rewrite preaggregate_normal. unfold map_values. rewrite group_by_key_normal, !map_map. cbn [fst snd].
  exists (map (fun pr => sumQ (values_of pr rows)) (pairs (map fst rows))). split.
  - apply Permutation_map, Permutation_sym, pairs_Permutation.
  - apply Forall2_map_l, Forall2_map_r, Forall2_same. intros pr _. unfold pre_of. cbn [p_sum].
    symmetry. apply sum_values_sum.
Qed.

Lemma partition_sum_equal {P K} `{EqDec P} `{EqDec K} n (rows : list ((P * K) * Q)) : (1 <= n)%Z ->
  same_sum_histogram (partition_sum_histogram n rows) (pre_partition_sum n (preaggregate (fun _ => true) rows)).
Proof.
  intros N. unfold partition_sum_histogram, pre_partition_sum. apply sum_histogram_same; [exact N|].
  rewrite preaggregate_normal. unfold map_values. rewrite !group_by_key_normal, !map_map. cbn [fst snd].
  set (ps := pairs (map fst rows)).
  exists (map (fun k => sumQ (values_of k (map (fun r => (snd (fst r), snd r)) rows))) (distinct (map snd ps))). split.
  - apply Permutation_map. apply NoDup_Permutation; [apply NoDup_distinct .. |].
    intros k. rewrite !in_distinct. unfold ps. rewrite !in_map_iff. split.
    + intros (r & <- & Ir). exists (fst r). split; [reflexivity|]. apply in_pairs. apply in_map. exact Ir.
    + intros (pr & <- & Ip). apply (proj1 (in_pairs _ _)) in Ip. apply in_map_iff in Ip.
      destruct Ip as (r & <- & Ir). exists r. auto.
  - apply Forall2_map_l, Forall2_map_r, Forall2_same. intros k _.
    rewrite <- (sumQ_Permutation _ _ (values_of_pairs_sum rows k)). fold ps.
    unfold values_of at 2. rewrite filter_map, !map_map. cbn [fst snd].
    generalize (filter (fun pr : P * K => eqb (snd pr) k) ps) as l.
    induction l as [|pr l IH]; [reflexivity|]. cbn [flat_map map].
    rewrite sumQ_app, IH. unfold pre_of at 2. cbn [p_sum sumQ fold_right].
    change (fold_right Qplus 0) with sumQ. rewrite sum_values_sum. reflexivity.
Qed.
