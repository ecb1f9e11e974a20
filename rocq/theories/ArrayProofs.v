(** Proofs about accumulators created in memory. *)
From Coq Require Import List ZArith QArith Bool Permutation Lia.
From Verif Require Import Base BackendModel ListLemmas BackendSpec BackendProofs BounderModel BounderSpec BounderProofs
  ParamsModel CombinerModel EngineModel EngineSpec EngineProofs ArrayModel ArraySpec.
Import ListNotations.
Local Open Scope nat_scope.

(** ** Memory *)
Lemma nth_write_same m a l : a < length m -> nth a (write m a l) [] = l.
Proof. revert a. induction m as [|x m IH]; intros [|a] L; cbn in *; try lia; auto. apply IH. lia. Qed.

Lemma nth_write_other m a b l : a <> b -> nth a (write m b l) [] = nth a m [].
Proof.
  revert a b. induction m as [|x m IH]; intros a b N; [destruct b; reflexivity|].
  destruct b, a; cbn; try congruence; auto.
Qed.

Lemma write_length m a l : length (write m a l) = length m.
Proof. revert a. induction m as [|x m IH]; intros [|a]; cbn; auto. Qed.

(** Only the arrays [W] may differ. *)
Definition frame (W : list nat) (m m' : memory) : Prop :=
  length m <= length m' /\ forall a, a < length m -> ~ In a W -> nth a m' [] = nth a m [].

Lemma frame_refl m : frame [] m m.
Proof. split; auto. Qed.

Lemma frame_weaken W W' m m' : frame W m m' -> incl W W' -> frame W' m m'.
Proof. intros [L F] I. split; [exact L|]. intros a La N. apply F; auto. Qed.

Lemma frame_trans W m1 m2 m3 : frame W m1 m2 -> frame W m2 m3 -> frame W m1 m3.
Proof. intros [L F] [L' F']. split; [lia|]. intros a La N. rewrite F' by (auto; lia). auto. Qed.

(** Writes outside of the first memory do not matter. *)
Lemma frame_fresh W b m1 m2 m3 : frame W m1 m2 -> length m1 <= b -> frame (b :: W) m2 m3 -> frame W m1 m3.
Proof.
  intros [L F] B [L' F']. split; [lia|]. intros a La N. rewrite F'; [auto | lia|].
  intros [E|E]; [lia | auto].
Qed.

Lemma frame_alloc m l : frame [] m (m ++ [l]).
Proof. split; [rewrite app_length; lia|]. intros a L _. apply app_nth1, L. Qed.

(** ** The loop *)
Definition addr (s : vsum) : list nat := match s with VArr b => [b] | _ => [] end.

Lemma to_array_spec (m : memory) v : (forall a, In a (arrays_of [v]) -> a < length m) ->
  let '(m', oa) := to_array m v in
  frame [] m m' /\
  match oa with
  | Some a => a < length m' /\ content m v = Vec (nth a m' []) /\ (In a (arrays_of [v]) \/ a = length m)
  | None => exists q, content m v = Num q
  end.
Proof.
  intros L. destruct v as [a|[q|l]]; cbn.
  - split; [apply frame_refl|]. split; [apply L; left; reflexivity|]. auto.
  - split; [apply frame_refl | eauto].
  - split; [apply frame_alloc|]. split; [rewrite app_length; cbn; lia|]. split; [|auto].
    rewrite app_nth2, Nat.sub_diag by lia. reflexivity.
Qed.

Lemma step_frame size (m : memory) s v : (forall a, In a (arrays_of [v]) -> a < length m) ->
  incl (addr s) (seq 0 (length m)) ->
  let '(m', s') := vector_step_in size (m, s) v in
  frame (addr s) m m' /\ incl (addr s') (seq 0 (length m')) /\
  (forall b, In b (addr s') -> In b (addr s) \/ s = VNone /\ (In b (arrays_of [v]) \/ b = length m)).
Proof.
  intros L B. unfold vector_step_in. cbn [fst snd]. pose proof (to_array_spec m v L) as T.
  destruct s as [|b|]; [| |cbn; split; [apply frame_refl | split; [intros ? [] | intros ? []]]].
  - destruct (to_array m v) as [m1 [a|]]; destruct T as [F T].
    + destruct (_ =? _)%Z; cbn; [|split; [exact F | split; intros ? []]].
      split; [exact F|]. destruct T as [La [_ T]]. split.
      * intros x [<-|[]]. apply in_seq. lia.
      * intros x [<-|[]]. right. tauto.
    + cbn. split; [exact F | split; intros ? []].
  - destruct (to_array m v) as [m1 [a|]]; destruct T as [F T].
    + assert (F' : frame [b] m m1) by (apply (frame_weaken [] [b]); [exact F | intros ? []]).
      destruct (_ =? _)%Z; cbn; [|split; [exact F' | split; intros ? []]].
      destruct (vadd _ _); cbn; [|split; [exact F' | split; intros ? []]].
      assert (Bm : b < length m) by (specialize (B b (or_introl eq_refl)); apply in_seq in B; lia).
      split; [|split].
      * apply (frame_trans _ _ m1); [exact F'|]. split; [rewrite write_length; lia|].
        intros x Lx N. apply nth_write_other. intros ->. apply N. left. reflexivity.
      * intros x [<-|[]]. apply in_seq. rewrite write_length. destruct F. lia.
      * auto.
    + cbn. split; [apply (frame_weaken []); [exact F | intros ? []] | split; intros ? []].
Qed.

Lemma loop_frame size vs : forall (m : memory) s, (forall a, In a (arrays_of vs) -> a < length m) ->
  incl (addr s) (seq 0 (length m)) -> s <> VNone ->
  let '(m', s') := fold_left (vector_step_in size) vs (m, s) in
  frame (addr s) m m' /\ incl (addr s') (addr s).
Proof.
  induction vs as [|v vs IH]; intros m s L B N.
  - cbn. split; [apply (frame_weaken []); [apply frame_refl | intros ? []] | apply incl_refl].
  - cbn [fold_left]. assert (Lv : forall a, In a (arrays_of [v]) -> a < length m).
    { intros a Ha. apply L. unfold arrays_of in *. cbn in *. apply in_app_iff. rewrite app_nil_r in Ha. auto. }
    pose proof (step_frame size m s v Lv B) as T.
    assert (N1 : snd (vector_step_in size (m, s) v) <> VNone).
    { unfold vector_step_in. cbn. destruct s; [congruence| |cbn; congruence].
      destruct (to_array m v) as [m1 [a'|]]; [|cbn; congruence].
      destruct (_ =? _)%Z; [|cbn; congruence]. destruct (vadd _ _); cbn; congruence. }
    destruct (vector_step_in size (m, s) v) as [m1 s1]. cbn in N1. destruct T as [F1 [B1 A1]].
    assert (I1 : incl (addr s1) (addr s)).
    { intros b Hb. destruct (A1 b Hb) as [I|[E _]]; [exact I | congruence]. }
    assert (L1 : forall a, In a (arrays_of vs) -> a < length m1).
    { intros a Ha. destruct F1 as [F1 _]. enough (a < length m) by lia. apply L. unfold arrays_of in *. cbn.
      apply in_app_iff. auto. }
    specialize (IH m1 s1 L1 B1 N1). destruct (fold_left (vector_step_in size) vs (m1, s1)) as [m2 s2]. destruct IH as [F2 I2].
    split; [|intros x Hx; auto].
    apply (frame_trans _ _ m1); [exact F1|]. apply (frame_weaken (addr s1)); assumption.
Qed.

(** The arrays written by the creation of an accumulator. *)
Definition firsts (vs : list aval) : list nat :=
  match vs with Arr a :: _ :: _ => [a] | _ => [] end.

Lemma firsts_arrays vs : incl (firsts vs) (arrays_of vs).
Proof.
  unfold firsts. destruct vs as [|[a|l] [|w vs]]; intros x Hx; try (destruct Hx; fail).
  destruct Hx as [<-|[]]. left. reflexivity.
Qed.

Lemma create_vector_frame size (m : memory) vs : (forall a, In a (arrays_of vs) -> a < length m) ->
  let '(m', s) := create_vector size m vs in
  frame (firsts vs) m m' /\
  forall b, In b (addr s) -> In b (arrays_of vs) \/ length m <= b < length m'.
Proof.
  intros L. unfold create_vector. destruct vs as [|v vs]; [cbn; split; [apply frame_refl | intros ? []]|].
  cbn [fold_left]. assert (Lv : forall a, In a (arrays_of [v]) -> a < length m).
  { intros a Ha. apply L. unfold arrays_of in *. cbn in *. apply in_app_iff. rewrite app_nil_r in Ha. auto. }
  pose proof (step_frame size m VNone v Lv ltac:(intros ? [])) as T. cbn [addr] in T.
  assert (N1 : snd (vector_step_in size (m, VNone) v) <> VNone).
  { unfold vector_step_in. cbn. destruct (to_array m v) as [m1 [a'|]]; [|cbn; congruence].
    destruct (_ =? _)%Z; cbn; congruence. }
  destruct (vector_step_in size (m, VNone) v) as [m1 s1]. cbn in N1. destruct T as [F1 [B1 A1]].
  destruct vs as [|w vs].
  { cbn [fold_left]. split; [destruct v; exact F1|]. intros b Hb.
    destruct (A1 b Hb) as [[]|[_ [I| ->]]]; [auto|]. specialize (B1 _ Hb). apply in_seq in B1. right. lia. }
  assert (L1 : forall a, In a (arrays_of (w :: vs)) -> a < length m1).
  { intros a Ha. destruct F1 as [F1 _]. enough (a < length m) by lia. apply L. unfold arrays_of in *. cbn in *.
    apply in_app_iff. auto. }
  pose proof (loop_frame size (w :: vs) m1 s1 L1 B1 N1) as T.
  destruct (fold_left (vector_step_in size) (w :: vs) (m1, s1)) as [m2 s2]. destruct T as [F2 I2].
  assert (S1 : forall b, In b (addr s1) -> In b (firsts (v :: w :: vs)) \/ b = length m).
  { intros b Hb. destruct (A1 b Hb) as [[]|[_ [I| ->]]]; [|auto]. destruct v as [a|l]; [|destruct I].
    cbn in *. tauto. }
  split.
  - split; [destruct F1, F2; lia|]. intros a La N. destruct F2 as [Ln F2], F1 as [Ln1 F1].
    rewrite F2; [apply F1; auto | lia|]. intros Hb. destruct (S1 a Hb) as [I| ->]; [auto | lia].
  - intros b Hb. destruct (S1 b (I2 b Hb)) as [I| ->]; [left; apply firsts_arrays, I|].
    right. specialize (B1 _ (I2 _ Hb)). apply in_seq in B1. destruct F2 as [Ln _]. lia.
Qed.

(** ** What the accumulator is *)
Lemma step_value size (m0 m : memory) s v : length m0 <= length m ->
  (forall a, In a (arrays_of [v]) -> a < length m0 /\ nth a m [] = nth a m0 []) ->
  incl (addr s) (seq 0 (length m)) ->
  let '(m', s') := vector_step_in size (m, s) v in
  read_slot m' (Vector s') = vector_step size (read_slot m (Vector s)) (content m0 v).
Proof.
  intros Ln C B. unfold vector_step_in. cbn [fst snd].
  assert (L : forall a, In a (arrays_of [v]) -> a < length m) by (intros a Ha; destruct (C a Ha); lia).
  pose proof (to_array_spec m v L) as T.
  assert (E : content m v = content m0 v).
  { destruct v as [a|l]; [|reflexivity]. cbn. f_equal. apply C. left. reflexivity. }
  destruct s as [|b|]; [| |reflexivity].
  - destruct (to_array m v) as [m1 [a|]]; destruct T as [F T].
    + destruct T as [La [T _]]. rewrite <- E, T. cbn [read_slot vector_step].
      destruct (_ =? _)%Z; reflexivity.
    + destruct T as [q T]. rewrite <- E, T. reflexivity.
  - destruct (to_array m v) as [m1 [a|]]; destruct T as [F T].
    + destruct T as [La [T _]]. rewrite <- E, T. cbn [read_slot vector_step].
      destruct (_ =? _)%Z; [|reflexivity].
      assert (Bm : b < length m) by (specialize (B b (or_introl eq_refl)); apply in_seq in B; lia).
      destruct F as [Lf F]. cbn [avec_add]. rewrite (F b Bm) by (intros []).
      destruct (vadd _ _) as [z|]; [|reflexivity]. cbn [read_slot]. rewrite nth_write_same by lia. reflexivity.
    + destruct T as [q T]. rewrite <- E, T. reflexivity.
Qed.

Lemma loop_value size (m0 : memory) vs : forall (m : memory) s, length m0 <= length m ->
  (forall a, In a (arrays_of vs) -> a < length m0 /\ nth a m [] = nth a m0 []) ->
  incl (addr s) (seq 0 (length m)) -> s <> VNone ->
  (forall b, In b (addr s) -> ~ In b (arrays_of vs)) ->
  let '(m', s') := fold_left (vector_step_in size) vs (m, s) in
  read_slot m' (Vector s') = fold_left (vector_step size) (map (content m0) vs) (read_slot m (Vector s)).
Proof.
  induction vs as [|v vs IH]; intros m s Ln C B N D; [reflexivity|].
  cbn [fold_left map].
  assert (Cv : forall a, In a (arrays_of [v]) -> a < length m0 /\ nth a m [] = nth a m0 []).
  { intros a Ha. apply C. unfold arrays_of in *. cbn in *. apply in_app_iff. rewrite app_nil_r in Ha. auto. }
  assert (Cr : forall a, In a (arrays_of vs) -> In a (arrays_of (v :: vs))).
  { intros a Ha. unfold arrays_of in *. cbn. apply in_app_iff. auto. }
  assert (Lv : forall a, In a (arrays_of [v]) -> a < length m) by (intros a Ha; destruct (Cv a Ha); lia).
  pose proof (step_value size m0 m s v Ln Cv B) as V.
  pose proof (step_frame size m s v Lv B) as T.
  assert (N1 : snd (vector_step_in size (m, s) v) <> VNone).
  { unfold vector_step_in. cbn. destruct s; [congruence| |cbn; congruence].
    destruct (to_array m v) as [m1 [a'|]]; [|cbn; congruence].
    destruct (_ =? _)%Z; [|cbn; congruence]. destruct (vadd _ _); cbn; congruence. }
  destruct (vector_step_in size (m, s) v) as [m1 s1]. cbn in N1. destruct T as [F1 [B1 A1]].
  assert (I1 : incl (addr s1) (addr s)).
  { intros b Hb. destruct (A1 b Hb) as [I|[E _]]; [exact I | congruence]. }
  rewrite <- V. apply IH.
  - destruct F1. lia.
  - intros a Ha. destruct (C a (Cr a Ha)) as [La Ea]. split; [exact La|]. destruct F1 as [_ F1].
    rewrite F1; [exact Ea | lia|]. intros Hs. apply (D a Hs). auto.
  - exact B1.
  - exact N1.
  - intros b Hb Ha. apply (D b (I1 b Hb)). auto.
Qed.

(** The first array of the group is not met again. *)
Definition own_first (vs : list aval) : Prop := forall a, In a (firsts vs) -> ~ In a (arrays_of (tl vs)).

Lemma create_vector_value size (m : memory) vs : (forall a, In a (arrays_of vs) -> a < length m) -> own_first vs ->
  let '(m', s) := create_vector size m vs in
  read_slot m' (Vector s) = create (CVector size) (map (content m) vs).
Proof.
  intros L O. unfold create_vector. destruct vs as [|v vs]; [reflexivity|].
  cbn [fold_left map create].
  assert (Cv : forall a, In a (arrays_of [v]) -> a < length m /\ nth a m [] = nth a m []).
  { intros a Ha. split; [|reflexivity]. apply L. unfold arrays_of in *. cbn in *. apply in_app_iff.
    rewrite app_nil_r in Ha. auto. }
  pose proof (step_value size m m VNone v (le_n _) Cv ltac:(intros ? [])) as V.
  pose proof (step_frame size m VNone v (fun a H => proj1 (Cv a H)) ltac:(intros ? [])) as T.
  assert (N1 : snd (vector_step_in size (m, VNone) v) <> VNone).
  { unfold vector_step_in. cbn. destruct (to_array m v) as [m1 [a'|]]; [|cbn; congruence].
    destruct (_ =? _)%Z; cbn; congruence. }
  destruct (vector_step_in size (m, VNone) v) as [m1 s1]. cbn in N1. destruct T as [F1 [B1 A1]].
  change ANone with (read_slot m (Vector VNone)). rewrite <- V.
  assert (Lr : forall a, In a (arrays_of vs) -> a < length m).
  { intros a Ha. apply L. unfold arrays_of in *. cbn. apply in_app_iff. auto. }
  destruct vs as [|w vs]; [reflexivity|].
  apply loop_value.
  - destruct F1. lia.
  - intros a Ha. split; [auto|]. destruct F1 as [_ F1]. apply F1; [auto | intros []].
  - exact B1.
  - exact N1.
  - intros b Hb Ha. destruct (A1 b Hb) as [[]|[_ [I| ->]]]; [|specialize (Lr _ Ha); lia].
    destruct v as [a|l]; [|destruct I]. cbn in I. destruct I as [<-|[]].
    apply (O a); [left; reflexivity | exact Ha].
Qed.

(** ** The compound accumulator *)
Definition is_vector (c : combiner) : bool := match c with CVector _ => true | _ => false end.

Lemma num_of_content m m' v : num_of (content m v) = num_of (content m' v).
Proof. destruct v; reflexivity. Qed.

Lemma create_scalar m m' c vs : is_vector c = false ->
  create c (map (content m) vs) = create c (map (content m') vs).
Proof.
  intros I. destruct c; cbn in *; try discriminate; rewrite ?map_length, ?map_map.
  - reflexivity.
  - destruct vs; reflexivity.
  - destruct vs; reflexivity.
  - destruct per_partition; (f_equal; rewrite ?map_map; do 2 f_equal; apply map_ext; intros v; rewrite (num_of_content m m'); reflexivity)
      || (f_equal; f_equal; rewrite ?map_map; apply map_ext; intros v; rewrite (num_of_content m m'); reflexivity).
  - do 2 f_equal. apply map_ext. intros v. rewrite (num_of_content m m'). reflexivity.
  - f_equal; f_equal; apply map_ext; intros v; rewrite (num_of_content m m'); reflexivity.
  - f_equal. apply map_ext. intros v. apply num_of_content.
Qed.

Definition slot_addr (s : slot) : list nat := match s with Vector s => addr s | Plain _ => [] end.

Lemma read_slot_frame W m m' s : frame W m m' ->
  (forall b, In b (slot_addr s) -> b < length m /\ ~ In b W) -> read_slot m' s = read_slot m s.
Proof.
  intros [_ F] S. destruct s as [a|[|b|]]; try reflexivity. cbn in *. f_equal.
  destruct (S b (or_introl eq_refl)). apply F; assumption.
Qed.

Lemma compound_frame cs vs : forall (m : memory), (forall a, In a (arrays_of vs) -> a < length m) ->
  let '(m', ss) := compound_create_in m cs vs in
  frame (firsts vs) m m' /\
  forall s b, In s ss -> In b (slot_addr s) -> (In b (arrays_of vs) \/ length m <= b) /\ b < length m'.
Proof.
  induction cs as [|c cs IH]; intros m L; cbn [compound_create_in].
  - split; [apply (frame_weaken []); [apply frame_refl | intros ? []] | intros ? ? []].
  - assert (H1 : let '(m1, s) := create_in m c vs in frame (firsts vs) m m1 /\
      forall b, In b (slot_addr s) -> In b (arrays_of vs) \/ length m <= b < length m1).
    { destruct c; cbn [create_in]; try (split; [apply (frame_weaken []); [apply frame_refl | intros ? []] | intros ? []]).
      pose proof (create_vector_frame size m vs L) as T. destruct (create_vector size m vs). exact T. }
    destruct (create_in m c vs) as [m1 s1]. destruct H1 as [F1 A1].
    assert (L1 : forall a, In a (arrays_of vs) -> a < length m1).
    { intros a Ha. destruct F1. specialize (L a Ha). lia. }
    specialize (IH m1 L1). destruct (compound_create_in m1 cs vs) as [m2 ss]. destruct IH as [F2 A2].
    split; [exact (frame_trans _ _ _ _ F1 F2)|].
    intros s b [<-|Hs] Hb.
    + destruct (A1 b Hb) as [I|I].
      * split; [auto|]. specialize (L1 b I). destruct F2. lia.
      * split; [right; lia|]. destruct F2. lia.
    + destruct (A2 s b Hs Hb) as [[I|I] Lb]; split; auto. right. destruct F1. lia.
Qed.

Lemma compound_scalar cs vs : forall m m0 : memory, forallb (fun c => negb (is_vector c)) cs = true ->
  let '(m', ss) := compound_create_in m cs vs in
  m' = m /\ (forall m1, map (read_slot m1) ss = map (fun c => create c (map (content m0) vs)) cs).
Proof.
  induction cs as [|c cs IH]; intros m m0 E; cbn [compound_create_in]; [auto|].
  cbn in E. apply andb_true_iff in E. destruct E as [E1 E2]. apply negb_true_iff in E1.
  specialize (IH m m0 E2).
  destruct c; cbn in E1; try discriminate; cbn [create_in];
    destruct (compound_create_in m cs vs) as [m2 ss]; destruct IH as [-> R];
    (split; [reflexivity|]; intros m1; cbn [map]; rewrite R; f_equal; apply create_scalar; reflexivity).
Qed.

Lemma compound_value cs vs : forall (m : memory), (forall a, In a (arrays_of vs) -> a < length m) -> own_first vs ->
  length (filter is_vector cs) <= 1 ->
  let '(m', ss) := compound_create_in m cs vs in
  map (read_slot m') ss = map (fun c => create c (map (content m) vs)) cs.
Proof.
  induction cs as [|c cs IH]; intros m L O N; cbn [compound_create_in]; [reflexivity|].
  cbn [filter] in N. destruct (is_vector c) eqn:I.
  - destruct c; try discriminate. cbn [create_in]. pose proof (create_vector_value size m vs L O) as V.
    destruct (create_vector size m vs) as [m1 s].
    assert (S0 : forallb (fun c => negb (is_vector c)) cs = true).
    { apply forallb_forall. intros c Hc. destruct (is_vector c) eqn:E; [|reflexivity].
      assert (H : In c (filter is_vector cs)) by (apply filter_In; auto).
      destruct (filter is_vector cs); [destruct H | cbn in N; lia]. }
    pose proof (compound_scalar cs vs m1 m S0) as T. destruct (compound_create_in m1 cs vs) as [m2 ss].
    destruct T as [-> T]. cbn [map]. rewrite T, V. reflexivity.
  - specialize (IH m L O N).
    destruct c; try discriminate; cbn [create_in];
      destruct (compound_create_in m cs vs) as [m2 ss]; cbn [map]; rewrite IH; reflexivity.
Qed.

(** ** All groups *)
Fixpoint separate (groups : list (list aval)) : Prop :=
  match groups with
  | [] => True
  | vs :: rest =>
      own_first vs /\
      (forall ws a, In ws rest -> In a (firsts vs) -> ~ In a (arrays_of ws)) /\
      (forall ws a, In ws rest -> In a (firsts ws) -> ~ In a (arrays_of vs)) /\
      separate rest
  end.

Definition all_firsts {K} (groups : list (K * list aval)) : list nat := flat_map (fun g => firsts (snd g)) groups.

Lemma groups_frame {K} cs (groups : list (K * list aval)) : forall m : memory,
  (forall g a, In g groups -> In a (arrays_of (snd g)) -> a < length m) ->
  frame (all_firsts groups) m (fst (create_groups m cs groups)).
Proof.
  induction groups as [|[k vs] gs IH]; intros m L; cbn [create_groups all_firsts flat_map].
  - apply frame_refl.
  - pose proof (compound_frame cs vs m (fun a => L (k, vs) a (or_introl eq_refl))) as T.
    destruct (compound_create_in m cs vs) as [m1 ss]. destruct T as [F1 _].
    assert (L1 : forall g a, In g gs -> In a (arrays_of (snd g)) -> a < length m1).
    { intros g a Hg Ha. specialize (L g a (or_intror Hg) Ha). destruct F1. lia. }
    specialize (IH m1 L1). destruct (create_groups m1 cs gs) as [m2 out]. cbn [fst] in *.
    apply (frame_trans _ _ m1).
    + apply (frame_weaken (firsts vs)); [exact F1|]. intros x Hx. apply in_app_iff. auto.
    + apply (frame_weaken (all_firsts gs)); [exact IH|]. intros x Hx. apply in_app_iff. auto.
Qed.

Lemma groups_value {K} cs (groups : list (K * list aval)) : length (filter is_vector cs) <= 1 -> forall m : memory,
  (forall g a, In g groups -> In a (arrays_of (snd g)) -> a < length m) -> separate (map snd groups) ->
  let '(m', out) := create_groups m cs groups in
  read_all m' out = map_values (fun vs => compound_create cs (map (content m) vs)) groups.
Proof.
  intros N. induction groups as [|[k vs] gs IH]; intros m L S; cbn [create_groups]; [reflexivity|].
  cbn [map snd separate] in S. destruct S as [O [D1 [D2 S]]].
  pose proof (compound_frame cs vs m (fun a => L (k, vs) a (or_introl eq_refl))) as T.
  pose proof (compound_value cs vs m (fun a => L (k, vs) a (or_introl eq_refl)) O N) as V.
  destruct (compound_create_in m cs vs) as [m1 ss]. destruct T as [F1 A1].
  assert (L1 : forall g a, In g gs -> In a (arrays_of (snd g)) -> a < length m1).
  { intros g a Hg Ha. specialize (L g a (or_intror Hg) Ha). destruct F1. lia. }
  specialize (IH m1 L1 S). pose proof (groups_frame cs gs m1 L1) as F2.
  destruct (create_groups m1 cs gs) as [m2 out]. cbn [fst] in F2.
  unfold read_all, map_values in *. cbn [map fst snd]. f_equal.
  - unfold compound_create. rewrite <- V. do 2 f_equal. apply map_ext_in. intros s Hs.
    apply (read_slot_frame (all_firsts gs) m1 m2); [exact F2|].
    intros b Hb. destruct (A1 s b Hs Hb) as [I Lb]. split; [exact Lb|]. intros Hf.
    unfold all_firsts in Hf. apply in_flat_map in Hf. destruct Hf as [g [Hg Hf]].
    destruct I as [I|I].
    + apply (D2 (snd g) b); [apply in_map, Hg | exact Hf | exact I].
    + specialize (L g b (or_intror Hg) (firsts_arrays _ _ Hf)). lia.
  - rewrite IH. apply map_ext_in. intros [k' ws] Hg. cbn [fst snd]. do 2 f_equal.
    apply map_ext_in. intros v Hv. destruct v as [a|l]; [|reflexivity]. cbn. f_equal.
    assert (Ha : In a (arrays_of ws)).
    { unfold arrays_of. apply in_flat_map. exists (Arr a). split; [exact Hv | left; reflexivity]. }
    destruct F1 as [_ F1]. apply F1.
    + apply (L (k', ws) a (or_intror Hg) Ha).
    + intros Hf. apply (D1 ws a); [apply (in_map snd _ _ Hg) | exact Hf | exact Ha].
Qed.
