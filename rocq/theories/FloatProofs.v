(** Lemmas for C80. *)
From Coq Require Import List ZArith QArith Qabs Qminmax Bool Lia Lqa.
From Verif Require Import Base BaseLemmas ListLemmas BackendModel BackendProofs BounderModel BounderProofs ParamsModel SensModel CombinerModel EngineModel
  EngineProofs ArrayProofs2 FloatModel FloatSpec.
Import ListNotations.

(** ** Accumulators of finite values *)
Definition embed (a : acc) : xacc :=
  match a with
  | AInt z => XInt z
  | AFloat q => XFloat (Fin q)
  | AMean n s => XMean n (Fin s)
  | AVar n s ss => XVar n (Fin s) (Fin ss)
  | _ => XErr
  end.
Definition embed_c (a : cacc) : x_cacc := (fst a, map embed (snd a)).

Lemma embed_merge c a b : of_numbers c = true -> embed (merge c a b) = x_merge c (embed a) (embed b).
Proof. destruct c; try discriminate; intros _; destruct a, b; reflexivity. Qed.
Lemma embed_merge_all cs : forallb of_numbers cs = true -> forall a b, map embed (merge_all cs a b) = x_merge_all cs (map embed a) (map embed b).
Proof.
  induction cs as [|c cs IH]; intros Hc a b; [reflexivity|]. cbn [forallb] in Hc. apply andb_prop in Hc. destruct Hc as [Hc Hcs].
  destruct a as [|x a], b as [|y b]; try reflexivity. cbn [merge_all x_merge_all map]. rewrite embed_merge, IH by assumption. reflexivity.
Qed.
Lemma embed_compound cs : forallb of_numbers cs = true -> forall a b, embed_c (compound_merge cs a b) = x_compound_merge cs (embed_c a) (embed_c b).
Proof. intros Hc [n a] [m b]. unfold embed_c, compound_merge, x_compound_merge. cbn [fst snd]. rewrite embed_merge_all by exact Hc. reflexivity. Qed.

(** ** Large numbers *)
Definition size_of (a : num) : Q := match a with Fin q => Qabs q | _ => 0 end.
Definition need (c : combiner) (vs : list num) : Q :=
  match c with
  | CSum _ lo hi | CMean lo hi _ | CVariance lo hi _ => Qabs lo + Qabs hi + sumQ (map size_of vs)
  | _ => 0
  end.
Lemma size_nonneg a : 0 <= size_of a.
Proof. destruct a; cbn; try apply Qabs_nonneg; lra. Qed.
Lemma sizes_nonneg vs : 0 <= sumQ (map size_of vs).
Proof. apply sumQ_nonneg. apply Forall_map, Forall_forall. intros a _. apply size_nonneg. Qed.

Lemma Qabs_le_both x : - Qabs x <= x <= Qabs x.
Proof. split; [|apply Qle_Qabs]. assert (X := Qle_Qabs (- x)). rewrite Qabs_opp in X. lra. Qed.
Lemma clip_large lo hi m : Qabs lo + Qabs hi < m -> clip lo hi m = hi.
Proof.
  intro L. unfold clip, Qmin, Qmax, GenericMinMax.gmin, GenericMinMax.gmax. assert (A := Qabs_le_both lo). assert (B := Qabs_le_both hi).
  assert (0 <= Qabs lo) by apply Qabs_nonneg. assert (0 <= Qabs hi) by apply Qabs_nonneg.
  destruct (Qcompare_spec m lo) as [E|E|E]; [exfalso; lra | exfalso; lra |]. destruct (Qcompare_spec m hi) as [E'|E'|E']; [exfalso; lra | exfalso; lra | reflexivity].
Qed.
Lemma clip_small lo hi m : Qabs lo + Qabs hi < m -> clip lo hi (- m) = Qmin lo hi.
Proof.
  intro L. unfold clip, Qmin, Qmax, GenericMinMax.gmin, GenericMinMax.gmax. assert (A := Qabs_le_both lo).
  assert (0 <= Qabs lo) by apply Qabs_nonneg. assert (0 <= Qabs hi) by apply Qabs_nonneg.
  destruct (Qcompare_spec (- m) lo) as [E|E|E]; [exfalso; lra | | exfalso; lra]. reflexivity.
Qed.
Lemma clip_above lo hi x : Qabs lo + Qabs hi < x -> clip lo hi x = hi.
Proof. apply clip_large. Qed.
Lemma clip_below lo hi x : x < - (Qabs lo + Qabs hi) -> clip lo hi x = Qmin lo hi.
Proof.
  intro L. unfold clip, Qmin, Qmax, GenericMinMax.gmin, GenericMinMax.gmax. assert (A := Qabs_le_both lo).
  assert (0 <= Qabs lo) by apply Qabs_nonneg. assert (0 <= Qabs hi) by apply Qabs_nonneg.
  destruct (Qcompare_spec x lo) as [E|E|E]; [exfalso; lra | | exfalso; lra]. reflexivity.
Qed.

Lemma clip_num_large lo hi m a : a <> NaN -> Qabs lo + Qabs hi < m -> clip_num lo hi a = Fin (clip lo hi (num_of (large m a))).
Proof.
  intros N L. destruct a; cbn [clip_num large num_of]; [reflexivity | rewrite clip_large by exact L; reflexivity | rewrite clip_small by exact L; reflexivity | congruence].
Qed.
Lemma sum_fin l : sum_num (map Fin l) = Fin (sumQ l).
Proof. induction l as [|x l IH]; [reflexivity|]. cbn [map]. unfold sum_num in *. cbn [fold_right]. rewrite IH. reflexivity. Qed.
Lemma sum_as_fin {A} (f : A -> num) (g : A -> Q) l : (forall a, In a l -> f a = Fin (g a)) -> sum_num (map f l) = Fin (sumQ (map g l)).
Proof. intro E. rewrite (map_ext_in f (fun a => Fin (g a))) by exact E. rewrite <- sum_fin, map_map. reflexivity. Qed.

(** Sums where at most one of the infinities occurs. *)
Lemma sum_num_cases m vs : ~ In NaN vs -> ~ (In PosInf vs /\ In NegInf vs) -> 0 <= m ->
  (~ In PosInf vs -> ~ In NegInf vs -> sum_num vs = Fin (sumQ (map (fun v => num_of (large m v)) vs))) /\
  (In PosInf vs -> sum_num vs = PosInf /\ m - sumQ (map size_of vs) <= sumQ (map (fun v => num_of (large m v)) vs)) /\
  (In NegInf vs -> sum_num vs = NegInf /\ sumQ (map (fun v => num_of (large m v)) vs) <= sumQ (map size_of vs) - m) /\
  (~ In PosInf vs -> sumQ (map (fun v => num_of (large m v)) vs) <= sumQ (map size_of vs)) /\
  (~ In NegInf vs -> - sumQ (map size_of vs) <= sumQ (map (fun v => num_of (large m v)) vs)).
Proof.
  intros Nn No Pm. induction vs as [|a vs IH].
  - repeat split; try (match goal with X : In _ [] |- _ => destruct X end); intros; try reflexivity; change (sumQ (map size_of [])) with 0; change (sumQ (map (fun v => num_of (large m v)) [])) with 0; lra.
  - assert (Nn' : ~ In NaN vs) by (intro X; apply Nn; right; exact X).
    assert (No' : ~ (In PosInf vs /\ In NegInf vs)) by (intros [X Y]; apply No; split; right; assumption).
    specialize (IH Nn' No'). destruct IH as (F & P & N & Up & Lo).
    assert (Dp : In PosInf vs \/ ~ In PosInf vs).
    { destruct (in_dec (fun x y : num => ltac:(decide equality; [destruct (Z.eq_dec (Qnum q) (Qnum q0)); [destruct (Pos.eq_dec (Qden q) (Qden q0)); [left; destruct q, q0; cbn in *; congruence | right; congruence] | right; congruence]])) PosInf vs); auto. }
    assert (Dn : In NegInf vs \/ ~ In NegInf vs).
    { destruct (in_dec (fun x y : num => ltac:(decide equality; [destruct (Z.eq_dec (Qnum q) (Qnum q0)); [destruct (Pos.eq_dec (Qden q) (Qden q0)); [left; destruct q, q0; cbn in *; congruence | right; congruence] | right; congruence]])) NegInf vs); auto. }
    set (s := sumQ (map (fun v => num_of (large m v)) vs)) in *. set (z := sumQ (map size_of vs)) in *.
    change (sum_num (a :: vs)) with (add a (sum_num vs)).
    change (sumQ (map (fun v => num_of (large m v)) (a :: vs))) with (num_of (large m a) + s).
    change (sumQ (map size_of (a :: vs))) with (size_of a + z).
    destruct a as [q| | |]; [| | |exfalso; apply Nn; left; reflexivity]; cbn [large num_of size_of].
    + assert (Bq := Qabs_le_both q). repeat split.
      * intros X Y. rewrite F; [reflexivity | intro; apply X; right; assumption | intro; apply Y; right; assumption].
      * destruct H as [X|X]; [discriminate|]. destruct (P X) as [-> _]. reflexivity.
      * destruct H as [X|X]; [discriminate|]. destruct (P X) as [_ L]. lra.
      * destruct H as [X|X]; [discriminate|]. destruct (N X) as [-> _]. reflexivity.
      * destruct H as [X|X]; [discriminate|]. destruct (N X) as [_ L]. lra.
      * intro X. assert (s <= z) by (apply Up; intro; apply X; right; assumption). lra.
      * intro X. assert (- z <= s) by (apply Lo; intro; apply X; right; assumption). lra.
    + assert (Nneg : ~ In NegInf vs) by (intro X; apply No; split; [left; reflexivity | right; exact X]). specialize (Lo Nneg). repeat split.
      * intros X. exfalso. apply X. left. reflexivity.
      * destruct Dp as [X|X]; [destruct (P X) as [-> _]; reflexivity | rewrite (F X Nneg); reflexivity].
      * lra.
      * destruct H as [X|X]; [discriminate | contradiction].
      * destruct H as [X|X]; [discriminate | contradiction].
      * intros X. exfalso. apply X. left. reflexivity.
      * intros _. lra.
    + assert (Npos : ~ In PosInf vs) by (intro X; apply No; split; [right; exact X | left; reflexivity]). specialize (Up Npos). repeat split.
      * intros _ X. exfalso. apply X. left. reflexivity.
      * destruct H as [X|X]; [discriminate | contradiction].
      * destruct H as [X|X]; [discriminate | contradiction].
      * destruct Dn as [X|X]; [destruct (N X) as [-> _]; reflexivity | rewrite (F Npos X); reflexivity].
      * lra.
      * intros _. lra.
      * intros X. exfalso. apply X. left. reflexivity.
Qed.

Definition per_partition_sum (c : combiner) : bool := match c with CSum true _ _ => true | _ => false end.
Lemma create_large c vs m : of_numbers c = true -> ~ In NaN vs -> (per_partition_sum c = true -> ~ (In PosInf vs /\ In NegInf vs)) -> need c vs < m ->
  x_create c vs = embed (create c (map (large m) vs)).
Proof.
  intros Hc Nn No L. assert (Sz := sizes_nonneg vs).
  assert (E : forall lo hi v, Qabs lo + Qabs hi + sumQ (map size_of vs) < m -> In v vs -> clip_num lo hi v = Fin (clip lo hi (num_of (large m v)))).
  { intros lo hi v Lm I. apply clip_num_large; [intro X; subst; contradiction | lra]. }
  destruct c as [| | |[|] lo hi|lo hi nm|lo hi nm|ps|z]; try discriminate Hc; cbn [x_create create embed need] in *; try rewrite map_length; try reflexivity.
  - destruct vs; reflexivity.
  - destruct vs; reflexivity.
  - f_equal. rewrite map_map. assert (A0 : 0 <= Qabs lo) by apply Qabs_nonneg. assert (B0 : 0 <= Qabs hi) by apply Qabs_nonneg.
    destruct (sum_num_cases m vs Nn (No eq_refl)) as (F & P & N & _); [lra|].
    assert (D : (In PosInf vs \/ In NegInf vs) \/ (~ In PosInf vs /\ ~ In NegInf vs)).
    { clear. induction vs as [|a vs IH]; [right; split; intros []|].
      destruct IH as [[X|X]|[X Y]]; [left; left; right; exact X | left; right; right; exact X|].
      destruct a; [right; split; intros [Z1|Z1]; (discriminate || contradiction) | left; left; left; reflexivity | left; right; left; reflexivity | right; split; intros [Z1|Z1]; (discriminate || contradiction)]. }
    destruct D as [[X|X]|[X Y]].
    + destruct (P X) as [-> G]. cbn [clip_num]. rewrite clip_above by lra. reflexivity.
    + destruct (N X) as [-> G]. cbn [clip_num]. rewrite clip_below by lra. reflexivity.
    + rewrite (F X Y). reflexivity.
  - f_equal. rewrite map_map. apply sum_as_fin. intros v I. apply E; assumption.
  - f_equal. rewrite map_map. apply sum_as_fin. intros v I. rewrite (E lo hi v L I). reflexivity.
  - f_equal; rewrite map_map; apply sum_as_fin; intros v I; rewrite (E lo hi v L I); reflexivity.
Qed.
Lemma need_nonneg c vs : 0 <= need c vs.
Proof. assert (X := sizes_nonneg vs). destruct c; cbn [need]; try lra; assert (0 <= Qabs lo) by apply Qabs_nonneg; assert (0 <= Qabs hi) by apply Qabs_nonneg; lra. Qed.

Lemma enough_for_one cs vs : exists m0, forall c, In c cs -> need c vs < m0.
Proof.
  induction cs as [|c cs [m IH]]; [exists 0; intros ? []|]. exists (need c vs + 1 + Qmax m 0). assert (A := Q.le_max_l m 0). assert (B := Q.le_max_r m 0).
  assert (X := need_nonneg c vs). intros c' [<-|I]; [lra|]. specialize (IH c' I). lra.
Qed.
Lemma enough_for_all cs (l : list (list num)) : exists m0, forall c vs, In c cs -> In vs l -> need c vs < m0.
Proof.
  induction l as [|vs l [m IH]]; [exists 0; intros ? ? _ []|]. destruct (enough_for_one cs vs) as [m1 H1]. exists (Qmax m m1).
  assert (A := Q.le_max_l m m1). assert (B := Q.le_max_r m m1). intros c v Ic [<-|I]; [specialize (H1 c Ic) | specialize (IH c v Ic I)]; lra.
Qed.
