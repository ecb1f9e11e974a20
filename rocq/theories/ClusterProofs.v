(** Lemmas on keyed collections whose order does not matter. *)
From Coq Require Import List ZArith Bool Permutation PeanoNat Lia.
From Verif Require Import Base BackendModel BackendSpec ListLemmas BackendProofs BackendProofs2 BounderModel BounderSpec BounderProofs.
Import ListNotations.

(** [l] and [l'] have the same keys, each once, with related values. *)
Definition krel {K A B} (R : A -> B -> Prop) (l : list (K * A)) (l' : list (K * B)) : Prop :=
  NoDup (map fst l) /\ NoDup (map fst l') /\ (forall k, In k (map fst l) <-> In k (map fst l')) /\
  (forall k a b, In (k, a) l -> In (k, b) l' -> R a b).

(** The same elements up to order and [R] of the values. *)
Definition prel {K A B} (R : A -> B -> Prop) (l : list (K * A)) (l' : list (K * B)) : Prop :=
  exists l'', Permutation l l'' /\ Forall2 (fun x y => fst x = fst y /\ R (snd x) (snd y)) l'' l'.

Lemma in_fst {K A} (k : K) (a : A) l : In (k, a) l -> In k (map fst l).
Proof. intro I. apply in_map_iff. exists (k, a). split; [reflexivity | exact I]. Qed.
Lemma fst_in {K A} (k : K) (l : list (K * A)) : In k (map fst l) -> exists a, In (k, a) l.
Proof. intro I. apply in_map_iff in I. destruct I as [[k' a] [E I]]. cbn in E. subst. exists a. exact I. Qed.

Lemma krel_length {K A B} (R : A -> B -> Prop) (l : list (K * A)) (l' : list (K * B)) : krel R l l' -> length l = length l'.
Proof.
  intros [N [N' [E _]]]. rewrite <- (map_length fst l), <- (map_length fst l').
  apply Nat.le_antisymm; apply NoDup_incl_length; try assumption; intros k I; apply E; exact I.
Qed.

Lemma krel_perm_l {K A B} (R : A -> B -> Prop) (l m : list (K * A)) (l' : list (K * B)) : Permutation m l -> krel R l l' -> krel R m l'.
Proof.
  intros Pm [N [N' [E H]]]. split; [|split; [exact N'|split]].
  - apply (Permutation_NoDup (l := map fst l)); [apply Permutation_map, Permutation_sym; exact Pm | exact N].
  - intro k. rewrite <- E. split; apply Permutation_in; [|apply Permutation_sym]; apply Permutation_map; exact Pm.
  - intros k a b Ia Ib. apply (H k); [apply (Permutation_in _ Pm Ia) | exact Ib].
Qed.

Lemma krel_prel {K A B} `{EqDec K} (R : A -> B -> Prop) (l : list (K * A)) (l' : list (K * B)) : krel R l l' -> prel R l l'.
Proof.
  revert l. induction l' as [|[k b] l' IH]; intros l Hk.
  - pose proof (krel_length R l [] Hk) as L. destruct l; [|discriminate]. exists []. split; [constructor | constructor].
  - destruct Hk as [N [N' [E Hr]]].
    destruct (fst_in k l (proj2 (E k) (or_introl eq_refl))) as [a Ia].
    apply in_split in Ia. destruct Ia as [l1 [l2 ->]]. cbn [map] in N'. inversion N' as [|? ? Nk Nl']; subst.
    assert (Pm : Permutation (l1 ++ (k, a) :: l2) ((k, a) :: l1 ++ l2)) by (symmetry; apply Permutation_middle).
    assert (Nm : NoDup (map fst ((k, a) :: l1 ++ l2))) by (apply (Permutation_NoDup (Permutation_map fst Pm)); exact N).
    cbn [map] in Nm. inversion Nm as [|? ? Nk2 Nr]; subst. cbn [fst] in *.
    destruct (IH (l1 ++ l2)) as [l'' [P2 F]].
    { split; [exact Nr|split; [exact Nl'|split]].
      - intro k'. specialize (E k'). split; intro I.
        + destruct (proj1 E) as [Ek|I']; [apply (Permutation_in _ (Permutation_map fst (Permutation_sym Pm))); right; exact I | cbn in Ek; subst k'; contradiction | exact I'].
        + assert (I2 : In k' (map fst ((k, a) :: l1 ++ l2))) by (apply (Permutation_in _ (Permutation_map fst Pm)); apply E; right; exact I).
          destruct I2 as [Ek|I2]; [cbn in Ek; subst k'; contradiction | exact I2].
      - intros k' a' b' I1 I2. apply (Hr k'); [apply (Permutation_in _ (Permutation_sym Pm)); right; exact I1 | right; exact I2]. }
    exists ((k, a) :: l''). split; [rewrite Pm; apply perm_skip; exact P2|].
    constructor; [|exact F]. split; [reflexivity|]. apply (Hr k); [apply in_elt | left; reflexivity].
Qed.

Lemma krel_mono {K A B} (R R' : A -> B -> Prop) (l : list (K * A)) (l' : list (K * B)) :
  (forall k a b, In (k, a) l -> In (k, b) l' -> R a b -> R' a b) -> krel R l l' -> krel R' l l'.
Proof. intros M [N [N' [E H]]]. split; [exact N|split; [exact N'|split; [exact E|]]]. intros k a b Ia Ib. apply (M k); [exact Ia | exact Ib | exact (H k a b Ia Ib)]. Qed.

Lemma krel_map_values {K A B A' B'} (R : A -> B -> Prop) (R' : A' -> B' -> Prop) (f : A -> A') (g : B -> B')
    (l : list (K * A)) (l' : list (K * B)) :
  (forall a b, R a b -> R' (f a) (g b)) -> krel R l l' -> krel R' (map_values f l) (map_values g l').
Proof.
  intros M [N [N' [E Hr]]]. unfold krel. rewrite !map_values_keys. split; [exact N|split; [exact N'|split; [exact E|]]].
  intros k a b Ia Ib. apply in_map_values in Ia. apply in_map_values in Ib.
  destruct Ia as [a0 [-> Ia]], Ib as [b0 [-> Ib]]. apply M. apply (Hr k); assumption.
Qed.

(** ** Draws *)

Lemma finite_choice {K T} `{EqDec K} (d : K -> T) (ks : list K) (Pr : K -> T -> Prop) :
  (forall k, In k ks -> exists t, Pr k t) ->
  exists f, (forall k, In k ks -> Pr k (f k)) /\ (forall k, ~ In k ks -> f k = d k).
Proof.
  induction ks as [|k ks IH]; intro E.
  - exists d. split; [intros k [] | reflexivity].
  - destruct IH as [f [F1 F2]]; [intros k' I; apply E; right; exact I|].
    destruct (E k (or_introl eq_refl)) as [t Ht].
    exists (fun k' => if eqb k' k then t else f k'). split.
    + intros k' I. destruct (eqb k' k) eqn:Ek; [apply eqb_eq in Ek; subst; exact Ht|].
      destruct I as [->|I]; [rewrite ListLemmas.eqb_refl in Ek; discriminate | apply F1; exact I].
    + intros k' NI. destruct (eqb k' k) eqn:Ek; [apply eqb_eq in Ek; subst; exfalso; apply NI; left; reflexivity|].
      apply F2. intro I. apply NI. right. exact I.
Qed.

(** A draw that picks a given sub-multiset. *)
Lemma pick_cons_shift {V} idx (x : V) l : pick (map S idx) (x :: l) = pick idx l.
Proof. induction idx as [|i idx IH]; [reflexivity|]. cbn [map]. unfold pick in *. cbn [flat_map nth_error]. f_equal. exact IH. Qed.

Lemma pick_app {V} i j (l : list V) : pick (i ++ j) l = pick i l ++ pick j l.
Proof. unfold pick. apply flat_map_app. Qed.

Lemma Permutation_pick {V} (l l' : list V) : Permutation l l' ->
  exists idx, NoDup idx /\ length idx = length l' /\ Forall (fun i => i < length l) idx /\ pick idx l = l'.
Proof.
  intro Pm. destruct (Permutation_nth_error l l') as [Hf _]. destruct (Hf Pm) as [L [f [Inj Hn]]].
  set (g := fun j => f j).
  exists (map g (seq 0 (length l'))). split; [|split; [|split]].
  - apply FinFun.Injective_map_NoDup; [|apply seq_NoDup]. intros x y. apply Inj.
  - rewrite map_length, seq_length. reflexivity.
  - apply Forall_forall. intros i I. apply in_map_iff in I. destruct I as [j [<- Ij]]. apply in_seq in Ij.
    apply nth_error_Some. unfold g. rewrite <- Hn. apply nth_error_Some. lia.
  - transitivity (pick (seq 0 (length l')) l').
    + unfold pick. rewrite flat_map_concat_map, map_map, <- flat_map_concat_map. apply flat_map_ext. intro j. unfold g. rewrite Hn. reflexivity.
    + clear. assert (G : forall pre l : list V, pick (seq (length pre) (length l)) (pre ++ l) = l).
      { intros pre l. revert pre. induction l as [|x l IH]; intro pre; [reflexivity|]. unfold pick in *. cbn [length seq flat_map].
        rewrite nth_error_app2 by lia. rewrite Nat.sub_diag. cbn [nth_error app]. f_equal.
        specialize (IH (pre ++ [x])). rewrite app_length in IH. cbn [length] in IH. rewrite Nat.add_1_r in IH.
        rewrite <- app_assoc in IH. exact IH. }
      exact (G [] l').
Qed.

Lemma submset_pick {V} (vs l : list V) : submset vs l ->
  exists idx, valid_draw (length vs) (length l) idx /\ pick idx l = vs.
Proof.
  intros [rest Pm]. destruct (Permutation_pick l (vs ++ rest) Pm) as [idx [N [L [F E]]]].
  rewrite app_length in L.
  exists (firstn (length vs) idx). split.
  - split; [|split].
    + rewrite <- (firstn_skipn (length vs) idx) in N. apply NoDup_app_iff in N. exact (proj1 N).
    + rewrite firstn_length. lia.
    + rewrite <- (firstn_skipn (length vs) idx) in F. apply Forall_app in F. exact (proj1 F).
  - assert (Lp : length (pick (firstn (length vs) idx) l) = length vs).
    { assert (G : forall i, Forall (fun j => j < length l) i -> length (pick i l) = length i).
      { induction i as [|a i IH]; intro Fi; [reflexivity|]. inversion Fi; subst. unfold pick in *. cbn [flat_map].
        rewrite app_length, IH by assumption. destruct (nth_error l a) eqn:En; [reflexivity|].
        apply nth_error_None in En. lia. }
      rewrite G; [rewrite firstn_length; lia|]. rewrite <- (firstn_skipn (length vs) idx) in F. apply Forall_app in F. exact (proj1 F). }
    rewrite <- (firstn_skipn (length vs) idx), pick_app in E.
    apply (f_equal (firstn (length vs))) in E. rewrite <- Lp in E at 1. rewrite firstn_app, firstn_all, Nat.sub_diag in E.
    cbn [firstn] in E. rewrite app_nil_r in E. rewrite E, firstn_app, firstn_all, Nat.sub_diag. cbn [firstn]. apply app_nil_r.
Qed.

(** A draw that picks the same keys from another list with the same keys. *)
Definition positions {V} (f : V -> bool) (l : list V) : list nat :=
  filter (fun i => match nth_error l i with Some v => f v | None => false end) (seq 0 (length l)).
Lemma pick_positions {V} (f : V -> bool) (l : list V) : pick (positions f l) l = filter f l.
Proof.
  assert (G : forall pre l : list V, pick (filter (fun i => match nth_error (pre ++ l) i with Some v => f v | None => false end) (seq (length pre) (length l))) (pre ++ l)
              = filter f l).
  { intros pre l0. revert pre. induction l0 as [|x l0 IH]; intro pre; [reflexivity|]. unfold pick in *. cbn [length seq filter].
    specialize (IH (pre ++ [x])). rewrite app_length, <- app_assoc in IH. cbn [length] in IH. rewrite Nat.add_1_r in IH. cbn [app] in IH.
    rewrite nth_error_app2 by lia. rewrite Nat.sub_diag. cbn [nth_error].
    destruct (f x); [|exact IH]. cbn [flat_map]. rewrite nth_error_app2 by lia. rewrite Nat.sub_diag. cbn [nth_error app]. f_equal. exact IH. }
  exact (G [] l).
Qed.
Lemma positions_valid {V} (f : V -> bool) (l : list V) : valid_draw (length (filter f l)) (length l) (positions f l).
Proof.
  assert (F : Forall (fun i => i < length l) (positions f l)).
  { apply Forall_forall. intros i I. apply filter_In in I. destruct I as [I _]. apply in_seq in I. lia. }
  split; [apply NoDup_filter, seq_NoDup|split; [|exact F]].
  rewrite <- pick_positions at 1. symmetry. clear -F. revert F. generalize (positions f l) as i. induction i as [|a i IH]; intro Fi; [reflexivity|].
  inversion Fi; subst. unfold pick in *. cbn [flat_map]. rewrite app_length, IH by assumption.
  destruct (nth_error l a) eqn:En; [reflexivity|]. apply nth_error_None in En. lia.
Qed.

Lemma krel_submset {K A B} `{EqDec K} (R : A -> B -> Prop) (vs l : list (K * A)) (l' : list (K * B)) :
  krel R l l' -> submset vs l -> krel R vs (filter (fun kb => mem (fst kb) (map fst vs)) l').
Proof.
  intros [N [N' [E Hr]]] S0. assert (Nv : NoDup (map fst vs)).
  { apply (submset_NoDup (map fst vs) (map fst l)); [apply submset_map; exact S0 | exact N]. }
  split; [exact Nv|split; [|split]].
  - rewrite map_fst_filter_keys with (p := fun k => mem k (map fst vs)). apply NoDup_filter. exact N'.
  - intro k. rewrite map_fst_filter_keys with (p := fun k => mem k (map fst vs)). rewrite filter_In, mem_true_iff. split; [|tauto].
    intro I. split; [|exact I]. apply E. apply (submset_In (map fst vs)); [apply submset_map; exact S0 | exact I].
  - intros k a b Ia Ib. apply filter_In in Ib. apply (Hr k); [apply (submset_In _ _ _ S0 Ia) | exact (proj1 Ib)].
Qed.

(** ** The stages against the local backend *)
Section Stages.
Context {K : Type} `{EqDec K}.

Definition any_draw (n : nat) : list nat := seq 0 n.
Lemma any_draw_valid n m : n < m -> valid_draw n m (any_draw n).
Proof.
  intro L. split; [apply seq_NoDup|split; [apply seq_length|]]. apply Forall_forall. intros i I. apply in_seq in I. lia.
Qed.

(** For each of the keys [ks] the local draw may be chosen freely. *)
Lemma source_for (n : nat) (ks : list K) (size : K -> nat) (Pr : K -> list nat -> Prop) :
  (forall k, In k ks -> n < size k -> exists idx, valid_draw n (size k) idx /\ Pr k idx) ->
  exists ch : source K, valid_source n ch /\ forall k, In k ks -> n < size k -> Pr k (ch k (size k)).
Proof.
  intro E. destruct (finite_choice (fun _ => any_draw n) ks (fun k idx => n < size k -> valid_draw n (size k) idx /\ Pr k idx)) as [f [F1 F2]].
  { intros k I. destruct (lt_dec n (size k)) as [L|L]; [destruct (E k I L) as [idx Hi]; exists idx; intros _; exact Hi|].
    exists []. intro. contradiction. }
  exists (fun k m => if (m =? size k) && mem k ks then f k else any_draw n). split.
  - intros k m L. destruct (m =? size k) eqn:Em; cbn [andb]; [|apply any_draw_valid; exact L].
    apply Nat.eqb_eq in Em. subst m. destruct (mem k ks) eqn:Ek; [|apply any_draw_valid; exact L].
    apply mem_true_iff in Ek. apply (F1 k Ek L).
  - intros k I L. rewrite Nat.eqb_refl. assert (Ek : mem k ks = true) by (apply mem_true_iff; exact I). rewrite Ek. cbn [andb]. apply (F1 k I L).
Qed.

(** Any sample is, up to the order within each key, one the local backend may draw. *)
Lemma sample_local {V} n (col : list (K * V)) out : is_sample n col out ->
  exists ch : source K, valid_source n ch /\ krel (@Permutation V) out (sample_fixed_per_key ch n col).
Proof.
  intros [N [E Hs]].
  destruct (source_for n (map fst out) (fun k => length (values_of k col)) (fun k idx => forall vs, In (k, vs) out -> Permutation vs (pick idx (values_of k col))))
    as [ch [Vc Hc]].
  { intros k I L. destruct (fst_in k out I) as [vs Iv]. destruct (Hs k vs Iv) as [Ln Sm]. rewrite key_values_values_of in Ln, Sm.
    destruct (submset_pick _ _ Sm) as [idx [Vd Ep]]. exists idx. rewrite Ln, Nat.min_l in Vd by lia. split; [exact Vd|].
    intros vs' Iv'. rewrite Ep. rewrite (NoDup_keys_functional out k vs' vs N Iv' Iv). reflexivity. }
  exists ch. split; [exact Vc|]. split; [exact N|split; [rewrite sample_keys; apply NoDup_distinct|split]].
  - intro k. rewrite sample_keys, in_distinct. apply E.
  - intros k vs vs' Iv Iv'. apply in_sample in Iv'. destruct Iv' as [_ ->]. unfold choose.
    destruct (n <? length (values_of k col)) eqn:L.
    + apply Nat.ltb_lt in L. apply Hc; [exact (in_fst k vs out Iv) | exact L | exact Iv].
    + apply Nat.ltb_ge in L. destruct (Hs k vs Iv) as [Ln Sm]. rewrite key_values_values_of in Ln, Sm. rewrite Nat.min_r in Ln by lia.
      apply submset_full; [exact Sm | lia].
Qed.

(** The same for a sample of keyed values, against a collection with other values. *)
Lemma sample_local_keyed {L A B} `{EqDec L} (R : A -> B -> Prop) n (col : list (K * (L * A))) (col' : list (K * (L * B))) out :
  (forall k, In k (map fst col) <-> In k (map fst col')) ->
  (forall k, In k (map fst col) -> krel R (values_of k col) (values_of k col')) ->
  is_sample n col out ->
  exists ch : source K, valid_source n ch /\ krel (krel R) out (sample_fixed_per_key ch n col').
Proof.
  intros Ek Hk [N [E Hs]].
  destruct (source_for n (map fst out) (fun k => length (values_of k col'))
    (fun k idx => forall vs, In (k, vs) out -> krel R vs (pick idx (values_of k col')))) as [ch [Vc Hc]].
  { intros k I Ln. destruct (fst_in k out I) as [vs Iv]. destruct (Hs k vs Iv) as [Lv Sm]. rewrite key_values_values_of in Lv, Sm.
    specialize (Hk k (proj1 (E k) I)). pose proof (krel_length _ _ _ Hk) as Le. pose proof (krel_submset R vs _ _ Hk Sm) as Kf.
    exists (positions (fun kb => mem (fst kb) (map fst vs)) (values_of k col')). split.
    - assert (Lf : length (filter (fun kb => mem (fst kb) (map fst vs)) (values_of k col')) = n).
      { rewrite <- (krel_length _ _ _ Kf), Lv. lia. }
      rewrite <- Lf at 1. apply positions_valid.
    - intros vs' Iv'. rewrite (NoDup_keys_functional out k vs' vs N Iv' Iv), pick_positions. exact Kf. }
  exists ch. split; [exact Vc|]. split; [exact N|split; [rewrite sample_keys; apply NoDup_distinct|split]].
  - intro k. rewrite sample_keys, in_distinct, E. apply Ek.
  - intros k vs vs' Iv Iv'. apply in_sample in Iv'. destruct Iv' as [_ ->]. unfold choose.
    pose proof (in_fst k vs out Iv) as I. specialize (Hk k (proj1 (E k) I)). pose proof (krel_length _ _ _ Hk) as Le.
    destruct (n <? length (values_of k col')) eqn:Ln.
    + apply Nat.ltb_lt in Ln. apply Hc; [exact I | exact Ln | exact Iv].
    + apply Nat.ltb_ge in Ln. destruct (Hs k vs Iv) as [Lv Sm]. rewrite key_values_values_of in Lv, Sm. rewrite Nat.min_r in Lv by lia.
      apply (krel_perm_l R (values_of k col)); [apply submset_full; [exact Sm | lia] | exact Hk].
Qed.

(** A choice within each group, against groups with other values. *)
Lemma choose_local_keyed {L A B} `{EqDec L} (R : A -> B -> Prop) n (draws : source K) (g : list (K * list (L * A))) (g' : list (K * list (L * B))) :
  valid_source n draws -> krel (krel R) g g' ->
  exists ch : source K, valid_source n ch /\
    krel (krel R) (map (fun x => (fst x, choose (draws (fst x) (length (snd x))) n (snd x))) g)
                  (map (fun x => (fst x, choose (ch (fst x) (length (snd x))) n (snd x))) g').
Proof.
  intros Vd [N [N' [E Hr]]].
  set (size := fun k => match find (fun x => eqb (fst x) k) g' with Some x => length (snd x) | None => 0 end).
  assert (Sz : forall k l, In (k, l) g' -> size k = length l).
  { intros k l I. unfold size. destruct (find (fun x => eqb (fst x) k) g') as [[k' l2]|] eqn:F.
    - apply find_some in F. destruct F as [I2 F]. cbn [fst] in F. apply eqb_eq in F. subst k'. cbn [snd].
      rewrite (NoDup_keys_functional g' k l2 l N' I2 I). reflexivity.
    - pose proof (find_none _ _ F _ I) as F2. cbn [fst] in F2. rewrite ListLemmas.eqb_refl in F2. discriminate. }
  destruct (source_for n (map fst g') size
    (fun k idx => forall l l', In (k, l) g -> In (k, l') g' -> krel R (choose (draws k (length l)) n l) (pick idx l'))) as [ch [Vc Hc]].
  { intros k I Ln. destruct (fst_in k g' I) as [l' Il']. destruct (fst_in k g (proj2 (E k) I)) as [l Il].
    rewrite (Sz k l' Il') in *. pose proof (Hr k l l' Il Il') as Hk. pose proof (krel_length _ _ _ Hk) as Le.
    assert (Sm : submset (choose (draws k (length l)) n l) l) by (apply choose_submset; apply Vd).
    assert (Lv : length (choose (draws k (length l)) n l) = Nat.min n (length l)) by (apply choose_length; apply Vd).
    pose proof (krel_submset R _ _ _ Hk Sm) as Kf.
    exists (positions (fun kb => mem (fst kb) (map fst (choose (draws k (length l)) n l))) l'). split.
    - rewrite <- (Nat.min_l n (length l')) at 1 by lia. rewrite <- Le at 1. rewrite <- Lv, (krel_length _ _ _ Kf). apply positions_valid.
    - intros l2 l2' I2 I2'. rewrite (NoDup_keys_functional g k l2 l N I2 Il), (NoDup_keys_functional g' k l2' l' N' I2' Il'), pick_positions. exact Kf. }
  exists ch. split; [exact Vc|]. unfold krel at 1. rewrite !map_map. cbn [fst]. split; [exact N|split; [exact N'|split; [exact E|]]].
  intros k a b Ia Ib. apply in_map_iff in Ia. apply in_map_iff in Ib. destruct Ia as [[k1 l] [E1 Il]], Ib as [[k2 l'] [E2 Il']].
  cbn [fst snd] in E1, E2. injection E1 as -> <-. injection E2 as -> <-. pose proof (Hr k l l' Il Il') as Hk. pose proof (krel_length _ _ _ Hk) as Le.
  unfold choose at 2. destruct (n <? length l') eqn:Ln.
  - apply Nat.ltb_lt in Ln. rewrite <- (Sz k l' Il'). apply Hc; [exact (in_fst k l' g' Il') | rewrite (Sz k l' Il'); exact Ln | exact Il | exact Il'].
  - unfold choose. rewrite Le, Ln. exact Hk.
Qed.
End Stages.
