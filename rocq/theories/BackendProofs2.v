(** Backend lemmas in the form used by BackendProps. *)
From Coq Require Import List ZArith Bool Permutation PeanoNat Lia.
From Verif Require Import Base BackendModel BackendSpec ListLemmas BackendProofs.
Import ListNotations.

Lemma in_keys' {K V} (k : K) (v : V) l : In (k, v) l -> In k (map fst l).
Proof. intro Hin. apply in_map_iff. exists (k, v). auto. Qed.

Lemma local_sampling {K V} `{EqDec K} (ch : source K) (n : nat) (col : list (K * V)) :
  valid_source n ch ->
  let out := sample_fixed_per_key ch n col in
  NoDup (map fst out) /\
  (forall k, In k (map fst out) <-> In k (map fst col)) /\
  (forall k vs, In (k, vs) out ->
     length vs = Nat.min n (length (values_of k col)) /\ submset vs (values_of k col)).
Proof.
  intros Vs out. unfold out. rewrite sample_keys. split; [apply NoDup_distinct|].
  split; [intro k; apply in_distinct|].
  intros k vs Hin. apply in_sample in Hin. destruct Hin as [_ ->]. split.
  - apply choose_length. intro L. apply Vs. exact L.
  - apply choose_submset. intro L. apply Vs. exact L.
Qed.

Lemma spark_sampling {K V} `{EqDec K} (n : nat) (col : list (K * V)) (plan : list (K * stree V)) :
  1 <= n ->
  NoDup (map fst plan) ->
  (forall k, In k (map fst plan) <-> In k (map fst col)) ->
  (forall k t, In (k, t) plan -> valid_stree n t /\ Permutation (sleaves t) (values_of k col)) ->
  let out := map (fun kt => (fst kt, spark_sample (snd kt))) plan in
  NoDup (map fst out) /\
  (forall k, In k (map fst out) <-> In k (map fst col)) /\
  (forall k vs, In (k, vs) out ->
     length vs = Nat.min n (length (values_of k col)) /\ submset vs (values_of k col)).
Proof.
  intros Hn N Ks Ts out.
  assert (E : map fst out = map fst plan) by (unfold out; rewrite map_map; reflexivity).
  rewrite E. split; [exact N|]. split; [exact Ks|].
  intros k vs Hin. unfold out in Hin. apply in_map_iff in Hin. destruct Hin as [[k' t] [Ek Hin]].
  cbn in Ek. inversion Ek; subst. destruct (Ts k t Hin) as [Vt Pt]. split.
  - rewrite (spark_sample_length n t Hn Vt), (Permutation_length Pt). reflexivity.
  - eapply submset_trans; [apply (spark_sample_submset n); exact Vt|].
    apply submset_Permutation. exact Pt.
Qed.

Lemma spark_sampling_zero_refuted :
  exists (col : list (Z * Z)) (plan : list (Z * stree Z)),
    NoDup (map fst plan) /\
    (forall k, In k (map fst plan) <-> In k (map fst col)) /\
    (forall k t, In (k, t) plan -> valid_stree 0 t /\ Permutation (sleaves t) (values_of k col)) /\
    exists k vs, In (k, vs) (map (fun kt => (fst kt, spark_sample (snd kt))) plan) /\
                 length vs <> Nat.min 0 (length (values_of k col)).
Proof.
  exists [(1, 7)]%Z, [(1%Z, SLeaf 7%Z)]. split; [repeat constructor; cbn; tauto|].
  split; [cbn; tauto|]. split.
  - intros k t [E|[]]. inversion E; subst. cbn. split; [exact I|apply Permutation_refl].
  - exists 1%Z, [7]%Z. cbn. split; [tauto|discriminate].
Qed.

Lemma keys_Permutation {K} (a b : list K) :
  NoDup a -> NoDup b -> (forall k, In k a <-> In k b) -> Permutation a b.
Proof. apply NoDup_Permutation. Qed.

Lemma spark_combining {K A} `{EqDec K} (R : A -> A -> Prop) (merge : A -> A -> A)
    (col : list (K * A)) (plan : list (K * tree A)) :
  comm_semigroup R merge -> reduce_plan col plan ->
  let spark := map (fun kt => (fst kt, reduce_tree merge (snd kt))) plan in
  Permutation (map fst spark) (map fst (combine_per_key merge col)) /\
  (forall k a b, In (k, a) (combine_per_key merge col) -> In (k, b) spark -> R a b).
Proof.
  intros C [N [Ks Ts]] spark. split.
  - unfold spark. rewrite map_map. cbn [fst]. rewrite combine_per_key_keys.
    apply NoDup_Permutation; [exact N|apply NoDup_distinct|].
    intro k. rewrite in_distinct. apply Ks.
  - intros k a b Ha Hb. apply in_combine_per_key in Ha. unfold spark in Hb.
    apply in_map_iff in Hb. destruct Hb as [[k' t] [E Hin]]. cbn in E. inversion E; subst.
    pose proof (reduce_tree_fold1 R merge C t) as Rt.
    pose proof (fold1_Permutation R merge C _ _ (Ts k t Hin)) as Rp.
    rewrite Ha in Rp. destruct (fold1 merge (leaves t)) as [x|]; [|contradiction Rp].
    cbn in *. eapply (cs_trans _ _ C); [apply (cs_sym _ _ C); exact Rp|exact Rt].
Qed.

Lemma beam_combining {K A} `{EqDec K} (R : A -> A -> Prop) (merge : A -> A -> A)
    (truthy : A -> bool) (T : A -> Prop) (col : list (K * A)) (plan : list (K * bexp A)) :
  comm_semigroup R merge -> beam_plan col plan ->
  (forall x, T x -> truthy x = true) -> (forall x y, T x -> T y -> T (merge x y)) ->
  (forall k a, In (k, a) col -> T a) ->
  let beam := map (fun ke => (fst ke, beam_eval truthy merge (snd ke))) plan in
  Permutation (map fst beam) (map fst (combine_per_key merge col)) /\
  (forall k a r, In (k, a) (combine_per_key merge col) -> In (k, r) beam ->
     exists b, r = Some b /\ R a b).
Proof.
  intros C [N [Ks Ts]] TT Tm Tc beam. split.
  - unfold beam. rewrite map_map. cbn [fst]. rewrite combine_per_key_keys.
    apply NoDup_Permutation; [exact N|apply NoDup_distinct|].
    intro k. rewrite in_distinct. apply Ks.
  - intros k a r Ha Hb. apply in_combine_per_key in Ha. unfold beam in Hb.
    apply in_map_iff in Hb. destruct Hb as [[k' e] [E Hin]]. cbn in E. inversion E; subst.
    destruct (Ts k e Hin) as [Ok Pe].
    destruct (beam_eval_fold1 R truthy merge C T e TT Tm Ok) as [v [Ev [Tv Rv]]].
    { intros x Hx. apply (Permutation_in _ Pe) in Hx. unfold values_of in Hx.
      apply in_map_iff in Hx. destruct Hx as [[k' x'] [Ex Hx]]. cbn in Ex. subst.
      apply filter_In in Hx. destruct Hx as [Hx _]. eapply Tc. exact Hx. }
    exists v. split; [exact Ev|].
    pose proof (fold1_Permutation R merge C _ _ Pe) as Rp. rewrite Ha in Rp.
    destruct (fold1 merge (belems e)) as [x|]; [|contradiction Rp].
    cbn in *. eapply (cs_trans _ _ C); [apply (cs_sym _ _ C); exact Rp|exact Rv].
Qed.

Lemma local_combining {K A} `{EqDec K} (merge : A -> A -> A) (col : list (K * A)) :
  NoDup (map fst (combine_per_key merge col)) /\
  (forall k, In k (map fst (combine_per_key merge col)) <-> In k (map fst col)) /\
  (forall k a, In (k, a) (combine_per_key merge col) ->
     exists x rest, values_of k col = x :: rest /\ a = fold_left merge rest x).
Proof.
  rewrite combine_per_key_keys. split; [apply NoDup_distinct|]. split; [intro k; apply in_distinct|].
  intros k a Hin. apply in_combine_per_key in Hin.
  destruct (values_of k col) as [|x rest]; [discriminate|]. exists x, rest.
  inversion Hin. auto.
Qed.

Lemma eq_comm_semigroup {A} (merge : A -> A -> A) :
  (forall x y z, merge (merge x y) z = merge x (merge y z)) ->
  (forall x y, merge x y = merge y x) -> comm_semigroup eq merge.
Proof. intros Ha Hc. constructor; intros; subst; auto. Qed.

Lemma beam_falsy_refuted :
  exists (merge : Z -> Z -> Z) (col : list (Z * Z)) (plan : list (Z * bexp Z)),
    comm_semigroup eq merge /\ beam_plan col plan /\
    combine_per_key merge col = [(1, 0)]%Z /\
    map (fun ke => (fst ke, beam_eval (fun x => negb (x =? 0)%Z) merge (snd ke))) plan = [(1%Z, Some 5%Z)].
Proof.
  exists Z.mul, [(1, 0); (1, 5)]%Z, [(1%Z, BApp [BElem 0%Z; BElem 5%Z])].
  split; [apply eq_comm_semigroup; intros; lia|]. split.
  - split; [repeat constructor; cbn; tauto|]. split; [cbn; tauto|].
    intros k e [E|[]]. inversion E; subst. split; [cbn; split; [discriminate|tauto]|].
    apply Permutation_refl.
  - split; reflexivity.
Qed.

Lemma combining_example :
  let col := [(1, 10); (2, 20); (1, 11); (1, 12)]%Z in
  comm_semigroup eq Z.add /\
  reduce_plan col [(2%Z, Leaf 20%Z); (1%Z, Node (Leaf 12%Z) (Node (Leaf 10%Z) (Leaf 11%Z)))] /\
  beam_plan col [(2%Z, BElem 20%Z); (1%Z, BApp [BApp [BElem 11%Z; BElem 12%Z]; BElem 10%Z])].
Proof.
  cbn zeta. split; [apply eq_comm_semigroup; intros; lia|].
  assert (N : NoDup [2; 1]%Z).
  { constructor; [cbn; intros [E|[]]; discriminate|]. constructor; [tauto|constructor]. }
  split.
  - split; [exact N|]. split; [cbn; intro k; tauto|].
    intros k t [E|[E|[]]]; inversion E; subst; cbn.
    + apply Permutation_refl.
    + apply (Permutation_cons_append [10; 11]%Z 12%Z).
  - split; [exact N|]. split; [cbn; intro k; tauto|].
    intros k t [E|[E|[]]]; inversion E; subst; cbn.
    + split; [exact I|apply Permutation_refl].
    + split; [repeat split; discriminate|].
      apply Permutation_sym. apply (Permutation_cons_append [11; 12]%Z 10%Z).
Qed.

Lemma local_filter {K V} `{EqDec K} (col : list (K * V)) (keys : list K) :
  submset (filter_by_key col keys) col /\
  (forall k, values_of k (filter_by_key col keys) = if mem k keys then values_of k col else []).
Proof.
  split; [apply submset_filter_self|]. intro k. unfold filter_by_key.
  apply (values_of_filter_keys (fun k => mem k keys)).
Qed.

Lemma in_memory_filters {K V} `{EqDec K} (col : list (K * V)) (keys : list K) :
  beam_filter_in_memory col keys = filter_by_key col keys /\
  spark_filter_in_memory col keys = filter_by_key col keys.
Proof. split; apply filter_distinct_keys. Qed.

Lemma spark_join_refuted :
  exists (col : list (Z * Z)) (keys : list Z),
    ~ Permutation (spark_filter_rdd col keys) (filter_by_key col keys).
Proof.
  exists [(1, 5)]%Z, [1; 1]%Z. intro P. apply Permutation_length in P. discriminate P.
Qed.

Lemma sharded_filters {K V} `{EqDec K} (factor : nat) (shards : list nat)
    (col : list (K * V)) (keys : list K) :
  length shards = length col -> Forall (fun i => i < factor) shards ->
  filter_by_key_with_sharding filter_by_key filter_by_key factor shards col keys
    = filter_by_key col keys /\
  Permutation (filter_by_key_with_sharding beam_filter_join beam_filter_join factor shards col keys)
              (filter_by_key col keys).
Proof.
  intros L F. unfold filter_by_key_with_sharding. destruct (1 <? factor).
  - split; [apply sharded_filter; assumption|].
    eapply Permutation_trans; [apply Permutation_map, beam_filter_join_Permutation|].
    rewrite sharded_filter by assumption. apply Permutation_refl.
  - split; [reflexivity|apply beam_filter_join_Permutation].
Qed.

Lemma sum_values_total {K} `{EqDec K} (col : list (K * Z)) :
  sumZ (map snd (map_values sumZ (group_by_key col))) = sumZ (map snd col).
Proof.
  assert (Perm : forall a b, Permutation a b -> sumZ a = sumZ b).
  { induction 1; cbn in *; unfold sumZ in *; lia. }
  assert (App : forall a b, sumZ (a ++ b) = (sumZ a + sumZ b)%Z).
  { induction a as [|x a IH]; intro b; cbn; [reflexivity|]. fold (sumZ (a ++ b)). rewrite IH. unfold sumZ. lia. }
  rewrite <- (Perm _ _ (Permutation_map snd (group_by_key_ungroup col))).
  generalize (group_by_key col). intro g. induction g as [|[k vs] g IH]; [reflexivity|].
  assert (E : map snd (map (fun v => (k, v)) vs) = vs) by (rewrite map_map; apply map_id).
  cbn [map_values map flat_map fst snd]. rewrite map_app, App, E, <- IH. reflexivity.
Qed.

Lemma sum_per_key_correct {K} `{EqDec K} (col : list (K * Z)) :
  NoDup (map fst (sum_per_key col)) /\
  (forall k s, In (k, s) (sum_per_key col) <-> In k (map fst col) /\ s = sumZ (values_of k col)) /\
  sumZ (map snd (sum_per_key col)) = sumZ (map snd col).
Proof.
  unfold sum_per_key. rewrite map_values_keys, group_by_key_keys. split; [apply NoDup_distinct|].
  split; [|apply sum_values_total]. intros k s. unfold map_values. rewrite in_map_iff. split.
  - intros [[k' vs] [E Hin]]. cbn in E. inversion E; subst. apply in_group_by_key in Hin.
    destruct Hin as [Hk ->]. auto.
  - intros [Hk ->]. exists (k, values_of k col). split; [reflexivity|]. apply in_group_by_key. auto.
Qed.

Lemma count_per_element_correct {A} `{EqDec A} (col : list A) :
  NoDup (map fst (count_per_element col)) /\
  (forall x n, In (x, n) (count_per_element col) <-> In x col /\ n = Z.of_nat (occ x col)) /\
  sumZ (map snd (count_per_element col)) = Z.of_nat (length col).
Proof.
  split; [|split].
  - rewrite count_per_element_normal, map_map. cbn. rewrite map_id. apply NoDup_distinct.
  - intros x n. rewrite count_per_element_normal, in_map_iff. split.
    + intros [y [E Hy]]. inversion E; subst. apply (proj1 (in_distinct _ _)) in Hy. auto.
    + intros [Hx ->]. exists x. split; [reflexivity|]. apply in_distinct. exact Hx.
  - unfold count_per_element. rewrite sum_values_total, map_map. cbn.
    induction col as [|a col IH]; [reflexivity|]. cbn [map length]. unfold sumZ in *. cbn [fold_right].
    rewrite IH. lia.
Qed.

Lemma size_nonempty {A} (col : list A) : col <> [] -> size_col col = [Z.of_nat (length col)].
Proof.
  intro N. unfold size_col. rewrite count_per_element_normal.
  assert (D : forall n, distinct (repeat tt (S n)) = [tt]).
  { intro n. unfold distinct. cbn [repeat distinct_from]. cbn [mem existsb]. f_equal.
    induction n as [|n IH]; [reflexivity|]. cbn [repeat distinct_from]. cbn. exact IH. }
  assert (R : forall l : list A, map (fun _ => tt) l = repeat tt (length l)).
  { induction l as [|a l IH]; [reflexivity|]. cbn. rewrite IH. reflexivity. }
  rewrite R. destruct col as [|a col]; [congruence|]. cbn [length]. rewrite D. cbn [map snd]. do 2 f_equal.
  generalize (S (length col)). clear. intro n. induction n as [|n IH]; [reflexivity|].
  cbn [repeat occ]. rewrite IH. reflexivity.
Qed.

Lemma size_empty_refuted : exists col : list Z, size_col col <> [Z.of_nat (length col)].
Proof. exists []. discriminate. Qed.

Lemma min_max_fold (l : list (Z * Z)) (x : Z * Z) :
  Forall (fun p => fst p = snd p) l ->
  let r := fold_left (fun x y => (Z.min (fst x) (fst y), Z.max (snd x) (snd y))) l x in
  (fst r = fst x \/ In (fst r) (map fst l)) /\ (snd r = snd x \/ In (snd r) (map snd l)) /\
  (fst r <= fst x)%Z /\ (snd x <= snd r)%Z /\
  (forall p, In p l -> (fst r <= fst p)%Z /\ (snd p <= snd r)%Z).
Proof.
  revert x. induction l as [|y l IH]; intros x F; cbn zeta.
  - cbn. repeat split; try tauto; lia.
  - inversion F as [|? ? Fy Fl]; subst. cbn [fold_left]. specialize (IH (Z.min (fst x) (fst y), Z.max (snd x) (snd y)) Fl).
    cbn zeta in IH. cbn [fst snd] in IH. destruct IH as [I1 [I2 [I3 [I4 I5]]]].
    set (r := fold_left _ l _) in *. cbn [map In]. repeat split.
    + destruct I1 as [E|E]; [|tauto]. destruct (Z.min_spec (fst x) (fst y)) as [[_ M]|[_ M]]; rewrite M in E; auto.
    + destruct I2 as [E|E]; [|tauto]. destruct (Z.max_spec (snd x) (snd y)) as [[_ M]|[_ M]]; rewrite M in E; auto.
    + lia.
    + lia.
    + destruct H as [E|E]; [subst; lia|apply I5; exact E].
    + destruct H as [E|E]; [subst; lia|apply I5; exact E].
Qed.

Lemma min_max_correct {K} `{EqDec K} (col : list (K * Z)) :
  NoDup (map fst (min_max_per_key col)) /\
  (forall k, In k (map fst (min_max_per_key col)) <-> In k (map fst col)) /\
  (forall k lo hi, In (k, (lo, hi)) (min_max_per_key col) ->
     In (k, lo) col /\ In (k, hi) col /\ forall v, In (k, v) col -> (lo <= v <= hi)%Z).
Proof.
  unfold min_max_per_key. rewrite combine_per_key_keys, map_values_keys.
  split; [apply NoDup_distinct|]. split; [intro k; apply in_distinct|].
  intros k lo hi Hin. apply in_combine_per_key in Hin. rewrite values_of_map_values in Hin.
  assert (IV : forall v, In v (values_of k col) <-> In (k, v) col).
  { intro v. unfold values_of. rewrite in_map_iff. split.
    - intros [[k' v'] [E Hv]]. apply filter_In in Hv. destruct Hv as [Hv Ek]. cbn in *.
      apply eqb_eq in Ek. subst. exact Hv.
    - intro Hv. exists (k, v). split; [reflexivity|]. apply filter_In. split; [exact Hv|apply eqb_refl]. }
  destruct (values_of k col) as [|x rest] eqn:Ev; [discriminate|]. cbn [map fold1] in Hin.
  assert (F : Forall (fun p : Z * Z => fst p = snd p) (map (fun x => (x, x)) rest)).
  { apply Forall_forall. intros p Hp. apply in_map_iff in Hp. destruct Hp as [y [<- _]]. reflexivity. }
  pose proof (min_max_fold _ (x, x) F) as M. cbn zeta in M.
  inversion Hin as [E]. rewrite E in M. cbn [fst snd] in M. rewrite !map_map in M. cbn [fst snd] in M.
  rewrite map_id in M. destruct M as [M1 [M2 [M3 [M4 M5]]]].
  split; [apply IV; cbn; destruct M1 as [->|M1]; auto|].
  split; [apply IV; cbn; destruct M2 as [->|M2]; auto|].
  intros v Hv. apply IV in Hv. destruct Hv as [->|Hv]; [lia|].
  specialize (M5 (v, v)). cbn in M5. apply M5. apply in_map_iff. eauto.
Qed.
