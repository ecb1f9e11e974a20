(** Lemmas about the backend primitives. *)
From Coq Require Import List ZArith Bool Permutation PeanoNat Lia.
From Verif Require Import Base BackendModel BackendSpec ListLemmas.
Import ListNotations.

(** ** group_by_key in normal form *)
Lemma values_of_app {K V} `{EqDec K} (k : K) (a b : list (K * V)) :
  values_of k (a ++ b) = values_of k a ++ values_of k b.
Proof. unfold values_of. rewrite filter_app, map_app. reflexivity. Qed.

Lemma values_of_nil_iff {K V} `{EqDec K} (k : K) (col : list (K * V)) :
  values_of k col = [] <-> ~ In k (map fst col).
Proof.
  unfold values_of. induction col as [|[k' v] col IH]; cbn [filter map fst In].
  - tauto.
  - destruct (eqb k' k) eqn:E.
    + apply eqb_eq in E. subst. cbn. split; [discriminate|tauto].
    + apply eqb_neq in E. rewrite IH. tauto.
Qed.

Lemma dict_append_keys {K V} `{EqDec K} (k : K) (v : V) d :
  map fst (dict_append k v d) = if mem k (map fst d) then map fst d else map fst d ++ [k].
Proof.
  induction d as [|[k' vs] d IH]; [reflexivity|]. cbn [dict_append map fst].
  unfold mem. cbn [existsb]. destruct (eq_dec k k') as [->|N].
  - rewrite eqb_refl. reflexivity.
  - apply eqb_false_iff in N. rewrite N. cbn [orb]. cbn [map fst]. rewrite IH.
    unfold mem. destruct (existsb _ _); reflexivity.
Qed.

Lemma dict_append_normal {K V} `{EqDec K} (k : K) (v : V) (ks : list K) (f : K -> list V) :
  NoDup ks -> (~ In k ks -> f k = []) ->
  dict_append k v (map (fun x => (x, f x)) ks) =
  map (fun x => (x, f x ++ if eqb x k then [v] else [])) (if mem k ks then ks else ks ++ [k]).
Proof.
  induction ks as [|a ks IH]; intros N F.
  - cbn. rewrite eqb_refl, F by (intros []). reflexivity.
  - inversion N as [|? ? Na Nks]; subst. cbn [map dict_append].
    unfold mem. cbn [existsb].
    destruct (eq_dec k a) as [->|Nk].
    + rewrite eqb_refl. cbn [orb map]. rewrite eqb_refl. f_equal.
      apply map_ext_in. intros x Hx.
      assert (E : eqb x a = false) by (apply eqb_false_iff; congruence).
      rewrite E, app_nil_r. reflexivity.
    + pose proof Nk as Nk'. apply eqb_false_iff in Nk'. rewrite Nk'. cbn [orb].
      rewrite IH; [|assumption|].
      * unfold mem. destruct (existsb _ ks); cbn [map app]; rewrite (eqb_sym a k), Nk', app_nil_r; reflexivity.
      * intro Hn. apply F. cbn. intros [E|E]; [congruence|contradiction].
Qed.

Lemma group_by_key_normal {K V} `{EqDec K} (col : list (K * V)) :
  group_by_key col = map (fun k => (k, values_of k col)) (distinct (map fst col)).
Proof.
  induction col as [|[k v] col IH] using rev_ind; [reflexivity|].
  unfold group_by_key in *. rewrite fold_left_app. cbn [fold_left fst snd]. rewrite IH.
  rewrite dict_append_normal.
  - rewrite map_app. cbn [map fst]. rewrite distinct_snoc.
    rewrite (mem_ext k (distinct (map fst col)) (map fst col)) by apply in_distinct.
    apply map_ext_in. intros x _. rewrite values_of_app. f_equal. f_equal.
    unfold values_of. cbn [filter fst]. rewrite eqb_sym. destruct (eqb k x); reflexivity.
  - apply NoDup_distinct.
  - rewrite in_distinct. apply values_of_nil_iff.
Qed.

Lemma group_by_key_keys {K V} `{EqDec K} (col : list (K * V)) :
  map fst (group_by_key col) = distinct (map fst col).
Proof. rewrite group_by_key_normal, map_map. cbn. apply map_id. Qed.

Lemma in_group_by_key {K V} `{EqDec K} (col : list (K * V)) k vs :
  In (k, vs) (group_by_key col) <-> In k (map fst col) /\ vs = values_of k col.
Proof.
  rewrite group_by_key_normal, in_map_iff. split.
  - intros [x [E Hx]]. inversion E; subst. apply (proj1 (in_distinct _ _)) in Hx. tauto.
  - intros [Hk E]. exists k. subst. split; [reflexivity|]. apply in_distinct. exact Hk.
Qed.

Lemma group_nonempty {K V} `{EqDec K} (col : list (K * V)) k vs :
  In (k, vs) (group_by_key col) -> vs <> [].
Proof.
  intro Hin. apply in_group_by_key in Hin. destruct Hin as [Hk ->].
  intro E. apply values_of_nil_iff in E. contradiction.
Qed.

(** All values are kept by grouping. *)
Lemma values_filter_neq {K V} `{EqDec K} (k k' : K) (col : list (K * V)) :
  k <> k' -> values_of k (filter (fun kv => negb (eqb (fst kv) k')) col) = values_of k col.
Proof.
  intro N. unfold values_of. f_equal. rewrite filter_filter. apply filter_ext_In.
  intros [a b] _. cbn. destruct (eqb a k) eqn:E; [|apply andb_false_r].
  apply eqb_eq in E. subst. apply eqb_false_iff in N. rewrite N. reflexivity.
Qed.

Lemma ungroup_Permutation {K V} `{EqDec K} (ks : list K) (col : list (K * V)) :
  NoDup ks -> (forall k, In k (map fst col) -> In k ks) ->
  Permutation (flat_map (fun k => map (fun v => (k, v)) (values_of k col)) ks) col.
Proof.
  revert col. induction ks as [|a ks IH]; intros col N C.
  - destruct col as [|[k v] col]; [constructor|]. exfalso. apply (C k). left. reflexivity.
  - inversion N as [|? ? Na Nks]; subst. cbn [flat_map].
    eapply Permutation_trans; [|symmetry; apply (filter_split_Permutation (fun kv => eqb (fst kv) a))].
    apply Permutation_app.
    + unfold values_of. rewrite map_map.
      rewrite (map_ext_in _ (fun x => x)); [rewrite map_id; apply Permutation_refl|].
      intros [k v] Hin. apply filter_In in Hin. destruct Hin as [_ E]. cbn in E |- *.
      apply eqb_eq in E. subst. reflexivity.
    + eapply Permutation_trans;
        [|apply (IH (filter (fun kv => negb (eqb (fst kv) a)) col) Nks)].
      * apply flat_map_pointwise_Permutation. intros k Hk.
        rewrite values_filter_neq; [apply Permutation_refl|]. congruence.
      * intros k Hk. apply in_map_iff in Hk. destruct Hk as [[k' v] [E Hin]]. cbn in E. subst.
        apply filter_In in Hin. destruct Hin as [Hin Hn]. cbn in Hn.
        apply negb_true_iff, eqb_neq in Hn.
        destruct (C k) as [E|E]; [apply in_map_iff; exists (k, v); auto | congruence | exact E].
Qed.

Lemma group_by_key_ungroup {K V} `{EqDec K} (col : list (K * V)) :
  Permutation (flat_map (fun kvs => map (fun v => (fst kvs, v)) (snd kvs)) (group_by_key col)) col.
Proof.
  rewrite group_by_key_normal, flat_map_map. cbn [fst snd].
  apply ungroup_Permutation; [apply NoDup_distinct|]. intro k. apply in_distinct.
Qed.

Lemma values_of_Permutation {K V} `{EqDec K} (k : K) (a b : list (K * V)) :
  Permutation a b -> Permutation (values_of k a) (values_of k b).
Proof. intro P. apply Permutation_map, filter_Permutation, P. Qed.

Lemma values_of_map_values {K V W} `{EqDec K} (f : V -> W) (k : K) (col : list (K * V)) :
  values_of k (map_values f col) = map f (values_of k col).
Proof.
  unfold values_of, map_values. rewrite filter_map, !map_map. reflexivity.
Qed.

Lemma map_values_keys {K V W} (f : V -> W) (col : list (K * V)) :
  map fst (map_values f col) = map fst col.
Proof. unfold map_values. rewrite map_map. reflexivity. Qed.

(** Grouping commutes with dropping whole keys. *)
Lemma values_of_filter_keys {K V} `{EqDec K} (p : K -> bool) (k : K) (col : list (K * V)) :
  values_of k (filter (fun kv => p (fst kv)) col) = if p k then values_of k col else [].
Proof.
  unfold values_of. rewrite filter_filter. destruct (p k) eqn:P.
  - f_equal. apply filter_ext_In. intros [a b] _. cbn. destruct (eqb a k) eqn:E.
    + apply eqb_eq in E. subst. rewrite P. reflexivity.
    + apply andb_false_r.
  - rewrite filter_none; [reflexivity|]. intros [a b] _. cbn. destruct (eqb a k) eqn:E.
    + apply eqb_eq in E. subst. rewrite P. reflexivity.
    + apply andb_false_r.
Qed.

Lemma map_fst_filter_keys {K V} (p : K -> bool) (col : list (K * V)) :
  map fst (filter (fun kv => p (fst kv)) col) = filter p (map fst col).
Proof. rewrite filter_map. reflexivity. Qed.

Lemma group_by_key_filter_keys {K V} `{EqDec K} (p : K -> bool) (col : list (K * V)) :
  group_by_key (filter (fun kv => p (fst kv)) col) =
  filter (fun kvs => p (fst kvs)) (group_by_key col).
Proof.
  rewrite !group_by_key_normal, map_fst_filter_keys, distinct_filter, filter_map. cbn [fst].
  apply map_ext_in. intros k Hk. apply filter_In in Hk. destruct Hk as [_ Hp].
  rewrite values_of_filter_keys, Hp. reflexivity.
Qed.

Lemma group_by_key_map_values {K V W} `{EqDec K} (f : V -> W) (col : list (K * V)) :
  group_by_key (map_values f col) = map_values (map f) (group_by_key col).
Proof.
  rewrite !group_by_key_normal, map_values_keys. unfold map_values at 2. rewrite map_map. cbn.
  apply map_ext. intro k. rewrite values_of_map_values. reflexivity.
Qed.

(** ** choose *)
Lemma choose_length {V} (idx : list nat) n (vs : list V) :
  (n < length vs -> valid_draw n (length vs) idx) ->
  length (choose idx n vs) = Nat.min n (length vs).
Proof.
  intro D. unfold choose. destruct (Nat.ltb_spec n (length vs)) as [L|L].
  - destruct (D L) as [N [E F]]. rewrite pick_length by exact F. lia.
  - lia.
Qed.

Lemma choose_submset {V} (idx : list nat) n (vs : list V) :
  (n < length vs -> valid_draw n (length vs) idx) -> submset (choose idx n vs) vs.
Proof.
  intro D. unfold choose. destruct (Nat.ltb_spec n (length vs)) as [L|L].
  - destruct (D L) as [N [E F]]. apply pick_submset; assumption.
  - apply submset_refl.
Qed.

Lemma choose_small {V} (idx : list nat) n (vs : list V) :
  length vs <= n -> choose idx n vs = vs.
Proof.
  intro L. unfold choose. destruct (Nat.ltb_spec n (length vs)); [lia|reflexivity].
Qed.

Lemma valid_source_draw {K} n (ch : source K) k m :
  valid_source n ch -> n < m -> valid_draw n m (ch k m).
Proof. intros Hs L. apply Hs. exact L. Qed.

(** ** sample_fixed_per_key *)
Lemma sample_normal {K V} `{EqDec K} (ch : source K) n (col : list (K * V)) :
  sample_fixed_per_key ch n col =
  map (fun k => (k, choose (ch k (length (values_of k col))) n (values_of k col)))
      (distinct (map fst col)).
Proof. unfold sample_fixed_per_key. rewrite group_by_key_normal, map_map. reflexivity. Qed.

Lemma sample_keys {K V} `{EqDec K} (ch : source K) n (col : list (K * V)) :
  map fst (sample_fixed_per_key ch n col) = distinct (map fst col).
Proof. rewrite sample_normal, map_map. cbn. apply map_id. Qed.

Lemma in_sample {K V} `{EqDec K} (ch : source K) n (col : list (K * V)) k vs :
  In (k, vs) (sample_fixed_per_key ch n col) <->
  In k (map fst col) /\ vs = choose (ch k (length (values_of k col))) n (values_of k col).
Proof.
  rewrite sample_normal, in_map_iff. split.
  - intros [x [E Hx]]. inversion E; subst. apply (proj1 (in_distinct _ _)) in Hx. tauto.
  - intros [Hk E]. exists k. subst. split; [reflexivity|]. apply in_distinct. exact Hk.
Qed.

Lemma sample_filter_keys {K V} `{EqDec K} (ch : source K) n (p : K -> bool) (col : list (K * V)) :
  sample_fixed_per_key ch n (filter (fun kv => p (fst kv)) col) =
  filter (fun kvs => p (fst kvs)) (sample_fixed_per_key ch n col).
Proof.
  unfold sample_fixed_per_key. rewrite group_by_key_filter_keys, filter_map. reflexivity.
Qed.

(** ** Spark sampling *)
Lemma spark_sample_length {A} n (t : stree A) :
  1 <= n -> valid_stree n t -> length (spark_sample t) = Nat.min n (length (sleaves t)).
Proof.
  intro Hn. induction t as [a|idx l IHl r IHr]; cbn [valid_stree spark_sample sleaves].
  - intros _. cbn. lia.
  - intros [Vl [Vr [N [L F]]]]. rewrite pick_length.
    + rewrite L, IHl, IHr, app_length by assumption. lia.
    + rewrite app_length. exact F.
Qed.

Lemma spark_sample_submset {A} n (t : stree A) :
  valid_stree n t -> submset (spark_sample t) (sleaves t).
Proof.
  induction t as [a|idx l IHl r IHr]; cbn [valid_stree spark_sample sleaves].
  - intros _. apply submset_refl.
  - intros [Vl [Vr [N [L F]]]]. eapply submset_trans.
    + apply pick_submset; [exact N|]. rewrite app_length. exact F.
    + apply submset_app; [apply IHl, Vl | apply IHr, Vr].
Qed.

(** ** Combining *)

(** The merge of a non-empty list in the given order. *)
Definition fold1 {A} (merge : A -> A -> A) (l : list A) : option A :=
  match l with [] => None | a :: rest => Some (fold_left merge rest a) end.

Definition assoc {A} (R : A -> A -> Prop) (merge : A -> A -> A) : Prop :=
  forall x y z, R (merge (merge x y) z) (merge x (merge y z)).

Lemma combine_per_key_normal {K A} `{EqDec K} (merge : A -> A -> A) (col : list (K * A)) :
  combine_per_key merge col =
  flat_map (fun k => match fold1 merge (values_of k col) with Some a => [(k, a)] | None => [] end)
           (distinct (map fst col)).
Proof.
  unfold combine_per_key. rewrite group_by_key_normal, flat_map_map. cbn [fst snd].
  apply flat_map_ext_In. intros k _. destruct (values_of k col); reflexivity.
Qed.

Lemma combine_per_key_keys {K A} `{EqDec K} (merge : A -> A -> A) (col : list (K * A)) :
  map fst (combine_per_key merge col) = distinct (map fst col).
Proof.
  rewrite combine_per_key_normal, map_flat_map.
  rewrite (flat_map_ext_In _ (fun k => [k])); [rewrite flat_map_singleton; apply map_id|].
  intros k Hk. apply (proj1 (in_distinct _ _)) in Hk.
  destruct (values_of k col) eqn:E; [apply values_of_nil_iff in E; contradiction | reflexivity].
Qed.

Lemma in_combine_per_key {K A} `{EqDec K} (merge : A -> A -> A) (col : list (K * A)) k a :
  In (k, a) (combine_per_key merge col) <-> fold1 merge (values_of k col) = Some a.
Proof.
  rewrite combine_per_key_normal, in_flat_map. split.
  - intros [x [Hx Hin]]. destruct (fold1 merge (values_of x col)) eqn:E; [|destruct Hin].
    destruct Hin as [E'|[]]. inversion E'; subst. exact E.
  - intro E. exists k. split.
    + apply in_distinct. destruct (in_dec eq_dec k (map fst col)) as [Hk|Hk]; [exact Hk|].
      apply values_of_nil_iff in Hk. rewrite Hk in E. discriminate.
    + rewrite E. left. reflexivity.
Qed.

Lemma cs_fold_cong {A} R (merge : A -> A -> A) (C : comm_semigroup R merge) l x y :
  R x y -> R (fold_left merge l x) (fold_left merge l y).
Proof.
  revert x y. induction l as [|a l IH]; intros x y E; cbn [fold_left]; [exact E|].
  apply IH. apply (cs_cong _ _ C); [exact E | apply (cs_refl _ _ C)].
Qed.

Lemma cs_fold_out {A} R (merge : A -> A -> A) (C : comm_semigroup R merge) l x y :
  R (fold_left merge l (merge x y)) (merge x (fold_left merge l y)).
Proof.
  revert y. induction l as [|a l IH]; intro y; cbn [fold_left]; [apply (cs_refl _ _ C)|].
  eapply (cs_trans _ _ C); [|apply IH]. apply cs_fold_cong; [exact C|]. apply (cs_assoc _ _ C).
Qed.

Definition optR {A} (R : A -> A -> Prop) (x y : option A) : Prop :=
  match x, y with Some a, Some b => R a b | None, None => True | _, _ => False end.

Lemma optR_trans {A} R (merge : A -> A -> A) (C : comm_semigroup R merge) x y z :
  optR R x y -> optR R y z -> optR R x z.
Proof.
  destruct x, y, z; cbn; try tauto. apply (cs_trans _ _ C).
Qed.

Lemma fold1_cons {A} R (merge : A -> A -> A) (C : comm_semigroup R merge) a l :
  optR R (fold1 merge (a :: l))
         (match fold1 merge l with None => Some a | Some b => Some (merge a b) end).
Proof.
  destruct l as [|b l]; cbn; [apply (cs_refl _ _ C)|]. apply cs_fold_out. exact C.
Qed.

Lemma fold1_Permutation {A} R (merge : A -> A -> A) (C : comm_semigroup R merge) l l' :
  Permutation l l' -> optR R (fold1 merge l) (fold1 merge l').
Proof.
  induction 1 as [|x l l' P IH|x y l|l l' l'' P1 IH1 P2 IH2].
  - exact I.
  - eapply optR_trans; [exact C|apply (fold1_cons R merge C)|].
    assert (S : optR R (match fold1 merge l with None => Some x | Some b => Some (merge x b) end)
                     (match fold1 merge l' with None => Some x | Some b => Some (merge x b) end)).
    { destruct (fold1 merge l), (fold1 merge l'); cbn in IH |- *; try tauto.
      - apply (cs_cong _ _ C); [apply (cs_refl _ _ C)|exact IH].
      - apply (cs_refl _ _ C). }
    eapply optR_trans; [exact C|exact S|].
    pose proof (fold1_cons R merge C x l') as F.
    destruct (fold1 merge (x :: l')), (fold1 merge l'); cbn in F |- *; try tauto;
      apply (cs_sym _ _ C); exact F.
  - cbn [fold1 fold_left]. cbn. apply cs_fold_cong; [exact C|]. apply (cs_comm _ _ C).
  - eapply optR_trans; [exact C|exact IH1|exact IH2].
Qed.

Lemma fold1_app {A} R (merge : A -> A -> A) (C : comm_semigroup R merge) l l' a b :
  fold1 merge l = Some a -> fold1 merge l' = Some b ->
  optR R (fold1 merge (l ++ l')) (Some (merge a b)).
Proof.
  destruct l as [|x l], l' as [|y l']; cbn; intros Ea Eb; try discriminate.
  inversion Ea; inversion Eb; subst. rewrite fold_left_app. cbn [fold_left].
  apply cs_fold_out. exact C.
Qed.

Lemma reduce_tree_fold1 {A} R (merge : A -> A -> A) (C : comm_semigroup R merge) t :
  optR R (fold1 merge (leaves t)) (Some (reduce_tree merge t)).
Proof.
  induction t as [a|l IHl r IHr]; cbn [leaves reduce_tree].
  - cbn. apply (cs_refl _ _ C).
  - destruct (fold1 merge (leaves l)) as [x|] eqn:El; [|contradiction IHl].
    destruct (fold1 merge (leaves r)) as [y|] eqn:Er; [|contradiction IHr].
    eapply optR_trans; [exact C|eapply fold1_app; eassumption|]. cbn in *.
    apply (cs_cong _ _ C); assumption.
Qed.

(** Beam: the merge function on a list of present, truthy accumulators. *)
Lemma beam_merge_fold1 {A} (truthy : A -> bool) (merge : A -> A -> A) (accs : list A) :
  (forall x y, truthy (merge x y) = true) -> (forall x, In x accs -> truthy x = true) ->
  beam_merge truthy merge (map Some accs) = fold1 merge accs.
Proof.
  intros Tm Ta. destruct accs as [|a accs]; [reflexivity|].
  unfold beam_merge, fold1. cbn [map fold_left].
  assert (G : forall l x, truthy x = true ->
    fold_left (fun res acc => match res with
      | Some r => if truthy r then match acc with Some a0 => Some (merge r a0) | None => None end else acc
      | None => acc end) (map Some l) (Some x) = Some (fold_left merge l x)).
  { induction l as [|b l IH]; intros x Tx; [reflexivity|]. cbn [map fold_left]. rewrite Tx.
    apply IH. apply Tm. }
  apply G. apply Ta. left. reflexivity.
Qed.

Fixpoint bexp_ind' {A} (P : bexp A -> Prop) (fe : forall a, P (BElem a))
    (fa : forall l, Forall P l -> P (BApp l)) (e : bexp A) : P e :=
  match e with
  | BElem a => fe a
  | BApp l => fa l ((fix go l := match l return Forall P l with
                                 | [] => Forall_nil P
                                 | x :: l' => Forall_cons x (bexp_ind' P fe fa x) (go l')
                                 end) l)
  end.

Lemma beam_eval_fold1 {A} R (truthy : A -> bool) (merge : A -> A -> A)
    (C : comm_semigroup R merge) (T : A -> Prop) (e : bexp A) :
  (forall x, T x -> truthy x = true) -> (forall x y, T x -> T y -> T (merge x y)) ->
  bexp_ok e -> (forall x, In x (belems e) -> T x) ->
  exists v, beam_eval truthy merge e = Some v /\ T v /\ optR R (fold1 merge (belems e)) (Some v).
Proof.
  intros TT Tm. induction e as [a|l IH] using bexp_ind'; intros Ok Te.
  - exists a. cbn in *. split; [reflexivity|]. split; [apply Te; tauto|]. apply (cs_refl _ _ C).
  - cbn [bexp_ok] in Ok. destruct Ok as [Ne Ok]. cbn [beam_eval belems] in *.
    assert (Step : forall l0, Forall (fun e => bexp_ok e -> (forall x, In x (belems e) -> T x) ->
               exists v, beam_eval truthy merge e = Some v /\ T v /\
                         optR R (fold1 merge (belems e)) (Some v)) l0 ->
             fold_right (fun e P => bexp_ok e /\ P) True l0 ->
             (forall x, In x (flat_map belems l0) -> T x) ->
             forall pre x, fold1 merge pre = Some x \/ True -> T x ->
               optR R (fold1 merge pre) (Some x) ->
             exists v, fold_left (fun res acc => match res with
                 | Some r => if truthy r then match acc with Some a0 => Some (merge r a0) | None => None end else acc
                 | None => acc end) (map (beam_eval truthy merge) l0) (Some x) = Some v /\ T v /\
               optR R (fold1 merge (pre ++ flat_map belems l0)) (Some v)).
    { induction l0 as [|e l0 IH0]; intros F O Tl pre x _ Tx Rx.
      - exists x. cbn. rewrite app_nil_r. tauto.
      - inversion F as [|? ? He F']; subst. destruct O as [Oe O]. cbn [flat_map] in Tl |- *.
        destruct He as [v [Ev [Tv Rv]]]; [exact Oe|intros y Hy; apply Tl, in_or_app; tauto|].
        cbn [map fold_left]. rewrite Ev, (TT x Tx). rewrite app_assoc.
        apply IH0; [exact F'|exact O|intros y Hy; apply Tl, in_or_app; tauto|right; exact I| |].
        + apply Tm; assumption.
        + destruct (fold1 merge pre) as [p|] eqn:Ep; [|contradiction Rx].
          destruct (fold1 merge (belems e)) as [q|] eqn:Eq; [|contradiction Rv].
          eapply optR_trans; [exact C|eapply fold1_app; eassumption|]. cbn in *.
          apply (cs_cong _ _ C); assumption. }
    destruct l as [|e l]; [congruence|]. inversion IH as [|? ? He F']; subst.
    destruct Ok as [Oe Ol]. cbn [flat_map] in Te |- *.
    destruct He as [v [Ev [Tv Rv]]]; [exact Oe|intros y Hy; apply Te, in_or_app; tauto|].
    unfold beam_merge. cbn [map fold_left]. rewrite Ev.
    apply (Step l F' Ol) with (pre := belems e);
      [intros y Hy; apply Te, in_or_app; tauto|right; exact I|exact Tv|exact Rv].
Qed.

(** ** Key filtering *)
Lemma filter_mem_ext {K V} `{EqDec K} (col : list (K * V)) ks ks' :
  (forall k, In k ks <-> In k ks') -> filter_by_key col ks = filter_by_key col ks'.
Proof.
  intro E. unfold filter_by_key. apply filter_ext_In. intros kv _. apply mem_ext, E.
Qed.

Lemma beam_filter_join_Permutation {K V} `{EqDec K} (col : list (K * V)) (keys : list K) :
  Permutation (beam_filter_join col keys) (filter_by_key col keys).
Proof.
  unfold beam_filter_join, cogroup. rewrite flat_map_map.
  rewrite (map_map (fun k => (k, true)) fst), map_id. cbn [fst].
  set (ks := distinct (map fst col ++ keys)).
  eapply Permutation_trans; [|apply (ungroup_Permutation ks (filter_by_key col keys))].
  - apply flat_map_pointwise_Permutation. intros k Hk.
    unfold filter_by_key. rewrite (values_of_filter_keys (fun k => mem k keys)).
    fold (values_of k col).
    assert (E : map snd (filter (fun kw : K * bool => eqb (fst kw) k) (map (fun k0 => (k0, true)) keys)) = []
                <-> mem k keys = false).
    { rewrite filter_map, map_map. cbn [fst snd]. rewrite mem_false_iff. split.
      - intros E Hin. apply map_eq_nil in E.
        assert (Hk' : In k (filter (fun x => eqb x k) keys)) by (apply filter_In; split; [exact Hin|apply eqb_refl]).
        rewrite E in Hk'. destruct Hk'.
      - intro N. rewrite filter_none; [reflexivity|]. intros x Hx. apply eqb_false_iff. congruence. }
    destruct (values_of k col) as [|v vs]; [destruct (mem k keys); apply Permutation_refl|].
    destruct (map snd _) as [|b bs] eqn:Eb.
    + rewrite (proj1 E eq_refl). apply Permutation_refl.
    + destruct (mem k keys); [apply Permutation_refl|].
      destruct E as [_ E]. specialize (E eq_refl). discriminate E.
  - apply NoDup_distinct.
  - intros k Hk. apply in_map_iff in Hk. destruct Hk as [[k' v] [E Hin]]. cbn in E. subst k'.
    apply filter_In in Hin. destruct Hin as [Hin _]. apply in_distinct, in_or_app. left.
    apply in_map_iff. exists (k, v). auto.
Qed.

Lemma spark_filter_rdd_row {K V} `{EqDec K} (kv : K * V) (keys : list K) :
  flat_map (fun k => if eq_dec (fst kv) k then [kv] else []) keys = repeat kv (occ (fst kv) keys).
Proof.
  induction keys as [|k keys IH]; [reflexivity|]. cbn [flat_map occ].
  rewrite IH. destruct (eq_dec (fst kv) k); reflexivity.
Qed.

Lemma spark_filter_rdd_normal {K V} `{EqDec K} (col : list (K * V)) (keys : list K) :
  spark_filter_rdd col keys = flat_map (fun kv => repeat kv (occ (fst kv) keys)) col.
Proof.
  unfold spark_filter_rdd, join. rewrite map_flat_map. apply flat_map_ext_In.
  intros [k v] _. cbn [fst snd]. rewrite <- (spark_filter_rdd_row (k, v) keys). cbn [fst].
  rewrite flat_map_map, map_flat_map. cbn [fst snd]. apply flat_map_ext_In. intros x _.
  destruct (eq_dec k x); reflexivity.
Qed.

Lemma occ_NoDup {A} `{EqDec A} (l : list A) x :
  NoDup l -> occ x l = if mem x l then 1 else 0.
Proof.
  induction l as [|a l IH]; intro N; [reflexivity|]. inversion N as [|? ? Na Nl]; subst.
  cbn [occ]. rewrite IH by assumption. unfold mem. cbn [existsb]. unfold eqb at 2.
  destruct (eq_dec x a) as [->|E]; cbn [orb].
  - apply mem_false_iff in Na. unfold mem in Na. rewrite Na. reflexivity.
  - reflexivity.
Qed.

Lemma spark_filter_rdd_NoDup {K V} `{EqDec K} (col : list (K * V)) (keys : list K) :
  NoDup keys -> spark_filter_rdd col keys = filter_by_key col keys.
Proof.
  intro N. rewrite spark_filter_rdd_normal. unfold filter_by_key.
  induction col as [|kv col IH]; [reflexivity|]. cbn [flat_map filter].
  rewrite IH, occ_NoDup by exact N. destruct (mem (fst kv) keys); reflexivity.
Qed.

Lemma filter_distinct_keys {K V} `{EqDec K} (col : list (K * V)) (keys : list K) :
  filter (fun kv => mem (fst kv) (distinct keys)) col = filter_by_key col keys.
Proof. apply filter_ext_In. intros kv _. apply mem_ext, in_distinct. Qed.

(** Sharding. *)
Lemma sharded_filter {K V} `{EqDec K} (factor : nat) (shards : list nat) (col : list (K * V)) keys :
  length shards = length col -> Forall (fun i => i < factor) shards ->
  map (fun kv : (K * nat) * V => (fst (fst kv), snd kv))
      (filter_by_key (map (fun x => ((fst (fst x), snd x), snd (fst x))) (combine col shards))
                     (flat_map (fun p => map (fun i => (p, i)) (seq 0 factor)) keys))
  = filter_by_key col keys.
Proof.
  revert shards. induction col as [|[k v] col IH]; intros [|s shards] L F; try discriminate L; [reflexivity|].
  inversion F as [|? ? Hs F']; subst. cbn [combine map]. unfold filter_by_key in *. cbn [filter fst snd].
  assert (E : mem (k, s) (flat_map (fun p => map (fun i => (p, i)) (seq 0 factor)) keys) = mem k keys).
  { destruct (mem k keys) eqn:M.
    - apply mem_true_iff in M. apply mem_true_iff. apply in_flat_map. exists k. split; [exact M|].
      apply in_map_iff. exists s. split; [reflexivity|]. apply in_seq. lia.
    - apply mem_false_iff in M. apply mem_false_iff. intro Hin. apply in_flat_map in Hin.
      destruct Hin as [p [Hp Hin]]. apply in_map_iff in Hin. destruct Hin as [i [Ei _]]. congruence. }
  rewrite E. destruct (mem k keys); cbn [map fst snd]; rewrite IH; auto.
Qed.

(** ** Counting *)
Lemma sumZ_repeat_ones n : sumZ (repeat 1%Z n) = Z.of_nat n.
Proof. induction n as [|n IH]; [reflexivity|]. cbn [repeat sumZ fold_right]. unfold sumZ in IH. rewrite IH. lia. Qed.

Lemma values_of_ones {A} `{EqDec A} (x : A) (col : list A) :
  values_of x (map (fun y => (y, 1%Z)) col) = repeat 1%Z (occ x col).
Proof.
  unfold values_of. rewrite filter_map, map_map. cbn.
  induction col as [|a col IH]; [reflexivity|]. cbn [filter occ]. unfold eqb at 1.
  destruct (eq_dec a x) as [E|N]; destruct (eq_dec x a) as [E'|N'].
  - cbn [map repeat Nat.add]. rewrite IH. reflexivity.
  - exfalso. apply N'. symmetry. exact E.
  - exfalso. apply N. symmetry. exact E'.
  - exact IH.
Qed.

Lemma count_per_element_normal {A} `{EqDec A} (col : list A) :
  count_per_element col = map (fun x => (x, Z.of_nat (occ x col))) (distinct col).
Proof.
  unfold count_per_element, map_values. rewrite group_by_key_normal, !map_map. cbn [fst snd].
  rewrite map_id. apply map_ext. intro x. rewrite values_of_ones, sumZ_repeat_ones. reflexivity.
Qed.
