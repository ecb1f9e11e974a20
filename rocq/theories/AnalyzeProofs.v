(** Lemmas for C64: what contribution bounding keeps in a partition. *)
From Coq Require Import List ZArith QArith Bool Permutation Lia.
From Verif Require Import Base BaseLemmas BackendModel BackendSpec ListLemmas BackendProofs BounderModel BounderSpec BounderProofs
  ParamsModel SensModel CombinerModel EngineModel EngineSpec EngineProofs EngineProofs2 EngineProofs4 HistProofs4 AnalyzeSpec.
Import ListNotations.

(** ** distinct *)
Lemma distinct_map_distinct {A B} `{EqDec A} `{EqDec B} (f : A -> B) l :
  distinct (map f (distinct l)) = distinct (map f l).
Proof.
  induction l as [|x l IH] using rev_ind; [reflexivity|].
  rewrite distinct_snoc, map_app. cbn [map]. rewrite distinct_snoc.
  destruct (mem x l) eqn:M.
  - apply mem_true_iff in M. assert (In (f x) (map f l)) as I by (apply in_map; exact M). apply mem_true_iff in I.
    rewrite I. exact IH.
  - rewrite map_app. cbn [map]. rewrite distinct_snoc, IH.
    rewrite (mem_ext (f x) (map f (distinct l)) (map f l)); [reflexivity|].
    rewrite !in_map_iff. split; intros (y & E & I); exists y; (split; [exact E|]); [apply (proj1 (in_distinct _ _)) in I | apply in_distinct]; exact I.
Qed.
Lemma distinct_map_inj {A B} `{EqDec A} `{EqDec B} (f : A -> B) l :
  (forall x y, In x l -> In y l -> f x = f y -> x = y) -> distinct (map f l) = map f (distinct l).
Proof.
  induction l as [|x l IH] using rev_ind; [reflexivity|]. intro J.
  rewrite map_app. cbn [map]. rewrite !distinct_snoc, IH by (intros; apply J; try (apply in_or_app; left); assumption).
  assert (M : mem (f x) (map f l) = mem x l).
  { destruct (mem x l) eqn:M.
    - apply mem_true_iff. apply mem_true_iff in M. apply in_map. exact M.
    - apply mem_false_iff. apply mem_false_iff in M. intro I. apply in_map_iff in I. destruct I as (y & E & I).
      apply M. rewrite (J x y); [exact I| | |auto]; apply in_or_app; [right; left; reflexivity|left; exact I]. }
  rewrite M. destruct (mem x l); [reflexivity|]. rewrite map_app. reflexivity.
Qed.

Section Bounding.
Context {U P V : Type} `{EqDec U} `{EqDec P}.
Implicit Types rows : list (U * P * V).

Definition id_list rows : list U := distinct (map (fun r => fst (fst r)) rows).

Lemma values_in_of u k rows : values_in u k rows = values_of (u, k) rows.
Proof.
  unfold values_in, values_of. f_equal. apply filter_ext_In. intros [[u' k'] v] _. cbn [fst snd].
  unfold eqb. destruct (eq_dec (u', k') (u, k)) as [E|N].
  - injection E as -> ->. destruct (eq_dec u u); [|congruence]. destruct (eq_dec k k); [reflexivity|congruence].
  - destruct (eq_dec u' u); [|reflexivity]. destruct (eq_dec k' k); [congruence|reflexivity].
Qed.
Lemma partitions_of_values u rows : partitions_of u rows = distinct (values_of u (map fst rows)).
Proof. unfold partitions_of, values_of. rewrite filter_map, map_map. reflexivity. Qed.
Lemma id_list_keys rows : id_list rows = distinct (map fst (map fst rows)).
Proof. unfold id_list. rewrite map_map. reflexivity. Qed.
Lemma values_in_nonempty u k rows : In k (partitions_of u rows) <-> values_in u k rows <> [].
Proof.
  rewrite in_partitions_of, values_in_of. split.
  - intros I E. apply values_of_nil_iff in E. exact (E I).
  - intro N. destruct (in_dec eq_dec (u, k) (map fst rows)) as [I|I]; [exact I|]. exfalso. apply N. apply values_of_nil_iff. exact I.
Qed.

(** The partitions of a privacy id, one entry each. *)
Definition entries_of {A} (sel : U -> list P) (w : U -> P -> A) (ids : list U) : list ((U * P) * A) :=
  flat_map (fun u => map (fun k => ((u, k), w u k)) (sel u)) ids.

Lemma cross_partition_form ch l0 rows :
  bound_cross_partition ch l0 (fun vs => vs) rows =
  entries_of (fun u => choose (ch u (length (partitions_of u rows))) l0 (partitions_of u rows))
             (fun u k => values_in u k rows) (id_list rows).
Proof.
  unfold bound_cross_partition, collect_values, map_values, unnest, entries_of.
  rewrite group_by_key_normal, !map_map. cbn [fst snd].
  rewrite map_flat_map, flat_map_map. cbn [fst snd].
  replace (distinct (map fst (key_by_pid rows))) with (id_list rows)
    by (unfold id_list, key_by_pid; rewrite map_map; reflexivity).
  apply flat_map_ext_In. intros u _.
  rewrite group_by_key_normal. unfold key_by_pid. rewrite keys_nested, <- partitions_of_values, map_length.
  rewrite choose_map, !map_map. cbn [fst snd]. apply map_ext. intro k. rewrite values_of_nested, values_in_of. reflexivity.
Qed.

Lemma cross_and_per_form ch1 ch2 l0 linf rows :
  bound_cross_and_per ch1 ch2 l0 linf (fun vs => vs) rows =
  entries_of (fun u => choose (ch2 u (length (partitions_of u rows))) l0 (partitions_of u rows))
             (fun u k => choose (ch1 (u, k) (length (values_in u k rows))) linf (values_in u k rows)) (id_list rows).
Proof.
  unfold bound_cross_and_per, map_values, unnest, entries_of. rewrite key_by_pid_pk_id, sample_normal, !map_map. cbn [fst snd].
  rewrite sample_normal, flat_map_map, !map_map. cbn [fst snd].
  rewrite distinct_map_distinct, <- id_list_keys. apply flat_map_ext_In. intros u _.
  assert (E : values_of u (map (fun x : U * P => (fst x, (snd x, choose (ch1 x (length (values_of x rows))) linf (values_of x rows))))
                              (distinct (map fst rows))) =
              map (fun k => (k, choose (ch1 (u, k) (length (values_in u k rows))) linf (values_in u k rows))) (partitions_of u rows)).
  { unfold values_of at 1. rewrite filter_map, map_map. cbn [fst snd]. rewrite <- distinct_filter.
    rewrite partitions_of_values. unfold values_of at 3. rewrite distinct_map_inj.
    - rewrite map_map. apply map_ext_in. intros [u' k] I. apply (proj1 (in_distinct _ _)) in I. apply filter_In in I.
      destruct I as [_ I]. cbn [fst] in I. apply ListLemmas.eqb_eq in I. subst u'. cbn [snd]. rewrite !values_in_of. reflexivity.
    - intros [a b] [a' b'] I I' E. apply filter_In in I, I'. destruct I as [_ I], I' as [_ I']. cbn in *.
      apply ListLemmas.eqb_eq in I, I'. congruence. }
  rewrite E, map_length, choose_map, map_map. reflexivity.
Qed.

Lemma linf_form ch linf rows : 
  Permutation (bound_linf ch linf (fun vs => vs) rows)
    (entries_of (fun u => partitions_of u rows)
       (fun u k => choose (ch (u, k) (length (values_in u k rows))) linf (values_in u k rows)) (id_list rows)).
Proof.
  unfold bound_linf, map_values, entries_of. rewrite key_by_pid_pk_id, sample_normal, !map_map. cbn [fst snd].
  rewrite <- (pairs_Permutation (map fst rows)). unfold pairs. rewrite map_flat_map, id_list_keys.
  apply Permutation_refl'. apply flat_map_ext_In. intros u _. rewrite map_map, <- partitions_of_values. apply map_ext. intro k.
  rewrite values_in_of. reflexivity.
Qed.
Lemma noop_form rows : 
  Permutation (bound_noop (fun vs => vs) rows)
    (entries_of (fun u => partitions_of u rows) (fun u k => values_in u k rows) (id_list rows)).
Proof.
  unfold bound_noop, map_values, entries_of. rewrite key_by_pid_pk_id, group_by_key_normal, !map_map. cbn [fst snd].
  rewrite <- (pairs_Permutation (map fst rows)). unfold pairs. rewrite map_flat_map, id_list_keys.
  apply Permutation_refl'. apply flat_map_ext_In. intros u _. rewrite map_map, <- partitions_of_values. apply map_ext. intro k.
  rewrite values_in_of. reflexivity.
Qed.

(** What is kept in partition [k]. *)
Lemma values_of_entries {A} sel (w : U -> P -> A) ids k : (forall u, In u ids -> NoDup (sel u)) ->
  values_of k (map (fun e => (snd (fst e), snd e)) (entries_of sel w ids)) =
  flat_map (fun u => if mem k (sel u) then [w u k] else []) ids.
Proof.
  intros N. unfold entries_of. rewrite map_flat_map. rewrite values_of_flat_map. apply flat_map_ext_In. intros u I.
  specialize (N u I). rewrite map_map. cbn [fst snd]. unfold values_of. rewrite filter_map, map_map. cbn [fst snd].
  clear I. induction (sel u) as [|x l IH]; [reflexivity|]. inversion N as [|? ? N1 N2]; subst. cbn [filter mem existsb].
  rewrite eqb_sym. destruct (eqb k x) eqn:E.
  - apply ListLemmas.eqb_eq in E. subst x. cbn [map orb]. rewrite filter_none; [reflexivity|].
    intros y Iy. apply eqb_false_iff. intros ->. contradiction.
  - cbn [orb]. apply IH. exact N2.
Qed.

End Bounding.
