(** Lemmas for C77: the chances of rows in the contribution bounders. *)
From Coq Require Import List ZArith QArith Bool Lia Permutation PeanoNat Setoid.
From Coq Require Import Lqa.
From Verif Require Import Base BaseLemmas ListLemmas BackendModel BackendSpec BackendProofs BounderModel BounderSpec BounderProofs.
From Verif Require Import ParamsModel EngineModel AnalyzeSpec AnalyzeProofs.
From Verif Require Import SampleModel SampleSpec SampleProofs.
Import ListNotations.
Local Open Scope Q_scope.

Definition keeps (n : nat) (idx : list nat) (m j : nat) : Q := if (n <? m)%nat then indicator (mem j idx) else 1.

Lemma total_choose {A} (g : A -> Q) n idx (l : list A) : ((n < length l)%nat -> valid_draw n (length l) idx) ->
  total g (choose idx n l) == total (fun j => keeps n idx (length l) j * at_pos g l j) (seq 0 (length l)).
Proof.
  intro Hv. unfold choose, keeps. destruct (Nat.ltb_spec n (length l)) as [L|L].
  - destruct (Hv L) as (N & _ & F). rewrite total_pick. apply total_seq_indicator; assumption.
  - rewrite <- total_positions. apply total_ext. intros. ring.
Qed.

Section Fair.
Context {U P V : Type} `{EqDec U} `{EqDec P}.
Implicit Types rows : list (U * P * V).
Variables (n1 n2 : nat) (g1 : list ((U * P) * nat)) (g2 : list (U * nat)) (d : dist (sampling U P)).
Hypothesis fair : fair_draws n1 n2 g1 g2 d.

Lemma d_dist : is_distribution d. Proof. apply fair. Qed.

Lemma keeps1 k m j : In (k, m) g1 -> (j < m)%nat -> expect d (fun sm => keeps n1 (ch_pid_pk sm k m) m j) == chance n1 m.
Proof.
  intros I Lj. unfold keeps, chance. destruct (Nat.ltb_spec n1 m) as [L|L]; [apply fair; assumption|]. apply (expect_const _ 1 d_dist).
Qed.
Lemma keeps2 u m j : In (u, m) g2 -> (j < m)%nat -> expect d (fun sm => keeps n2 (ch_pid sm u m) m j) == chance n2 m.
Proof.
  intros I Lj. unfold keeps, chance. destruct (Nat.ltb_spec n2 m) as [L|L]; [apply fair; assumption|]. apply (expect_const _ 1 d_dist).
Qed.
Lemma keeps_both k m j u m' j' : In (k, m) g1 -> (j < m)%nat -> In (u, m') g2 -> (j' < m')%nat ->
  expect d (fun sm => keeps n1 (ch_pid_pk sm k m) m j * keeps n2 (ch_pid sm u m') m' j') == chance n1 m * chance n2 m'.
Proof.
  intros I Lj I' Lj'. destruct (Nat.ltb_spec n1 m) as [L|L]; [destruct (Nat.ltb_spec n2 m') as [L'|L']|].
  - unfold keeps, chance. apply Nat.ltb_lt in L as E, L' as E'. rewrite E, E'. apply fair; assumption.
  - rewrite (expect_ext _ _ (fun sm => keeps n1 (ch_pid_pk sm k m) m j)); [rewrite keeps1 by assumption|].
    + unfold chance at 3. apply Nat.ltb_ge in L'. rewrite L'. ring.
    + intros sm _. unfold keeps at 2. apply Nat.ltb_ge in L'. rewrite L'. ring.
  - rewrite (expect_ext _ _ (fun sm => keeps n2 (ch_pid sm u m') m' j')); [rewrite keeps2 by assumption|].
    + unfold chance at 2. apply Nat.ltb_ge in L. rewrite L. ring.
    + intros sm _. unfold keeps at 1. apply Nat.ltb_ge in L. rewrite L. ring.
Qed.

(** Sampling the values of a pair, and possibly, for [w], its partition. *)
Lemma values_alone k (vs : list V) (f : V -> Q) : In (k, length vs) g1 ->
  expect d (fun sm => total f (choose (ch_pid_pk sm k (length vs)) n1 vs)) == chance n1 (length vs) * total f vs.
Proof.
  intro I.
  rewrite (expect_ext _ _ (fun sm => total (fun j => keeps n1 (ch_pid_pk sm k (length vs)) (length vs) j * at_pos f vs j) (seq 0 (length vs)))).
  - rewrite expect_total. rewrite <- (total_positions f vs), <- total_scale. apply total_ext. intros j Ij. apply in_seq in Ij.
    rewrite expect_scale_r, keeps1 by (assumption || lia). reflexivity.
  - intros sm S. apply total_choose. intro L. apply (proj1 (proj2 fair) sm S); assumption.
Qed.
Lemma values_and_partition k (vs : list V) (f : V -> Q) u m' j' : In (k, length vs) g1 -> In (u, m') g2 -> (j' < m')%nat ->
  expect d (fun sm => keeps n2 (ch_pid sm u m') m' j' * total f (choose (ch_pid_pk sm k (length vs)) n1 vs)) ==
  chance n2 m' * (chance n1 (length vs) * total f vs).
Proof.
  intros I I' Lj.
  rewrite (expect_ext _ _ (fun sm => total (fun j => keeps n1 (ch_pid_pk sm k (length vs)) (length vs) j * keeps n2 (ch_pid sm u m') m' j' * at_pos f vs j) (seq 0 (length vs)))).
  - rewrite expect_total. rewrite <- (total_positions f vs), <- !total_scale. apply total_ext. intros j Ij. apply in_seq in Ij.
    rewrite expect_scale_r, keeps_both by (assumption || lia). ring.
  - intros sm S. rewrite total_choose.
    + rewrite <- total_scale. apply total_ext. intros. ring.
    + intro L. apply (proj1 (proj2 fair) sm S); assumption.
Qed.

(** Sampling among the elements grouped by a privacy id, each worth [w sm x]. *)
Lemma elements_of_id {X} u (xs : list X) (w : sampling U P -> X -> Q) (c : X -> Q) :
  In (u, length xs) g2 ->
  (forall x j, In x xs -> (j < length xs)%nat ->
     expect d (fun sm => keeps n2 (ch_pid sm u (length xs)) (length xs) j * w sm x) == chance n2 (length xs) * c x) ->
  expect d (fun sm => total (w sm) (choose (ch_pid sm u (length xs)) n2 xs)) == chance n2 (length xs) * total c xs.
Proof.
  intros I Hw.
  rewrite (expect_ext _ _ (fun sm => total (fun j => keeps n2 (ch_pid sm u (length xs)) (length xs) j * at_pos (w sm) xs j) (seq 0 (length xs)))).
  - rewrite expect_total. rewrite <- (total_positions c xs), <- total_scale. apply total_ext. intros j Ij. apply in_seq in Ij.
    destruct (nth_error xs j) as [x|] eqn:E; [|apply nth_error_None in E; lia].
    unfold at_pos at 2. rewrite E. rewrite <- (Hw x j); [|apply (nth_error_In _ _ E)|lia].
    apply expect_ext. intros sm _. unfold at_pos. rewrite E. reflexivity.
  - intros sm S. apply total_choose. intro L. apply (proj1 (proj2 fair) sm S); assumption.
Qed.
Lemma elements_alone {X} u (xs : list X) (c : X -> Q) : In (u, length xs) g2 ->
  expect d (fun sm => total c (choose (ch_pid sm u (length xs)) n2 xs)) == chance n2 (length xs) * total c xs.
Proof.
  intro I. apply (elements_of_id u xs (fun _ => c) c I). intros x j _ Lj. rewrite expect_scale_r, keeps2 by assumption. reflexivity.
Qed.
End Fair.

(** ** Rows by privacy id and partition *)
Section Rows.
Context {U P V : Type} `{EqDec U} `{EqDec P}.
Implicit Types rows : list (U * P * V).

Lemma total_entries (f : U * P * V -> Q) sel (w : U -> P -> list V) ids :
  total f (as_rows (entries_of sel w ids)) ==
  total (fun u => total (fun k => total (fun v => f (u, k, v)) (w u k)) (sel u)) ids.
Proof.
  unfold as_rows, entries_of. rewrite total_flat_map, total_flat_map. apply total_ext. intros u _.
  rewrite total_map. apply total_ext. intros k _. cbn [fst snd]. rewrite total_map. reflexivity.
Qed.
Lemma as_rows_Permutation (l l' : list ((U * P) * list V)) : Permutation l l' -> Permutation (as_rows l) (as_rows l').
Proof. intro Pm. unfold as_rows. apply Permutation_flat_map, Pm. Qed.
Lemma total_rows (f : U * P * V -> Q) rows :
  total f rows == total (fun u => total (fun k => total (fun v => f (u, k, v)) (values_in u k rows)) (partitions_of u rows)) (id_list rows).
Proof.
  rewrite <- total_entries. apply total_Permutation.
  rewrite <- (as_rows_Permutation _ _ (noop_form rows)). unfold bound_noop, map_values, as_rows.
  rewrite flat_map_map. cbn [fst snd]. rewrite key_by_pid_pk_id. symmetry. apply group_by_key_ungroup.
Qed.
Lemma rows_by_id (f : U * P * V -> Q) rows :
  total f rows == total (fun u => total f (rows_of u rows)) (id_list rows).
Proof.
  rewrite <- total_flat_map. apply total_Permutation. symmetry.
  pose proof (ungroup_Permutation (id_list rows) (map (fun r => (fst (fst r), r)) rows)) as G.
  apply (Permutation_map snd) in G.
  - rewrite map_map, map_id in G. rewrite <- G at 2. rewrite map_flat_map. apply Permutation_refl'. apply flat_map_ext_In. intros u _.
    rewrite map_map, map_id. unfold values_of, rows_of. rewrite filter_map, map_map, map_id. reflexivity.
  - apply NoDup_distinct.
  - intros u I. rewrite map_map in I. apply in_distinct, I.
Qed.
Lemma in_pair_groups rows u k : In k (partitions_of u rows) -> In ((u, k), length (values_in u k rows)) (pair_groups rows).
Proof.
  intro I. unfold pair_groups. apply in_map_iff. exists (u, k). split; [reflexivity|]. apply in_distinct. apply in_partitions_of, I.
Qed.
Lemma in_id_groups p rows u : In u (id_list rows) ->
  In (u, match max_contributions p with Some _ => length (rows_of u rows) | None => length (partitions_of u rows) end) (id_groups p rows).
Proof. intro I. unfold id_groups. apply in_map_iff. exists u. split; [reflexivity|exact I]. Qed.
End Rows.
