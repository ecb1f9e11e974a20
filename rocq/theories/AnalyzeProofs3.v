(** Lemmas for C64: the law of a sum of randomly kept contributions. *)
From Coq Require Import List ZArith QArith Qreals Reals Bool Permutation Lia Lqa Lra.
From Verif Require Import Base BaseLemmas BackendModel BackendSpec ListLemmas BackendProofs BounderModel BounderSpec
  ParamsModel SensModel EngineModel EngineSpec EngineProofs VectorModel LaplaceSpec LaplaceProofs SelectSpec DistSpec DistProofs
  AnalysisModel AnalysisSpec AnalysisProofs AnalysisProofs2 ExpMechProofs EstimatorProofs3 AnalyzeSpec AnalyzeProofs AnalyzeProofs2.
Import ListNotations.
Local Open Scope R_scope.

(** ** Distributions of rational numbers *)
Definition expect (d : AnalysisSpec.dist) (G : R -> R) : R := sumR (map (fun vp => Q2R (snd vp) * G (Q2R (fst vp))) d).

Lemma expect_ext d G G' : (forall x, G x = G' x) -> expect d G = expect d G'.
Proof. intro E. unfold expect. f_equal. apply map_ext. intro. rewrite E. reflexivity. Qed.

Lemma expect_cons d ds G :
  expect (sum_dist (d :: ds)) G = expect d (fun x => expect (sum_dist ds) (fun y => G (x + y))).
Proof.
  cbn [sum_dist]. unfold expect at 1 2. induction d as [|[v w] d IH]; [reflexivity|].
  cbn [flat_map map]. rewrite map_app, sumR_app, IH, sumR_cons. f_equal. cbn [fst snd].
  unfold expect. rewrite map_map, <- sumR_scale. f_equal. apply map_ext. intros [v' w']. cbn [fst snd].
  rewrite Q2R_mult, Q2R_plus. ring.
Qed.

Lemma expect_mean d : expect d (fun x => x) = Q2R (AnalysisSpec.expectation d).
Proof.
  unfold expect, AnalysisSpec.expectation. rewrite Q2R_sumQ, map_map. f_equal. apply map_ext. intros [v w]. cbn.
  rewrite Q2R_mult. ring.
Qed.
Lemma expect_spread d : let mu := Q2R (AnalysisSpec.expectation d) in
  expect d (fun x => (x - mu) * (x - mu)) = Q2R (AnalysisSpec.variance d).
Proof.
  intro mu. unfold expect, AnalysisSpec.variance. rewrite Q2R_sumQ, map_map. f_equal. apply map_ext. intros [v w]. cbn [fst snd].
  rewrite !Q2R_mult, Q2R_minus. fold mu. ring.
Qed.

(** ** Uniformly chosen subsets *)
Definition choice_law (L0 n j : nat) (a : Q) : AnalysisSpec.dist :=
  let samples := subsets (Nat.min L0 n) (seq 0 n) in
  map (fun s => (if mem j s then a else 0%Q, (1 / inject_Z (Z.of_nat (length samples)))%Q)) samples.

Lemma samples_pos L0 n : (0 < length (subsets (Nat.min L0 n) (seq 0 n)))%nat.
Proof.
  assert (X := subsets_length (Nat.min L0 n) (seq 0 n)). assert (Y := binom_pos (length (seq 0 n)) (Nat.min L0 n)).
  rewrite seq_length in Y at 1. lia.
Qed.

Lemma Q2R_nat n : Q2R (inject_Z (Z.of_nat n)) = INR n.
Proof. unfold Q2R, inject_Z. cbn. rewrite <- INR_IZR_INZ. field. Qed.

Lemma uniform_law L0 n j a (G : R -> R) :
  mixture (uniform (subsets (Nat.min L0 n) (seq 0 n))) (fun s => G (Q2R (if mem j s then a else 0%Q))) = expect (choice_law L0 n j a) G.
Proof.
  unfold mixture, uniform, expect, choice_law. rewrite !map_map. cbn [fst snd]. f_equal. apply map_ext. intro s. f_equal.
  rewrite Q2R_div, Q2R_nat; [|assert (X := samples_pos L0 n); intro E; unfold Qeq in E; cbn in E; lia].
  f_equal. unfold Q2R. cbn. field.
Qed.

Lemma uniform_is_dist {A} (l : list A) : l <> [] -> is_dist (uniform l).
Proof.
  intro N. unfold is_dist, uniform. split.
  - apply Forall_forall. intros x I. apply in_map_iff in I. destruct I as (y & <- & _). cbn. unfold Rdiv.
    destruct (length l) eqn:E; [cbn; rewrite Rmult_1_l; destruct l; [congruence|discriminate]|].
    apply Rmult_le_pos; [lra|]. apply Rlt_le, Rinv_0_lt_compat, lt_0_INR. lia.
  - rewrite map_map. cbn [fst]. assert (X : forall (l' : list A) c, sumR (map (fun _ => c) l') = INR (length l') * c).
    { induction l' as [|y l' IH]; intro c; [cbn; ring|]. cbn [map]. rewrite sumR_cons, IH. cbn [length]. rewrite S_INR. ring. }
    rewrite X. field. apply not_0_INR. destruct l; [congruence|discriminate].
Qed.
Lemma samples_dist L0 n : is_dist (uniform (subsets (Nat.min L0 n) (seq 0 n))).
Proof. apply uniform_is_dist. assert (X := samples_pos L0 n). intro E. rewrite E in X. cbn in X. lia. Qed.

Section Sum.
Context {U : Type}.
Variables (L0 : nat) (n pos : U -> nat) (a : U -> Q) (has_k : U -> bool).

Definition kept_sum (ids : list U) (ls : list (list nat)) : Q :=
  sumQ (map (fun us => if has_k (fst us) && mem (pos (fst us)) (snd us) then a (fst us) else 0%Q) (combine ids ls)).

Lemma sum_law ids : forall G : R -> R,
  mixture (independent (fun u => uniform (subsets (Nat.min L0 (n u)) (seq 0 (n u)))) ids) (fun ls => G (Q2R (kept_sum ids ls))) =
  expect (sum_dist (map (fun u => choice_law L0 (n u) (pos u) (a u)) (filter has_k ids))) G.
Proof.
  induction ids as [|u ids IH]; intro G.
  - cbn [independent filter map sum_dist]. rewrite mixture_ret. unfold expect, kept_sum. cbn. unfold Q2R. cbn.
    replace (1 * / 1) with 1 by field. ring.
  - rewrite mixture_independent_cons. cbn [filter].
    rewrite (mixture_ext _ _ (fun y => mixture (independent (fun u => uniform (subsets (Nat.min L0 (n u)) (seq 0 (n u)))) ids)
       (fun ys => (fun z => G (Q2R (if has_k u && mem (pos u) y then a u else 0%Q) + z)) (Q2R (kept_sum ids ys))))).
    2: { intro y. apply mixture_ext. intro ys. cbn beta. rewrite <- Q2R_plus. reflexivity. }
    rewrite (mixture_ext _ _ (fun y => (fun x => expect (sum_dist (map (fun u => choice_law L0 (n u) (pos u) (a u)) (filter has_k ids)))
       (fun z => G (x + z))) (Q2R (if has_k u && mem (pos u) y then a u else 0%Q)))).
    2: { intro y. apply (IH (fun z => G (Q2R (if has_k u && mem (pos u) y then a u else 0%Q) + z))). }
    destruct (has_k u); cbn [andb map].
    + rewrite expect_cons, <- uniform_law. reflexivity.
    + rewrite mixture_const by apply samples_dist. apply expect_ext. intro z. f_equal. unfold Q2R. cbn. ring.
Qed.

(** Without a choice of partitions. *)
Lemma fixed_law l : (1 <= L0)%nat -> forall G : R -> R,
  expect (sum_dist (map (fun u => choice_law L0 1 0 (a u)) l)) G = G (Q2R (sumQ (map a l))).
Proof.
  intro L. induction l as [|u l IH]; intro G.
  - unfold expect. cbn. unfold Q2R. cbn. replace (1 * / 1) with 1 by field. ring.
  - cbn [map]. rewrite expect_cons.
    replace (choice_law L0 1 0 (a u)) with [(a u, 1 / inject_Z 1)%Q] by (unfold choice_law; replace (Nat.min L0 1) with 1%nat by lia; reflexivity).
    unfold expect at 1. cbn [map fst snd]. rewrite sumR_cons, IH.
    replace (Q2R (1 / inject_Z 1)) with 1 by (unfold Q2R; cbn; field).
    change (sumQ (a u :: map a l)) with (a u + sumQ (map a l))%Q. rewrite Q2R_plus. cbn. ring.
Qed.
End Sum.

(** ** The order of the privacy ids, and the representation of the values *)
Lemma clip_eq lo hi v w : (v == w)%Q -> (clip lo hi v == clip lo hi w)%Q.
Proof. intro E. unfold clip. rewrite E. reflexivity. Qed.

Lemma law_bounded L0 lo hi c : bounded L0 lo hi c = choice_law L0 (c_partitions c) (c_position c) (clip lo hi (c_value c)).
Proof. reflexivity. Qed.

Definition matches {U} (n pos : U -> nat) (v : U -> Q) (u : U) (c : contribution) : Prop :=
  c_partitions c = n u /\ c_position c = pos u /\ (c_value c == v u)%Q /\ valid_contribution c.

Lemma moments_match {U} L0 lo hi (n pos : U -> nat) v u c f : (forall x y, x == y -> f x == f y)%Q -> matches n pos v u c ->
  (moment (choice_law L0 (n u) (pos u) (clip lo hi (v u))) f == moment (bounded L0 lo hi c) f)%Q.
Proof.
  intros Pf (E1 & E2 & E3 & V).
  change (choice_law L0 (n u) (pos u) (clip lo hi (v u))) with (bounded L0 lo hi (Contribution (v u) (n u) (pos u))).
  rewrite !bounded_moment; [|exact V|unfold valid_contribution in *; cbn; rewrite <- E1, <- E2; exact V].
  cbn [c_partitions c_value]. rewrite E1. rewrite (Pf _ _ (clip_eq lo hi _ _ E3)). reflexivity.
Qed.

Lemma law_mass1 {U} L0 lo hi (n pos : U -> nat) v u c : matches n pos v u c ->
  mass1 (choice_law L0 (n u) (pos u) (clip lo hi (v u))).
Proof.
  intro M. unfold mass1. rewrite (moments_match L0 lo hi n pos v u c (fun _ => 1%Q)); auto; [|intros; reflexivity].
  apply bounded_mass1. apply M.
Qed.

Lemma order_irrelevant {U} L0 lo hi (n pos : U -> nat) v ids ids' cs :
  Permutation ids' ids -> Forall2 (matches n pos v) ids' cs ->
  let D := sum_dist (map (fun u => choice_law L0 (n u) (pos u) (clip lo hi (v u))) ids) in
  let D' := sum_dist (map (bounded L0 lo hi) cs) in
  (AnalysisSpec.expectation D == AnalysisSpec.expectation D' /\ AnalysisSpec.variance D == AnalysisSpec.variance D')%Q.
Proof.
  intros Pm F D D'.
  assert (M : Forall mass1 (map (fun u => choice_law L0 (n u) (pos u) (clip lo hi (v u))) ids)).
  { apply Forall_forall. intros d I. apply in_map_iff in I. destruct I as (u & <- & I).
    apply (Permutation_in _ (Permutation_sym Pm)) in I.
    clear -F I. induction F; [destruct I|]. destruct I as [->|I]; [eapply law_mass1; eassumption | auto]. }
  assert (M' : Forall mass1 (map (bounded L0 lo hi) cs)).
  { clear -F. induction F; cbn [map]; constructor; auto. apply bounded_mass1. apply H. }
  unfold D, D'. rewrite !expectation_sum_dist, !variance_sum_dist by assumption.
  rewrite !map_map. 
  assert (X : forall g h, (forall u c, matches n pos v u c -> g (choice_law L0 (n u) (pos u) (clip lo hi (v u))) == h (bounded L0 lo hi c))%Q ->
     (sumQ (map (fun u => g (choice_law L0 (n u) (pos u) (clip lo hi (v u)))) ids) == sumQ (map (fun c => h (bounded L0 lo hi c)) cs))%Q).
  { intros g h E. rewrite <- (sumQ_Permutation _ _ (Permutation_map _ Pm)). clear -F E.
    induction F; [reflexivity|]. cbn [map]. unfold sumQ in *. cbn [fold_right]. rewrite (E _ _ H), IHF. reflexivity. }
  split.
  - apply X. intros u c Mm. unfold m1. apply moments_match; auto.
  - apply (X (fun d => m2 d - m1 d * m1 d)%Q (fun d => m2 d - m1 d * m1 d)%Q). intros u c Mm. unfold m1, m2.
    rewrite (moments_match L0 lo hi n pos v u c (fun x => x)), (moments_match L0 lo hi n pos v u c (fun x => x * x)%Q); auto.
    + reflexivity.
    + intros x y E. rewrite E. reflexivity.
Qed.

(** ** Positions *)
Lemma mem_choose_map {A B} `{EqDec A} `{EqDec B} (f : A -> B) x l idx n :
  (forall y, In y l -> f y = f x -> y = x) -> incl (choose idx n l) l ->
  mem (f x) (choose idx n (map f l)) = mem x (choose idx n l).
Proof.
  intros J In1. rewrite choose_map. destruct (mem x (choose idx n l)) eqn:E.
  - apply mem_true_iff. apply in_map. apply mem_true_iff. exact E.
  - apply mem_false_iff. apply mem_false_iff in E. intro I. apply in_map_iff in I. destruct I as (y & Ey & I).
    apply J in Ey; [|apply In1; exact I]. subst. contradiction.
Qed.

(** The position of [k] in [l]. *)
Fixpoint position {A} `{EqDec A} (k : A) (l : list A) : nat :=
  match l with [] => 0%nat | x :: l' => if eqb k x then 0%nat else S (position k l') end.
Lemma position_lt {A} `{EqDec A} (k : A) l : In k l -> (position k l < length l)%nat.
Proof.
  induction l as [|x l IH]; intros I; [destruct I|]. cbn. destruct (eqb k x) eqn:E; [lia|].
  destruct I as [->|I]; [rewrite eqb_refl in E; discriminate|]. specialize (IH I). lia.
Qed.
Lemma position_nth {A} `{EqDec A} (k : A) l d : In k l -> nth (position k l) l d = k.
Proof.
  induction l as [|x l IH]; intros I; [destruct I|]. cbn. destruct (eqb k x) eqn:E; [symmetry; apply ListLemmas.eqb_eq; exact E|].
  destruct I as [->|I]; [rewrite eqb_refl in E; discriminate|]. exact (IH I).
Qed.
Lemma map_nth_seq {A} (l : list A) d : map (fun j => nth j l d) (seq 0 (length l)) = l.
Proof.
  induction l as [|x l IH]; [reflexivity|]. cbn [length seq map nth]. f_equal. rewrite <- seq_shift, map_map. exact IH.
Qed.

Lemma kept_at {U P} `{EqDec U} `{EqDec P} (sm : sampling U P) l0 u (l : list P) k :
  NoDup l -> In k l -> ((l0 < length l)%nat -> valid_draw l0 (length l) (ch_pid sm u (length l))) ->
  mem k (choose (ch_pid sm u (length l)) l0 l) = mem (position k l) (kept_positions sm l0 u (length l)).
Proof.
  intros N I V. 
  assert (S1 : incl (choose (ch_pid sm u (length l)) l0 (seq 0 (length l))) (seq 0 (length l))).
  { intros j. apply submset_In. apply choose_submset. rewrite seq_length. exact V. }
  assert (E : mem k (choose (ch_pid sm u (length l)) l0 l) = mem (position k l) (choose (ch_pid sm u (length l)) l0 (seq 0 (length l)))).
  { rewrite <- (map_nth_seq l k) at 2. rewrite <- (position_nth k l k I) at 1. 
    apply (mem_choose_map (fun j => nth j l k)); [|exact S1].
    intros y Iy Ey. apply in_seq in Iy. apply NoDup_nth with (d := k) in Ey; auto; [lia|]. apply position_lt. exact I. }
  rewrite E. unfold kept_positions.
  destruct (mem (position k l) (choose (ch_pid sm u (length l)) l0 (seq 0 (length l)))) eqn:Ec.
  - symmetry. apply mem_true_iff. apply filter_In. split; [|exact Ec]. apply in_seq. assert (X := position_lt k l I). lia.
  - symmetry. apply mem_false_iff. intro F. apply filter_In in F. destruct F as [_ F]. congruence.
Qed.
