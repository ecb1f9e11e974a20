(** Generic list / sum lemmas. *)
From Coq Require Import List ZArith QArith Lia Bool Permutation Setoid Morphisms.
From Coq Require Import Lqa.
From Verif Require Import Base.
Import ListNotations.
Local Open Scope Q_scope.

Lemma sumQ_app l1 l2 : sumQ (l1 ++ l2) == sumQ l1 + sumQ l2.
Proof. induction l1; simpl; [ring|]. rewrite IHl1. ring. Qed.

Lemma sumQ_Forall2 l1 l2 : Forall2 Qeq l1 l2 -> sumQ l1 == sumQ l2.
Proof. induction 1; simpl; [reflexivity|]. rewrite H, IHForall2. reflexivity. Qed.

Lemma sumQ_scale {A} (f : A -> Q) k l : sumQ (map (fun x => k * f x) l) == k * sumQ (map f l).
Proof. induction l; simpl; [ring|]. rewrite IHl. ring. Qed.

Lemma sumQ_scale_r {A} (f : A -> Q) k l : sumQ (map (fun x => f x * k) l) == sumQ (map f l) * k.
Proof. induction l; simpl; [ring|]. rewrite IHl. ring. Qed.

Lemma sumQ_ext {A} (f g : A -> Q) l :
  (forall x, In x l -> f x == g x) -> sumQ (map f l) == sumQ (map g l).
Proof.
  induction l; simpl; intros H; [reflexivity|].
  rewrite (H a) by auto. rewrite IHl; [reflexivity|]. intros; apply H; auto.
Qed.

Lemma sumQ_nonneg l : Forall (fun x => 0 <= x) l -> 0 <= sumQ l.
Proof. induction 1; simpl; lra. Qed.

Lemma sumQ_pos l : l <> [] -> Forall (fun x => 0 < x) l -> 0 < sumQ l.
Proof.
  intros Hne H. destruct H; [congruence|]. simpl.
  assert (0 <= sumQ l).
  { apply sumQ_nonneg. eapply Forall_impl; [|exact H0]. simpl; intros; lra. }
  lra.
Qed.

Lemma sumQ_In_le l x : Forall (fun x => 0 <= x) l -> In x l -> x <= sumQ l.
Proof.
  induction 1; simpl; intros Hin; [contradiction|].
  apply sumQ_nonneg in H0 as Hs.
  destruct Hin as [->|Hin]; [lra|]. specialize (IHForall Hin). lra.
Qed.

Lemma sumQ_Permutation l l' : Permutation l l' -> sumQ l == sumQ l'.
Proof.
  induction 1; simpl; [reflexivity| rewrite IHPermutation; reflexivity | ring |].
  etransitivity; eassumption.
Qed.

Lemma sumQ_flat_map {A B} (f : B -> Q) (g : A -> list B) l :
  sumQ (map f (flat_map g l)) == sumQ (map (fun x => sumQ (map f (g x))) l).
Proof.
  induction l; simpl; [reflexivity|].
  rewrite map_app, sumQ_app, IHl. reflexivity.
Qed.

Lemma Forall2_map_l {A B C} (R : B -> C -> Prop) (f : A -> B) l l' :
  Forall2 R (map f l) l' <-> Forall2 (fun x y => R (f x) y) l l'.
Proof.
  split.
  - revert l'. induction l; simpl; intros l' H; inversion H; subst; constructor; auto.
  - induction 1; simpl; constructor; auto.
Qed.

Lemma Forall2_map_r {A B C} (R : A -> C -> Prop) (f : B -> C) l l' :
  Forall2 R l (map f l') <-> Forall2 (fun x y => R x (f y)) l l'.
Proof.
  split.
  - revert l. induction l'; simpl; intros l H; inversion H; subst; constructor; auto.
  - induction 1; simpl; constructor; auto.
Qed.

Lemma Forall2_same {A} (R : A -> A -> Prop) l : (forall x, In x l -> R x x) -> Forall2 R l l.
Proof. induction l; intros H; constructor; [apply H; left; auto | apply IHl; intros; apply H; right; auto]. Qed.

Lemma Forall2_Qeq_refl l : Forall2 Qeq l l.
Proof. apply Forall2_same. reflexivity. Qed.

Lemma Forall2_Qeq_sym l l' : Forall2 Qeq l l' -> Forall2 Qeq l' l.
Proof. induction 1; constructor; auto. symmetry; auto. Qed.

Lemma Forall2_Qeq_trans l l' l'' : Forall2 Qeq l l' -> Forall2 Qeq l' l'' -> Forall2 Qeq l l''.
Proof.
  intros H. revert l''. induction H; intros l'' H'; inversion H'; subst; constructor; auto.
  etransitivity; eassumption.
Qed.

Lemma Qeq_bool_false x y : Qeq_bool x y = false <-> ~ x == y.
Proof.
  split.
  - intros H E. apply Qeq_bool_iff in E. congruence.
  - intros H. destruct (Qeq_bool x y) eqn:E; auto. apply Qeq_bool_iff in E. contradiction.
Qed.

Lemma Qle_bool_false x y : Qle_bool x y = false <-> y < x.
Proof.
  split.
  - intros H. apply Qnot_le_lt. intro C. apply Qle_bool_iff in C. congruence.
  - intros H. destruct (Qle_bool x y) eqn:E; auto. apply Qle_bool_iff in E. lra.
Qed.

Lemma Qdiv_pos a b : 0 < a -> 0 < b -> 0 < a / b.
Proof. intros. apply Qlt_shift_div_l; lra. Qed.

Lemma Forall2_len {A B} (R : A -> B -> Prop) l l' : Forall2 R l l' -> length l = length l'.
Proof. induction 1; simpl; auto. Qed.
