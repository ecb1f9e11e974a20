(** Properties C39 (splitting a budget) and C49 (clipping of scalars). *)
From Coq Require Import List ZArith QArith Qabs Qminmax Bool Lia Lqa Field.
From Verif Require Import Base BaseLemmas ParamsModel SensModel.
Import ListNotations.
Local Open Scope Q_scope.

(** ** C39 *)
Definition share (eps delta : Q) (n : Z) (b : Q * Q) : Prop :=
  fst b == eps / inject_Z n /\ snd b == delta / inject_Z n.

Lemma split_loop_spec eps delta n k : forall eu du acc,
  exists e d, split_loop eps delta n k eu du acc =
    acc ++ repeat (eps / inject_Z n, delta / inject_Z n) k ++ [(e, d)] /\
    e == eps - eu - inject_Z (Z.of_nat k) * (eps / inject_Z n) /\
    d == delta - du - inject_Z (Z.of_nat k) * (delta / inject_Z n).
Proof.
  induction k as [|k IH]; intros eu du acc; cbn [split_loop].
  - exists (eps - eu), (delta - du). split; [reflexivity|]. cbn. split; ring.
  - destruct (IH (eu + eps / inject_Z n) (du + delta / inject_Z n) (acc ++ [(eps / inject_Z n, delta / inject_Z n)])) as [e [d [E [He Hd]]]].
    exists e, d. cbn [fst snd]. rewrite E. split; [rewrite <- app_assoc; reflexivity|].
    rewrite He, Hd, Nat2Z.inj_succ, <- Z.add_1_r, inject_Z_plus. split; ring.
Qed.

Lemma sumQ_shares (n : Z) (e : Q) l : (0 < n)%Z -> Z.of_nat (length l) = n -> Forall (fun x => x == e / inject_Z n) l -> sumQ l == e.
Proof.
  intros Pn L F.
  assert (G : sumQ l == inject_Z (Z.of_nat (length l)) * (e / inject_Z n)).
  { clear L. induction F as [|x l Hx F IH]; [cbn; ring|]. cbn [length sumQ fold_right]. change (fold_right Qplus 0 l) with (sumQ l).
    rewrite IH, Hx, Nat2Z.inj_succ, <- Z.add_1_r, inject_Z_plus. ring. }
  rewrite G, L. field. intro Z0. assert (X : inject_Z n == inject_Z 0) by exact Z0. apply (proj1 (inject_Z_injective _ _)) in X. lia.
Qed.

(** Exactly [n] pairs, each an equal share, adding up to the whole budget. *)
Theorem C39_equally_split_budget eps delta n budgets :
  equally_split_budget eps delta n = Ok budgets ->
  Z.of_nat (length budgets) = n /\
  Forall (share eps delta n) budgets /\
  sumQ (map fst budgets) == eps /\ sumQ (map snd budgets) == delta /\
  (0 <= eps -> 0 <= delta -> Forall (fun b => 0 <= fst b /\ 0 <= snd b) budgets).
Proof.
  unfold equally_split_budget. destruct (Z.leb_spec n 0) as [L|L]; [discriminate|]. intro E.
  destruct (split_loop_spec eps delta n (Z.to_nat (n - 1)) 0 0 []) as [e [d [Es [He Hd]]]]. rewrite Es in E. inversion E; subst. clear E Es.
  rewrite Z2Nat.id in He, Hd by lia. assert (Pq : 0 < inject_Z n) by (change 0 with (inject_Z 0); rewrite <- Zlt_Qlt; exact L).
  assert (Nz : ~ inject_Z n == 0) by (intro Z0; rewrite Z0 in Pq; lra).
  assert (Im : inject_Z (n - 1) == inject_Z n - 1) by (unfold Z.sub; rewrite inject_Z_plus; reflexivity).
  assert (Se : share eps delta n (e, d)).
  { split; cbn [fst snd]; [rewrite He | rewrite Hd]; rewrite Im; field; exact Nz. }
  cbn [app]. assert (Len : Z.of_nat (length (repeat (eps / inject_Z n, delta / inject_Z n) (Z.to_nat (n - 1)) ++ [(e, d)])) = n).
  { rewrite app_length, repeat_length. cbn [length]. lia. }
  assert (F : Forall (share eps delta n) (repeat (eps / inject_Z n, delta / inject_Z n) (Z.to_nat (n - 1)) ++ [(e, d)])).
  { apply Forall_app. split; [|constructor; [exact Se | constructor]]. apply Forall_forall. intros b Hb. apply repeat_spec in Hb.
    subst b. split; reflexivity. }
  split; [exact Len|]. split; [exact F|]. split; [|split].
  - apply (sumQ_shares n); [exact L | rewrite map_length; exact Len |]. apply Forall_map. eapply Forall_impl; [|exact F]. intros b [X _]. exact X.
  - apply (sumQ_shares n); [exact L | rewrite map_length; exact Len |]. apply Forall_map. eapply Forall_impl; [|exact F]. intros b [_ X]. exact X.
  - intros P1 P2. eapply Forall_impl; [|exact F]. intros b [X Y]. rewrite X, Y.
    split; apply Qle_shift_div_l; try exact Pq; rewrite Qmult_0_l; assumption.
Qed.
Print Assumptions C39_equally_split_budget.

Theorem C39_defined_for_positive_counts eps delta n :
  ((0 < n)%Z <-> exists budgets, equally_split_budget eps delta n = Ok budgets) /\
  ((n <= 0)%Z -> equally_split_budget eps delta n = Err ValueError).
Proof.
  unfold equally_split_budget. destruct (Z.leb_spec n 0); split; try lia.
  - split; [lia | intros [b E]; discriminate].
  - reflexivity.
  - split; [eauto | lia].
Qed.
Print Assumptions C39_defined_for_positive_counts.

Example C39_example : exists b, equally_split_budget 1 (1 # 10) 3 = Ok b /\ map (fun x => (Qred (fst x), Qred (snd x))) b
  = [(1 # 3, 1 # 30); (1 # 3, 1 # 30); (1 # 3, 1 # 30)].
Proof. eexists. split; reflexivity. Qed.

(** ** C49: scalars *)
Lemma Qmin_cases x y : (x <= y /\ Qmin x y == x) \/ (y < x /\ Qmin x y == y).
Proof. destruct (Qlt_le_dec y x) as [L|L]; [right | left]; split; auto; [apply Q.min_r | apply Q.min_l]; lra. Qed.
Lemma Qmax_cases x y : (x <= y /\ Qmax x y == y) \/ (y < x /\ Qmax x y == x).
Proof. destruct (Qlt_le_dec y x) as [L|L]; [right | left]; split; auto; [apply Q.max_l | apply Q.max_r]; lra. Qed.

Ltac clip_cases :=
  unfold clip;
  repeat match goal with
  | |- context [Qmax ?a ?b] => let E := fresh in destruct (Qmax_cases a b) as [[? E]|[? E]]; revert E; generalize (Qmax a b); intros
  | |- context [Qmin ?a ?b] => let E := fresh in destruct (Qmin_cases a b) as [[? E]|[? E]]; revert E; generalize (Qmin a b); intros
  end.

Theorem C49_clip_in_range lo hi x : lo <= hi -> lo <= clip lo hi x <= hi.
Proof. intro L. clip_cases; lra. Qed.
Print Assumptions C49_clip_in_range.

Theorem C49_clip_fixes_range lo hi x : lo <= x <= hi -> clip lo hi x == x.
Proof. intro L. clip_cases; lra. Qed.
Print Assumptions C49_clip_fixes_range.

(** Values outside go to the nearest end; the order and the distances are not increased. *)
Theorem C49_clip_nearest lo hi x : lo <= hi -> (x < lo -> clip lo hi x == lo) /\ (hi < x -> clip lo hi x == hi).
Proof. intro L. split; intro; clip_cases; lra. Qed.
Print Assumptions C49_clip_nearest.

Theorem C49_clip_monotone lo hi x y : x <= y -> clip lo hi x <= clip lo hi y.
Proof. intro L. clip_cases; lra. Qed.
Print Assumptions C49_clip_monotone.

Theorem C49_clip_distance lo hi x y : Qabs (clip lo hi x - clip lo hi y) <= Qabs (x - y).
Proof.
  assert (G : forall x y, x <= y -> Qabs (clip lo hi x - clip lo hi y) <= Qabs (x - y)).
  { clear x y. intros x y L. rewrite (Qabs_neg (x - y)) by lra. assert (M := C49_clip_monotone lo hi x y L).
    rewrite Qabs_neg by lra. revert M. clip_cases; lra. }
  destruct (Qlt_le_dec y x) as [L|L]; [|apply G; exact L].
  rewrite (Qabs_Qminus x y), (Qabs_Qminus (clip lo hi x)). apply G. lra.
Qed.
Print Assumptions C49_clip_distance.

Example C49_example : clip (-1) 3 (-5) == -1 /\ clip (-1) 3 2 == 2 /\ clip (-1) 3 7 == 3.
Proof. repeat split; vm_compute; reflexivity. Qed.
