(** Lemmas for C75: texts of numbers. *)
From Coq Require Import String Ascii List ZArith QArith Qpower Bool Lia Lqa.
From Verif Require Import Base BaseLemmas ListLemmas BackendModel ParamsModel CombinerModel EngineModel HistModel HistProofs4 RecordModel RecordSpec.
Import ListNotations.
Local Open Scope Z_scope.

(** ** Digits *)

Definition decimal (ds : list nat) : Prop := Forall (fun d => (d < 10)%nat) ds.
Definition num (ds : list nat) : Z := fold_left (fun a d => 10 * a + Z.of_nat d) ds 0.

Lemma num_from ds : forall a, fold_left (fun a d => 10 * a + Z.of_nat d) ds a = a * 10 ^ Z.of_nat (length ds) + num ds.
Proof.
  unfold num. induction ds as [|d ds IH]; intro a; cbn [fold_left length]; [cbn; lia|].
  rewrite IH, (IH (10 * 0 + _)). rewrite Nat2Z.inj_succ, Z.pow_succ_r by lia. lia.
Qed.
Lemma num_app a b : num (a ++ b) = num a * 10 ^ Z.of_nat (length b) + num b.
Proof. unfold num. rewrite fold_left_app. apply num_from. Qed.
Lemma num_zeros n : num (repeat 0%nat n) = 0.
Proof. induction n as [|n IH]; [reflexivity|]. change (repeat 0%nat (S n)) with ([0%nat] ++ repeat 0%nat n). rewrite num_app, IH. reflexivity. Qed.

Lemma digits_of_num fuel : forall z, 0 <= z < 10 ^ Z.of_nat fuel -> (0 < fuel)%nat -> num (digits_of fuel z) = z.
Proof.
  induction fuel as [|f IH]; intros z Hz Hf; [lia|]. cbn [digits_of]. destruct (Z.ltb_spec z 10) as [L|L].
  - unfold num. cbn. lia.
  - rewrite num_app. cbn [length]. change (10 ^ Z.of_nat 1) with 10. rewrite Nat2Z.inj_succ, Z.pow_succ_r in Hz by lia.
    assert (Q0 : 0 <= z / 10 < 10 ^ Z.of_nat f) by (split; [apply Z.div_pos; lia | apply Z.div_lt_upper_bound; lia]).
    rewrite IH; [|exact Q0|].
    + unfold num. cbn [fold_left]. pose proof (Z.mod_pos_bound z 10 ltac:(lia)). rewrite Z2Nat.id by lia. pose proof (Z.div_mod z 10 ltac:(lia)). lia.
    + destruct f; [|lia]. cbn in Hz. lia.
Qed.
Lemma digits_of_decimal fuel : forall z, 0 <= z -> decimal (digits_of fuel z).
Proof.
  induction fuel as [|f IH]; intros z Hz; cbn [digits_of]; [constructor|]. destruct (Z.ltb_spec z 10).
  - apply Forall_cons; [lia | constructor].
  - apply Forall_app. split; [apply IH; apply Z.div_pos; lia|]. pose proof (Z.mod_pos_bound z 10 ltac:(lia)). apply Forall_cons; [lia | constructor].
Qed.
Lemma str_nat_num z : 0 <= z -> num (digits_of (S (Z.to_nat (Z.log2 z))) z) = z.
Proof.
  intro Hz. apply digits_of_num; [|lia]. split; [exact Hz|]. rewrite Nat2Z.inj_succ, Z2Nat.id by apply Z.log2_nonneg.
  destruct (Z.eq_dec z 0) as [->|N]; [cbn; lia|]. destruct (Z.log2_spec z ltac:(lia)) as [_ L].
  apply Z.lt_le_trans with (1 := L). apply Z.pow_le_mono_l. lia.
Qed.

(** ** Powers of ten *)
Local Open Scope Q_scope.

Lemma ten_pos z : 0 < Qpower 10 z.
Proof. apply Qpower_0_lt. reflexivity. Qed.
Lemma ten_plus a b : Qpower 10 (a + b) == Qpower 10 a * Qpower 10 b.
Proof. apply Qpower_plus. intro E. inversion E. Qed.
Lemma ten_nat z : (0 <= z)%Z -> Qpower 10 z == inject_Z (10 ^ z).
Proof. intro Hz. symmetry. apply (Zpower_Qpower 10 z Hz). Qed.
Lemma ten_ge1 z : (0 <= z)%Z -> 1 <= Qpower 10 z.
Proof.
  intro Hz. rewrite ten_nat by exact Hz. change 1 with (inject_Z 1). rewrite <- Zle_Qle. pose proof (Z.pow_pos_nonneg 10 z ltac:(lia) Hz). lia.
Qed.
Lemma ten_mono a b : (a <= b)%Z -> Qpower 10 a <= Qpower 10 b.
Proof.
  intro L. replace b with (a + (b - a))%Z by lia. rewrite ten_plus. pose proof (ten_pos a). pose proof (ten_ge1 (b - a) ltac:(lia)).
  rewrite <- (Qmult_1_r (Qpower 10 a)) at 1. apply Qmult_le_l; assumption.
Qed.

Lemma fraction_num ds : inject_Z (num ds) == fraction ds * Qpower 10 (Z.of_nat (length ds)).
Proof.
  induction ds as [|d ds IH]; [reflexivity|]. change (d :: ds) with ([d] ++ ds)%list at 1. rewrite num_app, inject_Z_plus, inject_Z_mult, IH.
  cbn [length fraction fold_right]. rewrite Nat2Z.inj_succ. unfold Z.succ. rewrite ten_plus, <- ten_nat by lia.
  change (num [d]) with (Z.of_nat d)%Z. change (Qpower 10 1) with 10. fold (fraction ds). field.
Qed.

(** ** The shortest digits are unique *)

Lemma fraction_bounds ds : decimal ds -> 0 <= fraction ds < 1.
Proof.
  induction 1 as [|d ds Hd F IH]; cbn [fraction fold_right]; [split; [discriminate | reflexivity]|]. fold (fraction ds).
  assert (D0 : 0 <= inject_Z (Z.of_nat d)) by (change 0 with (inject_Z 0); rewrite <- Zle_Qle; lia).
  assert (D1 : inject_Z (Z.of_nat d) <= 9) by (change 9 with (inject_Z 9); rewrite <- Zle_Qle; lia).
  split; [apply Qle_shift_div_l; [reflexivity|lra] | apply Qlt_shift_div_r; [reflexivity|lra]].
Qed.
Lemma fraction_cons d ds : fraction (d :: ds) * 10 == inject_Z (Z.of_nat d) + fraction ds.
Proof. cbn [fraction fold_right]. fold (fraction ds). field. Qed.
Lemma fraction_head ds : decimal ds -> ds <> [] -> hd 0%nat ds <> 0%nat -> 1 # 10 <= fraction ds.
Proof.
  intros F N Hh. destruct ds as [|d ds]; [congruence|]. cbn [hd] in Hh. inversion F; subst. destruct (fraction_bounds ds H2) as [B0 B1].
  pose proof (fraction_cons d ds). assert (1 <= inject_Z (Z.of_nat d)) by (change 1 with (inject_Z 1); rewrite <- Zle_Qle; lia). lra.
Qed.

Lemma last_tail {A} (d : A) ds x y : last (d :: ds) x <> y -> ds <> [] -> last ds x <> y.
Proof. destruct ds; [congruence | auto]. Qed.
Lemma tail_ok d ds : last (d :: ds) 1%nat <> 0%nat -> last ds 1%nat <> 0%nat.
Proof. destruct ds; [cbn; discriminate | auto]. Qed.

Lemma fraction_zero ds : decimal ds -> last ds 1%nat <> 0%nat -> fraction ds == 0 -> ds = [].
Proof.
  induction 1 as [|d ds Hd F IH]; [reflexivity|]. intros L E. exfalso. pose proof (fraction_cons d ds) as C. rewrite E in C. pose proof (fraction_bounds ds F) as [B _].
  assert (D0 : 0 <= inject_Z (Z.of_nat d)) by (change 0 with (inject_Z 0); rewrite <- Zle_Qle; lia).
  assert (E0 : fraction ds == 0) by lra. assert (d = 0)%nat.
  { assert (Ed : inject_Z (Z.of_nat d) == inject_Z 0) by (change (inject_Z 0) with 0; lra). apply (proj1 (inject_Z_injective _ _)) in Ed. lia. }
  rewrite (IH (tail_ok d ds L) E0) in L. cbn in L. congruence.
Qed.
Lemma fraction_inj ds : decimal ds -> last ds 1%nat <> 0%nat -> forall ds', decimal ds' -> last ds' 1%nat <> 0%nat ->
  fraction ds == fraction ds' -> ds = ds'.
Proof.
  induction 1 as [|d ds Hd F IH]; intros L ds' F' L' E.
  - symmetry. apply fraction_zero; try assumption. rewrite <- E. reflexivity.
  - destruct ds' as [|d' ds']; [apply fraction_zero; [constructor; assumption | assumption | rewrite E; reflexivity]|].
    inversion F' as [|? ? Hd' F'']; subst. pose proof (fraction_cons d ds) as C. pose proof (fraction_cons d' ds') as C'. rewrite E, C' in C.
    destruct (fraction_bounds ds F) as [B0 B1]. destruct (fraction_bounds ds' F'') as [B0' B1'].
    assert (d = d')%nat.
    { assert (L1 : inject_Z (Z.of_nat d) < inject_Z (Z.of_nat d' + 1)) by (rewrite inject_Z_plus; change (inject_Z 1) with 1; lra).
      assert (L2 : inject_Z (Z.of_nat d') < inject_Z (Z.of_nat d + 1)) by (rewrite inject_Z_plus; change (inject_Z 1) with 1; lra).
      rewrite <- Zlt_Qlt in L1, L2. lia. }
    subst d'. f_equal. apply IH; [apply (tail_ok d); exact L | exact F'' | apply (tail_ok d); exact L' | lra].
Qed.

Lemma point_unique f f' a b : 1 # 10 <= f < 1 -> 1 # 10 <= f' < 1 -> f * Qpower 10 a == f' * Qpower 10 b -> (a <= b)%Z.
Proof.
  intros Hf Hf' E. destruct (Z_le_gt_dec a b) as [|G]; [assumption|]. exfalso.
  assert (M : Qpower 10 (b + 1) <= Qpower 10 a) by (apply ten_mono; lia). rewrite ten_plus in M. change (Qpower 10 1) with 10 in M.
  pose proof (ten_pos b). pose proof (ten_pos a).
  assert (f' * Qpower 10 b < 1 * Qpower 10 b) by (apply Qmult_lt_r; [assumption | apply Hf']).
  assert ((1 # 10) * Qpower 10 a <= f * Qpower 10 a) by (apply Qmult_le_r; [assumption | apply Hf]). lra.
Qed.
