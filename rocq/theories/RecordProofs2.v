(** Lemmas for C75: reading a text back gives the number; which texts are field names. *)
From Coq Require Import String Ascii List ZArith QArith Qpower Bool Lia Lqa.
From Verif Require Import Base BaseLemmas ListLemmas BackendModel ParamsModel CombinerModel EngineModel HistModel HistProofs4 RecordModel RecordSpec RecordProofs.
Import ListNotations.
Local Open Scope Z_scope.

(** ** A reader of texts *)

Record reader := Reader { minus : bool; mant : Z; places : Z; after : bool; in_exp : bool; expo : Z }.
Definition read_char (r : reader) (c : ascii) : reader :=
  if Ascii.eqb c "-" then (if in_exp r then r else Reader true (mant r) (places r) (after r) (in_exp r) (expo r))
  else if Ascii.eqb c "_" || Ascii.eqb c "." then Reader (minus r) (mant r) (places r) true (in_exp r) (expo r)
  else if Ascii.eqb c "e" then Reader (minus r) (mant r) (places r) (after r) true (expo r)
  else let d := Z.of_nat (nat_of_ascii c) - 48 in
    if in_exp r then Reader (minus r) (mant r) (places r) (after r) true (10 * expo r + d)
    else Reader (minus r) (10 * mant r + d) (places r + if after r then 1 else 0) (after r) false (expo r).
Fixpoint read (s : string) (r : reader) : reader :=
  match s with EmptyString => r | String c s' => read s' (read_char r c) end.
Definition blank : reader := Reader false 0 0 false false 0.
Definition result_of (r : reader) : Q :=
  ((if minus r then - 1 else 1) * (inject_Z (mant r) * Qpower 10 (- (places r + expo r))))%Q.

Lemma read_app a b r : read (a ++ b) r = read b (read a r).
Proof. revert r. induction a as [|c a IH]; intro r; cbn; [reflexivity | apply IH]. Qed.
Lemma read_replace s r : read (replace "." "_" s) r = read s r.
Proof.
  revert r. induction s as [|c s IH]; intro r; cbn [replace read]; [reflexivity|]. rewrite IH. f_equal.
  destruct (Ascii.eqb_spec c ".") as [->|N]; reflexivity.
Qed.
Lemma read_digit d r : (d < 10)%nat -> read_char r (digit d) =
  if in_exp r then Reader (minus r) (mant r) (places r) (after r) true (10 * expo r + Z.of_nat d)
  else Reader (minus r) (10 * mant r + Z.of_nat d) (places r + if after r then 1 else 0) (after r) false (expo r).
Proof.
  intro Hd. do 10 (destruct d as [|d]; [destruct r; reflexivity|]). lia.
Qed.
Lemma read_digits ds : decimal ds -> forall m a p f e, read (string_of ds) (Reader m a p f false e) =
  Reader m (a * 10 ^ Z.of_nat (length ds) + num ds) (p + if f then Z.of_nat (length ds) else 0) f false e.
Proof.
  induction 1 as [|d ds Hd F IH]; intros m a p f e; cbn [string_of read].
  - f_equal; [cbn; lia | destruct f; cbn; lia].
  - rewrite read_digit by exact Hd. cbn [in_exp minus mant places after expo]. rewrite IH.
    change (num (d :: ds)) with (num ([d] ++ ds)). rewrite num_app. change (num [d]) with (Z.of_nat d). cbn [length].
    rewrite Nat2Z.inj_succ, Z.pow_succ_r by lia. f_equal; [lia | destruct f; lia].
Qed.
Lemma read_exponent ds : decimal ds -> forall m a p f e, read (string_of ds) (Reader m a p f true e) =
  Reader m a p f true (e * 10 ^ Z.of_nat (length ds) + num ds).
Proof.
  induction 1 as [|d ds Hd F IH]; intros m a p f e; cbn [string_of read].
  - f_equal. cbn. lia.
  - rewrite read_digit by exact Hd. cbn [in_exp minus mant places after expo]. rewrite IH.
    change (num (d :: ds)) with (num ([d] ++ ds)). rewrite num_app. change (num [d]) with (Z.of_nat d). cbn [length].
    rewrite Nat2Z.inj_succ, Z.pow_succ_r by lia. f_equal. lia.
Qed.

Lemma read_nat z m p f e : 0 <= z -> read (str_nat z) (Reader m 0 p f false e) =
  Reader m z (p + if f then Z.of_nat (length (digits_of (S (Z.to_nat (Z.log2 z))) z)) else 0) f false e.
Proof. intro Hz. unfold str_nat. rewrite read_digits by (apply digits_of_decimal; exact Hz). rewrite str_nat_num by exact Hz. reflexivity. Qed.

Lemma read_int z : (result_of (read (str_int z) blank) == inject_Z z)%Q.
Proof.
  unfold str_int, blank. destruct (Z.ltb_spec z 0).
  - cbn [read]. change (read_char _ "-") with (Reader true 0 0 false false 0). rewrite read_nat by lia. unfold result_of. cbn [minus mant places expo].
    rewrite inject_Z_opp. change (Qpower 10 (- (0 + 0 + 0))) with 1%Q. ring.
  - rewrite read_nat by lia. unfold result_of. cbn [minus mant places expo]. change (Qpower 10 (- (0 + 0 + 0))) with 1%Q. ring.
Qed.

Lemma zeros_decimal n : decimal (zeros n).
Proof. apply Forall_forall. intros x Hx. apply repeat_spec in Hx. lia. Qed.

(** Texts of floats that are not integers. *)
Lemma read_float_text ds point : decimal ds -> ds <> [] -> (point < Z.of_nat (length ds) <= 17) ->
  forall m, exists a p f e x, read (str_digits ds point) (Reader m 0 0 false false 0) = Reader m a p f x e /\
    (inject_Z a * Qpower 10 (- (p + e)) == fraction ds * Qpower 10 point)%Q.
Proof.
  intros F N L m. unfold str_digits. set (n := Z.of_nat (length ds)) in *.
  assert (FN : forall k, (- k = point - n)%Z -> (inject_Z (num ds) * Qpower 10 (- k) == fraction ds * Qpower 10 point)%Q).
  { intros k ->. rewrite fraction_num. fold n. rewrite <- Qmult_assoc, <- ten_plus. replace (n + (point - n)) with point by lia. reflexivity. }
  destruct (Z.ltb_spec (-4) point) as [G|G]; cbn [andb].
  - destruct (Z.leb_spec point 16) as [G'|G']; [|lia]. destruct (Z.leb_spec point 0) as [P0|P0].
    + rewrite read_app. change (read "0." _) with (Reader m 0 0 true false 0).
      rewrite read_digits by (apply Forall_app; split; [apply zeros_decimal | exact F]).
      do 5 eexists. split; [reflexivity|]. rewrite num_app. unfold zeros. rewrite num_zeros, app_length, repeat_length, !Z.mul_0_l, !Z.add_0_l, Z.add_0_r.
      apply FN. rewrite Nat2Z.inj_add, Z2Nat.id by lia. fold n. lia.
    + destruct (Z.leb_spec n point); [lia|]. rewrite !read_app.
      assert (F1 : decimal (firstn (Z.to_nat point) ds)) by (rewrite <- (firstn_skipn (Z.to_nat point) ds) in F; apply Forall_app in F; apply F).
      assert (F2 : decimal (skipn (Z.to_nat point) ds)) by (rewrite <- (firstn_skipn (Z.to_nat point) ds) in F; apply Forall_app in F; apply F).
      rewrite read_digits by exact F1. cbn [read]. change (read_char ?r ".") with (Reader (minus r) (mant r) (places r) true (in_exp r) (expo r)).
      cbn [minus mant places in_exp expo]. rewrite read_digits by exact F2.
      do 5 eexists. split; [reflexivity|]. rewrite Z.mul_0_l, Z.add_0_l, <- num_app, firstn_skipn. apply FN.
      rewrite skipn_length, Nat2Z.inj_sub by lia. rewrite Z2Nat.id by lia. fold n. lia.
  - destruct ds as [|d ds']; [congruence|]. cbn [firstn skipn]. inversion F as [|? ? Hd F']; subst.
    assert (Ex : forall r, in_exp r = false -> expo r = 0 -> read ("e" ++ exponent_text (point - 1)) r = Reader (minus r) (mant r) (places r) (after r) true (1 - point)).
    { intros r E1 E2. rewrite read_app. change (read "e" r) with (Reader (minus r) (mant r) (places r) (after r) true (expo r)). unfold exponent_text.
      destruct (Z.ltb_spec (point - 1) 0); [|lia]. rewrite !read_app. change (read "-" ?x) with x. rewrite E2.
      destruct (Z.abs (point - 1) <? 10); cbn [read]; try change (read_char ?x "0") with x; unfold str_nat;
        (rewrite read_exponent by (apply digits_of_decimal; lia)); rewrite str_nat_num by lia; f_equal; lia. }
    rewrite read_app, read_digits by (apply Forall_cons; [exact Hd | constructor]). rewrite read_app. destruct (Z.leb_spec n 1) as [N1|N1].
    + destruct ds' as [|? ?]; [|unfold n in N1; cbn [length] in N1; lia]. cbn [read]. rewrite Ex by reflexivity. cbn [minus mant places after].
      do 5 eexists. split; [reflexivity|]. apply FN. unfold n. cbn [length]. lia.
    + rewrite (read_app "."). change (read "." ?r) with (Reader (minus r) (mant r) (places r) true (in_exp r) (expo r)). cbn [minus mant places in_exp expo].
      rewrite read_digits by exact F'. rewrite Ex by reflexivity. cbn [minus mant places after].
      do 5 eexists. split; [reflexivity|]. rewrite Z.mul_0_l, Z.add_0_l, <- num_app. apply FN. unfold n. cbn [length]. lia.
Qed.

(** ** The names of percentiles *)

Lemma integer_iff q : Qeq_bool (inject_Z (py_round q)) q = true <-> is_integer q.
Proof.
  rewrite Qeq_bool_iff. split.
  - intro E. exists (py_round q). symmetry. exact E.
  - intros [z E]. rewrite (py_round_integer q z E). symmetry. exact E.
Qed.
Lemma point_of_integer ds point : (Z.of_nat (length ds) <= point) -> forall b : bool, is_integer ((if b then - 1 else 1) * (fraction ds * Qpower 10 point))%Q.
Proof.
  intros L b. exists ((if b then -1 else 1) * (num ds * 10 ^ (point - Z.of_nat (length ds))))%Z.
  rewrite !inject_Z_mult, fraction_num, <- ten_nat by lia. rewrite <- Qmult_assoc, <- ten_plus.
  replace (Z.of_nat (length ds) + (point - Z.of_nat (length ds)))%Z with point by lia. destruct b; reflexivity.
Qed.

(** The text after "percentile_". *)
Definition suffix (p : number) : string :=
  match p with
  | PyInt z => str_int z
  | PyFloat negative ds point =>
      if Qeq_bool (inject_Z (py_round (value_of p))) (value_of p) then str_int (py_round (value_of p))
      else replace "." "_" (str_float negative ds point)
  | _ => ""
  end.
Lemma format_suffix p : canonical p -> format_metric_name p = Ok ("percentile_" ++ suffix p)%string.
Proof. intro C. destruct p; try contradiction; cbn -[append]; [reflexivity|]. destruct (Qeq_bool _ _); reflexivity. Qed.

Lemma nonzero_digits b ds point : canonical (PyFloat b ds point) -> ~ is_integer (value_of (PyFloat b ds point)) ->
  ds <> [] /\ hd 0%nat ds <> 0%nat /\ last ds 1%nat <> 0%nat /\ point < Z.of_nat (length ds) <= 17.
Proof.
  intros [F [L [[-> ->]|[N [H1 H2]]]]] NI.
  - exfalso. apply NI. exists 0. destruct b; reflexivity.
  - repeat split; try assumption; [|lia]. destruct (Z_lt_ge_dec point (Z.of_nat (length ds))) as [|G]; [assumption|].
    exfalso. apply NI. apply point_of_integer. lia.
Qed.

Lemma suffix_value p : canonical p -> (result_of (read (suffix p) blank) == value_of p)%Q.
Proof.
  destruct p as [z|b ds point| |]; try contradiction; intro C; cbn [suffix]; [apply read_int|].
  destruct (Qeq_bool _ _) eqn:E; [rewrite read_int; apply Qeq_bool_iff; exact E|].
  assert (NI : ~ is_integer (value_of (PyFloat b ds point))) by (rewrite <- integer_iff, E; discriminate).
  destruct (nonzero_digits b ds point C NI) as [N [_ [_ L]]]. rewrite read_replace. unfold str_float. rewrite read_app.
  assert (R0 : read (if b then "-" else "") blank = Reader b 0 0 false false 0) by (destruct b; reflexivity). rewrite R0.
  destruct (read_float_text ds point (proj1 C) N L b) as [a [p0 [f [e [x [-> V]]]]]]. unfold result_of. cbn [minus mant places expo value_of].
  rewrite V. reflexivity.
Qed.

Lemma str_int_proper q q' : (q == q')%Q -> py_round q = py_round q'.
Proof.
  intro E. unfold py_round. assert (F0 : Qround.Qfloor (q + (1 # 2)) = Qround.Qfloor (q' + (1 # 2))) by (rewrite E; reflexivity). rewrite F0.
  assert (B : Qeq_bool (inject_Z (Qround.Qfloor (q' + (1 # 2)))) (q + (1 # 2)) = Qeq_bool (inject_Z (Qround.Qfloor (q' + (1 # 2)))) (q' + (1 # 2))) by (rewrite E; reflexivity).
  rewrite B. reflexivity.
Qed.
Lemma suffix_integer p z : canonical p -> (value_of p == inject_Z z)%Q -> suffix p = str_int z.
Proof.
  destruct p as [y|b ds point| |]; try contradiction; intros C E; cbn [suffix].
  - cbn [value_of] in E. apply (proj1 (inject_Z_injective _ _)) in E. subst. reflexivity.
  - destruct (Qeq_bool _ _) eqn:Q0; [rewrite (py_round_integer _ z E); reflexivity|].
    exfalso. assert (Qeq_bool (inject_Z (py_round (value_of (PyFloat b ds point)))) (value_of (PyFloat b ds point)) = true) by (apply integer_iff; exists z; exact E). congruence.
Qed.

Lemma abs_sign (b b' : bool) x y : (0 < x)%Q -> (0 < y)%Q -> ((if b then - 1 else 1) * x == (if b' then - 1 else 1) * y)%Q -> b = b' /\ (x == y)%Q.
Proof. intros Hx Hy E. destruct b, b'; split; try reflexivity; Lqa.lra. Qed.

Lemma suffix_same p q : canonical p -> canonical q -> (value_of p == value_of q)%Q -> suffix p = suffix q.
Proof.
  intros Cp Cq E. destruct (Qeq_bool (inject_Z (py_round (value_of p))) (value_of p)) eqn:I.
  - apply integer_iff in I. destruct I as [z Ez]. rewrite (suffix_integer p z Cp Ez). symmetry. apply suffix_integer; [exact Cq | rewrite <- E; exact Ez].
  - assert (NI : ~ is_integer (value_of p)) by (rewrite <- integer_iff, I; discriminate).
    assert (NI' : ~ is_integer (value_of q)) by (intros [z Ez]; apply NI; exists z; rewrite E; exact Ez).
    destruct p as [y|b ds point| |]; try contradiction; [exfalso; apply NI; exists y; reflexivity|].
    destruct q as [y|b' ds' point'| |]; try contradiction; [exfalso; apply NI'; exists y; reflexivity|].
    destruct (nonzero_digits b ds point Cp NI) as [N [H1 [H2 _]]]. destruct (nonzero_digits b' ds' point' Cq NI') as [N' [H1' [H2' _]]].
    pose proof (fraction_head ds (proj1 Cp) N H1) as F1. pose proof (fraction_head ds' (proj1 Cq) N' H1') as F1'.
    destruct (fraction_bounds ds (proj1 Cp)) as [_ F2]. destruct (fraction_bounds ds' (proj1 Cq)) as [_ F2'].
    pose proof (ten_pos point) as T. pose proof (ten_pos point') as T'. cbn [value_of] in E.
    assert (P1 : (0 < fraction ds)%Q) by Lqa.lra. assert (P1' : (0 < fraction ds')%Q) by Lqa.lra.
    destruct (abs_sign b b' (fraction ds * Qpower 10 point) (fraction ds' * Qpower 10 point') (Qmult_lt_0_compat _ _ P1 T) (Qmult_lt_0_compat _ _ P1' T') E) as [-> Ea].
    assert (point = point').
    { apply Z.le_antisymm; [eapply point_unique; [split; [exact F1 | exact F2] | split; [exact F1' | exact F2'] | exact Ea]|].
      eapply point_unique; [split; [exact F1' | exact F2'] | split; [exact F1 | exact F2] | symmetry; exact Ea]. }
    subst point'. apply Qmult_inj_r in Ea; [|intro Z0; rewrite Z0 in T; discriminate].
    rewrite (fraction_inj ds (proj1 Cp) H2 ds' (proj1 Cq) H2' Ea). reflexivity.
Qed.

Lemma append_inj (a b c : string) : (a ++ b)%string = (a ++ c)%string -> b = c.
Proof. induction a as [|x a IH]; cbn; [auto|]. intro E. inversion E. auto. Qed.

Lemma names_iff p q : canonical p -> canonical q -> (format_metric_name p = format_metric_name q <-> (value_of p == value_of q)%Q).
Proof.
  intros Cp Cq. rewrite !format_suffix by assumption. split.
  - intro E. injection E as E. assert (Es : suffix p = suffix q) by (apply (append_inj "percentile_"); cbn [append]; congruence).
    rewrite <- (suffix_value p Cp), <- (suffix_value q Cq), Es. reflexivity.
  - intro E. rewrite (suffix_same p q Cp Cq E). reflexivity.
Qed.

(** ** Which names are accepted *)

Definition name_char (c : ascii) : bool := is_letter c || is_digit c.
Lemma all_app f a b : all_chars f (a ++ b) = all_chars f a && all_chars f b.
Proof. induction a as [|c a IH]; cbn; [reflexivity|]. rewrite IH. apply andb_assoc. Qed.
Lemma all_digits ds : decimal ds -> all_chars name_char (string_of ds) = true.
Proof.
  induction 1 as [|d ds Hd F IH]; cbn [string_of all_chars]; [reflexivity|]. rewrite IH, andb_true_r.
  do 10 (destruct d as [|d]; [reflexivity|]). lia.
Qed.
Lemma replace_app a b : replace "." "_" (a ++ b) = (replace "." "_" a ++ replace "." "_" b)%string.
Proof. induction a as [|c a IH]; cbn; [reflexivity|]. rewrite IH. reflexivity. Qed.
Lemma replace_digits ds : decimal ds -> replace "." "_" (string_of ds) = string_of ds.
Proof.
  induction 1 as [|d ds Hd F IH]; cbn [string_of replace]; [reflexivity|]. rewrite IH. f_equal.
  do 10 (destruct d as [|d]; [reflexivity|]). lia.
Qed.

Lemma percentile_name s : valid_name ("percentile_" ++ s) = all_chars name_char s.
Proof.
  unfold valid_name, is_identifier. cbn -[mem]. fold name_char.
  match goal with |- _ && negb (mem ?x keywords) = _ => assert (M : mem x keywords = false) end.
  { apply mem_false_iff. cbn. intuition discriminate. }
  rewrite M, andb_true_r. reflexivity.
Qed.

Lemma str_int_valid z : all_chars name_char (str_int z) = (0 <=? z).
Proof.
  unfold str_int. destruct (Z.ltb_spec z 0).
  - cbn. symmetry. apply Z.leb_gt. assumption.
  - unfold str_nat. rewrite all_digits by (apply digits_of_decimal; assumption). symmetry. apply Z.leb_le. assumption.
Qed.

Lemma str_digits_valid ds point : decimal ds -> point < Z.of_nat (length ds) <= 17 ->
  all_chars name_char (replace "." "_" (str_digits ds point)) = (-4 <? point).
Proof.
  intros F L. unfold str_digits. destruct (Z.ltb_spec (-4) point) as [G|G]; cbn [andb].
  - destruct (Z.leb_spec point 16); [|lia]. destruct (Z.leb_spec point 0).
    + rewrite replace_app, replace_digits, all_app, all_digits by (apply Forall_app; split; [apply zeros_decimal | exact F]). reflexivity.
    + destruct (Z.leb_spec (Z.of_nat (length ds)) point); [lia|]. rewrite <- (firstn_skipn (Z.to_nat point) ds) in F. apply Forall_app in F. destruct F as [F1 F2].
      rewrite !replace_app, !replace_digits, !all_app, !all_digits by assumption. reflexivity.
  - rewrite !replace_app, !all_app. unfold exponent_text. destruct (Z.ltb_spec (point - 1) 0); [|lia]. rewrite !replace_app, !all_app.
    change (all_chars name_char (replace "." "_" "-")) with false. cbn [andb]. rewrite !andb_false_r. reflexivity.
Qed.

Lemma suffix_valid p : canonical p ->
  (all_chars name_char (suffix p) = true <-> (0 <= value_of p)%Q /\ (is_integer (value_of p) \/ (1 # 10000 <= value_of p)%Q)).
Proof.
  intro C. destruct (Qeq_bool (inject_Z (py_round (value_of p))) (value_of p)) eqn:I.
  - apply integer_iff in I. pose proof I as I'. destruct I as [z Ez]. rewrite (suffix_integer p z C Ez), str_int_valid, Z.leb_le.
    assert (V : (0 <= value_of p)%Q <-> 0 <= z) by (rewrite Zle_Qle; change (inject_Z 0) with 0%Q; split; intro; Lqa.lra).
    rewrite V. tauto.
  - assert (NI : ~ is_integer (value_of p)) by (rewrite <- integer_iff, I; discriminate).
    destruct p as [y|b ds point| |]; try contradiction; [exfalso; apply NI; exists y; reflexivity|].
    destruct (nonzero_digits b ds point C NI) as [N [H1 [H2 L]]]. pose proof (fraction_head ds (proj1 C) N H1) as F1. destruct (fraction_bounds ds (proj1 C)) as [_ F2].
    pose proof (ten_pos point) as T. cbn [suffix]. rewrite I. unfold str_float. rewrite replace_app, all_app, str_digits_valid by (apply C || exact L).
    cbn [value_of] in *. destruct b.
    + change (all_chars name_char (replace "." "_" "-")) with false. cbn [andb]. split; [discriminate|]. intros [V _]. exfalso.
      assert ((1 # 10) * Qpower 10 point <= fraction ds * Qpower 10 point)%Q by (apply Qmult_le_r; assumption). Lqa.lra.
    + cbn [andb]. change (all_chars name_char (replace "." "_" "")) with true. cbn [andb]. rewrite Z.ltb_lt.
      assert (U : (fraction ds * Qpower 10 point < 1 * Qpower 10 point)%Q) by (apply Qmult_lt_r; assumption).
      assert (D : ((1 # 10) * Qpower 10 point <= fraction ds * Qpower 10 point)%Q) by (apply Qmult_le_r; assumption).
      split.
      * intro G. assert (M : (Qpower 10 (-3) <= Qpower 10 point)%Q) by (apply ten_mono; lia). change (Qpower 10 (-3)) with (1 # 1000)%Q in M.
        split; [Lqa.lra|]. right. Lqa.lra.
      * intros [_ [Ii|V]]; [contradiction|]. destruct (Z_lt_ge_dec (-4) point) as [|G]; [assumption|]. exfalso.
        assert (M : (Qpower 10 point <= Qpower 10 (-4))%Q) by (apply ten_mono; lia). change (Qpower 10 (-4)) with (1 # 10000)%Q in M. Lqa.lra.
Qed.
