(** Lemmas for C77: distributions, uniform draws, reduction trees. *)
From Coq Require Import List ZArith QArith Bool Lia Permutation PeanoNat Setoid.
From Coq Require Import Lqa.
From Verif Require Import Base BaseLemmas ListLemmas BackendModel BackendSpec BackendProofs AnalysisSpec AnalysisProofs.
From Verif Require Import SampleModel SampleSpec.
Import ListNotations.
Local Open Scope Q_scope.

(** ** Numbers *)
Lemma num_S n : num (S n) == 1 + num n.
Proof. unfold num. rewrite Nat2Z.inj_succ, <- Z.add_1_l, inject_Z_plus. reflexivity. Qed.
Lemma num_plus a b : num (a + b) == num a + num b.
Proof. unfold num. rewrite Nat2Z.inj_add, inject_Z_plus. reflexivity. Qed.
Lemma num_nonneg n : 0 <= num n.
Proof. unfold num. change 0 with (inject_Z 0). rewrite <- Zle_Qle. lia. Qed.
Lemma num_pos n : (0 < n)%nat -> 0 < num n.
Proof. intro L. unfold num. change 0 with (inject_Z 0). rewrite <- Zlt_Qlt. lia. Qed.
Lemma num_neq n : (0 < n)%nat -> ~ num n == 0.
Proof. intros L E. pose proof (num_pos n L). lra. Qed.
Lemma num_lt a b : (a < b)%nat -> num a < num b.
Proof. intro L. unfold num. rewrite <- Zlt_Qlt. lia. Qed.
Lemma num_inj a b : num a == num b -> a = b.
Proof.
  intro E. destruct (Nat.lt_trichotomy a b) as [L|[L|L]]; [|exact L|]; apply num_lt in L; lra.
Qed.

(** ** Expectations *)
Lemma expect_ext {A} (d : dist A) g h : (forall a, possible d a -> g a == h a) -> expect d g == expect d h.
Proof.
  intro E. unfold expect. apply sumQ_ext. intros [w a] I. cbn [fst snd]. rewrite (E a); [reflexivity|exists w; exact I].
Qed.
Lemma expect_scale {A} (d : dist A) c g : expect d (fun a => c * g a) == c * expect d g.
Proof.
  unfold expect. rewrite <- sumQ_scale. apply sumQ_ext. intros. ring.
Qed.
Lemma expect_scale_r {A} (d : dist A) c g : expect d (fun a => g a * c) == expect d g * c.
Proof.
  unfold expect. rewrite <- sumQ_scale_r. apply sumQ_ext. intros. ring.
Qed.
Lemma expect_plus {A} (d : dist A) g h : expect d (fun a => g a + h a) == expect d g + expect d h.
Proof. unfold expect. induction d as [|x d IH]; cbn [map sumQ fold_right]; [ring|]. unfold sumQ in *. cbn [fold_right]. rewrite IH. ring. Qed.
Lemma expect_zero {A} (d : dist A) : expect d (fun _ => 0) == 0.
Proof. transitivity (0 * expect d (fun _ => 0)); [|ring]. rewrite <- expect_scale. apply expect_ext. intros. ring. Qed.
Lemma expect_const {A} (d : dist A) c : is_distribution d -> expect d (fun _ => c) == c.
Proof.
  intros [_ T]. transitivity (c * expect d (fun _ => 1)); [|rewrite T; ring]. rewrite <- expect_scale. apply expect_ext. intros. ring.
Qed.
Lemma expect_total {A B} (d : dist A) (g : A -> B -> Q) l :
  expect d (fun a => total (g a) l) == total (fun b => expect d (fun a => g a b)) l.
Proof.
  induction l as [|b l IH]; [apply expect_zero|]. unfold total in *. cbn [map sumQ fold_right]. unfold sumQ in *. cbn [fold_right].
  rewrite expect_plus, IH. reflexivity.
Qed.
Lemma expect_ret {A} (a : A) g : expect (ret a) g == g a.
Proof. unfold expect, ret. cbn. ring. Qed.
Lemma expect_bind {A B} (d : dist A) (f : A -> dist B) g :
  expect (bind d f) g == expect d (fun a => expect (f a) g).
Proof.
  unfold expect, bind. rewrite sumQ_flat_map. apply sumQ_ext. intros [w a] _. cbn [fst snd].
  rewrite map_map, <- sumQ_scale. cbn [fst snd]. apply sumQ_ext. intros. ring.
Qed.
Lemma possible_bind {A B} (d : dist A) (f : A -> dist B) b :
  possible (bind d f) b -> exists a, possible d a /\ possible (f a) b.
Proof.
  intros [w I]. unfold bind in I. apply in_flat_map in I. destruct I as ([v a] & Ia & I).
  apply in_map_iff in I. destruct I as ([v' b'] & E & I). cbn [fst snd] in *. injection E as _ <-.
  exists a. split; [exists v; exact Ia|exists v'; exact I].
Qed.
Lemma possible_ret {A} (a b : A) : possible (ret a) b -> b = a.
Proof. intros [w [E|[]]]. congruence. Qed.
Lemma dist_ret {A} (a : A) : is_distribution (ret a).
Proof. split; [|exact (expect_ret a (fun _ => 1))]. intros w b [E|[]]. injection E as <- _. discriminate. Qed.
Lemma dist_bind {A B} (d : dist A) (f : A -> dist B) :
  is_distribution d -> (forall a, possible d a -> is_distribution (f a)) -> is_distribution (bind d f).
Proof.
  intros D F. split.
  - intros w b I. unfold bind in I. apply in_flat_map in I. destruct I as ([v a] & Ia & I).
    apply in_map_iff in I. destruct I as ([v' b'] & E & I). cbn [fst snd] in *. injection E as <- _.
    apply Qmult_le_0_compat; [exact (proj1 D _ _ Ia)|]. apply (proj1 (F a (ex_intro _ v Ia)) _ _ I).
  - rewrite expect_bind. rewrite (expect_ext d _ (fun _ => 1)); [apply D|]. intros a I. apply F, I.
Qed.

(** ** Sums *)
Lemma total_ext {A} (f g : A -> Q) l : (forall x, In x l -> f x == g x) -> total f l == total g l.
Proof. apply sumQ_ext. Qed.
Lemma total_app {A} (f : A -> Q) l l' : total f (l ++ l') == total f l + total f l'.
Proof. unfold total. rewrite map_app. apply sumQ_app. Qed.
Lemma total_scale {A} (f : A -> Q) c l : total (fun x => c * f x) l == c * total f l.
Proof. apply sumQ_scale. Qed.
Lemma total_Permutation {A} (f : A -> Q) l l' : Permutation l l' -> total f l == total f l'.
Proof. intro P. apply sumQ_Permutation, Permutation_map, P. Qed.
Lemma total_map {A B} (f : B -> Q) (g : A -> B) l : total f (map g l) = total (fun x => f (g x)) l.
Proof. unfold total. rewrite map_map. reflexivity. Qed.
Lemma total_flat_map {A B} (f : B -> Q) (g : A -> list B) l : total f (flat_map g l) == total (fun x => total f (g x)) l.
Proof. apply sumQ_flat_map. Qed.
Lemma total_cons {A} (f : A -> Q) x l : total f (x :: l) == f x + total f l.
Proof. reflexivity. Qed.
Lemma total_const {A} c (l : list A) : total (fun _ => c) l == num (length l) * c.
Proof. induction l as [|x l IH]; [reflexivity|]. rewrite total_cons, IH. cbn [length]. rewrite num_S. ring. Qed.
Lemma total_zero {A} (l : list A) : total (fun _ => 0) l == 0.
Proof. rewrite total_const. ring. Qed.
Lemma total_plus {A} (f g : A -> Q) l : total (fun x => f x + g x) l == total f l + total g l.
Proof. induction l as [|x l IH]; [reflexivity|]. rewrite !total_cons, IH. ring. Qed.

(** ** Positions *)
Definition at_pos {A} (f : A -> Q) (l : list A) (i : nat) : Q := match nth_error l i with Some v => f v | None => 0 end.

Lemma total_pick {A} (f : A -> Q) idx l : total f (pick idx l) == total (at_pos f l) idx.
Proof.
  unfold pick. rewrite total_flat_map. apply total_ext. intros i _. unfold at_pos. destruct (nth_error l i); [unfold total; cbn; ring|reflexivity].
Qed.
Lemma total_positions {A} (f : A -> Q) l : total (at_pos f l) (seq 0 (length l)) == total f l.
Proof.
  induction l as [|x l IH]; [reflexivity|]. cbn [length seq]. rewrite !total_cons, <- seq_shift, total_map. rewrite <- IH. reflexivity.
Qed.
Lemma total_seq_indicator (g : nat -> Q) idx m : NoDup idx -> Forall (fun i => (i < m)%nat) idx ->
  total g idx == total (fun j => indicator (mem j idx) * g j) (seq 0 m).
Proof.
  intros N F. induction N as [|i idx Ni N IH].
  - symmetry. rewrite (total_ext _ (fun _ => 0)); [apply total_zero|]. intros. cbn. ring.
  - inversion F as [|? ? Li F']; subst. rewrite total_cons, IH by exact F'.
    assert (E : total (fun j => indicator (eqb j i) * g j) (seq 0 m) == g i).
    { clear -Li. assert (I : In i (seq 0 m)) by (apply in_seq; lia). assert (ND := seq_NoDup m 0).
      induction (seq 0 m) as [|a l IH]; [destruct I|]. inversion ND; subst. rewrite total_cons. destruct I as [->|I].
      - rewrite eqb_refl. rewrite (total_ext _ (fun _ => 0)); [rewrite total_zero; cbn; ring|].
        intros x Ix. destruct (eqb x i) eqn:E; [apply eqb_eq in E; subst; contradiction|cbn; ring].
      - rewrite IH by assumption. destruct (eqb a i) eqn:E; [apply eqb_eq in E; subst; contradiction|cbn; ring]. }
    rewrite <- E, <- total_plus. apply total_ext. intros j _.
    unfold mem. cbn [existsb]. fold (mem j idx). destruct (eqb j i) eqn:Eq.
    + apply eqb_eq in Eq. subst. assert (M : mem i idx = false) by (apply mem_false_iff; exact Ni). rewrite M. cbn. ring.
    + cbn [orb]. destruct (mem j idx); cbn; ring.
Qed.

(** ** Uniform draws *)
Lemma subsets_total {A} (g : A -> Q) : forall (l : list A) k, l <> [] ->
  total (total g) (subsets (S k) l) == inject_Z (binom (length l - 1) k) * total g l.
Proof.
  induction l as [|x l IH]; intros k N; [congruence|]. cbn [subsets]. rewrite total_app, total_map.
  assert (E : total (fun s => total g (x :: s)) (subsets k l) == inject_Z (binom (length l) k) * g x + total (total g) (subsets k l)).
  { rewrite (total_ext _ (fun s => g x + total g s)) by (intros; apply total_cons).
    rewrite total_plus, total_const. unfold num. rewrite subsets_length. reflexivity. }
  rewrite E. cbn [length]. replace (S (length l) - 1)%nat with (length l) by lia. rewrite total_cons.
  destruct l as [|y l].
  - destruct k; cbn [subsets]; unfold total; cbn; ring.
  - rewrite IH by congruence. destruct k as [|k].
    + rewrite !binom_0. replace (subsets 0 (y :: l)) with [@nil A] by reflexivity. unfold total. cbn [map]. unfold sumQ. cbn [fold_right]. change (inject_Z 1) with 1. ring.
    + rewrite IH by congruence. cbn [length]. replace (S (length l) - 1)%nat with (length l) by lia.
      rewrite binom_S, inject_Z_plus. ring.
Qed.
Lemma subsets_valid {A} : forall k (l : list A) s, NoDup l -> In s (subsets k l) -> NoDup s /\ length s = k /\ incl s l.
Proof.
  induction k as [|k IHk]; intros l; induction l as [|x l IHl]; intros s N I; cbn [subsets] in I.
  - destruct I as [<-|[]]. repeat split; [constructor|intros ? []].
  - destruct I as [<-|[]]. repeat split; [constructor|intros ? []].
  - destruct I.
  - inversion N as [|? ? Nx N']; subst. apply in_app_or in I. destruct I as [I|I].
    + apply in_map_iff in I. destruct I as (s' & <- & I). destruct (IHk l s' N' I) as (A1 & A2 & A3).
      split; [constructor; [intro X; apply Nx, A3, X|exact A1]|]. split; [cbn; lia|].
      intros a [->|Ia]; [left; reflexivity|right; apply A3, Ia].
    + destruct (IHl s N' I) as (A1 & A2 & A3). split; [exact A1|]. split; [exact A2|]. intros a Ia. right. apply A3, Ia.
Qed.

Lemma draw_valid n m idx : possible (draw n m) idx -> valid_draw n m idx.
Proof.
  intros [w I]. unfold draw in I. apply in_map_iff in I. destruct I as (s & E & I). injection E as _ ->.
  destruct (subsets_valid _ _ _ (seq_NoDup m 0) I) as (A1 & A2 & A3). split; [exact A1|]. split; [exact A2|].
  apply Forall_forall. intros i Ii. apply A3 in Ii. apply in_seq in Ii. lia.
Qed.
Lemma subsets_count_pos n m : (n <= m)%nat -> 0 < inject_Z (Z.of_nat (length (subsets n (seq 0 m)))).
Proof.
  intro L. rewrite subsets_length, seq_length. change 0 with (inject_Z 0). rewrite <- Zlt_Qlt. apply binom_pos, L.
Qed.
Lemma expect_draw n m g : expect (draw n m) g == 1 / inject_Z (Z.of_nat (length (subsets n (seq 0 m)))) * total g (subsets n (seq 0 m)).
Proof. unfold expect, draw. rewrite map_map. cbn [fst snd]. unfold total. rewrite <- sumQ_scale. reflexivity. Qed.
Lemma draw_dist n m : (n <= m)%nat -> is_distribution (draw n m).
Proof.
  intro L. pose proof (subsets_count_pos n m L) as C. split.
  - intros w s I. unfold draw in I. apply in_map_iff in I. destruct I as (s' & E & _). injection E as <- _.
    apply Qle_shift_div_l; [exact C|lra].
  - rewrite expect_draw, total_const. unfold num. field. lra.
Qed.
Lemma draw_total n m g : (n <= m)%nat -> expect (draw n m) (total g) == num n / num m * total g (seq 0 m).
Proof.
  intro L. rewrite expect_draw. pose proof (subsets_count_pos n m L) as C.
  destruct n as [|n].
  - replace (subsets 0 (seq 0 m)) with [@nil nat] by (destruct (seq 0 m); reflexivity). unfold num, total, Qdiv. cbn. ring.
  - destruct m as [|m]; [lia|]. rewrite subsets_total by (cbn; congruence). rewrite subsets_length in *. rewrite seq_length in *.
    replace (S m - 1)%nat with m by lia. pose proof (binom_absorption m n) as E. apply (f_equal inject_Z) in E. rewrite !inject_Z_mult in E.
    fold (num (S n)) in E. fold (num (S m)) in E. pose proof (num_neq (S m) ltac:(lia)) as Nm.
    assert (NC : ~ inject_Z (binom (S m) (S n)) == 0) by lra.
    apply (Qmult_inj_r _ _ (inject_Z (binom (S m) (S n)) * num (S m))).
    { intro X. apply Qmult_integral in X. tauto. }
    transitivity (num (S m) * inject_Z (binom m n) * total g (seq 0 (S m))); [field; exact NC|].
    rewrite <- E. field. exact Nm.
Qed.

(** The position [j] is drawn with probability [n / m]. *)
Lemma draw_mem n m j : (n <= m)%nat -> (j < m)%nat -> expect (draw n m) (fun s => indicator (mem j s)) == num n / num m.
Proof.
  intros L Lj. rewrite (expect_ext _ _ (total (fun i => indicator (eqb i j)))).
  - rewrite draw_total by exact L.
    assert (E : total (fun i => indicator (eqb i j)) (seq 0 m) == 1).
    { assert (I : In j (seq 0 m)) by (apply in_seq; lia). assert (ND := seq_NoDup m 0).
      induction (seq 0 m) as [|a l IH]; [destruct I|]. inversion ND; subst. rewrite total_cons. destruct I as [->|I].
      - rewrite eqb_refl. rewrite (total_ext _ (fun _ => 0)); [rewrite total_zero; cbn; ring|].
        intros x Ix. destruct (eqb x j) eqn:E; [apply eqb_eq in E; subst; contradiction|cbn; ring].
      - rewrite IH by assumption. destruct (eqb a j) eqn:E; [apply eqb_eq in E; subst; contradiction|cbn; ring]. }
    rewrite E. ring.
  - intros s I. apply draw_valid in I. destruct I as (N & _ & F). rewrite (total_seq_indicator _ s m N F).
    rewrite (total_ext _ (fun i => indicator (mem j s) * indicator (eqb i j))).
    + rewrite total_scale. assert (E : total (fun i => indicator (eqb i j)) (seq 0 m) == 1); [|rewrite E; ring].
      assert (I : In j (seq 0 m)) by (apply in_seq; lia). assert (ND := seq_NoDup m 0). clear F.
      induction (seq 0 m) as [|a l IH]; [destruct I|]. inversion ND; subst. rewrite total_cons. destruct I as [->|I].
      * rewrite eqb_refl. rewrite (total_ext _ (fun _ => 0)); [rewrite total_zero; cbn; ring|].
        intros x Ix. destruct (eqb x j) eqn:E; [apply eqb_eq in E; subst; contradiction|cbn; ring].
      * rewrite IH by assumption. destruct (eqb a j) eqn:E; [apply eqb_eq in E; subst; contradiction|cbn; ring].
    + intros i _. destruct (eqb i j) eqn:E; [apply eqb_eq in E; subst; reflexivity|cbn; ring].
Qed.

Lemma choose_fair {A} (f : A -> Q) n (l : list A) :
  expect (draw (Nat.min n (length l)) (length l)) (fun idx => total f (choose idx n l)) == chance n (length l) * total f l.
Proof.
  unfold chance, choose. destruct (Nat.ltb_spec n (length l)) as [L|L].
  - rewrite Nat.min_l by lia. rewrite (expect_ext _ _ (fun idx => total (at_pos f l) idx)) by (intros; apply total_pick).
    rewrite draw_total by lia. rewrite total_positions. reflexivity.
  - rewrite expect_const; [ring|apply draw_dist; lia].
Qed.

(** ** Reduction trees *)
Lemma spark_draws_dist {A} n (t : tree A) : is_distribution (spark_draws n t).
Proof.
  induction t as [a|l IHl r IHr]; [apply dist_ret|]. cbn [spark_draws].
  apply dist_bind; [exact IHl|]. intros x _. apply dist_bind; [exact IHr|]. intros y _. cbv zeta.
  apply dist_bind; [apply draw_dist; lia|]. intros. apply dist_ret.
Qed.
Lemma pick_length_valid {A} n (l : list A) idx : valid_draw n (length l) idx -> length (pick idx l) = n.
Proof.
  intros (_ & <- & F). unfold pick. induction F as [|i idx Li F IH]; [reflexivity|]. cbn [flat_map length]. rewrite app_length, IH.
  destruct (nth_error l i) eqn:E; [reflexivity|]. apply nth_error_None in E. lia.
Qed.
Lemma spark_draws_possible {A} n (t : tree A) x : possible (spark_draws n t) x ->
  valid_stree n x /\ sleaves x = leaves t /\ length (spark_sample x) = held n t.
Proof.
  revert x. induction t as [a|l IHl r IHr]; intros x I.
  - apply possible_ret in I. subst. repeat split.
  - cbn [spark_draws] in I. apply possible_bind in I. destruct I as (xl & Il & I). apply possible_bind in I. destruct I as (xr & Ir & I).
    cbv zeta in I. apply possible_bind in I. destruct I as (idx & Id & I). apply possible_ret in I. subst x.
    apply IHl in Il. apply IHr in Ir. apply draw_valid in Id. destruct Il as (A1 & A2 & A3), Ir as (B1 & B2 & B3).
    cbn [valid_stree sleaves spark_sample leaves held]. cbv zeta.
    rewrite <- app_length. repeat split; try tauto; try apply Id.
    + congruence.
    + rewrite (pick_length_valid _ _ _ Id), app_length, A3, B3. reflexivity.
Qed.
Lemma chances_length {A} n (t : tree A) : length (spark_chances n t) = length (leaves t).
Proof. induction t; [reflexivity|]. cbn [spark_chances leaves]. rewrite map_length, !app_length. lia. Qed.
Lemma weighted_app {A} (f : A -> Q) c1 c2 l1 l2 : length c1 = length l1 ->
  weighted f (c1 ++ c2) (l1 ++ l2) == weighted f c1 l1 + weighted f c2 l2.
Proof.
  revert l1. induction c1 as [|c c1 IH]; intros [|a l1] L; try discriminate.
  - cbn [app]. unfold weighted at 2. cbn. ring.
  - injection L as L. unfold weighted in *. cbn [app combine map sumQ fold_right]. unfold sumQ in *. cbn [fold_right]. rewrite IH by exact L. ring.
Qed.
Lemma weighted_scale {A} (f : A -> Q) k c l : weighted f (map (Qmult k) c) l == k * weighted f c l.
Proof.
  revert l. induction c as [|x c IH]; intros [|a l]; try (unfold weighted; cbn; ring).
  unfold weighted, sumQ in *. cbn [map combine fold_right fst snd]. rewrite IH. ring.
Qed.

Lemma spark_chances_exact {A} (f : A -> Q) n (t : tree A) :
  expect (spark_draws n t) (fun x => total f (spark_sample x)) == weighted f (spark_chances n t) (leaves t).
Proof.
  induction t as [a|l IHl r IHr].
  - cbn [spark_draws]. rewrite expect_ret. unfold weighted, total. cbn. ring.
  - cbn [spark_draws spark_chances leaves]. rewrite weighted_scale, weighted_app by apply chances_length. rewrite <- IHl, <- IHr.
    rewrite expect_bind.
    set (q := num (held n (Node l r)) / num (held n l + held n r)).
    rewrite (expect_ext _ _ (fun x => q * (total f (spark_sample x) + expect (spark_draws n r) (fun y => total f (spark_sample y))))).
    + rewrite expect_scale, expect_plus, (expect_const _ (expect _ _) (spark_draws_dist n l)). reflexivity.
    + intros x Ix. apply spark_draws_possible in Ix. destruct Ix as (_ & _ & Lx).
      rewrite expect_bind. rewrite (expect_ext _ _ (fun y => q * (total f (spark_sample x) + total f (spark_sample y)))).
      * rewrite expect_scale, expect_plus, (expect_const _ _ (spark_draws_dist n r)). reflexivity.
      * intros y Iy. apply spark_draws_possible in Iy. destruct Iy as (_ & _ & Ly).
        rewrite expect_bind. set (xy := spark_sample x ++ spark_sample y).
        assert (Lxy : length xy = (held n l + held n r)%nat) by (unfold xy; rewrite app_length; lia).
        rewrite (expect_ext _ _ (fun idx => total (at_pos f xy) idx)).
        -- rewrite draw_total by lia. rewrite total_positions. unfold xy at 3. rewrite total_app, Lxy. reflexivity.
        -- intros idx _. rewrite expect_ret. cbn [spark_sample]. apply total_pick.
Qed.
