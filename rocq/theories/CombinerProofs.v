(** Lemmas about the combiners. *)
From Coq Require Import List ZArith QArith Qabs Qminmax Qreduction Bool Permutation Lia Lqa.
From Verif Require Import Base BaseLemmas BackendModel BackendSpec ListLemmas BackendProofs
  ParamsModel SensModel CombinerModel CombinerSpec.
Import ListNotations.
Local Open Scope Q_scope.

Lemma acc_eq_refl a : acc_eq a a.
Proof. destruct a; constructor; try reflexivity. apply Forall2_Qeq_refl. Qed.
Lemma acc_eq_sym a b : acc_eq a b -> acc_eq b a.
Proof.
  destruct 1; constructor; try (symmetry; assumption). apply Forall2_Qeq_sym; assumption.
Qed.
Lemma acc_eq_trans a b c : acc_eq a b -> acc_eq b c -> acc_eq a c.
Proof.
  destruct 1; intro H'; inversion H'; subst; constructor; try (etransitivity; eassumption).
  eapply Forall2_Qeq_trans; eassumption.
Qed.

Lemma vadd_cong a a' b b' : Forall2 Qeq a a' -> Forall2 Qeq b b' ->
  optR (Forall2 Qeq) (vadd a b) (vadd a' b').
Proof.
  intro H. revert b b'. induction H as [|x y a a' E H IH]; intros b b' H'; inversion H'; subst; cbn; auto.
  specialize (IH _ _ H1). destruct (vadd a l), (vadd a' l'); cbn in *; auto.
  constructor; auto. rewrite E, H0. reflexivity.
Qed.
Lemma vadd_comm a b : optR (Forall2 Qeq) (vadd a b) (vadd b a).
Proof.
  revert b. induction a as [|x a IH]; intros [|y b]; cbn; auto. specialize (IH b).
  destruct (vadd a b), (vadd b a); cbn in *; auto. constructor; auto. ring.
Qed.
Definition vadd_opt (a b : option (list Q)) : option (list Q) :=
  match a, b with Some x, Some y => vadd x y | _, _ => None end.
Lemma vadd_assoc a b c :
  optR (Forall2 Qeq) (vadd_opt (vadd a b) (Some c)) (vadd_opt (Some a) (vadd b c)).
Proof.
  revert b c. induction a as [|x a IH]; intros [|y b] [|z c]; cbn; auto.
  - destruct (vadd b c); cbn; auto.
  - destruct (vadd a b); cbn; auto.
  - specialize (IH b c). unfold vadd_opt in *.
    destruct (vadd a b) as [ab|] eqn:E1, (vadd b c) as [bc|] eqn:E2; cbn in *; auto.
    + destruct (vadd ab c), (vadd a bc); cbn in *; auto. constructor; auto. ring.
    + destruct (vadd ab c); cbn in *; auto.
    + destruct (vadd a bc); cbn in *; auto.
Qed.

Lemma avec_add_cong a a' b b' : acc_eq a a' -> acc_eq b b' -> acc_eq (avec_add a b) (avec_add a' b').
Proof.
  destruct 1; destruct 1; cbn; try constructor.
  pose proof (vadd_cong _ _ _ _ H H0) as E. destruct (vadd l l0), (vadd l' l'0); cbn in E; try contradiction; constructor; auto.
Qed.
Lemma avec_add_comm a b : acc_eq (avec_add a b) (avec_add b a).
Proof.
  destruct a, b; cbn; try constructor. pose proof (vadd_comm l l0) as E.
  destruct (vadd l l0), (vadd l0 l); cbn in E; try contradiction; constructor; auto.
Qed.
Lemma avec_add_assoc a b c : acc_eq (avec_add (avec_add a b) c) (avec_add a (avec_add b c)).
Proof.
  assert (X : forall q, avec_add AErr q = AErr) by reflexivity.
  destruct a as [| | | | | |x|]; [constructor..| |constructor].
  destruct b as [| | | | | |y|]; [constructor..| |constructor].
  destruct c as [| | | | | |z|].
  7:{ pose proof (vadd_assoc x y z) as E. cbn in *. unfold vadd_opt in *.
      destruct (vadd x y) as [xy|], (vadd y z) as [yz|]; cbn in *.
      - destruct (vadd xy z), (vadd x yz); cbn in E; try contradiction; constructor; auto.
      - destruct (vadd xy z); cbn in E; [contradiction|constructor].
      - destruct (vadd x yz); cbn in E; [contradiction|constructor].
      - constructor. }
  all: cbn; destruct (vadd x y); constructor.
Qed.

Lemma merge_vec n a b : merge (CVector n) a b = avec_add a b.
Proof. destruct a, b; reflexivity. Qed.

(** Every built-in combiner merges commutatively and associatively. *)
Lemma merge_comm_semigroup c : comm_semigroup acc_eq (merge c).
Proof.
  constructor.
  - apply acc_eq_refl.
  - apply acc_eq_sym.
  - apply acc_eq_trans.
  - intros x x' y y' Hx Hy. destruct c.
    8:{ rewrite !merge_vec. apply avec_add_cong; assumption. }
    all: destruct Hx; destruct Hy; cbn; constructor;
      first [ reflexivity | apply Permutation_app; assumption
            | match goal with E : _ == _, E' : _ == _ |- _ => rewrite ?E, ?E'; reflexivity end
            | repeat match goal with E : ?a == ?b |- _ => rewrite E; clear E end; reflexivity ].
  - intros x y z. destruct c.
    8:{ rewrite !merge_vec. apply avec_add_assoc. }
    all: destruct x, y, z; cbn; try (constructor; fail);
      rewrite ?Z.add_assoc, ?app_assoc; constructor; try ring; reflexivity.
  - intros x y. destruct c.
    8:{ rewrite !merge_vec. apply avec_add_comm. }
    all: destruct x, y; cbn; try (constructor; fail);
      rewrite ?(Z.add_comm z z0), ?(Z.add_comm n n0); constructor; try ring; apply Permutation_app_comm.
Qed.

Lemma Forall2_acc_refl l : Forall2 acc_eq l l.
Proof. apply Forall2_same. intros; apply acc_eq_refl. Qed.

Lemma merge_all_cong cs a a' b b' :
  Forall2 acc_eq a a' -> Forall2 acc_eq b b' -> Forall2 acc_eq (merge_all cs a b) (merge_all cs a' b').
Proof.
  revert a a' b b'. induction cs as [|c cs IH]; intros a a' b b' Ha Hb; cbn; [constructor|].
  destruct Ha; [constructor|]. destruct Hb; [constructor|]. constructor; auto.
  apply (cs_cong _ _ (merge_comm_semigroup c)); assumption.
Qed.

Lemma compound_comm_semigroup cs : comm_semigroup cacc_eq (compound_merge cs).
Proof.
  constructor.
  - intro x. split; [reflexivity | apply Forall2_acc_refl].
  - intros x y [E F]. split; [auto|]. clear E. induction F; constructor; auto using acc_eq_sym.
  - intros x y z [E F] [E' F']. split; [congruence|]. clear E E'. destruct x as [? x], y as [? y], z as [? z].
    cbn in *. revert z F'. induction F; intros z F'; inversion F'; subst; constructor; eauto using acc_eq_trans.
  - intros x x' y y' [E F] [E' F']. split; cbn; [congruence|]. apply merge_all_cong; assumption.
  - intros [n x] [m y] [k z]. split; cbn; [ring|]. revert x y z.
    induction cs as [|c cs IH]; intros x y z; cbn; [constructor|].
    destruct x; cbn; [constructor|]. destruct y; cbn; [constructor|]. destruct z; cbn; [constructor|].
    constructor; auto. apply (cs_assoc _ _ (merge_comm_semigroup c)).
  - intros [n x] [m y]. split; cbn; [ring|]. revert x y.
    induction cs as [|c cs IH]; intros x y; cbn; [constructor|].
    destruct x, y; cbn; try constructor; auto. apply (cs_comm _ _ (merge_comm_semigroup c)).
Qed.

(** ** Any merge tree gives the same accumulator *)

Lemma any_tree {A} (R : A -> A -> Prop) merge0 (C : comm_semigroup R merge0) (t t' : tree A) :
  Permutation (leaves t) (leaves t') -> R (reduce_tree merge0 t) (reduce_tree merge0 t').
Proof.
  intro Pm. pose proof (reduce_tree_fold1 R merge0 C t) as H1.
  pose proof (reduce_tree_fold1 R merge0 C t') as H2.
  pose proof (fold1_Permutation R merge0 C _ _ Pm) as H3.
  destruct (fold1 merge0 (leaves t)), (fold1 merge0 (leaves t')); cbn in *; try contradiction.
  eapply (cs_trans _ _ C); [apply (cs_sym _ _ C); exact H1|].
  eapply (cs_trans _ _ C); eassumption.
Qed.

(** ** The merged accumulator holds the totals *)

Lemma length_concat_app {A} (g : list A) gs : Z.of_nat (length (g ++ concat gs)) = (Z.of_nat (length g) + Z.of_nat (length (concat gs)))%Z.
Proof. rewrite app_length. lia. Qed.

Lemma sumQ_shift {A} (f : A -> Q) m l :
  sumQ (map (fun v => f v - m) l) == sumQ (map f l) - inject_Z (Z.of_nat (length l)) * m.
Proof.
  induction l as [|x l IH]; [cbn; ring|].
  cbn [map sumQ fold_right length]. change (fold_right Qplus 0) with sumQ. rewrite IH.
  rewrite Nat2Z.inj_succ. unfold Z.succ. rewrite inject_Z_plus. change (inject_Z 1) with 1. ring.
Qed.

Lemma vadd_seq (f g : nat -> Q) l :
  vadd (map f l) (map g l) = Some (map (fun i => f i + g i) l).
Proof. induction l as [|x l IH]; cbn; [reflexivity|]. rewrite IH. reflexivity. Qed.

Lemma vec_eta l : l = map (fun i => nth i l 0) (seq 0 (length l)).
Proof.
  induction l as [|x l IH]; [reflexivity|].
  cbn [length seq map]. f_equal. rewrite <- seq_shift, map_map. cbn [nth]. exact IH.
Qed.

Lemma Forall2_Qeq_map {A} (f g : A -> Q) l :
  (forall x, f x == g x) -> Forall2 Qeq (map f l) (map g l).
Proof. intro E. induction l; constructor; auto. Qed.

Lemma vector_fold m vs (f : nat -> Q) l :
  Forall (vector_of (Z.of_nat m)) vs -> Forall2 Qeq l (map f (seq 0 m)) ->
  acc_eq (fold_left (vector_step (Z.of_nat m)) vs (AVec l))
         (AVec (map (fun i => f i + sumQ (map (coord i) vs)) (seq 0 m))).
Proof.
  revert f l. induction vs as [|v vs IH]; intros f l Hv Hl; cbn [fold_left].
  - constructor. eapply Forall2_Qeq_trans; [exact Hl|]. apply Forall2_Qeq_map. intro i. cbn. ring.
  - inversion Hv as [|? ? Hv1 Hv2]; subst. destruct v as [|x]; [destruct Hv1|]. cbn in Hv1.
    cbn [vector_step]. apply Nat2Z.inj in Hv1. rewrite Hv1, Z.eqb_refl.
    assert (E : acc_eq (avec_add (AVec l) (AVec x))
                       (AVec (map (fun i => f i + nth i x 0) (seq 0 m)))).
    { eapply acc_eq_trans.
      - apply (avec_add_cong _ (AVec (map f (seq 0 m))) _ (AVec (map (fun i => nth i x 0) (seq 0 m)))).
        + constructor. exact Hl.
        + rewrite <- Hv1, <- vec_eta. apply acc_eq_refl.
      - cbn. rewrite vadd_seq. apply acc_eq_refl. }
    inversion E as [| | | | | |l1 l2 F El|]; subst.
    cbn [avec_add]. rewrite <- El. eapply acc_eq_trans; [apply (IH _ _ Hv2 F)|].
    constructor. apply Forall2_Qeq_map. intro i. cbn [map sumQ fold_right coord]. change (fold_right Qplus 0) with sumQ. ring.
Qed.

Lemma create_vector m vs :
  vs <> [] -> Forall (vector_of (Z.of_nat m)) vs ->
  acc_eq (create (CVector (Z.of_nat m)) vs)
         (AVec (map (fun i => sumQ (map (coord i) vs)) (seq 0 m))).
Proof.
  destruct vs as [|v vs]; [congruence|]. intros _ Hv. inversion Hv as [|? ? Hv1 Hv2]; subst.
  destruct v as [|x]; [destruct Hv1|]. cbn in Hv1. cbn [create fold_left vector_step].
  apply Nat2Z.inj in Hv1. rewrite Hv1, Z.eqb_refl.
  eapply acc_eq_trans; [apply (vector_fold m vs (fun i => nth i x 0) x Hv2)|].
  - rewrite <- Hv1, <- vec_eta. apply Forall2_Qeq_refl.
  - apply acc_eq_refl.
Qed.

Lemma create_total c vs : fits c vs -> acc_eq (create c vs) (total c [vs]).
Proof.
  intro F. destruct c; cbn [create total concat]; rewrite ?app_nil_r.
  - constructor.
  - destruct vs; constructor.
  - destruct vs; constructor.
  - destruct per_partition; constructor.
    + cbn. ring.
    + reflexivity.
  - constructor. apply sumQ_shift.
  - constructor; [apply sumQ_shift|]. apply sumQ_ext. intros v _. ring.
  - constructor. reflexivity.
  - destruct F as [Hne F]. assert (Hs : size = Z.of_nat (Z.to_nat size)).
    { destruct vs as [|v vs]; [congruence|]. inversion F; subst. destruct v; [contradiction|]. cbn in H1. lia. }
    rewrite Hs in F |- *. rewrite Nat2Z.id. apply create_vector; assumption.
Qed.

Lemma total_app c gs gs' : gs <> [] -> gs' <> [] -> Forall (fits c) (gs ++ gs') ->
  acc_eq (merge c (total c gs) (total c gs')) (total c (gs ++ gs')).
Proof.
  intros N N' F. destruct c; cbn [merge total];
    rewrite ?concat_app, ?filter_app, ?map_app, ?app_length, ?Nat2Z.inj_add; try constructor.
  - destruct per_partition; rewrite ?map_app; constructor; rewrite sumQ_app; reflexivity.
  - rewrite sumQ_app, inject_Z_plus. ring.
  - rewrite sumQ_app, inject_Z_plus. ring.
  - rewrite sumQ_app. reflexivity.
  - reflexivity.
  - cbn [avec_add]. rewrite vadd_seq. constructor. apply Forall2_Qeq_map. intro i.
    rewrite map_app, sumQ_app. reflexivity.
Qed.

Lemma tree_of_creates c t gs :
  Permutation (leaves t) (map (create c) gs) -> gs <> [] -> Forall (fits c) gs ->
  acc_eq (reduce_tree (merge c) t) (total c gs).
Proof.
  intros Pm Ne F. pose proof (merge_comm_semigroup c) as C.
  pose proof (reduce_tree_fold1 _ _ C t) as H1.
  pose proof (fold1_Permutation _ _ C _ _ Pm) as H2.
  assert (H3 : optR acc_eq (fold1 (merge c) (map (create c) gs)) (Some (total c gs))).
  { clear Pm H1 H2. induction gs as [|g gs IH]; [congruence|].
    inversion F as [|? ? Fg Fgs]; subst. destruct gs as [|g' gs].
    - cbn [map fold1]. apply create_total; assumption.
    - cbn [map]. eapply optR_trans; [exact C | apply (fold1_cons acc_eq (merge c) C)|].
      specialize (IH ltac:(discriminate) Fgs). cbn [map] in IH.
      destruct (fold1 (merge c) (create c g' :: map (create c) gs)) as [b|]; [|contradiction].
      cbn [optR] in *. eapply (cs_trans _ _ C).
      + apply (cs_cong _ _ C); [apply create_total; exact Fg | exact IH].
      + apply (total_app c [g]); [discriminate | discriminate | exact F]. }
  destruct (fold1 (merge c) (leaves t)), (fold1 (merge c) (map (create c) gs)); cbn in *; try contradiction.
  eapply acc_eq_trans; [apply acc_eq_sym; exact H1|]. eapply acc_eq_trans; eassumption.
Qed.

(** The compound accumulator: row count and the totals of each combiner. *)
Definition ctotal cs gs : cacc := (Z.of_nat (length gs), map (fun c => total c gs) cs).

Lemma merge_all_map cs (f g : combiner -> acc) :
  merge_all cs (map f cs) (map g cs) = map (fun c => merge c (f c) (g c)) cs.
Proof. induction cs as [|c cs IH]; cbn; congruence. Qed.

Lemma Forall2_map_both {A} (f g : A -> acc) l :
  (forall x, In x l -> acc_eq (f x) (g x)) -> Forall2 acc_eq (map f l) (map g l).
Proof. induction l as [|x l IH]; intro E; constructor; [apply E; left; auto | apply IH; intros; apply E; right; auto]. Qed.

Lemma compound_tree cs t gs :
  Permutation (leaves t) (map (compound_create cs) gs) -> gs <> [] ->
  (forall c, In c cs -> Forall (fits c) gs) ->
  cacc_eq (reduce_tree (compound_merge cs) t)
          (Z.of_nat (length gs), map (fun c => total c gs) cs).
Proof.
  intros Pm Ne F. pose proof (compound_comm_semigroup cs) as C.
  pose proof (reduce_tree_fold1 _ _ C t) as H1.
  pose proof (fold1_Permutation _ _ C _ _ Pm) as H2.
  assert (H3 : optR cacc_eq (fold1 (compound_merge cs) (map (compound_create cs) gs)) (Some (ctotal cs gs))).
  { clear Pm H1 H2. induction gs as [|g gs IH]; [congruence|].
    assert (Fg : forall c, In c cs -> fits c g) by (intros c Hc; specialize (F c Hc); inversion F; auto).
    assert (Fgs : forall c, In c cs -> Forall (fits c) gs) by (intros c Hc; specialize (F c Hc); inversion F; auto).
    assert (Cg : cacc_eq (compound_create cs g) (ctotal cs [g])).
    { split; [reflexivity|]. apply Forall2_map_both. intros c Hc. apply create_total. auto. }
    destruct gs as [|g' gs].
    - cbn [map fold1]. exact Cg.
    - cbn [map]. eapply optR_trans; [exact C | apply (fold1_cons cacc_eq (compound_merge cs) C)|].
      specialize (IH ltac:(discriminate) Fgs). cbn [map] in IH.
      destruct (fold1 (compound_merge cs) (compound_create cs g' :: map (compound_create cs) gs)) as [b|]; [|contradiction].
      cbn [optR] in *. eapply (cs_trans _ _ C).
      + apply (cs_cong _ _ C); [exact Cg | exact IH].
      + split; [cbn -[Z.of_nat]; lia|]. unfold ctotal, compound_merge. cbn [snd fst].
        rewrite merge_all_map. apply Forall2_map_both. intros c Hc.
        apply (total_app c [g]); [discriminate | discriminate | auto]. }
  destruct (fold1 (compound_merge cs) (leaves t)), (fold1 (compound_merge cs) (map (compound_create cs) gs)); cbn [optR] in *; try contradiction.
  eapply (cs_trans _ _ C); [apply (cs_sym _ _ C); exact H1|]. eapply (cs_trans _ _ C); eassumption.
Qed.
