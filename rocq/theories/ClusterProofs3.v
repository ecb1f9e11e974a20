(** Accumulators, merging and metrics on Beam and Spark against the local backend. *)
From Coq Require Import List ZArith QArith Qminmax Bool Permutation PeanoNat Lia.
From Verif Require Import Base BaseLemmas BackendModel BackendSpec ListLemmas BackendProofs BackendProofs2 BounderModel BounderSpec BounderProofs
  ParamsModel SensModel CombinerModel CombinerSpec CombinerProofs EngineModel EngineSpec ClusterModel ClusterSpec ClusterProofs.
Import ListNotations.
Local Open Scope Q_scope.

Lemma clip_cong lo hi v w : v == w -> clip lo hi v == clip lo hi w.
Proof. intro E. unfold clip. rewrite E. reflexivity. Qed.

(** ** Accumulators do not depend on the order of the values *)
Lemma step_not_none n s l : s <> ANone -> vector_step n s (Vec l) = if (Z.of_nat (length l) =? n)%Z then avec_add s (AVec l) else AErr.
Proof. intro Ns. destruct s; cbn; try (destruct (Z.of_nat (length l) =? n)%Z; reflexivity). contradiction. Qed.
Lemma avec_add_not_none a b : avec_add a b <> ANone.
Proof. destruct a, b; cbn; try discriminate. destruct (vadd l l0); discriminate. Qed.
Lemma step_cong n s s' v : acc_eq s s' -> acc_eq (vector_step n s v) (vector_step n s' v).
Proof.
  intro E. destruct v as [q|l]; [destruct E; constructor|].
  assert (D : s = ANone /\ s' = ANone \/ s <> ANone /\ s' <> ANone) by (destruct E; (left; split; reflexivity) || (right; split; discriminate)).
  destruct D as [[-> ->] | [N N']]; [apply acc_eq_refl|]. rewrite !step_not_none by assumption.
  destruct (Z.of_nat (length l) =? n)%Z; [apply avec_add_cong; [exact E | apply acc_eq_refl] | apply acc_eq_refl].
Qed.
Lemma step_err n v : vector_step n AErr v = AErr. Proof. destruct v; reflexivity. Qed.
Lemma step_num n s q : vector_step n s (Num q) = AErr. Proof. destruct s; reflexivity. Qed.
Lemma avec_err b : avec_add AErr b = AErr. Proof. destruct b; reflexivity. Qed.
Lemma step_swap n s x y : acc_eq (vector_step n (vector_step n s x) y) (vector_step n (vector_step n s y) x).
Proof.
  destruct x as [q|x]; [rewrite step_num, step_err, step_num; apply acc_eq_refl|].
  destruct y as [q|y]; [rewrite !step_num, step_err; apply acc_eq_refl|].
  destruct (Z.of_nat (length x) =? n)%Z eqn:Ex; destruct (Z.of_nat (length y) =? n)%Z eqn:Ey.
  - assert (D : s = ANone \/ s <> ANone) by (destruct s; (left; reflexivity) || (right; discriminate)).
    destruct D as [-> | Ns].
    + cbn [vector_step]. rewrite ?Ex, ?Ey. rewrite !step_not_none by discriminate. rewrite ?Ex, ?Ey. apply avec_add_comm.
    + rewrite !(step_not_none n s) by exact Ns. rewrite Ex, Ey. rewrite !step_not_none by apply avec_add_not_none. rewrite Ex, Ey.
      eapply acc_eq_trans; [apply avec_add_assoc|]. eapply acc_eq_trans; [|apply acc_eq_sym, avec_add_assoc].
      apply avec_add_cong; [apply acc_eq_refl | apply avec_add_comm].
  - assert (D2 : forall t, vector_step n t (Vec y) = AErr) by (intro t; destruct t; cbn; rewrite ?Ey; reflexivity). rewrite !D2, step_err. apply acc_eq_refl.
  - assert (D2 : forall t, vector_step n t (Vec x) = AErr) by (intro t; destruct t; cbn; rewrite ?Ex; reflexivity). rewrite !D2, step_err. apply acc_eq_refl.
  - assert (D2 : forall t, vector_step n t (Vec x) = AErr) by (intro t; destruct t; cbn; rewrite ?Ex; reflexivity). rewrite !D2, step_err.
    assert (D3 : forall t, vector_step n t (Vec y) = AErr) by (intro t; destruct t; cbn; rewrite ?Ey; reflexivity). rewrite ?D3. apply acc_eq_refl.
Qed.
Lemma fold_step_cong n l : forall s s', acc_eq s s' -> acc_eq (fold_left (vector_step n) l s) (fold_left (vector_step n) l s').
Proof. induction l as [|v l IH]; intros s s' E; [exact E|]. apply IH, step_cong. exact E. Qed.
Lemma fold_step_perm n l l' : Permutation l l' -> forall s, acc_eq (fold_left (vector_step n) l s) (fold_left (vector_step n) l' s).
Proof.
  induction 1 as [|x l l' Pm IH|x y l|l l' l'' P1 IH1 P2 IH2]; intro s; cbn [fold_left].
  - apply acc_eq_refl.
  - apply IH.
  - apply fold_step_cong, step_swap.
  - eapply acc_eq_trans; [apply IH1 | apply IH2].
Qed.

Lemma create_perm c vs vs' : Permutation vs vs' -> acc_eq (create c vs) (create c vs').
Proof.
  intro Pm. pose proof (Permutation_length Pm) as L. destruct c as [| | |[] lo hi|lo hi ns|lo hi ns|ps|n]; cbn [create].
  - rewrite L. constructor.
  - destruct vs, vs'; try discriminate; constructor.
  - destruct vs, vs'; try discriminate; constructor.
  - constructor. apply clip_cong. apply sumQ_Permutation, Permutation_map. exact Pm.
  - constructor. apply sumQ_Permutation, Permutation_map. exact Pm.
  - rewrite L. constructor. apply sumQ_Permutation, Permutation_map. exact Pm.
  - rewrite L. constructor; apply sumQ_Permutation, Permutation_map; exact Pm.
  - constructor. apply Permutation_map. exact Pm.
  - apply fold_step_perm. exact Pm.
Qed.
Lemma compound_create_perm cs vs vs' : Permutation vs vs' -> cacc_eq (compound_create cs vs) (compound_create cs vs').
Proof.
  intro Pm. split; [reflexivity|]. cbn [compound_create snd]. induction cs as [|c cs IH]; constructor; [apply create_perm; exact Pm | exact IH].
Qed.

(** ** Merging *)
Lemma cacc_eq_refl a : cacc_eq a a.
Proof. split; [reflexivity | apply Forall2_acc_refl]. Qed.

Lemma fold1_rel {A} (R : A -> A -> Prop) merge0 (C : comm_semigroup R merge0) l l' :
  Forall2 R l l' -> optR R (fold1 merge0 l) (fold1 merge0 l').
Proof.
  intro F. destruct F as [|x y l l' E F]; [exact I|]. cbn [fold1]. cbn. revert x y E.
  induction F as [|a b l l' Eab F IH]; intros x y E; cbn [fold_left]; [exact E|]. apply IH. apply (cs_cong _ _ C); assumption.
Qed.

Lemma prel_values {K A B} `{EqDec K} (R : A -> B -> Prop) (l : list (K * A)) (l' : list (K * B)) k : prel R l l' ->
  exists m, Permutation (values_of k l) m /\ Forall2 R m (values_of k l').
Proof.
  intros [l'' [Pm F]]. exists (values_of k l''). split; [apply values_of_Permutation; exact Pm|]. clear Pm l.
  induction F as [|[k1 a] [k2 b] l l' [Ek Er] F IH]; [constructor|]. cbn [fst snd] in *. subst k2.
  unfold values_of in *. cbn [filter fst]. destruct (eqb k1 k); [constructor; assumption | exact IH].
Qed.
Lemma prel_keys {K A B} (R : A -> B -> Prop) (l : list (K * A)) (l' : list (K * B)) : prel R l l' ->
  Permutation (map fst l) (map fst l').
Proof.
  intros [l'' [Pm F]]. rewrite (Permutation_map fst Pm). clear Pm. induction F as [|x y l1 l2 [E _] F IH]; [constructor|]. cbn [map]. rewrite E.
  apply perm_skip. exact IH.
Qed.

Lemma combine_prel {K} `{EqDec K} cs (col col' : list (K * cacc)) : prel cacc_eq col col' ->
  krel cacc_eq (combine_per_key (compound_merge cs) col) (combine_per_key (compound_merge cs) col').
Proof.
  intro Hp. pose proof (prel_keys _ _ _ Hp) as Pk.
  unfold krel. rewrite !combine_per_key_keys. split; [apply NoDup_distinct|split; [apply NoDup_distinct|split]].
  - intro k. rewrite !in_distinct. split; apply Permutation_in; [|apply Permutation_sym]; exact Pk.
  - intros k a b Ia Ib. apply in_combine_per_key in Ia. apply in_combine_per_key in Ib.
    destruct (prel_values cacc_eq col col' k Hp) as [m [Pm F]].
    pose proof (fold1_Permutation cacc_eq _ (compound_comm_semigroup cs) _ _ Pm) as O1.
    pose proof (fold1_rel cacc_eq _ (compound_comm_semigroup cs) _ _ F) as O2.
    pose proof (optR_trans _ _ (compound_comm_semigroup cs) _ _ _ O1 O2) as O3. rewrite Ia, Ib in O3. exact O3.
Qed.

Lemma krel_trans {K A} (R : A -> A -> Prop) (Tr : forall x y z, R x y -> R y z -> R x z) (a b c : list (K * A)) :
  krel R a b -> krel R b c -> krel R a c.
Proof.
  intros [N1 [N2 [E1 H1]]] [_ [N3 [E2 H2]]]. split; [exact N1|split; [exact N3|split]].
  - intro k. rewrite E1. apply E2.
  - intros k x z Ix Iz. destruct (fst_in k b (proj1 (E1 k) (in_fst k x a Ix))) as [y Iy]. apply (Tr x y z); [apply (H1 k) | apply (H2 k)]; assumption.
Qed.

Lemma combined_local {K} `{EqDec K} b cs (col accs : list (K * cacc)) :
  combined_on b (fun _ => true) (compound_merge cs) col accs ->
  krel cacc_eq accs (combine_per_key (compound_merge cs) col).
Proof.
  pose proof (compound_comm_semigroup cs) as C. intro Hc. destruct b; destruct Hc as [plan [Hp E]].
  - destruct (beam_combining cacc_eq (compound_merge cs) (fun _ => true) (fun _ => True) col plan C Hp (fun _ _ => eq_refl) (fun _ _ _ _ => I) (fun _ _ _ => I))
      as [Pk Hr]. rewrite <- E in Pk, Hr. rewrite map_map in Pk. cbn [fst] in Pk.
    assert (Nc : NoDup (map fst (combine_per_key (compound_merge cs) col))) by (rewrite combine_per_key_keys; apply NoDup_distinct).
    split; [apply (Permutation_NoDup (Permutation_sym Pk)); exact Nc|split; [exact Nc|split]].
    + intro k. split; apply Permutation_in; [|apply Permutation_sym]; exact Pk.
    + intros k x y Ix Iy. destruct (Hr k y (Some x) Iy) as [z [Ez Rz]].
      { apply in_map_iff. exists (k, x). split; [reflexivity | exact Ix]. }
      injection Ez as <-. apply (cs_sym _ _ C). exact Rz.
  - destruct (spark_combining cacc_eq (compound_merge cs) col plan C Hp) as [Pk Hr]. unfold spark_by_key in E. rewrite <- E in Pk, Hr.
    assert (Nc : NoDup (map fst (combine_per_key (compound_merge cs) col))) by (rewrite combine_per_key_keys; apply NoDup_distinct).
    split; [apply (Permutation_NoDup (Permutation_sym Pk)); exact Nc|split; [exact Nc|split]].
    + intro k. split; apply Permutation_in; [|apply Permutation_sym]; exact Pk.
    + intros k x y Ix Iy. apply (cs_sym _ _ C). exact (Hr k y x Iy Ix).
Qed.

(** ** Metrics *)
Lemma same_metrics_names a b : same_metrics a b -> map fst a = map fst b.
Proof. induction 1 as [|x y a b [E _] F IH]; [reflexivity|]. cbn. rewrite E, IH. reflexivity. Qed.
Lemma same_one n x y : x == y -> same_metrics [(n, RNum x)] [(n, RNum y)].
Proof. intro E. constructor; [split; [reflexivity | exact E] | constructor]. Qed.
Lemma same_when (b : bool) n x y : x == y -> same_metrics (if b then [(n, RNum x)] else []) (if b then [(n, RNum y)] else []).
Proof. destruct b; [apply same_one | constructor]. Qed.
Lemma same_combine ns a b : Forall2 Qeq a b -> same_metrics (combine ns (map RNum a)) (combine ns (map RNum b)).
Proof.
  intro F. revert ns. induction F as [|x y a b E F IH]; intros [|n ns]; cbn; try constructor; [split; [reflexivity | exact E] | apply IH].
Qed.

Lemma mean_cong f dc dc' s s' lo hi : (forall x y, x == y -> f x == f y) -> dc == dc' -> s == s' ->
  mean_for_normalized_sum f dc s lo hi == mean_for_normalized_sum f dc' s' lo hi.
Proof.
  intros Hf Ed Es. unfold mean_for_normalized_sum. destruct (Qeq_bool lo hi); [reflexivity|]. rewrite (Hf _ _ Es), Ed. reflexivity.
Qed.

Lemma compute_cong nz c a b d : numeric_noise nz -> acc_eq a b -> compute_metrics nz c a = Ok d ->
  exists d', compute_metrics nz c b = Ok d' /\ same_metrics d d'.
Proof.
  intros [Hc [Hs [Hq [Ht Hv]]]] E Hd.
  destruct c as [| | |pp lo hi|lo hi ns|lo hi ns|ps|n]; destruct E as [z|q q' Eq|n0 s s' Es|n0 s s' q q' Es Eq|l l' El| |l l' El|]; try discriminate Hd;
    cbn [compute_metrics] in Hd |- *.
  - injection Hd as <-. eexists. split; [reflexivity|]. apply same_one. reflexivity.
  - injection Hd as <-. eexists. split; [reflexivity|]. apply same_one. reflexivity.
  - injection Hd as <-. eexists. split; [reflexivity|]. constructor; [|constructor]. split; [reflexivity|]. cbn [snd]. destruct (n_thresh nz z); cbn; [reflexivity | exact I].
  - injection Hd as <-. eexists. split; [reflexivity|]. apply same_one. apply Hs. exact Eq.
  - unfold compute_mean in *. cbv zeta in *. injection Hd as <-. eexists. split; [reflexivity|]. unfold same_metrics.
    assert (Em : middle lo hi + n_sum nz s / Qmax 1 (n_count nz (inject_Z n0)) == middle lo hi + n_sum nz s' / Qmax 1 (n_count nz (inject_Z n0))).
    { rewrite (Hs _ _ Es). reflexivity. }
    apply (Forall2_app (l1 := [_]) (l1' := [_])); [apply same_one; exact Em|]. apply Forall2_app; [apply same_when; reflexivity|].
    apply same_when. rewrite Em. reflexivity.
  - unfold compute_dp_var in *. cbv zeta in *. injection Hd as <-. eexists. split; [reflexivity|]. unfold same_metrics.
    set (dc := n_count nz (inject_Z n0)) in *.
    assert (E1 : mean_for_normalized_sum (n_sum nz) dc s lo hi == mean_for_normalized_sum (n_sum nz) dc s' lo hi) by (apply mean_cong; [exact Hs | reflexivity | exact Es]).
    assert (E2 : mean_for_normalized_sum (n_squares nz) dc q (fst (squares_interval lo hi)) (snd (squares_interval lo hi)) ==
                 mean_for_normalized_sum (n_squares nz) dc q' (fst (squares_interval lo hi)) (snd (squares_interval lo hi)))
      by (apply mean_cong; [exact Hq | reflexivity | exact Eq]).
    assert (E3 : (if negb (Qeq_bool lo hi) then mean_for_normalized_sum (n_sum nz) dc s lo hi + middle lo hi else mean_for_normalized_sum (n_sum nz) dc s lo hi) ==
                 (if negb (Qeq_bool lo hi) then mean_for_normalized_sum (n_sum nz) dc s' lo hi + middle lo hi else mean_for_normalized_sum (n_sum nz) dc s' lo hi)).
    { destruct (negb (Qeq_bool lo hi)); rewrite E1; reflexivity. }
    apply (Forall2_app (l1 := [_]) (l1' := [_])); [apply same_one; rewrite E1, E2; reflexivity|]. apply Forall2_app; [apply same_when; reflexivity|].
    apply Forall2_app; apply same_when; [rewrite E3; reflexivity | exact E3].
  - injection Hd as <-. eexists. split; [reflexivity|]. apply same_combine. apply Ht. exact El.
  - injection Hd as <-. eexists. split; [reflexivity|]. constructor; [|constructor]. split; [reflexivity|]. cbn. apply Hv. exact El.
Qed.

Lemma existsb_names (d d' sofar sofar' : list (mname * released)) : map fst d = map fst d' -> map fst sofar = map fst sofar' ->
  existsb (fun kv => existsb (eqb (fst kv)) (map fst sofar)) d = existsb (fun kv => existsb (eqb (fst kv)) (map fst sofar')) d'.
Proof.
  intros E1 E2. rewrite E2. clear E2 sofar. revert d' E1. induction d as [|x d IH]; intros [|y d'] E; try discriminate; [reflexivity|].
  cbn in E |- *. injection E as E0 E. rewrite E0, (IH d' E). reflexivity.
Qed.

Lemma combine_metrics_cong nzs cs : (forall i, numeric_noise (nzs i)) -> forall i accs accs' sofar sofar' d,
  Forall2 acc_eq accs accs' -> same_metrics sofar sofar' -> combine_metrics nzs i cs accs sofar = Ok d ->
  exists d', combine_metrics nzs i cs accs' sofar' = Ok d' /\ same_metrics d d'.
Proof.
  intro Hn. induction cs as [|c cs IH]; intros i accs accs' sofar sofar' d F Sm Hd.
  - cbn in Hd |- *. injection Hd as <-. exists sofar'. split; [reflexivity | exact Sm].
  - destruct F as [|a b accs accs' Eab F]; cbn [combine_metrics] in Hd |- *.
    + injection Hd as <-. exists sofar'. split; [reflexivity | exact Sm].
    + destruct (compute_metrics (nzs i) c a) as [d0|e] eqn:Ec; [|discriminate]. cbn [rbind] in Hd.
      destruct (compute_cong (nzs i) c a b d0 (Hn i) Eab Ec) as [d0' [Ec' Sd]]. rewrite Ec'. cbn [rbind].
      rewrite <- (existsb_names d0 d0' sofar sofar' (same_metrics_names _ _ Sd) (same_metrics_names _ _ Sm)).
      destruct (existsb _ d0); [discriminate|]. apply (IH (S i) accs accs' (sofar ++ d0) (sofar' ++ d0')); [exact F | apply Forall2_app; assumption | exact Hd].
Qed.

Lemma above_cong m m' : same_metrics m m' -> above_threshold m = above_threshold m'.
Proof.
  intro F. unfold above_threshold. f_equal. induction F as [|[n x] [n' y] m m' [En Ev] F IH]; [reflexivity|]. cbn [existsb]. rewrite IH. f_equal.
  cbn [fst snd] in *. subst n'. destruct n, x, y; cbn in Ev; try contradiction; reflexivity.
Qed.
