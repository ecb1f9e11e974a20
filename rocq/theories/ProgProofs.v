(** Lemmas for C63: each method of DPEngine is differentially private. *)
From Coq Require Import List ZArith QArith Qreals Qabs Reals Bool Permutation Lia Lqa Lra.
From Verif Require Import Base BaseLemmas BackendModel ListLemmas BackendSpec BackendProofs ParamsModel ParamsSpec ParamsProps SensModel CombinerModel
  EngineModel EngineSpec EngineProofs2 EngineProofs3 EngineProps2 BudgetModel BudgetSpec VectorModel ExpMechModel ExpMechSpec ExpMechProofs ExpMechProps
  LaplaceSpec LaplaceProofs SelectModel SelectSpec SelectProofs SelectProofs2 SelectProofs3 SelectProps WrapperModel DistSpec DistProofs DpModel DpSpec
  DpProofs DpProofs2 DpProofs3 DpProofs4 DpProofs5 ProgSpec.
Import ListNotations.
Local Open Scope R_scope.
Local Close Scope Q_scope.

Lemma find_by_key {A K} `{EqDec K} (key : A -> K) (l : list A) e : NoDup (map key l) -> In e l -> find (fun x => eqb (key x) (key e)) l = Some e.
Proof.
  induction l as [|x l IH]; intros N I; [destruct I|]. inversion N as [|? ? Nx Nl]; subst. cbn [find].
  destruct I as [->|I]; [rewrite eqb_refl; reflexivity|]. destruct (eqb (key x) (key e)) eqn:X; [|auto].
  apply eqb_eq in X. exfalso. apply Nx. rewrite X. apply in_map. exact I.
Qed.

(** ** Binding, with conditions on the support only *)
Lemma mixture_le_in {A} (d : dist A) F G : Forall (fun wa => 0 <= fst wa) d ->
  (forall w a, In (w, a) d -> F a <= G a) -> mixture d F <= mixture d G.
Proof.
  induction 1 as [|[w a] d Pw _ IH]; intro L; [rewrite !mixture_nil; lra|]. rewrite !mixture_cons. cbn [fst] in Pw.
  assert (X := L w a (or_introl eq_refl)). apply (Rmult_le_compat_l w) in X; [|exact Pw].
  assert (Y := IH (fun w a I => L w a (or_intror I))). lra.
Qed.
Lemma is_dist_bind_in {A B} (d : dist A) (k : A -> dist B) : is_dist d -> (forall w a, In (w, a) d -> is_dist (k a)) -> is_dist (dbind d k).
Proof.
  intros [Pd Sd] K. split.
  - apply Forall_forall. intros [w b] I. unfold dbind in I. apply in_flat_map in I. destruct I as [[w1 a] [I1 I2]].
    apply in_map_iff in I2. destruct I2 as [[w2 b'] [E I2]]. injection E as <- <-. cbn [fst snd] in *.
    rewrite Forall_forall in Pd. assert (P1 := Pd _ I1). destruct (K w1 a I1) as [P2 _]. rewrite Forall_forall in P2. assert (P3 := P2 _ I2). cbn in *.
    apply Rmult_le_pos; assumption.
  - assert (M : forall (T : Type) (d : dist T), sumR (map fst d) = mixture d (fun _ => 1)).
    { intros T l. induction l as [|[w a] l IH]; [reflexivity|]. cbn [map fst]. rewrite sumR_cons, mixture_cons, IH. ring. }
    rewrite M, mixture_bind. rewrite (mixture_ext_in d _ (fun _ => 1)).
    + rewrite <- M. exact Sd.
    + intros w a I. right. rewrite <- M. apply (K w a I).
Qed.
Lemma below_bind_in {A B} e1 d1 e2 d2 (d d' : dist A) (k k' : A -> dist B) :
  0 <= d2 -> is_dist d -> is_dist d' ->
  (forall w a, In (w, a) d \/ In (w, a) d' -> is_dist (k a) /\ is_dist (k' a) /\ below e2 d2 (k a) (k' a)) ->
  below e1 d1 d d' -> below (e1 + e2) (d1 + d2) (dbind d k) (dbind d' k').
Proof.
  intros P2 D D' K B1 F HF. rewrite !mixture_bind.
  pose (G := fun a => Rmax 0 (Rmin 1 (exp e2 * mixture (k' a) F))).
  assert (Pe := exp_pos e2).
  assert (X : mixture d (fun a => mixture (k a) F) <= mixture d (fun a => G a + d2)).
  { apply mixture_le_in; [apply D|]. intros w a I. destruct (K w a (or_introl I)) as [Ka [_ B2]]. specialize (B2 F HF).
    pose proof (mixture_range (k a) F Ka HF).
    assert (Rmin 1 (exp e2 * mixture (k' a) F) <= G a) by apply Rmax_r.
    unfold Rmin in *. destruct (Rle_dec 1 (exp e2 * mixture (k' a) F)); lra. }
  rewrite mixture_add, (mixture_const d d2 D) in X.
  assert (Y : mixture d G <= exp e1 * mixture d' G + d1).
  { apply B1. intro a. unfold G. split; [apply Rmax_l|]. apply Rmax_lub; [lra | apply Rmin_l]. }
  assert (W : mixture d' G <= exp e2 * mixture d' (fun a => mixture (k' a) F)).
  { rewrite <- mixture_scale. apply mixture_le_in; [apply D'|]. intros w a I. destruct (K w a (or_intror I)) as [_ [Ka _]].
    pose proof (mixture_range (k' a) F Ka HF). unfold G. apply Rmax_lub; [apply Rmult_le_pos; lra | apply Rmin_r]. }
  rewrite exp_plus. pose proof (exp_pos e1). apply (Rmult_le_compat_l (exp e1)) in W; lra.
Qed.
Lemma both_bind_in {A B} e1 d1 e2 d2 (d d' : dist A) (k k' : A -> dist B) :
  0 <= d2 -> is_dist d -> is_dist d' ->
  (forall w a, In (w, a) d \/ In (w, a) d' -> is_dist (k a) /\ is_dist (k' a) /\ both e2 d2 (k a) (k' a)) ->
  both e1 d1 d d' -> both (e1 + e2) (d1 + d2) (dbind d k) (dbind d' k').
Proof.
  intros P2 D D' K [B1 B2]. split; apply below_bind_in; auto; intros w a I.
  - destruct (K w a I) as [K1 [K2 [K3 _]]]. auto.
  - destruct (K w a) as [K1 [K2 [_ K3]]]; [tauto|]. auto.
Qed.
Section Ops.
Context {U P : Type} `{EqDec U} `{EqDec P} (py : pydp).

(** ** select_partitions *)
Definition coin_of (keep : Z -> R) (n : Z) : dist bool := [(keep n, true); (1 - keep n, false)].

Lemma coin_dist keep n : (forall n, 0 <= keep n <= 1) -> is_dist (coin_of keep n).
Proof.
  intro K. specialize (K n). split; [repeat (apply Forall_cons; [cbn; lra|]); apply Forall_nil|]. unfold coin_of. cbn [map fst]. rewrite !sumR_cons. cbn. lra.
Qed.

(** What a run of select_partitions shows, when [n] are the counts. *)
Lemma selection_shown l0 (ch : source U) (rows : list (U * P)) keys answers (n : P -> Z) :
  incl (select_partitions l0 ch answers rows) keys ->
  (forall k, In k (select_partitions l0 ch answers rows) <-> (0 < n k)%Z /\ answers k (n k) = true) ->
  shown keys (select_partitions l0 ch answers rows) = map (fun k => (0 <? n k)%Z && answers k (n k)) keys /\
  filter (fun k => negb (mem k keys)) (select_partitions l0 ch answers rows) = [].
Proof.
  intros Ic K. split.
  - unfold shown. apply map_ext. intro k. apply eq_true_iff_eq. rewrite mem_true_iff, (K k), andb_true_iff, Z.ltb_lt. reflexivity.
  - destruct (filter _ _) as [|k l] eqn:E; [reflexivity|]. exfalso.
    assert (I : In k (filter (fun k => negb (mem k keys)) (select_partitions l0 ch answers rows))) by (rewrite E; left; reflexivity).
    apply filter_In in I. destruct I as [I1 I2]. apply Ic in I1. apply mem_true_iff in I1. rewrite I1 in I2. discriminate.
Qed.

Lemma selection_law l0 (ch : source U) (rows : list (U * P)) keys keep (n : P -> Z) F :
  NoDup keys -> (forall answers, incl (select_partitions l0 ch answers rows) keys) ->
  (forall answers k, In k (select_partitions l0 ch answers rows) <-> (0 < n k)%Z /\ answers k (n k) = true) ->
  (forall k, (0 <= n k <= Z.of_nat (length rows))%Z) ->
  (forall n, 0 <= keep n <= 1) -> (forall n, (n <= 0)%Z -> keep n = 0) ->
  mixture (random_function (fun kn : P * Z => coin_of keep (snd kn)) false (list_prod keys (counts (length rows)))) (fun answers =>
    F (shown keys (select_partitions l0 ch (fun k n => answers (k, n)) rows))
      (filter (fun k => negb (mem k keys)) (select_partitions l0 ch (fun k n => answers (k, n)) rows))) =
  mixture (independent (coin_of keep) (map n keys)) (fun bs => F bs []).
Proof.
  intros Nk Ic K Bn K01 K0.
  rewrite (mixture_ext _ _ (fun g => (fun bs => F (map (fun kb => (0 <? n (fst kb))%Z && snd kb) (combine keys bs)) [])
                                       (map g (map (fun k => (k, n k)) keys)))).
  2: { intro g. destruct (selection_shown l0 ch rows keys (fun k n => g (k, n)) n (Ic _) (K _)) as [-> ->].
       cbn beta. f_equal. rewrite map_map. clear. induction keys as [|k keys IH]; [reflexivity|]. cbn. rewrite IH. reflexivity. }
  rewrite (random_values (fun kn : P * Z => coin_of keep (snd kn)) false (map (fun k => (k, n k)) keys)
             (list_prod keys (counts (length rows)))
             (fun bs => F (map (fun kb => (0 <? n (fst kb))%Z && snd kb) (combine keys bs)) [])).
  - rewrite !mixture_independent_map. cbn [snd].
    apply (mixture_independent_support _ (fun k b => b = true -> (0 < n k)%Z)).
    + intros k w b _ I. destruct (Z.lt_ge_cases 0 (n k)) as [X|X]; [right; auto|].
      unfold coin_of in I. rewrite (K0 (n k)) in I by lia. destruct I as [I|[I|[]]]; injection I as <- <-; [left; reflexivity | right; discriminate].
    + intros bs Fa. f_equal. clear -Fa. induction Fa as [|k b ks bs Rk Fa IH]; [reflexivity|]. cbn [combine map fst snd]. rewrite IH.
      f_equal. destruct b; [|apply andb_false_r]. rewrite (proj2 (Z.ltb_lt _ _) (Rk eq_refl)). reflexivity.
  - clear -Nk. induction Nk as [|k keys Hk _ IH]; cbn; constructor; [|exact IH]. intro I. apply in_map_iff in I. destruct I as [x [E I]]. injection E as E _. subst. contradiction.
  - intros kn I. apply in_map_iff in I. destruct I as [k [<- I]]. apply in_prod; [exact I|]. unfold counts. apply in_map_iff.
    exists (Z.to_nat (n k)). specialize (Bn k). split; [lia|]. apply in_seq. lia.
  - intros kn _. apply coin_dist. exact K01.
Qed.

Definition possible_in (o : operation U P) (d : dist (answer P)) : Prop := forall w a, In (w, a) d -> possible o a.

Lemma pairs_ids_le (r : list (U * P)) k : (length (pairs_ids k r) <= length r)%nat.
Proof.
  unfold pairs_ids. eapply Nat.le_trans; [apply distinct_length_le|]. rewrite map_length.
  induction r as [|x r IH]; [cbn; lia|]. cbn [filter]. destruct (eqb (snd x) k); cbn; lia.
Qed.

Lemma selection_both u (s : selection U P) eps delta : pydp_keeps_promises py -> valid_selection s ->
  (0 < eps)%Q -> (0 <= delta < 1)%Q ->
  let s' := Selection (s_bound s) (s_strategy s) (s_pre s) (s_choices s) (s_keys s) (filter (fun r => negb (eqb (fst r) u)) (s_rows s)) in
  is_dist (run_selection py s eps delta) /\ is_dist (run_selection py s' eps delta) /\
  possible_in (SelectPartitions s) (run_selection py s eps delta) /\ possible_in (SelectPartitions s) (run_selection py s' eps delta) /\
  both (Q2R eps) (Q2R delta) (run_selection py s eps delta) (run_selection py s' eps delta).
Proof.
  intros [_ [Hpy _]] [Hc [Hv [Nk Ik]]] He Hd s'.
  apply C38_select_partitions_check in Hc. destruct Hc as [_ [_ [[z [Ez Pz]] Hpre]]]. cbn in Ez, Hpre. injection Ez as Ez. subst z.
  assert (Ht : forall t, s_pre s = Some t -> (0 < t)%Z).
  { intros t Et. rewrite Et in Hpre. cbn in Hpre. destruct Hpre as [Hpre|[z [Ez Pt]]]; [discriminate|]. injection Ez as ->. exact Pt. }
  destruct (Hpy (select_partitions_selector (s_strategy s) (s_bound s) (s_pre s) eps delta) (s_bound s) eq_refl Pz He Hd (known_strategy (s_strategy s)) Ht)
    as [K01 [K0 C]].
  set (keep := py_keep py (select_partitions_selector (s_strategy s) (s_bound s) (s_pre s) eps delta)) in *.
  set (rows' := filter (fun r => negb (eqb (fst r) u)) (s_rows s)) in *.
  destruct (C27_select_partitions (Z.to_nat (s_bound s)) (s_choices s) (s_rows s) u Hv) as [n [n' [K [K' [B [D1 D2]]]]]].
  fold rows' in K'.
  destruct (C27_select_partitions (Z.to_nat (s_bound s)) (s_choices s) rows' u Hv) as [m [_ [Km [_ [Bm _]]]]].
  assert (B' : forall k, (0 <= n' k <= Z.of_nat (length rows'))%Z).
  { intro k. assert (Bk := Bm k). assert (L := pairs_ids_le rows' k).
    assert (Q : forall keep, (0 < n' k)%Z /\ keep k (n' k) = true <-> (0 < m k)%Z /\ keep k (m k) = true).
    { intro kp. destruct (Km kp) as [_ [_ Kk]]. rewrite <- Kk. symmetry. apply K'. }
    destruct (Z.lt_ge_cases 0 (n' k)) as [X|X].
    - specialize (Q (fun _ z => (z =? n' k)%Z)). cbn beta in Q. rewrite Z.eqb_refl in Q.
      destruct (proj1 Q (conj X eq_refl)) as [_ Y]. apply Z.eqb_eq in Y. lia.
    - destruct (D1 k). lia. }
  assert (Bn : forall k, (0 <= n k <= Z.of_nat (length (s_rows s)))%Z).
  { intro k. specialize (B k). assert (L := pairs_ids_le (s_rows s) k). lia. }
  assert (Ir : incl (map snd rows') (s_keys s)).
  { intros k I. apply Ik. apply in_map_iff in I. destruct I as [x [<- I]]. apply filter_In in I. apply in_map. apply I. }
  assert (I1 : forall answers, incl (select_partitions (Z.to_nat (s_bound s)) (s_choices s) answers (s_rows s)) (s_keys s)).
  { intros kp k I. apply Ik. apply (proj1 (proj2 (K kp))). exact I. }
  assert (I2 : forall answers, incl (select_partitions (Z.to_nat (s_bound s)) (s_choices s) answers rows') (s_keys s)).
  { intros kp k I. apply Ir. apply (proj1 (proj2 (Km kp))). exact I. }
  assert (Dist : forall x : selection U P, s_bound x = s_bound s -> s_strategy x = s_strategy s -> s_pre x = s_pre s -> is_dist (run_selection py x eps delta)).
  { intros x E1 E2 E3. unfold run_selection. rewrite E1, E2, E3. apply is_dist_bind; [|intro; apply is_dist_ret]. apply is_dist_random_function.
    intros kn _. apply (coin_dist keep). exact K01. }
  split; [apply Dist; reflexivity|]. split; [apply Dist; reflexivity|].
  assert (Pos : forall x : selection U P, s_bound x = s_bound s -> s_choices x = s_choices s -> s_keys x = s_keys s ->
            (forall answers, incl (select_partitions (Z.to_nat (s_bound s)) (s_choices s) answers (s_rows x)) (s_keys s)) ->
            possible_in (SelectPartitions s) (run_selection py x eps delta)).
  { intros x E1 E2 E3 Ic w a I. unfold run_selection in I. cbv zeta in I. apply in_flat_map in I. destruct I as [[w1 g] [_ I]].
    apply in_map_iff in I. destruct I as [[w2 a2] [E I]]. injection E as _ <-. cbn [snd] in *. destruct I as [I|[]]. injection I as _ <-.
    rewrite E1, E2, E3. cbn [possible].
    destruct (filter (fun k => negb (mem k (s_keys s))) _) as [|k l] eqn:Ef; [unfold shown; apply map_length|].
    assert (J : In k (k :: l)) by (left; reflexivity). rewrite <- Ef in J. apply filter_In in J. destruct J as [J1 J2]. apply Ic in J1.
    apply mem_true_iff in J1. rewrite J1 in J2. discriminate. }
  split; [apply Pos; auto|]. split; [apply Pos; auto|].
  apply both_ext with (d2 := dbind (independent (coin_of keep) (map n (s_keys s))) (fun bs => dret (Selected bs [])))
                      (d2' := dbind (independent (coin_of keep) (map n' (s_keys s))) (fun bs => dret (Selected bs []))).
  - intro F. unfold run_selection. cbv zeta. rewrite !mixture_bind.
    rewrite (mixture_ext (independent _ _) _ (fun bs => F (Selected bs []))) by (intro; apply mixture_ret).
    rewrite <- (selection_law (Z.to_nat (s_bound s)) (s_choices s) (s_rows s) (s_keys s) keep n (fun bs l => F (Selected bs l))); auto.
    + apply mixture_ext. intro g. apply mixture_ret.
    + intros answers k. apply (proj2 (proj2 (K answers))).
  - intro F. unfold run_selection. cbv zeta. rewrite !mixture_bind.
    rewrite (mixture_ext (independent _ _) _ (fun bs => F (Selected bs []))) by (intro; apply mixture_ret).
    rewrite <- (selection_law (Z.to_nat (s_bound s)) (s_choices s) rows' (s_keys s) keep n' (fun bs l => F (Selected bs l))); auto.
    apply mixture_ext. intro g. apply mixture_ret.
  - apply both_post. apply both_events. intro Ev. unfold coin_of. rewrite !kept_prob. apply C.
    apply neighbouring_counts; [intro k; apply B' | intro k; apply D1 |]. specialize (D2 (s_keys s) Nk). lia.
Qed.

(** ** add_dp_noise *)
Lemma value_in (col : list (P * Q)) k x : NoDup (map fst col) -> In (k, x) col -> exact_at col k = x.
Proof.
  intros N I. unfold exact_at. assert (F := find_by_key fst col (k, x) N I). cbn [fst] in F. rewrite F. reflexivity.
Qed.
Lemma value_exists (col : list (P * Q)) k : NoDup (map fst col) -> In k (map fst col) -> In (k, exact_at col k) col.
Proof.
  intros N I. apply in_map_iff in I. destruct I as [[k' x] [E I]]. cbn in E. subst. rewrite (value_in col k x N I). exact I.
Qed.

Lemma map_result_ok {A B} (f : A -> result B) (g : A -> B) l : (forall x, f x = Ok (g x)) -> map_result f l = Ok (map g l).
Proof. intro E. induction l as [|x l IH]; [reflexivity|]. cbn [map_result map]. rewrite E. cbn [rbind]. rewrite IH. reflexivity. Qed.

Lemma independent_pairs (f : Q -> dist Q) (col : list (P * Q)) F :
  mixture (independent (fun e : P * dist Q => dbind (snd e) (fun y => dret (fst e, y))) (map (fun kv => (fst kv, f (snd kv))) col)) F =
  mixture (independent (fun kv : P * Q => f (snd kv)) col) (fun ys => F (combine (map fst col) ys)).
Proof.
  revert F. induction col as [|[k x] col IH]; intro F; [reflexivity|]. cbn [map fst snd]. rewrite !mixture_independent_cons.
  rewrite mixture_bind. apply mixture_ext. intro y. rewrite mixture_ret. cbn [combine]. apply IH.
Qed.

Lemma seen_values (col : list (P * Q)) keys (h : P * Q -> Q) : NoDup (map fst col) -> Permutation (map fst col) keys ->
  seen keys (combine (map fst col) (map h col)) = (map (fun k => Some (h (k, exact_at col k))) keys, []).
Proof.
  intros N Pm. assert (E : combine (map fst col) (map h col) = map (fun kv => (fst kv, h kv)) col).
  { clear. induction col as [|x l IH]; [reflexivity|]. cbn. rewrite IH. reflexivity. }
  rewrite E. unfold seen. f_equal.
  - apply map_ext_in. intros k Ik. apply Permutation_sym in Pm. apply (Permutation_in _ Pm) in Ik.
    assert (I := value_exists col k N Ik).
    assert (N' : NoDup (map fst (map (fun kv : P * Q => (fst kv, h kv)) col))) by (rewrite map_map; exact N).
    assert (F := find_by_key fst (map (fun kv : P * Q => (fst kv, h kv)) col) (k, h (k, exact_at col k)) N').
    cbn [fst] in F. rewrite F; [reflexivity|]. apply in_map_iff. exists (k, exact_at col k). auto.
  - rewrite map_map. cbn [fst]. destruct (filter _ _) as [|k l] eqn:Ef; [reflexivity|]. exfalso.
    assert (J : In k (k :: l)) by (left; reflexivity). rewrite <- Ef in J. apply filter_In in J. destruct J as [J1 J2].
    apply (Permutation_in _ Pm) in J1. apply mem_true_iff in J1. rewrite J1 in J2. discriminate.
Qed.

Lemma addition_law (f : Q -> dist Q) (col : list (P * Q)) keys F : (forall x, is_dist (f x)) ->
  NoDup keys -> Permutation (map fst col) keys ->
  mixture (independent (fun e : P * dist Q => dbind (snd e) (fun y => dret (fst e, y))) (map (fun kv => (fst kv, f (snd kv))) col)) (fun out => F (seen keys out)) =
  mixture (independent f (map (exact_at col) keys)) (fun ys => F (map Some ys, [])).
Proof.
  intros Df Nk Pm. assert (N : NoDup (map fst col)) by (eapply Permutation_NoDup; [apply Permutation_sym; exact Pm | exact Nk]).
  rewrite independent_pairs.
  rewrite <- (random_values (fun kv : P * Q => f (snd kv)) 0%Q col col (fun ys => F (seen keys (combine (map fst col) ys)))).
  - rewrite (mixture_ext _ _ (fun h => (fun ys => F (map Some ys, [])) (map h (map (fun k => (k, exact_at col k)) keys)))).
    2: { intro h. cbn beta. rewrite (seen_values col keys h N Pm), !map_map. reflexivity. }
    rewrite (random_values (fun kv : P * Q => f (snd kv)) 0%Q (map (fun k => (k, exact_at col k)) keys) col (fun ys => F (map Some ys, []))).
    + rewrite !mixture_independent_map. reflexivity.
    + clear -Nk. induction Nk as [|k keys Hk _ IH]; cbn; constructor; [|exact IH]. intro I. apply in_map_iff in I. destruct I as [x [E I]]. injection E as E _. subst. contradiction.
    + intros kv I. apply in_map_iff in I. destruct I as [k [<- I]]. apply value_exists; [exact N|].
      apply Permutation_sym in Pm. apply (Permutation_in _ Pm). exact I.
    + intros; apply Df.
  - apply (NoDup_map_inv fst). exact N.
  - apply incl_refl.
  - intros; apply Df.
Qed.

(** At most [l0] changes of at most [linf]. *)
Lemma norms_bounded {A} (keys : list A) (x x' : A -> Q) l0 linf :
  (0 < linf)%Q -> (forall k, In k keys -> (Qabs (x k - x' k) <= linf)%Q) ->
  (Z.of_nat (length (filter (fun k => negb (Qeq_bool (x k) (x' k))) keys)) <= l0)%Z ->
  (l1_norm keys (fun k => x k - x' k) <= inject_Z l0 * linf)%Q /\
  (l2sq_norm keys (fun k => x k - x' k) <= inject_Z l0 * (linf * linf))%Q.
Proof.
  intros Pl Hd Hl. set (n := length (filter (fun k => negb (Qeq_bool (x k) (x' k))) keys)) in *.
  assert (G : (l1_norm keys (fun k => x k - x' k) <= inject_Z (Z.of_nat n) * linf)%Q /\
              (l2sq_norm keys (fun k => x k - x' k) <= inject_Z (Z.of_nat n) * (linf * linf))%Q).
  { unfold n. clear n Hl. induction keys as [|k keys IH]; [split; cbn; unfold l1_norm, l2sq_norm; cbn; ring_simplify; apply Qle_refl|].
    destruct IH as [A1 A2]; [intros; apply Hd; right; assumption|]. assert (Dk := Hd k (or_introl eq_refl)).
    unfold l1_norm, l2sq_norm in *. cbn [map filter].
    change (sumQ (?a :: ?l)) with (a + sumQ l)%Q.
    destruct (Qeq_bool (x k) (x' k)) eqn:E; cbn [negb].
    - apply Qeq_bool_eq in E. assert (Z0 : (x k - x' k == 0)%Q) by (rewrite E; ring).
      split.
      + assert (Qabs (x k - x' k) == 0)%Q by (rewrite Z0; reflexivity). rewrite H1. ring_simplify. ring_simplify in A1. exact A1.
      + assert ((x k - x' k) * (x k - x' k) == 0)%Q by (rewrite Z0; reflexivity). rewrite H1. ring_simplify. ring_simplify in A2. exact A2.
    - cbn [length]. rewrite Nat2Z.inj_succ. unfold Z.succ. rewrite inject_Z_plus. change (inject_Z 1) with 1%Q.
      assert (Sq : ((x k - x' k) * (x k - x' k) <= linf * linf)%Q).
      { apply Qabs_Qle_condition in Dk. Lqa.nra. }
      split; [rewrite Qmult_plus_distr_l, Qmult_1_l | rewrite Qmult_plus_distr_l, Qmult_1_l]; Lqa.lra. }
  assert (Le : (inject_Z (Z.of_nat n) <= inject_Z l0)%Q) by (rewrite <- Zle_Qle; exact Hl).
  destruct G as [G1 G2]. split; eapply Qle_trans; try eassumption; apply Qmult_le_compat_r; try assumption; Lqa.nra.
Qed.

Lemma addition_both u (a : addition U P) eps delta : pydp_keeps_promises py -> valid_addition u a ->
  (0 < eps)%Q -> (0 <= delta < 1)%Q -> (a_kind a = GaussianNoise -> (0 < delta)%Q) ->
  let a' := Addition (a_kind a) (a_l0 a) (a_linf a) (a_weight a) (a_keys a) (a_values a) (without u (a_rows a)) in
  is_dist (run_addition py a eps delta) /\ is_dist (run_addition py a' eps delta) /\
  possible_in (AddNoise a) (run_addition py a eps delta) /\ possible_in (AddNoise a) (run_addition py a' eps delta) /\
  both (Q2R eps) (Q2R delta) (run_addition py a eps delta) (run_addition py a' eps delta).
Proof.
  intros [Hpy _] [Hc [Nk [Pm [Pm' [Hd Hl]]]]] He Hdl Hg a'. cbv zeta in Pm, Pm', Hd, Hl.
  apply C38_add_noise_check in Hc. destruct Hc as [P0 [Pf _]].
  destruct (norms_bounded (a_keys a) _ _ _ _ Pf Hd Hl) as [N1 N2].
  set (l1 := (inject_Z (a_l0 a) * a_linf a)%Q) in *. set (l2 := (inject_Z (a_l0 a) * (a_linf a * a_linf a))%Q) in *.
  assert (Pi : (0 < inject_Z (a_l0 a))%Q) by (change 0%Q with (inject_Z 0); rewrite <- Zlt_Qlt; exact P0).
  assert (Pl1 : (0 < l1)%Q) by (unfold l1; Lqa.nra). assert (Pl2 : (0 < l2)%Q) by (unfold l2; apply Qmult_lt_0_compat; [exact Pi | Lqa.nra]).
  assert (Ms : mk_sens (Some (a_l0 a)) (Some (a_linf a)) None None = Ok (Sens (Some (a_l0 a)) (Some (a_linf a)) (Some l1) (Some l2))).
  { unfold mk_sens, raise_if. rewrite (proj2 (Z.leb_gt _ _) P0). cbn [nonpos].
    destruct (Qle_bool (a_linf a) 0) eqn:E; [apply Qle_bool_iff in E; exfalso; Lqa.lra|]. reflexivity. }
  destruct Hpy as [Dn Cn].
  assert (Em : exists m, create_additive_mechanism (MSpec (a_kind a) None eps delta) (Sens (Some (a_l0 a)) (Some (a_linf a)) (Some l1) (Some l2)) = Ok m /\
     (exists d', (d' <= delta)%Q /\ promises m eps d') /\
     covers m (a_keys a) (fun k => (exact_at (a_values a (a_rows a)) k - exact_at (a_values a (without u (a_rows a))) k)%Q)).
  { unfold create_additive_mechanism. cbn [ms_kind ms_std ms_eps ms_delta s_l1 s_l2sq]. destruct (a_kind a).
    - eexists. split; [reflexivity|]. split; [exists 0%Q; split; [apply Hdl|]; cbn; auto | exact N1].
    - eexists. split; [reflexivity|]. split; [exists delta; split; [apply Qle_refl|]; cbn; repeat split; try apply Hdl; auto | exact N2]. }
  destruct Em as [m [Em [[d' [Ld Pr]] Cv]]].
  assert (Run : forall x : addition U P, a_kind x = a_kind a -> a_l0 x = a_l0 a -> a_linf x = a_linf a ->
     run_addition py x eps delta =
       dbind (independent (fun e : P * dist Q => dbind (snd e) (fun y => dret (fst e, y)))
                (map (fun kv => (fst kv, py_noise py m (snd kv))) (a_values x (a_rows x))))
             (fun out => dret (Noised (Ok (seen (a_keys x) out))))).
  { intros x E1 E2 E3. unfold run_addition, add_dp_noise. rewrite E1, E2, E3, Ms. cbn [rbind]. rewrite Em. cbn [rmap].
    rewrite (map_result_ok _ (fun kv => (fst kv, py_noise py m (snd kv)))) by reflexivity. reflexivity. }
  assert (Dist : forall x : addition U P, a_kind x = a_kind a -> a_l0 x = a_l0 a -> a_linf x = a_linf a -> is_dist (run_addition py x eps delta)).
  { intros x E1 E2 E3. rewrite (Run x E1 E2 E3). apply is_dist_bind; [|intro; apply is_dist_ret]. apply is_dist_independent.
    intros e I. apply in_map_iff in I. destruct I as [kv [<- _]]. cbn [fst snd]. apply is_dist_bind; [apply Dn | intro; apply is_dist_ret]. }
  split; [apply Dist; reflexivity|]. split; [apply Dist; reflexivity|].
  assert (Pos : forall x : addition U P, a_kind x = a_kind a -> a_l0 x = a_l0 a -> a_linf x = a_linf a -> a_keys x = a_keys a ->
            Permutation (map fst (a_values x (a_rows x))) (a_keys a) -> possible_in (AddNoise a) (run_addition py x eps delta)).
  { intros x E1 E2 E3 E4 Px w r I. rewrite (Run x E1 E2 E3) in I. apply in_flat_map in I. destruct I as [[w1 out] [I1 I]].
    apply in_map_iff in I. destruct I as [[w2 r2] [E I]]. injection E as _ <-. cbn [snd] in *. destruct I as [I|[]]. injection I as _ <-.
    assert (Ko : map fst out = map fst (a_values x (a_rows x))).
    { clear -I1. revert w1 out I1. induction (a_values x (a_rows x)) as [|[k v] col IH]; intros w1 out I1.
      - destruct I1 as [I1|[]]. injection I1 as _ <-. reflexivity.
      - cbn [map independent fst snd] in I1. unfold dbind at 1 in I1. apply in_flat_map in I1. destruct I1 as [[w3 y] [I3 I4]].
        apply in_map_iff in I4. destruct I4 as [[w5 o5] [E5 I5]]. injection E5 as _ <-. cbn [snd] in I5.
        unfold dbind at 1 in I5. apply in_flat_map in I5. destruct I5 as [[w6 o6] [I6 I7]]. cbn in I7. destruct I7 as [I7|[]]. injection I7 as _ <-.
        cbn [map]. rewrite (IH w6 o6 I6). f_equal.
        unfold dbind in I3. apply in_flat_map in I3. destruct I3 as [[w8 y8] [_ I8]]. cbn in I8. destruct I8 as [I8|[]]. injection I8 as _ <-. reflexivity. }
    rewrite E4. unfold seen. rewrite Ko. cbn [possible].
    destruct (filter (fun k => negb (mem k (a_keys a))) (map fst (a_values x (a_rows x)))) as [|k l] eqn:Ef.
    - rewrite map_length. split; [reflexivity|]. apply Forall_map, Forall_forall. intros k Ik.
      apply Permutation_sym in Px. apply (Permutation_in _ Px) in Ik. rewrite <- Ko in Ik. apply in_map_iff in Ik. destruct Ik as [e [Ek Ie]].
      destruct (find (fun e0 => eqb (fst e0) k) out) eqn:Fi; [discriminate|]. exfalso. apply (find_none _ _ Fi) in Ie. rewrite Ek, eqb_refl in Ie. discriminate.
    - assert (J : In k (k :: l)) by (left; reflexivity). rewrite <- Ef in J. apply filter_In in J. destruct J as [J1 J2].
      apply (Permutation_in _ Px) in J1. apply mem_true_iff in J1. rewrite J1 in J2. discriminate. }
  split; [apply Pos; auto|]. split; [apply Pos; auto|].
  rewrite (Run a), (Run a') by reflexivity.
  pose (x := fun k => exact_at (a_values a (a_rows a)) k). pose (x' := fun k => exact_at (a_values a (without u (a_rows a))) k).
  apply both_ext with (d2 := dbind (independent (py_noise py m) (map x (a_keys a))) (fun ys => dret (Noised (Ok (map Some ys, [])))))
                      (d2' := dbind (independent (py_noise py m) (map x' (a_keys a))) (fun ys => dret (Noised (Ok (map Some ys, []))))).
  - intro F. rewrite !mixture_bind.
    rewrite (mixture_ext _ _ (fun out => (fun r => F (Noised (Ok r))) (seen (a_keys a) out))) by (intro; apply mixture_ret).
    rewrite (addition_law (py_noise py m) (a_values a (a_rows a)) (a_keys a) (fun r => F (Noised (Ok r))) (Dn m) Nk Pm).
    apply mixture_ext. intro ys. rewrite mixture_ret. reflexivity.
  - intro F. rewrite !mixture_bind.
    rewrite (mixture_ext _ _ (fun out => (fun r => F (Noised (Ok r))) (seen (a_keys a) out))) by (intro; apply mixture_ret).
    change (a_values a' (a_rows a')) with (a_values a (without u (a_rows a))).
    rewrite (addition_law (py_noise py m) (a_values a (without u (a_rows a))) (a_keys a) (fun r => F (Noised (Ok r))) (Dn m) Nk Pm').
    apply mixture_ext. intro ys. rewrite mixture_ret. reflexivity.
  - apply both_post. apply both_weaken with (Q2R d'); [apply Qle_Rle; exact Ld|]. apply both_events. intro Ev.
    apply (Cn m eps d' Pr); [rewrite !map_length; reflexivity|]. apply covers_pairs. exact Cv.
Qed.

(** ** calculate_private_contribution_bounds *)
Lemma bounding_both u (b : bounding U P) : valid_bounding b ->
  let b' := Bounding (p_params b) (p_sigma b) (p_partitions b) (p_filtered b) (without u (p_rows b)) in
  is_dist (run_bounding b) /\ is_dist (run_bounding b') /\
  possible_in (ContributionBounds b) (run_bounding b) /\ possible_in (ContributionBounds b) (run_bounding b') /\
  both (Q2R (calculation_eps (p_params b))) 0 (run_bounding b) (run_bounding b').
Proof.
  intros [Hc Hne] b'.
  destruct (C34_private_contribution_bounds U P _ _ (p_sigma b) (p_params b) (p_partitions b) (p_filtered b) (p_rows b) u Hc Hne)
    as [d [d' [E [E' [D [D' [K [Bd [_ I]]]]]]]]].
  pose (sw := fun zp : Z * R => (snd zp, fst zp)).
  assert (Sd : forall x, ExpMechSpec.distribution x -> is_dist (map sw x)).
  { intros x [Px Sx]. split; [apply Forall_map; exact Px|]. rewrite map_map. exact Sx. }
  assert (Ru : forall x, map (fun zp : Z * R => (snd zp, @Bounded P (Ok (fst zp)))) x = dbind (map sw x) (fun z => dret (Bounded (Ok z)))).
  { induction x as [|[z p] x IH]; [reflexivity|]. cbn. rewrite IH. rewrite Rmult_1_r. reflexivity. }
  assert (Ps : forall x (E : Z -> bool), prob (map sw x) E = ExpMechSpec.probability E x).
  { intros x Ev. unfold prob, ExpMechSpec.probability. induction x as [|[z p] x IH]; [reflexivity|]. cbn [map filter]. unfold sw at 1. cbn [fst snd].
    rewrite mixture_cons, IH. unfold indicator. destruct (Ev z); cbn [map snd]; [rewrite sumR_cons|]; ring. }
  assert (Po : forall x, map fst x = map fst d -> possible_in (ContributionBounds b) (map (fun zp : Z * R => (snd zp, @Bounded P (Ok (fst zp)))) x)).
  { intros x Ex w a Ia. apply in_map_iff in Ia. destruct Ia as [[z p] [Ea Ia]]. injection Ea as _ <-. cbn [possible fst].
    rewrite Forall_forall in Bd. assert (J : In z (map fst d)) by (rewrite <- Ex; apply (in_map fst) in Ia; exact Ia). apply Bd in J. lia. }
  unfold run_bounding. cbn [p_sigma p_params p_partitions p_filtered p_rows b']. rewrite E, E'.
  split; [rewrite Ru; apply is_dist_bind; [apply Sd; exact D | intro; apply is_dist_ret]|].
  split; [rewrite Ru; apply is_dist_bind; [apply Sd; exact D' | intro; apply is_dist_ret]|].
  split; [apply Po; reflexivity|]. split; [apply Po; symmetry; exact K|].
  rewrite !Ru. apply both_post. apply both_events. intro Ev. rewrite !Ps. destruct (I Ev) as [J1 J2]. split; lra.
Qed.
End Ops.
