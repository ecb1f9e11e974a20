(** Lemmas for C61: sequences of calls and their budgets. *)
From Coq Require Import List ZArith QArith Qreals Qabs Reals Bool Lia Lqa Lra.
From Verif Require Import Base BaseLemmas BackendModel ListLemmas ParamsModel SensModel CombinerModel EngineModel EngineSpec
  BudgetModel BudgetSpec BudgetProofs BudgetProps VectorModel ExpMechProofs LaplaceModel LaplaceSpec LaplaceProofs
  SelectModel SelectSpec PrivateProofs3 WrapperModel EnforcedSpec VectorSpec DistSpec DistProofs DpModel DpSpec DpProofs DpProofs2 DpProofs3 DpProofs4.
Import ListNotations.
Local Open Scope R_scope.
Local Close Scope Q_scope.

Section Calls.
Context {U P : Type} `{EqDec U} `{EqDec P} (py : pydp).

Definition forget_all (u : U) (cbs : list (call U P * budgets)) : list (call U P * budgets) :=
  map (fun cb => (forget u (fst cb), snd cb)) cbs.

Lemma calls_both u N X T (cbs : list (call U P * budgets)) : pydp_keeps_promises py ->
  Forall (fun cb => valid_call (fst cb) /\ good_budget (fst cb) (snd cb) /\ large_enough N X T (fst cb) /\ large_enough N X T (forget u (fst cb))) cbs ->
  is_dist (run_calls py N X T cbs) /\ is_dist (run_calls py N X T (forget_all u cbs)) /\
  both (sumR (map (fun cb => Q2R (call_eps (fst cb) (snd cb))) cbs)) (sumR (map (fun cb => Q2R (call_delta (fst cb) (snd cb))) cbs))
    (run_calls py N X T cbs) (run_calls py N X T (forget_all u cbs)).
Proof.
  intros Hpy F. induction F as [|[c b] cbs [Vc [Gb [L L']]] F [D [D' B]]].
  - split; [apply is_dist_ret|]. split; [apply is_dist_ret|]. apply both_same.
  - cbn [fst snd] in *. destruct (run_both py c b u N X T Hpy Vc Gb L L') as [R [R' B0]].
    cbn [run_calls forget_all map fst snd]. fold (forget_all u cbs).
    assert (K : forall o, is_dist (dbind (run_calls py N X T cbs) (fun os => dret (o :: os)))) by (intro; apply is_dist_bind; [exact D | intro; apply is_dist_ret]).
    assert (K' : forall o, is_dist (dbind (run_calls py N X T (forget_all u cbs)) (fun os => dret (o :: os)))) by (intro; apply is_dist_bind; [exact D' | intro; apply is_dist_ret]).
    split; [apply is_dist_bind; assumption|]. split; [apply is_dist_bind; assumption|].
    rewrite !sumR_cons. apply both_bind; try assumption.
    + clear -F. induction F as [|[c b] cbs [_ [Gb _]] F IH]; [cbn; lra|]. cbn [map fst snd] in *. rewrite sumR_cons.
      assert (0 <= Q2R (call_delta c b)); [|lra]. unfold call_delta. rewrite Q2R_plus.
      assert (0 <= Q2R (sumQ (map snd (b_noise b)))).
      { apply sumQ_nonneg_R. apply Forall_map. eapply Forall_impl; [|apply (gb_pos _ _ Gb)]. cbn. intros a [_ [A _]]. exact A. }
      assert (0 <= Q2R (if selects_privately (c_params c) (c_public c) then snd (b_selection b) else 0%Q)); [|lra].
      destruct (selects_privately (c_params c) (c_public c)) eqn:Sp; [|rewrite RMicromega.Q2R_0; lra].
      destruct (gb_sel _ _ Gb Sp) as [_ [A _]]. apply Qle_Rle in A. rewrite RMicromega.Q2R_0 in A. exact A.
    + intro o. apply both_post. exact B.
Qed.

(** ** Dividing the budgets *)
Definition noise_requests (p : params) (cs : list combiner) : list (mech_type * Q * Z) :=
  flat_map (fun cb => repeat (request_type p cb, budget_weight p, 1%Z) (requests cb)) cs.

Lemma forall2_app_split {A B} (R : A -> B -> Prop) l1 l2 l1' l2' : Forall2 R l1 l1' -> Forall2 R l2 l2' -> Forall2 R (l1 ++ l2) (l1' ++ l2').
Proof. induction 1; intro F; cbn; [exact F|]. constructor; auto. Qed.
Lemma forall2_len {A B} (R : A -> B -> Prop) l l' : Forall2 R l l' -> length l = length l'.
Proof. induction 1; cbn; congruence. Qed.

Lemma noise_requests_length p cs : length (noise_requests p cs) = list_sum (map requests cs).
Proof.
  unfold noise_requests. induction cs as [|c cs IH]; [reflexivity|]. cbn [flat_map map list_sum fold_right].
  rewrite app_length, repeat_length, IH. reflexivity.
Qed.

Lemma forall2_firstn_skipn {A B} (R : A -> B -> Prop) l1 l2 l : Forall2 R (l1 ++ l2) l ->
  Forall2 R l1 (firstn (length l1) l) /\ Forall2 R l2 (skipn (length l1) l).
Proof.
  revert l. induction l1 as [|x l1 IH]; intros l F; [split; [constructor | exact F]|].
  cbn [app] in F. inversion F as [|? y ? l' Rx F']; subst. destruct (IH l' F') as [A1 A2]. cbn [length firstn skipn]. split; [constructor; assumption | assumption].
Qed.

Lemma own_granted p cs : forall bs i cb, Forall2 granted_ok (noise_requests p cs) bs -> nth_error cs i = Some cb ->
  Forall (granted_ok (request_type p cb, budget_weight p, 1%Z)) (nth i (slices cs bs) []).
Proof.
  induction cs as [|c cs IH]; intros bs i cb F Ei; [destruct i; discriminate|]. unfold noise_requests in F. cbn [flat_map] in F.
  fold (noise_requests p cs) in F. destruct (forall2_firstn_skipn _ _ _ _ F) as [F1 F2]. rewrite repeat_length in F1, F2.
  destruct i as [|i]; cbn [nth_error] in Ei; cbn [slices nth]; [|apply IH; assumption]. inversion Ei; subst c. clear -F1.
  remember (repeat (request_type p cb, budget_weight p, 1%Z) (requests cb)) as rs eqn:Er. assert (A : forall r, In r rs -> r = (request_type p cb, budget_weight p, 1%Z)) by (intros r I; subst rs; apply repeat_spec in I; exact I).
  clear Er. induction F1; constructor; [rewrite <- (A _ (or_introl eq_refl)); assumption | apply IHF1; intros r I; apply A; right; exact I].
Qed.

Lemma divide_good (calls : list (call U P)) : forall bs, Forall valid_call calls ->
  Forall2 granted_ok (flat_map call_requests calls) bs ->
  length (divide calls bs) = length calls /\
  Forall (fun cb => valid_call (fst cb) /\ good_budget (fst cb) (snd cb)) (combine calls (divide calls bs)) /\
  sumR (map (fun cb => Q2R (call_eps (fst cb) (snd cb))) (combine calls (divide calls bs))) = Q2R (sumQ (map fst bs)) /\
  sumR (map (fun cb => Q2R (call_delta (fst cb) (snd cb))) (combine calls (divide calls bs))) = Q2R (sumQ (map snd bs)).
Proof.
  induction calls as [|c calls IH]; intros bs V F.
  - inversion F; subst. cbn. rewrite !RMicromega.Q2R_0. repeat split; try constructor; reflexivity.
  - inversion V as [|? ? Vc Vs]; subst. cbn [flat_map] in F.
    destruct (forall2_firstn_skipn _ _ _ _ F) as [F1 F2]. specialize (IH _ Vs F2). destruct IH as [IL [IG [IE ID]]].
    cbn [divide combine map]. split; [cbn; rewrite IL; reflexivity|]. rewrite !sumR_cons. cbn [fst snd]. rewrite IE, ID.
    destruct (valid_call_facts c Vc) as [col Fc].
    set (n := list_sum (map requests (c_combiners c))). set (r := call_requests c) in *.
    assert (Er : r = noise_requests (c_params c) (c_combiners c) ++ (if selects_privately (c_params c) (c_public c) then [selection_request] else [])) by reflexivity.
    assert (Ln : length (noise_requests (c_params c) (c_combiners c)) = n) by apply noise_requests_length.
    set (B := firstn (length r) bs) in *.
    assert (F1' := F1). rewrite Er in F1'. apply forall2_firstn_skipn in F1'. rewrite Ln in F1'. destruct F1' as [FN FS].
    assert (Lr : (n <= length r)%nat) by (rewrite Er, app_length; lia).
    assert (EB : firstn n B = firstn n bs) by (unfold B; rewrite firstn_firstn; f_equal; lia).
    assert (Ebs : bs = B ++ skipn (length r) bs) by (symmetry; apply firstn_skipn).
    assert (Sel : exists rest, B = firstn n bs ++ rest /\
        (if selects_privately (c_params c) (c_public c) then rest = [nth n bs (0, 0)%Q] /\ granted_ok selection_request (nth n bs (0, 0)%Q) else rest = [])).
    { exists (skipn n B). split; [rewrite <- EB; symmetry; apply firstn_skipn|].
      destruct (selects_privately (c_params c) (c_public c)).
      - inversion FS as [|? y ? l' Gy Fl]; subst. inversion Fl; subst. 
        assert (Ny : nth n bs (0, 0)%Q = y).
        { rewrite Ebs, <- (firstn_skipn n B), <- H3.
          rewrite app_nth1 by (rewrite app_length; cbn; rewrite <- (forall2_len _ _ _ FN), Ln; lia).
          rewrite app_nth2 by (rewrite <- (forall2_len _ _ _ FN), Ln; lia). rewrite <- (forall2_len _ _ _ FN), Ln, Nat.sub_diag. reflexivity. }
        rewrite Ny. auto.
      - inversion FS; auto. }
    destruct Sel as [rest [Eb Sel]].
    assert (Split : forall f : Q * Q -> Q, Q2R (sumQ (map f bs)) =
      Q2R (sumQ (map f (firstn n bs))) + Q2R (sumQ (map f rest)) + Q2R (sumQ (map f (skipn (length r) bs)))).
    { intro f. transitivity (Q2R (sumQ (map f (B ++ skipn (length r) bs)))); [rewrite <- Ebs; reflexivity|].
      rewrite map_app, sumQ_app_R, Eb, map_app, sumQ_app_R. reflexivity. }
    split; [|split].
    + constructor; [|exact IG]. split; [exact Vc|]. cbn [fst snd]. split; cbn [b_noise b_selection].
      * unfold enough_budgets. cbn [b_noise]. fold n. rewrite <- EB, <- (forall2_len _ _ _ FN). exact Ln.
      * fold n. rewrite <- EB. clear -FN. induction FN as [|? ? ? ? [A1 [A2 _]] _ IH]; constructor; auto.
      * intros Gk i cb Ei Nt. unfold own. cbn [b_noise]. fold n. rewrite <- EB. eapply Forall_impl; [|apply (own_granted _ _ _ _ _ FN Ei)].
        intros ed [_ [_ Gr]]. apply Gr. unfold req_type, request_type. cbn [fst]. rewrite Gk. destruct cb; try reflexivity. congruence.
      * intro Sp. rewrite Sp in Sel. destruct Sel as [_ [A1 [A2 _]]]. auto.
    + unfold call_eps. cbn [b_noise b_selection]. fold n. rewrite Q2R_plus.
      rewrite Split.
      destruct (selects_privately (c_params c) (c_public c)).
      * destruct Sel as [-> _]. cbn [map]. change (sumQ [fst (nth n bs (0, 0)%Q)]) with (fst (nth n bs (0, 0)%Q) + 0)%Q.
        rewrite Q2R_plus, RMicromega.Q2R_0. lra.
      * subst rest. cbn [map]. change (sumQ []) with 0%Q. rewrite RMicromega.Q2R_0. lra.
    + unfold call_delta. cbn [b_noise b_selection]. fold n. rewrite Q2R_plus.
      rewrite Split.
      destruct (selects_privately (c_params c) (c_public c)).
      * destruct Sel as [-> _]. cbn [map]. change (sumQ [snd (nth n bs (0, 0)%Q)]) with (snd (nth n bs (0, 0)%Q) + 0)%Q.
        rewrite Q2R_plus, RMicromega.Q2R_0. lra.
      * subst rest. cbn [map]. change (sumQ []) with 0%Q. rewrite RMicromega.Q2R_0. lra.
Qed.

Lemma divide_forget u (calls : list (call U P)) : forall bs, divide (map (forget u) calls) bs = divide calls bs.
Proof. induction calls as [|c calls IH]; intro bs; [reflexivity|]. cbn [map divide forget c_combiners c_params c_public]. rewrite IH. reflexivity. Qed.
Lemma combine_forget u (calls : list (call U P)) bs : combine (map (forget u) calls) bs = forget_all u (combine calls bs).
Proof. unfold forget_all. revert bs. induction calls as [|c calls IH]; intros [|b bs]; try reflexivity. cbn. rewrite IH. reflexivity. Qed.

Lemma composed u N X T (calls : list (call U P)) bs : pydp_keeps_promises py ->
  Forall valid_call calls -> Forall2 granted_ok (flat_map call_requests calls) bs ->
  Forall (fun c => large_enough N X T c /\ large_enough N X T (forget u c)) calls ->
  both (Q2R (sumQ (map fst bs))) (Q2R (sumQ (map snd bs)))
    (run_calls py N X T (combine calls (divide calls bs)))
    (run_calls py N X T (combine (map (forget u) calls) (divide (map (forget u) calls) bs))).
Proof.
  intros Hpy V G L. destruct (divide_good calls bs V G) as [_ [F [E D]]]. rewrite divide_forget, combine_forget, <- E, <- D.
  apply calls_both; [exact Hpy|]. apply Forall_forall. intros [c b] I. rewrite Forall_forall in F, L. cbn [fst snd].
  destruct (F _ I) as [V1 G1]. destruct (L c) as [L1 L2]; [eapply in_combine_l; exact I|]. auto.
Qed.

(** ** Sampling at random *)
Lemma both_random {A B} e d (D : dist A) (k k' : A -> dist B) : is_dist D ->
  (forall w a, In (w, a) D -> both e d (k a) (k' a)) -> both e d (dbind D k) (dbind D k').
Proof.
  intros HD Hk.
  assert (G : forall k k' : A -> dist B, (forall w a, In (w, a) D -> below e d (k a) (k' a)) -> below e d (dbind D k) (dbind D k')).
  { intros h h' Hh F HF. rewrite !mixture_bind. rewrite <- (mixture_const D d HD), <- mixture_scale, <- mixture_add.
    destruct HD as [Pos _]. clear Hk. induction D as [|[w a] D IH]; [rewrite !mixture_nil; lra|].
    inversion Pos as [|? ? Pw Pos']; subst. rewrite !mixture_cons. cbn [fst] in *.
    assert (I : mixture D (fun a0 => mixture (h a0) F) <= mixture D (fun a0 => exp e * mixture (h' a0) F + d)).
    { apply IH; [exact Pos'|]. intros w0 a0 I. exact (Hh w0 a0 (or_intror I)). }
    assert (J := Hh w a (or_introl eq_refl) F HF).
    apply (Rmult_le_compat_l w) in J; [|assumption]. lra. }
  split; apply G; intros w a I; apply (Hk w a I).
Qed.

Lemma redrawn_requests (calls : list (call U P)) : forall sms, length sms = length calls ->
  flat_map call_requests (redrawn calls sms) = flat_map call_requests calls.
Proof.
  induction calls as [|c calls IH]; intros [|s sms] L; try discriminate; [reflexivity|].
  cbn in L |- *. fold (redrawn calls sms). rewrite IH by lia. reflexivity.
Qed.
Lemma redrawn_forget u (calls : list (call U P)) : forall sms,
  redrawn (map (forget u) calls) sms = map (forget u) (redrawn calls sms).
Proof.
  induction calls as [|c calls IH]; intros [|s sms]; try reflexivity. unfold redrawn in *. cbn. rewrite IH. reflexivity.
Qed.

(** ** Large enough *)
Lemma max_ge l x : In x l -> (x <= fold_right Nat.max 0%nat l)%nat.
Proof. induction l; cbn; [tauto|]. intros [-> | I]; [lia | specialize (IHl I); lia]. Qed.

Lemma enough (c : call U P) : exists N X T, forall N' X' T', (N <= N')%nat -> incl X X' -> incl T T' -> large_enough N' X' T' c.
Proof.
  destruct (raw_accumulators (c_params c) (c_combiners c) (c_sampling c) (c_public c) (c_rows c)) as [col|ex] eqn:E;
    [|exists 0%nat, [], []; intros N' X' T' _ _ _ col' E'; rewrite E in E'; discriminate].
  pose (X0 := 0%Q :: flat_map (fun e => flat_map (fun a => map (fun qt => quantity_of qt a) [QCount; QSum; QSquares]) (snd (snd e))) col).
  pose (L0 := map Z.to_nat (map Qround.Qceiling X0 ++ map (fun e => fst (snd e)) col)).
  pose (T0 := flat_map (fun cb => match cb with CQuantile ps => map (fun l => (l, map (fun x => x / 100)%Q ps)) ([] :: flat_map (fun e => map tree_of (snd (snd e))) col)
    | CVector _ => map (fun l => (l, [])) ([] :: flat_map (fun e => map vector_of (snd (snd e))) col) | _ => [] end) (c_combiners c)).
  exists (fold_right Nat.max 0%nat L0), X0, T0. intros N' X' T' HN HX HT col' E'. rewrite E in E'. injection E' as <-.
  assert (RV : forall f i k, (exists qt, f = quantity_of qt) -> In (raw_value f i k col) X0).
  { intros f i k [qt ->]. unfold raw_value. destruct (find _ col) as [e|] eqn:Ef; [|left; reflexivity].
    destruct (nth_error (snd (snd e)) i) as [a|] eqn:Ea; [|left; reflexivity]. right. apply find_some in Ef. destruct Ef as [Ie _].
    apply in_flat_map. exists e. split; [exact Ie|]. apply in_flat_map. exists a. split; [eapply nth_error_In; exact Ea|].
    apply (in_map (fun qt => quantity_of qt a)). destruct qt; cbn; auto. }
  intros k Ik. split.
  - unfold row_count. destruct (find _ col) as [e|] eqn:Ef; [|lia]. apply find_some in Ef. destruct Ef as [Ie _].
    assert (M : In (Z.to_nat (fst (snd e))) L0).
    { unfold L0. apply in_map. apply in_or_app. right. apply (in_map (fun e => fst (snd e))). exact Ie. }
    apply max_ge in M. lia.
  - intro i. split; [|split; [intro qt; apply HX; apply RV; eauto|]].
    + assert (I := RV count_of i k (ex_intro _ QCount eq_refl)).
      eapply Qle_trans; [apply Qround.Qle_ceiling|]. rewrite <- Zle_Qle.
      assert (M : In (Z.to_nat (Qround.Qceiling (raw_value count_of i k col))) L0).
      { unfold L0. apply in_map. apply in_or_app. left. apply in_map. exact I. }
      apply max_ge in M. lia.
    + split; [intros ps Ei | intros m Ei]; apply HT; unfold T0; apply in_flat_map.
      * exists (CQuantile ps). split; [eapply nth_error_In; exact Ei|].
      apply in_map_iff. exists (raw_tree i k col). split; [reflexivity|]. unfold raw_tree. destruct (find _ col) as [e|] eqn:Ef; [|left; reflexivity].
      destruct (nth_error (snd (snd e)) i) as [a|] eqn:Ea; [|left; reflexivity]. right. apply find_some in Ef. destruct Ef as [Ie _].
      apply in_flat_map. exists e. split; [exact Ie|]. apply in_map. eapply nth_error_In. exact Ea.
      * exists (CVector m). split; [eapply nth_error_In; exact Ei|].
      apply in_map_iff. exists (raw_vector i k col). split; [reflexivity|]. unfold raw_vector. destruct (find _ col) as [e|] eqn:Ef; [|left; reflexivity].
      destruct (nth_error (snd (snd e)) i) as [a|] eqn:Ea; [|left; reflexivity]. right. apply find_some in Ef. destruct Ef as [Ie _].
      apply in_flat_map. exists e. split; [exact Ie|]. change (In (vector_of a) (map vector_of (snd (snd e)))). apply in_map. eapply nth_error_In. exact Ea.
Qed.

Lemma all_enough (calls : list (call U P)) : exists N X T, Forall (large_enough N X T) calls.
Proof.
  assert (G : exists N X T, forall N' X' T', (N <= N')%nat -> incl X X' -> incl T T' -> Forall (large_enough N' X' T') calls).
  { induction calls as [|c calls [N [X [T IH]]]]; [exists 0%nat, [], []; constructor|].
    destruct (enough c) as [N1 [X1 [T1 E1]]]. exists (Nat.max N N1), (X ++ X1), (T ++ T1). intros N' X' T' HN HX HT. constructor.
    - apply E1; [lia| |]; (eapply incl_tran; [apply incl_appr; apply incl_refl | eassumption]).
    - apply IH; [lia| |]; (eapply incl_tran; [apply incl_appl; apply incl_refl | eassumption]). }
  destruct G as [N [X [T G]]]. exists N, X, T. apply G; [lia | apply incl_refl | apply incl_refl].
Qed.
End Calls.

(** ** What the accountant grants *)
Lemma gaussian_needs_delta ops : forall s, In GAUSSIAN (map req_type (granted ops (outs s ops))) -> ~ (total_delta s == 0)%Q.
Proof.
  induction ops as [|o ops IH]; intros s I; [destruct I|].
  assert (K : In GAUSSIAN (map req_type (granted ops (outs (fst (step s o)) ops))) -> ~ (total_delta s == 0)%Q).
  { intro J. apply IH in J. destruct (step_totals s o) as [_ [E _]]. rewrite E in J. exact J. }
  cbn [outs granted] in I. destruct o as [t w n std|w| |w|]; try (apply K; exact I).
  destruct (snd (step s (Request t w n std))) eqn:Es; [|apply K; exact I].
  cbn [map] in I. destruct I as [I|I]; [|apply K; exact I]. unfold req_type in I. cbn in I. subst t.
  cbn in Es. unfold request_budget in Es. destruct (finalized s); [discriminate|]. destruct std; [discriminate|].
  destruct (Qeq_bool (total_delta s) 0) eqn:Z0; [discriminate|]. intro Z1. rewrite Z1 in Z0. discriminate.
Qed.

Lemma sum_zero xs : (forall x, In x xs -> (x == 0)%Q) -> (sumQ xs == 0)%Q.
Proof.
  induction xs as [|x xs IH]; intro A; [reflexivity|]. change (sumQ (x :: xs)) with (x + sumQ xs)%Q.
  rewrite (A x (or_introl eq_refl)), IH by (intros y Y; apply A; right; exact Y). reflexivity.
Qed.

Lemma forall2_nth {A B} (R : A -> B -> Prop) l l' : length l = length l' ->
  (forall i a b, nth_error l i = Some a -> nth_error l' i = Some b -> R a b) -> Forall2 R l l'.
Proof.
  revert l'. induction l as [|x l IH]; intros [|y l'] L N; try discriminate; constructor.
  - apply (N 0%nat); reflexivity.
  - apply IH; [cbn in L; lia|]. intros i. apply (N (S i)).
Qed.
Lemma nth_combine {A B} (l : list A) (l' : list B) i a b : nth_error (combine l l') i = Some (a, b) -> nth_error l i = Some a /\ nth_error l' i = Some b.
Proof.
  revert l' i. induction l as [|x l IH]; intros [|y l'] [|i] N; try discriminate; cbn in *; [injection N as <- <-; auto | apply IH; exact N].
Qed.
Lemma forall2_nth_inv {A B} (R : A -> B -> Prop) l l' : Forall2 R l l' -> forall i a b, nth_error l i = Some a -> nth_error l' i = Some b -> R a b.
Proof. induction 1 as [|x y l l' Rx F IH]; intros [|i] a b Na Nb; try discriminate; cbn in *; [congruence | eauto]. Qed.

Lemma accountant_grants e d num ws s0 ops s2 es ds :
  new_accountant e d num ws = Ok s0 -> Forall op_pos ops ->
  granted ops (outs s0 ops) <> [] ->
  Forall (fun r => req_count r = 1%Z) (granted ops (outs s0 ops)) ->
  step (run s0 ops) Compute = (s2, Ok OutUnit) ->
  read_eps s2 es -> read_delta s2 ds ->
  Forall2 granted_ok (granted ops (outs s0 ops)) (combine es ds) /\
  Q2R (sumQ (map fst (combine es ds))) = Q2R e /\ Q2R (sumQ (map snd (combine es ds))) <= Q2R d.
Proof.
  intros Hnew Hpos Hne Hone Hc Hes Hds.
  assert (Prop2 := C02_delta_proportional_to_epsilon e d num ws s0 ops s2 es ds Hnew Hpos Hc Hes Hds).
  destruct (c01_lemma e d num ws s0 ops s2 Hnew Hpos Hc Hne) as [es' [Hes' [L [W F]]]].
  destruct (c02_lemma e d num ws s0 ops s2 Hnew Hpos Hc) as [ds' [Hds' [Ld [Wd Fd]]]].
  assert (E1 := read_eps_fun _ _ _ Hes Hes'). assert (E2 := read_delta_fun _ _ _ Hds Hds'). subst es' ds'.
  destruct (new_accountant_inv _ _ _ _ _ Hnew) as [Es0 [_ [D0 [D1 _]]]].
  assert (Gd : In GAUSSIAN (map req_type (granted ops (outs s0 ops))) -> ~ (d == 0)%Q).
  { intro I. apply gaussian_needs_delta in I. rewrite Es0 in I. exact I. }
  set (gr := granted ops (outs s0 ops)) in *. clearbody gr.
  assert (O : Forall (fun c => c = 1%Z) (map req_count gr)) by (apply Forall_map; exact Hone).
  rewrite weighted_sum_ones in W by (try exact O; rewrite map_length; exact L).
  rewrite weighted_sum_ones in Wd by (try exact O; rewrite map_length; exact Ld).
  assert (Mf : map fst (combine es ds) = es).
  { clear -L Ld. rewrite <- Ld in L. clear Ld. revert ds L. induction es; intros [|y ds] L; try discriminate; cbn; [reflexivity|]. f_equal. apply IHes. cbn in L. lia. }
  assert (Ms : map snd (combine es ds) = ds).
  { clear -L Ld. rewrite <- Ld in L. clear Ld. revert ds L. induction es; intros [|y ds] L; try discriminate; cbn; [reflexivity|]. f_equal. apply IHes. cbn in L. lia. }
  split; [|split].
  - apply forall2_nth; [rewrite combine_length, L, Ld; lia|].
    intros i r [ei di] Nr Ni. apply nth_combine in Ni. destruct Ni as [Ne Nd]. unfold granted_ok. cbn [fst snd].
    assert (Ei : (0 < ei)%Q) by (rewrite Forall_forall in F; apply F; eapply nth_error_In; exact Ne).
    assert (Nt : nth_error (map req_type gr) i = Some (req_type r)) by (apply map_nth_error; exact Nr).
    destruct (forall2_nth_inv _ _ _ Fd i (req_type r) di Nt Nd) as [A [B _]].
    split; [exact Ei|]. split; [split; [exact A | eapply Qle_lt_trans; eassumption]|].
    intro Tg. apply Qnot_le_lt. intro Le. assert (Z0 : (di == 0)%Q) by (apply Qle_antisym; assumption).
    assert (Ig : In GAUSSIAN (map req_type gr)) by (rewrite <- Tg; eapply nth_error_In; exact Nt).
    apply (Gd Ig).
    assert (Ex : existsb uses_delta (map req_type gr) = true) by (apply existsb_exists; exists GAUSSIAN; auto).
    rewrite Ex in Wd. rewrite <- Wd. apply sum_zero. intros x Ix. apply In_nth_error in Ix. destruct Ix as [j Nj].
    assert (Lj : (j < length gr)%nat) by (rewrite <- Ld; apply nth_error_Some; congruence).
    destruct (nth_error (map req_type gr) j) as [tj|] eqn:Ntj; [|apply nth_error_None in Ntj; rewrite map_length in Ntj; lia].
    destruct (nth_error es j) as [ej|] eqn:Nej; [|apply nth_error_None in Nej; lia].
    destruct (forall2_nth_inv _ _ _ Fd j tj x Ntj Nj) as [_ [_ Lap]].
    destruct (uses_delta tj) eqn:Ud; [|apply Lap; destruct tj; (reflexivity || discriminate)].
    assert (Pr := Prop2 i j ei ej di x (req_type r) tj Nt Ntj ltac:(rewrite Tg; reflexivity) Ud Ne Nej Nd Nj).
    rewrite Z0 in Pr. rewrite Qmult_0_l in Pr. symmetry in Pr. apply Qmult_integral in Pr. destruct Pr as [Pr|Pr]; [exact Pr|].
    rewrite Pr in Ei. discriminate.
  - rewrite Mf. apply Qeq_eqR. exact W.
  - rewrite Ms. apply Qeq_eqR in Wd. rewrite Wd. destruct (existsb _ _); [lra|]. apply Qle_Rle. exact D0.
Qed.

(** With a positive total delta every mechanism that uses delta gets some. *)
Lemma accountant_grants_delta e d num ws s0 ops s2 es ds :
  new_accountant e d num ws = Ok s0 -> Forall op_pos ops ->
  Forall (fun r => req_count r = 1%Z) (granted ops (outs s0 ops)) ->
  step (run s0 ops) Compute = (s2, Ok OutUnit) ->
  read_eps s2 es -> read_delta s2 ds -> (0 < d)%Q -> granted ops (outs s0 ops) <> [] ->
  Forall2 (fun r ed => uses_delta (req_type r) = true -> (0 < snd ed)%Q) (granted ops (outs s0 ops)) (combine es ds).
Proof.
  intros Hnew Hpos Hone Hc Hes Hds Pd Hne.
  assert (Prop2 := C02_delta_proportional_to_epsilon e d num ws s0 ops s2 es ds Hnew Hpos Hc Hes Hds).
  destruct (c01_lemma e d num ws s0 ops s2 Hnew Hpos Hc Hne) as [es' [Hes' [L [W F]]]].
  destruct (c02_lemma e d num ws s0 ops s2 Hnew Hpos Hc) as [ds' [Hds' [Ld [Wd Fd]]]].
  assert (E1 := read_eps_fun _ _ _ Hes Hes'). assert (E2 := read_delta_fun _ _ _ Hds Hds'). subst es' ds'.
  set (gr := granted ops (outs s0 ops)) in *. clearbody gr.
  assert (O : Forall (fun c => c = 1%Z) (map req_count gr)) by (apply Forall_map; exact Hone).
  rewrite weighted_sum_ones in Wd by (try exact O; rewrite map_length; exact Ld).
  apply forall2_nth; [rewrite combine_length, L, Ld; lia|].
  intros i r [ei di] Nr Ni Tg. apply nth_combine in Ni. destruct Ni as [Ne Nd]. cbn [snd].
  assert (Ei : (0 < ei)%Q) by (rewrite Forall_forall in F; apply F; eapply nth_error_In; exact Ne).
  assert (Nt : nth_error (map req_type gr) i = Some (req_type r)) by (apply map_nth_error; exact Nr).
  destruct (forall2_nth_inv _ _ _ Fd i (req_type r) di Nt Nd) as [A [B _]].
  apply Qnot_le_lt. intro Le. assert (Z0 : (di == 0)%Q) by (apply Qle_antisym; assumption).
  assert (Ex : existsb uses_delta (map req_type gr) = true) by (apply existsb_exists; exists (req_type r); split; [eapply nth_error_In; exact Nt | exact Tg]).
  rewrite Ex in Wd. rewrite <- Wd in Pd. apply Qlt_not_eq in Pd. apply Pd. symmetry. apply sum_zero. intros x Ix. apply In_nth_error in Ix. destruct Ix as [j Nj].
  assert (Lj : (j < length gr)%nat) by (rewrite <- Ld; apply nth_error_Some; congruence).
  destruct (nth_error (map req_type gr) j) as [tj|] eqn:Ntj; [|apply nth_error_None in Ntj; rewrite map_length in Ntj; lia].
  destruct (nth_error es j) as [ej|] eqn:Nej; [|apply nth_error_None in Nej; lia].
  destruct (forall2_nth_inv _ _ _ Fd j tj x Ntj Nj) as [_ [_ Lap]].
  destruct (uses_delta tj) eqn:Ud; [|apply Lap; destruct tj; (reflexivity || discriminate)].
  assert (Pr := Prop2 i j ei ej di x (req_type r) tj Nt Ntj Tg Ud Ne Nej Nd Nj).
  rewrite Z0 in Pr. rewrite Qmult_0_l in Pr. symmetry in Pr. apply Qmult_integral in Pr. destruct Pr as [Pr|Pr]; [exact Pr|].
  rewrite Pr in Ei. discriminate.
Qed.
Lemma divide_selection_delta {U P} (calls : list (call U P)) : forall bs,
  Forall2 (fun r ed => uses_delta (req_type r) = true -> (0 < snd ed)%Q) (flat_map call_requests calls) bs ->
  Forall2 (fun c b => selects_privately (c_params c) (c_public c) = true -> (0 < snd (b_selection b))%Q) calls (divide calls bs).
Proof.
  induction calls as [|c calls IH]; intros bs F; [constructor|]. cbn [flat_map] in F. destruct (forall2_firstn_skipn _ _ _ _ F) as [F1 F2].
  cbn [divide]. constructor; [|apply IH; exact F2]. intro Sp. cbn [b_selection].
  set (n := list_sum (map requests (c_combiners c))).
  assert (Ln : length (noise_requests (c_params c) (c_combiners c)) = n) by apply noise_requests_length.
  assert (Nr : nth_error (flat_map call_requests (c :: calls)) n = Some selection_request).
  { cbn [flat_map]. unfold call_requests at 1. fold (noise_requests (c_params c) (c_combiners c)). rewrite Sp, <- app_assoc, nth_error_app2 by lia.
    rewrite Ln, Nat.sub_diag. reflexivity. }
  destruct (nth_error bs n) as [ed|] eqn:Nb.
  - rewrite (nth_error_nth _ _ _ Nb). apply (forall2_nth_inv _ _ _ F n selection_request ed Nr Nb). reflexivity.
  - exfalso. apply nth_error_None in Nb. rewrite <- (forall2_len _ _ _ F) in Nb. apply nth_error_None in Nb. cbn [flat_map] in Nr. congruence.
Qed.
