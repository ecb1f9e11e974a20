(** Proofs for C62. *)
From Coq Require Import List ZArith QArith Bool Lia.
From Verif Require Import Base ParamsModel SensModel BudgetModel CombinerModel SelectModel DpModel LateModel LateSpec.
Import ListNotations.

Definition unset (m : mech) : Prop := m_eps m = None /\ m_delta m = None.
Definition set_ (m : mech) : Prop := m_eps m <> None /\ m_delta m <> None.
Definition same (m m' : mech) : Prop := m_type m = m_type m' /\ m_eps m = m_eps m' /\ m_delta m = m_delta m'.

Lemma same_refl : forall m, same m m.
Proof. intros m; repeat split. Qed.
Lemma same_trans : forall a b c, same a b -> same b c -> same a c.
Proof. intros a b c [A [B C]] [D [E F]]; repeat split; congruence. Qed.

(** All mechanisms kept, with the same type, eps and delta; more may have come. *)
Definition kept_same (l l' : list mech) : Prop :=
  forall i m, nth_error l i = Some m -> exists m', nth_error l' i = Some m' /\ same m m'.

Lemma kept_same_refl : forall l, kept_same l l.
Proof. intros l i m E; exists m; split; [exact E | apply same_refl]. Qed.
Lemma kept_same_trans : forall a b c, kept_same a b -> kept_same b c -> kept_same a c.
Proof.
  intros a b c A B i m E. destruct (A i m E) as [m' [E' S']]. destruct (B i m' E') as [m'' [E'' S'']].
  exists m''; split; [exact E'' | eapply same_trans; eassumption].
Qed.
Lemma kept_same_app : forall l x, kept_same l (l ++ x).
Proof.
  intros l x i m E; exists m; split; [| apply same_refl].
  rewrite nth_error_app1; [exact E |]. apply nth_error_Some; congruence.
Qed.

Lemma update_at_same : forall i f l, kept_same l (update_at i (scale_mech f) l) /\
  length (update_at i (scale_mech f) l) = length l.
Proof.
  intros i f l; revert i; induction l as [| x l IH]; intros [| i]; simpl.
  - split; [apply kept_same_refl | reflexivity].
  - split; [apply kept_same_refl | reflexivity].
  - split; [| reflexivity]. intros [| j] m E; simpl in *.
    + inversion E; subst. exists (scale_mech f m); split; [reflexivity | repeat split].
    + exists m; split; [exact E | apply same_refl].
  - destruct (IH i) as [A B]. split; [| now rewrite B]. intros [| j] m E; simpl in *.
    + exists m; split; [exact E | apply same_refl].
    + apply A; exact E.
Qed.

Lemma normalise_same : forall w idx ms ms', normalise w idx ms = Ok ms' ->
  kept_same ms ms' /\ length ms' = length ms.
Proof.
  intros w idx ms ms' H. unfold normalise in H. destruct idx as [| i idx].
  - inversion H; subst. split; [apply kept_same_refl | reflexivity].
  - destruct (Qeq_bool _ 0); [discriminate |]. assert (H1 : fold_left (fun acc i0 => update_at i0 (scale_mech (w / sumQ (map (weight_at ms) (i :: idx)))%Q) acc) (i :: idx) ms = ms') by congruence.
    rewrite <- H1. clear H H1.
    generalize (w / sumQ (map (weight_at ms) (i :: idx)))%Q as f.
    generalize (i :: idx) as l. intros l f; revert ms; induction l as [| x l IH]; intros ms; simpl.
    + split; [apply kept_same_refl | reflexivity].
    + destruct (update_at_same x f ms) as [A B]. destruct (IH (update_at x (scale_mech f) ms)) as [C D].
      split; [eapply kept_same_trans; eassumption | congruence].
Qed.

Lemma kept_same_forall : forall (P : mech -> Prop) l l',
  (forall m m', same m m' -> P m -> P m') -> kept_same l l' -> length l' = length l -> Forall P l -> Forall P l'.
Proof.
  intros P l l' C K L F. apply Forall_forall. intros m I. apply In_nth_error in I. destruct I as [i E].
  assert (Hi : (i < length l)%nat) by (rewrite <- L; apply nth_error_Some; congruence).
  destruct (nth_error l i) as [m0 |] eqn:E0; [| apply nth_error_None in E0; lia].
  destruct (K i m0 E0) as [m1 [E1 S1]]. rewrite E in E1; inversion E1; subst m1.
  apply (C m0 m S1). apply nth_error_In in E0. rewrite Forall_forall in F. now apply F.
Qed.

Lemma same_unset : forall m m', same m m' -> unset m -> unset m'.
Proof. intros m m' [A [B C]] [D E]; split; congruence. Qed.
Lemma same_set : forall m m', same m m' -> set_ m -> set_ m'.
Proof. intros m m' [A [B C]] [D E]; split; congruence. Qed.

(** Everything but a successful compute_budgets keeps all budgets. *)
Lemma step_keeps : forall s o,
  (o = Compute -> snd (step s o) <> Ok OutUnit \/ mechs s = []) ->
  kept_same (mechs s) (mechs (fst (step s o))) /\
  (exists x, length (mechs (fst (step s o))) = (length (mechs s) + x)%nat /\
             (x = 0%nat \/ exists m, mechs (fst (step s o)) = mechs s ++ [m] /\ unset m /\ finalized s = false)).
Proof.
  intros s o N.
  assert (Triv : forall s', mechs s' = mechs s -> kept_same (mechs s) (mechs s') /\
     exists x, length (mechs s') = (length (mechs s) + x)%nat /\
               (x = 0%nat \/ exists m, mechs s' = mechs s ++ [m] /\ unset m /\ finalized s = false)).
  { intros s' E; rewrite E. split; [apply kept_same_refl |]. exists 0%nat; split; [lia | now left]. }
  destruct o as [t w c n | w | | w | ].
  - simpl. unfold request_budget.
    destruct (finalized s) eqn:F; [now apply Triv |].
    destruct n; [now apply Triv |].
    assert (R : forall m r, unset m -> kept_same (mechs s) (mechs (fst (register s m, Ok (A := out) r))) /\
       exists x, length (mechs (fst (register s m, Ok (A := out) r))) = (length (mechs s) + x)%nat /\
          (x = 0%nat \/ exists m0, mechs (fst (register s m, Ok (A := out) r)) = mechs s ++ [m0] /\ unset m0 /\ false = false)).
    { intros m r U. simpl. split; [apply kept_same_app |]. exists 1%nat. rewrite app_length; simpl. split; [lia |].
      right. exists m. split; [reflexivity | split; [exact U | reflexivity]]. }
    destruct t; try (apply R; split; reflexivity).
    destruct (Qeq_bool (total_delta s) 0); [now apply Triv |]. apply R; split; reflexivity.
  - apply Triv; reflexivity.
  - simpl. unfold exit_scope. destruct (scopes s) as [| [w idx] rest]; [now apply Triv |].
    simpl. destruct (normalise w idx (mechs s)) as [ms | e] eqn:E; [| now apply Triv].
    destruct (normalise_same _ _ _ _ E) as [A B]. simpl. split; [exact A |]. exists 0%nat; split; [lia | now left].
  - simpl. unfold start_agg. destruct (exp_num s) as [n |].
    + destruct (negb (n =? 0)%Z); now apply Triv.
    + destruct (exp_weights s) as [[| x l] |]; try (now apply Triv).
      destruct (Qeq_bool (sumQ (x :: l)) 0); now apply Triv.
  - specialize (N eq_refl). simpl in *. unfold compute_budgets in *.
    destruct (check_restrictions s); [| now apply Triv].
    destruct (finalized s); [now apply Triv |].
    destruct (mechs s) as [| m ms] eqn:E; [apply Triv; simpl; exact E |].
    destruct (scopes s) as [| sc rest]; [| apply Triv; simpl; exact E].
    destruct N as [N | N]; [| discriminate]. exfalso; apply N; reflexivity.
Qed.

Lemma step_final : forall s o, finalized s = true -> finalized (fst (step s o)) = true.
Proof.
  intros s o F. destruct o as [t w c n | w | | w | ]; simpl.
  - unfold request_budget; rewrite F; exact F.
  - exact F.
  - unfold exit_scope. destruct (scopes s) as [| [w idx] rest]; [exact F |].
    simpl. destruct (normalise w idx (mechs s)); exact F.
  - unfold start_agg. destruct (exp_num s) as [n |].
    + destruct (negb (n =? 0)%Z); exact F.
    + destruct (exp_weights s) as [[| x l] |]; try exact F.
      destruct (Qeq_bool (sumQ (x :: l)) 0); exact F.
  - unfold compute_budgets. destruct (check_restrictions s); [| exact F]. rewrite F; exact F.
Qed.

(** Before: no mechanism has a budget; after: all have one and none comes. *)
Definition before (a : acct) : Prop := Forall unset (mechs a).
Definition after (a : acct) : Prop := finalized a = true /\ Forall set_ (mechs a).

Lemma step_after : forall s o, after s ->
  after (fst (step s o)) /\ kept_same (mechs s) (mechs (fst (step s o))) /\
  length (mechs (fst (step s o))) = length (mechs s).
Proof.
  intros s o [F A].
  assert (N : o = Compute -> snd (step s o) <> Ok OutUnit \/ mechs s = []).
  { intros ->. left. simpl. unfold compute_budgets. destruct (check_restrictions s); [| discriminate].
    rewrite F. discriminate. }
  destruct (step_keeps s o N) as [K [x [L [X | [m [_ [_ F']]]]]]]; [| congruence]. subst x.
  rewrite Nat.add_0_r in L. split; [| now split].
  split; [now apply step_final |]. apply (kept_same_forall set_ (mechs s)); auto. exact same_set.
Qed.

Lemma compute_ok : forall s, before s -> snd (step s Compute) = Ok OutUnit ->
  after (fst (step s Compute)) /\ length (mechs (fst (step s Compute))) = length (mechs s) /\
  map m_type (mechs (fst (step s Compute))) = map m_type (mechs s).
Proof.
  intros s B H. simpl in *. unfold compute_budgets in *.
  destruct (check_restrictions s); [| discriminate].
  destruct (finalized s); [discriminate |].
  destruct (mechs s) as [| m ms] eqn:E.
  - simpl. repeat split; simpl; rewrite E; auto.
  - destruct (scopes s); [| discriminate]. simpl fst. unfold set_mechs. simpl mechs.
    split; [split; [reflexivity |] | split].
    + simpl mechs. apply Forall_forall. intros x I.
      change (In x (map (set_budget (total_eps s) (total_delta s) (total_weight_eps (m :: ms)) (total_weight_delta (m :: ms))) (m :: ms))) in I.
      apply in_map_iff in I. destruct I as [y [<- _]]. split; discriminate.
    + simpl; now rewrite map_length.
    + simpl. f_equal. rewrite map_map. reflexivity.
Qed.

Lemma step_before : forall s o, before s -> (o <> Compute \/ snd (step s o) <> Ok OutUnit) ->
  before (fst (step s o)) /\ kept_same (mechs s) (mechs (fst (step s o))).
Proof.
  intros s o B N.
  assert (N' : o = Compute -> snd (step s o) <> Ok OutUnit \/ mechs s = []) by (intros ->; destruct N as [N | N]; [contradiction | now left]).
  destruct (step_keeps s o N') as [K [x [L [X | [m [E [U _]]]]]]].
  - subst x. rewrite Nat.add_0_r in L. split; [| exact K].
    apply (kept_same_forall unset (mechs s)); auto. exact same_unset.
  - split; [| exact K]. unfold before. rewrite E. apply Forall_app. split; [exact B | now apply Forall_cons].
Qed.

(** ** create_mechanism *)
Lemma rbind_ok : forall (A B : Type) (r : result A) (f : A -> result B) b,
  rbind r f = Ok b -> exists a, r = Ok a /\ f a = Ok b.
Proof. intros A B [a | e] f b H; simpl in H; [now exists a | discriminate]. Qed.
Lemma rmap_ok : forall (A B : Type) (f : A -> B) (r : result A) b,
  rmap f r = Ok b -> exists a, r = Ok a /\ b = f a.
Proof. intros A B f [a | e] b H; simpl in H; [inversion H; now exists a | discriminate]. Qed.

Lemma create_additive_same : forall m m' s, same m m' -> create_additive m s = create_additive m' s.
Proof. intros m m' s [A [B C]]. unfold create_additive, get_eps, get_delta. now rewrite A, B, C. Qed.

Lemma create_same : forall b l l', Forall2 same l l' -> create_mechanism b l = create_mechanism b l'.
Proof.
  intros b l l' F. destruct F as [| m m' l l' S1 F]; [destruct b; reflexivity |].
  assert (E := S1). destruct E as [T [Ee Ed]].
  destruct F as [| n n' l l' S2 F].
  - destruct b; simpl; try reflexivity.
    + now rewrite (create_additive_same _ _ _ S1).
    + unfold get_eps, get_delta. now rewrite T, Ee, Ed.
    + unfold get_eps, get_delta. now rewrite Ee, Ed.
  - destruct F; destruct b; simpl; try reflexivity.
    now rewrite (create_additive_same _ _ _ S1), (create_additive_same _ _ _ S2).
Qed.

Lemma create_additive_unset : forall m s, unset m -> exists e, create_additive m s = Err e.
Proof.
  intros m s [U V]. unfold create_additive, get_eps, get_delta. rewrite U.
  destruct (to_noise_kind (m_type m)) as [[|] |]; simpl; [destruct (s_l1 s) | destruct (s_l2sq s) |]; simpl; eauto.
Qed.

Lemma create_unset : forall b l, Forall unset l -> exists e, create_mechanism b l = Err e.
Proof.
  intros b l F. destruct F as [| m l U F]; [destruct b; simpl; eauto |].
  destruct F as [| n l U' F].
  - destruct b; simpl; eauto.
    + destruct (create_additive_unset m s U) as [e ->]; simpl; eauto.
    + destruct (to_partition_selection_strategy (m_type m)); simpl; eauto.
      destruct U as [U V]. unfold get_eps. rewrite U; simpl; eauto.
    + destruct U as [U V]. unfold get_eps. rewrite U; simpl; eauto.
  - destruct F; destruct b; simpl; eauto.
    destruct (create_additive_unset m count_sens U) as [e ->]; simpl; eauto.
Qed.

Lemma create_additive_for : forall m s x ty e d,
  m_type m = ty -> m_eps m = Some e -> m_delta m = Some d ->
  (create_additive m s = Ok x <-> additive_for ty e d s x).
Proof.
  intros m s x ty e d <- E D. unfold create_additive, get_eps, get_delta. rewrite E, D. split.
  - intros H. destruct (m_type m) eqn:T; simpl in H; try discriminate;
      unfold create_additive_mechanism in H; simpl in H.
    + destruct (s_l1 s) eqn:L; [| discriminate]. inversion H; subst. apply for_laplace; auto.
    + destruct (s_l2sq s) eqn:L; [| discriminate]. inversion H; subst. apply for_gaussian; auto.
    + destruct (s_l1 s) eqn:L; [| discriminate]. inversion H; subst. apply for_laplace; auto.
    + destruct (s_l2sq s) eqn:L; [| discriminate]. inversion H; subst. apply for_gaussian; auto.
  - intros H. inversion H; subst.
    + destruct H0 as [-> | ->]; simpl; rewrite H1; unfold create_additive_mechanism; simpl; rewrite H1; reflexivity.
    + destruct H0 as [-> | ->]; simpl; rewrite H1; unfold create_additive_mechanism; simpl; rewrite H1; reflexivity.
Qed.

(** create_mechanism on the accountant's specs is the right mechanism. *)
Definition specs_at (a : acct) (is : list nat) : list mech := derefs a (map Shared is).

Lemma set_granted : forall a i m, nth_error (mechs a) i = Some m -> set_ m ->
  exists e d, m_eps m = Some e /\ m_delta m = Some d /\ granted a i (m_type m) e d.
Proof.
  intros a i m E [A B]. destruct (m_eps m) as [e |] eqn:Ee; [| congruence]. destruct (m_delta m) as [d |] eqn:Ed; [| congruence].
  exists e, d. split; [reflexivity | split; [reflexivity |]]. exists m. auto.
Qed.

Lemma create_right : forall a c p is b x,
  after a -> (forall i, In i is -> (i < length (mechs a))%nat) -> length is = specs_needed c ->
  construct c p = Ok b ->
  (create_mechanism b (specs_at a is) = Ok x <-> right_mechanism a c p is x).
Proof.
  intros a c p is b x [_ AF] LT LEN CON.
  assert (Get : forall i, In i is -> exists m e d, nth_error (mechs a) i = Some m /\ m_eps m = Some e /\ m_delta m = Some d).
  { intros i I. specialize (LT i I). destruct (nth_error (mechs a) i) as [m |] eqn:E; [| apply nth_error_None in E; lia].
    assert (IN := nth_error_In _ _ E). rewrite Forall_forall in AF. specialize (AF m IN).
    destruct (set_granted a i m E AF) as [e [d [? [? _]]]]. now exists m, e, d. }
  assert (One : forall i, is = [i] -> exists m e d, nth_error (mechs a) i = Some m /\ m_eps m = Some e /\ m_delta m = Some d /\ specs_at a is = [m]).
  { intros i ->. destruct (Get i (or_introl eq_refl)) as [m [e [d [A [B C]]]]]. exists m, e, d. unfold specs_at; simpl. rewrite A. auto. }
  assert (Gr : forall i m ty e d e' d', nth_error (mechs a) i = Some m -> m_eps m = Some e -> m_delta m = Some d ->
     granted a i ty e' d' -> ty = m_type m /\ e' = e /\ d' = d).
  { intros i m ty e d e' d' A B C [m' [A' [B' [C' D']]]]. rewrite A in A'; inversion A'; subst m'.
    repeat split; congruence. }
  destruct c; simpl in LEN.
  1,2,3: destruct is as [| i [| ? ?]]; try discriminate;
    destruct (One i eq_refl) as [m [e [d [A [B [C ->]]]]]];
    simpl in CON; apply rmap_ok in CON; destruct CON as [s [S1 ->]]; simpl;
    split;
    [ intros H; apply rmap_ok in H; destruct H as [y [H ->]];
      apply (create_additive_for m s y _ e d eq_refl B C) in H;
      apply (right_additive a _ p i (m_type m) e d s y); [tauto | exists m; auto | exact H]
    | intros H; inversion H as [c' p' i' ty' e' d' s' m' HS HG HA | | | ]; subst;
      destruct (Gr i m _ e d _ _ A B C HG) as [-> [-> ->]];
      assert (s' = s) by (destruct HS as [[? HS] | [[? HS] | [? HS]]]; try discriminate; congruence);
      subst s'; apply (create_additive_for m s m' _ e d eq_refl B C) in HA; rewrite HA; reflexivity ].
  - destruct is as [| i [| ? ?]]; try discriminate.
    destruct (One i eq_refl) as [m [e [d [A [B [C ->]]]]]].
    simpl in CON. apply rmap_ok in CON. destruct CON as [s [S1 ->]]. simpl.
    unfold get_eps, get_delta. rewrite B, C. split.
    + intros H. destruct (m_type m) eqn:T; simpl in H; try discriminate;
        unfold create_thresholding_mechanism in H; simpl in H; inversion H; subst.
      * apply (right_thresholding a p i LAPLACE_THRESHOLDING LaplaceThresholding e d s); [now left | exists m; auto | exact S1].
      * apply (right_thresholding a p i GAUSSIAN_THRESHOLDING GaussianThresholding e d s); [now right | exists m; auto | exact S1].
    + intros H. inversion H as [c' p' i' ty' e' d' s' m' HS HG HA | p' i' ty' st' e' d' s' HT HG HS | | ]; subst.
      { destruct HS as [[? ?] | [[? ?] | [? ?]]]; discriminate. }
      destruct (Gr i m _ e d _ _ A B C HG) as [Ty [-> ->]]. rewrite S1 in HS; inversion HS; subst s'.
      rewrite <- Ty. destruct HT as [[-> ->] | [-> ->]]; reflexivity.
  - destruct is as [| i1 [| i2 [| ? ?]]]; try discriminate.
    destruct (Get i1 (or_introl eq_refl)) as [m1 [e1 [d1 [A1 [B1 C1]]]]].
    destruct (Get i2 (or_intror (or_introl eq_refl))) as [m2 [e2 [d2 [A2 [B2 C2]]]]].
    assert (SP : specs_at a [i1; i2] = [m1; m2]) by (unfold specs_at; simpl; rewrite A1, A2; reflexivity).
    rewrite SP. simpl in CON.
    destruct (min_value p) as [lo |] eqn:Elo; [| discriminate]. destruct (max_value p) as [hi |] eqn:Ehi; [| discriminate].
    apply rbind_ok in CON. destruct CON as [sc [S1 CON]]. apply rmap_ok in CON. destruct CON as [ss [S2 ->]]. simpl.
    split.
    + intros H. apply rbind_ok in H. destruct H as [y1 [H1 H]]. apply rmap_ok in H. destruct H as [y2 [H2 ->]].
      apply (create_additive_for m1 sc y1 _ e1 d1 eq_refl B1 C1) in H1.
      apply (create_additive_for m2 ss y2 _ e2 d2 eq_refl B2 C2) in H2.
      apply (right_mean a p i1 i2 (m_type m1) (m_type m2) e1 d1 e2 d2 lo hi sc ss y1 y2); auto; [exists m1 | exists m2]; auto.
    + intros H. inversion H as [ | | p' i1' i2' ty1 ty2 e1' d1' e2' d2' lo' hi' sc' ss' y1 y2 G1 G2 HL HH HC HS HA1 HA2 | ]; subst.
      destruct (Gr i1 m1 _ e1 d1 _ _ A1 B1 C1 G1) as [-> [-> ->]].
      destruct (Gr i2 m2 _ e2 d2 _ _ A2 B2 C2 G2) as [-> [-> ->]].
      rewrite S1 in HC; inversion HC; subst sc'. rewrite S2 in HS; inversion HS; subst ss'.
      rewrite Elo in HL; inversion HL; subst lo'. rewrite Ehi in HH; inversion HH; subst hi'.
      apply (create_additive_for m1 sc y1 _ e1 d1 eq_refl B1 C1) in HA1.
      apply (create_additive_for m2 ss y2 _ e2 d2 eq_refl B2 C2) in HA2.
      rewrite HA1; simpl. rewrite HA2. reflexivity.
  - destruct is as [| i [| ? ?]]; try discriminate.
    destruct (One i eq_refl) as [m [e [d [A [B [C ->]]]]]].
    simpl in CON. inversion CON; subst b. simpl. unfold get_eps, get_delta. rewrite B, C. simpl. split.
    + intros H. inversion H; subst. apply (right_params a p i (m_type m) e d). exists m; auto.
    + intros H. inversion H as [c' p' i' ty' e' d' s' m' HS HG HA | | | p' i' ty' e' d' HG]; subst.
      { destruct HS as [[? ?] | [[? ?] | [? ?]]]; discriminate. }
      destruct (Gr i m _ e d _ _ A B C HG) as [-> [-> ->]]. reflexivity.
Qed.
