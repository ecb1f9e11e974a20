(** Proofs for C62: from the invariant to whole histories. *)
From Coq Require Import List ZArith QArith Bool Lia.
From Verif Require Import Base ParamsModel SensModel BudgetModel CombinerModel SelectModel DpModel LateModel LateSpec LateProofs LateProofs2.
Import ListNotations.

Lemma new_before : forall e d num ws a, new_accountant e d num ws = Ok a -> before a.
Proof.
  intros e d num ws a H. unfold new_accountant in H. destruct (validate_epsilon_delta e d); [| discriminate].
  destruct num as [n |]; destruct ws as [l |]; try discriminate.
  - destruct (n <=? 0)%Z; inversion H; constructor.
  - inversion H; constructor.
  - inversion H; constructor.
Qed.

Section History.
Variables (a0 : acct) (p0 : params).
Hypothesis B0 : before a0.
Let w0 := World a0 p0 [].

Lemma inv_start : inv p0 [] w0.
Proof.
  constructor; simpl.
  - reflexivity.
  - right. split; [intros [] | exact B0].
  - intros [| j] o H; discriminate.
  - intros j c p is H. inversion H as [t' n j' c' is' A | t' n j0 j' c' p' is' A B]; subst; destruct n; discriminate.
  - intros j H. inversion H as [t' n j0 j' A B | t' n j0 j' A B]; subst; destruct n; discriminate.
Qed.

Lemma inv_run : forall h, inv p0 (trace w0 h) (wrun w0 h).
Proof.
  intros h. induction h as [| e h IH] using rev_ind; [exact inv_start |].
  rewrite trace_snoc, wrun_snoc. now apply inv_step.
Qed.

Lemma happened_split : forall h w n e oc, happened (trace w h) n e oc ->
  exists h1 h2, h = h1 ++ e :: h2 /\ oc = snd (wstep (wrun w h1) e) /\ firstn n (trace w h) = trace w h1.
Proof.
  induction h as [| x h IH]; intros w n e oc H; [destruct n; discriminate |].
  destruct n as [| n]; unfold happened in H; simpl in H.
  - inversion H; subst. exists [], h. repeat split.
  - destruct (IH _ _ _ _ H) as [h1 [h2 [A [B C]]]]. exists (x :: h1), h2. simpl. rewrite C. split; [now rewrite A | split; [exact B | reflexivity]].
Qed.

Lemma objs_grow : forall w e, (length (w_objs w) <= length (w_objs (fst (wstep w e))))%nat.
Proof.
  intros w e. destruct e as [o | p' | c is | j | j]; simpl; try lia.
  - destruct (forallb _ is && _); [| simpl; lia]. destruct (construct c (w_params w)); simpl; [rewrite app_length |]; lia.
  - destruct (nth_error (w_objs w) j); simpl; [rewrite app_length |]; lia.
  - destruct (nth_error (w_objs w) j); simpl; [rewrite set_nth_length |]; lia.
Qed.
Lemma new_object_number : forall w e j, snd (wstep w e) = OObject j -> j = length (w_objs w).
Proof.
  intros w e j. destruct e as [o | p' | c is | k | k]; simpl; try discriminate.
  - destruct (forallb _ is && _); [| discriminate]. destruct (construct c (w_params w)); simpl; [| discriminate]. congruence.
  - destruct (nth_error (w_objs w) k); simpl; [| discriminate]. congruence.
  - destruct (nth_error (w_objs w) k); simpl; discriminate.
Qed.

(** What is known about an object when it exists stays so. *)
Lemma origin_back : forall h2 h1 j c p is, (j < length (w_objs (wrun w0 h1)))%nat ->
  (length (w_objs (wrun w0 h1)) <= length (w_objs (wrun w0 (h1 ++ h2))))%nat /\
  (comes_from p0 (trace w0 (h1 ++ h2)) j c p is -> comes_from p0 (trace w0 h1) j c p is) /\
  (early_copy (trace w0 (h1 ++ h2)) j <-> early_copy (trace w0 h1) j).
Proof.
  intros h2. induction h2 as [| e h2 IH] using rev_ind; intros h1 j c p is L.
  - rewrite app_nil_r. split; [lia | split; [auto | tauto]].
  - destruct (IH h1 j c p is L) as [G [A B]]. rewrite app_assoc, wrun_snoc, trace_snoc.
    set (w := wrun w0 (h1 ++ h2)) in *. set (t := trace w0 (h1 ++ h2)) in *.
    split. { generalize (objs_grow w e). lia. }
    split.
    + intros H. apply comes_from_snoc in H. destruct H as [H | [[X _] | [j0 [X _]]]]; [auto | |];
        inversion X as [[X1 X2]]; apply new_object_number in X2; lia.
    + rewrite early_snoc, B. split; [| now left]. intros [H | [j0 [X _]]]; [exact H |].
      inversion X as [[X1 X2]]; apply new_object_number in X2; lia.
Qed.

Lemma step_types : forall s o, before s \/ after s ->
  forall i m, nth_error (mechs s) i = Some m -> exists m', nth_error (mechs (fst (step s o))) i = Some m' /\ m_type m = m_type m'.
Proof.
  intros s o [B | A].
  - assert (D : (o <> Compute \/ snd (step s o) <> Ok OutUnit) \/ (o = Compute /\ snd (step s o) = Ok OutUnit)).
    { destruct o; try (left; left; discriminate).
      destruct (snd (step s Compute)) as [[| k | b] | ex]; [right; auto | left; right; discriminate ..]. }
    destruct D as [D | [-> D]].
    + apply kept_types. now apply step_before.
    + apply map_types. now apply compute_ok.
  - apply kept_types. now apply step_after.
Qed.
Lemma acct_step : forall w e, w_acct (fst (wstep w e)) = match e with Account o => fst (step (w_acct w) o) | _ => w_acct w end.
Proof.
  intros w e. destruct e as [o | p' | c is | j | j]; simpl; try reflexivity.
  - destruct (forallb _ is && _); [| reflexivity]. destruct (construct c (w_params w)); reflexivity.
  - destruct (nth_error (w_objs w) j); reflexivity.
  - destruct (nth_error (w_objs w) j); reflexivity.
Qed.
Lemma types_run : forall h2 h1 i m, nth_error (mechs (w_acct (wrun w0 h1))) i = Some m ->
  exists m', nth_error (mechs (w_acct (wrun w0 (h1 ++ h2)))) i = Some m' /\ m_type m = m_type m'.
Proof.
  intros h2. induction h2 as [| e h2 IH] using rev_ind; intros h1 i m E.
  - rewrite app_nil_r. exists m; auto.
  - destruct (IH h1 i m E) as [m' [E' T']]. rewrite app_assoc, wrun_snoc, acct_step.
    destruct e; try (exists m'; now split).
    assert (BA : before (w_acct (wrun w0 (h1 ++ h2))) \/ after (w_acct (wrun w0 (h1 ++ h2)))).
    { destruct (i_budget _ _ _ (inv_run (h1 ++ h2))) as [[_ A] | [_ B]]; auto. }
    destruct (step_types _ o BA i m' E') as [m'' [E'' T'']]. exists m''. split; [exact E'' | congruence].
Qed.
Lemma kept_run : forall h2 h1, computed (trace w0 h1) ->
  kept_same (mechs (w_acct (wrun w0 h1))) (mechs (w_acct (wrun w0 (h1 ++ h2)))) /\
  computed (trace w0 (h1 ++ h2)).
Proof.
  intros h2. induction h2 as [| e h2 IH] using rev_ind; intros h1 C.
  - rewrite app_nil_r. split; [apply kept_same_refl | exact C].
  - destruct (IH h1 C) as [K C']. rewrite app_assoc, wrun_snoc, trace_snoc, acct_step. split.
    + destruct e; try exact K. eapply kept_same_trans; [exact K |].
      destruct (i_budget _ _ _ (inv_run (h1 ++ h2))) as [[_ A] | [N _]]; [| contradiction].
      now apply step_after.
    + apply computed_snoc. now left.
Qed.

(** A get_mechanism in a history: the object at that time. *)
Lemma use_split : forall h n j cr r, happened (trace w0 h) n (GetMechanism j) (OMech cr r) ->
  exists h1 h2 o, h = h1 ++ GetMechanism j :: h2 /\ firstn n (trace w0 h) = trace w0 h1 /\
  nth_error (w_objs (wrun w0 h1)) j = Some o /\
  snd (get_mechanism (w_acct (wrun w0 h1)) o) = (cr, r).
Proof.
  intros h n j cr r H. destruct (happened_split _ _ _ _ _ H) as [h1 [h2 [A [B C]]]].
  simpl in B. destruct (nth_error (w_objs (wrun w0 h1)) j) as [o |] eqn:E; [| discriminate].
  exists h1, h2, o. split; [exact A |]. split; [exact C |]. split; [exact E |].
  destruct (snd (get_mechanism (w_acct (wrun w0 h1)) o)) as [x y]. simpl in B. inversion B. reflexivity.
Qed.

Lemma use_object : forall h1 h2 j o c p is, nth_error (w_objs (wrun w0 h1)) j = Some o ->
  comes_from p0 (trace w0 (h1 ++ h2)) j c p is ->
  comes_from p0 (trace w0 h1) j c p is /\ object_ok (trace w0 h1) (w_acct (wrun w0 h1)) o j c p is /\
  (early_copy (trace w0 (h1 ++ h2)) j <-> early_copy (trace w0 h1) j).
Proof.
  intros h1 h2 j o c p is E H.
  assert (L : (j < length (w_objs (wrun w0 h1)))%nat) by (apply nth_error_Some; congruence).
  destruct (origin_back h2 h1 j c p is L) as [_ [A B]]. specialize (A H). split; [exact A |].
  destruct (i_object _ _ _ (inv_run h1) j c p is A) as [o' [E' OK]]. rewrite E in E'; inversion E'; subst o'.
  split; [exact OK | exact B].
Qed.

Lemma after_run : forall h, computed (trace w0 h) -> after (w_acct (wrun w0 h)).
Proof. intros h C. destruct (i_budget _ _ _ (inv_run h)) as [[_ A] | [N _]]; [exact A | contradiction]. Qed.

Lemma right_from : forall h1 h2 o j c p is b,
  object_ok (trace w0 h1) (w_acct (wrun w0 h1)) o j c p is -> computed (trace w0 h1) ->
  (create_mechanism (o_body o) (specs_at (w_acct (wrun w0 h1)) is) = Ok b <->
   right_mechanism (w_acct (wrun w0 (h1 ++ h2))) c p is b).
Proof.
  intros h1 h2 o j c p is b [A [B [D _]]] C.
  destruct (kept_run h2 h1 C) as [K C'].
  rewrite (create_same _ _ _ (specs_at_kept _ _ is K D)).
  apply create_right; auto; [now apply after_run |].
  intros i I. specialize (D i I). apply kept_length in K. lia.
Qed.

Theorem use_right : forall h n j cr b c p is,
  happened (trace w0 h) n (GetMechanism j) (OMech cr (Ok b)) -> comes_from p0 (trace w0 h) j c p is ->
  right_mechanism (w_acct (wrun w0 h)) c p is b.
Proof.
  intros h n j cr b c p is H F. destruct (use_split _ _ _ _ _ H) as [h1 [h2 [o [-> [_ [E R]]]]]].
  destruct (use_object _ _ _ _ _ _ _ E F) as [F1 [OK _]].
  destruct (get_mechanism_ok _ _ _ _ _ _ _ (i_budget _ _ _ (inv_run h1)) OK) as [_ [G _]].
  destruct (G cr b R) as [_ [C K]].
  now apply (right_from h1 (GetMechanism j :: h2) o j c p is b OK C).
Qed.

Theorem use_origin : forall h n j cr r,
  happened (trace w0 h) n (GetMechanism j) (OMech cr r) -> exists c p is, comes_from p0 (trace w0 h) j c p is.
Proof.
  intros h n j cr r H. destruct (use_split _ _ _ _ _ H) as [h1 [h2 [o [-> [_ [E R]]]]]].
  assert (G : forall l, exists o', nth_error (w_objs (wrun w0 (h1 ++ l))) j = Some o').
  { intros l. assert (L : (j < length (w_objs (wrun w0 h1)))%nat) by (apply nth_error_Some; congruence).
    destruct (origin_back l h1 j KCount p0 [] L) as [L' _].
    destruct (nth_error (w_objs (wrun w0 (h1 ++ l))) j) as [o' |] eqn:E'; [now exists o' |].
    apply nth_error_None in E'. lia. }
  destruct (G (GetMechanism j :: h2)) as [o' E'].
  exact (i_origin _ _ _ (inv_run (h1 ++ GetMechanism j :: h2)) j o' E').
Qed.

Theorem use_available : forall h n j cr r c p is b,
  happened (trace w0 h) n (GetMechanism j) (OMech cr r) -> comes_from p0 (trace w0 h) j c p is ->
  computed (firstn n (trace w0 h)) -> ~ early_copy (trace w0 h) j ->
  right_mechanism (w_acct (wrun w0 h)) c p is b -> r = Ok b.
Proof.
  intros h n j cr r c p is b H F C N R. destruct (use_split _ _ _ _ _ H) as [h1 [h2 [o [-> [T [E G]]]]]].
  destruct (use_object _ _ _ _ _ _ _ E F) as [F1 [OK EE]]. rewrite T in C. rewrite EE in N.
  destruct (get_mechanism_ok _ _ _ _ _ _ _ (i_budget _ _ _ (inv_run h1)) OK) as [_ [_ K]].
  specialize (K N C). rewrite G in K. simpl in K. rewrite K.
  now apply (right_from h1 (GetMechanism j :: h2) o j c p is b OK C).
Qed.

(** Creation from copies without budget. *)
Lemma additive_assert : forall m m' s x, unset m -> m_type m = m_type m' -> create_additive m' s = Ok x ->
  create_additive m s = Err AssertionError.
Proof.
  intros m m' s x [U V] T H. unfold create_additive, get_eps, get_delta in *. rewrite U, T.
  destruct (to_noise_kind (m_type m')) as [[|] |]; simpl in *; try discriminate.
  - destruct (s_l1 s); [reflexivity | discriminate].
  - destruct (s_l2sq s); [reflexivity | discriminate].
Qed.
Lemma create_assert : forall b l l' x, Forall2 (fun m m' => unset m /\ m_type m = m_type m') l l' ->
  create_mechanism b l' = Ok x -> create_mechanism b l = Err AssertionError.
Proof.
  intros b l l' x F H. destruct F as [| m m' l l' [U T] F]; [destruct b; discriminate |].
  destruct F as [| n n' l l' [U' T'] F].
  - destruct b; simpl in *; try discriminate.
    + apply rmap_ok in H. destruct H as [y [H _]]. now rewrite (additive_assert _ _ _ _ U T H).
    + rewrite T. destruct (to_partition_selection_strategy (m_type m')); simpl in *; [| discriminate].
      destruct U as [U V]. unfold get_eps. now rewrite U.
    + destruct U as [U V]. unfold get_eps. now rewrite U.
  - destruct F; destruct b; simpl in *; try discriminate.
    apply rbind_ok in H. destruct H as [y [H _]]. now rewrite (additive_assert _ _ _ _ U T H).
Qed.

Lemma shadow_specs : forall h1 h2 ms is, Forall2 (shadow (w_acct (wrun w0 h1))) ms is ->
  Forall2 (fun m m' => unset m /\ m_type m = m_type m') ms (specs_at (w_acct (wrun w0 (h1 ++ h2))) is).
Proof.
  intros h1 h2 ms is F. induction F as [| m i ms is [U [m' [E T]]] F IH]; unfold specs_at in *; simpl; [constructor |].
  destruct (types_run h2 h1 i m' E) as [m'' [E' T']]. rewrite E'. constructor; [| exact IH]. split; [exact U | congruence].
Qed.

Lemma right_create : forall h c p is b body,
  (forall i, In i is -> (i < length (mechs (w_acct (wrun w0 h))))%nat) -> length is = specs_needed c ->
  construct c p = Ok body -> right_mechanism (w_acct (wrun w0 h)) c p is b ->
  create_mechanism body (specs_at (w_acct (wrun w0 h)) is) = Ok b.
Proof.
  intros h c p is b body LT LEN CON R.
  destruct (i_budget _ _ _ (inv_run h)) as [[_ A] | [_ B]].
  - apply (create_right _ c p is body b A LT LEN CON). exact R.
  - exfalso.
    assert (NG : forall i ty e d, ~ granted (w_acct (wrun w0 h)) i ty e d).
    { intros i ty e d [m [E [_ [Ee _]]]]. apply nth_error_In in E. unfold before in B. rewrite Forall_forall in B.
      destruct (B m E). congruence. }
    inversion R; subst; eapply NG; eassumption.
Qed.

(** Too early, or a copy that was made too early: the exception of MechanismSpec. *)
Theorem use_assert : forall h n j cr r c p is b,
  happened (trace w0 h) n (GetMechanism j) (OMech cr r) -> comes_from p0 (trace w0 h) j c p is ->
  (~ computed (firstn n (trace w0 h)) \/ early_copy (trace w0 h) j) ->
  (exists e, r = Err e) /\ (right_mechanism (w_acct (wrun w0 h)) c p is b -> r = Err AssertionError).
Proof.
  intros h n j cr r c p is b H F D. destruct (use_split _ _ _ _ _ H) as [h1 [h2 [o [-> [T [E G]]]]]].
  destruct (use_object _ _ _ _ _ _ _ E F) as [F1 [OK EE]]. rewrite T, EE in D.
  destruct (get_mechanism_ok _ _ _ _ _ _ _ (i_budget _ _ _ (inv_run h1)) OK) as [_ [K _]].
  split.
  - destruct r as [b' | e]; [| now exists e]. destruct (K cr b' G) as [N [C _]]. destruct D; contradiction.
  - intros R. destruct OK as [A [B [DD OK]]].
    assert (LT : forall i, In i is -> (i < length (mechs (w_acct (wrun w0 (h1 ++ GetMechanism j :: h2)))))%nat).
    { intros i I. specialize (DD i I). destruct (nth_error (mechs (w_acct (wrun w0 h1))) i) as [m |] eqn:Ei; [| apply nth_error_None in Ei; lia].
      destruct (types_run (GetMechanism j :: h2) h1 i m Ei) as [m' [E' _]]. apply nth_error_Some; congruence. }
    assert (CR := right_create (h1 ++ GetMechanism j :: h2) c p is b (o_body o) LT B A R).
    assert (Cre : exists ms, o_mech o = None /\ derefs (w_acct (wrun w0 h1)) (o_specs o) = ms /\ Forall2 (shadow (w_acct (wrun w0 h1))) ms is).
    { destruct OK as [[E1 [E2 [ms [E3 E4]]]] | [E1 [E2 [E3 E4]]]].
      - exists ms. rewrite E3, derefs_own. auto.
      - destruct D as [D | D]; [| contradiction]. exists (derefs (w_acct (wrun w0 h1)) (o_specs o)). split.
        + destruct (o_mech o) as [b' |]; [| reflexivity]. destruct (E4 b' eq_refl). contradiction.
        + split; [reflexivity |]. rewrite (E3 D). apply shadow_before; [| exact DD].
          destruct (i_budget _ _ _ (inv_run h1)) as [[C _] | [_ Bf]]; [contradiction | exact Bf]. }
    destruct Cre as [ms [M [DE SH]]]. unfold get_mechanism in G. rewrite M, DE in G.
    rewrite (create_assert (o_body o) ms _ b (shadow_specs h1 (GetMechanism j :: h2) ms is SH) CR) in G.
    simpl in G. congruence.
Qed.

(** Created at most once per object. *)
Lemma created_stays : forall h2 h1 j o, nth_error (w_objs (wrun w0 h1)) j = Some o ->
  exists o', nth_error (w_objs (wrun w0 (h1 ++ h2))) j = Some o' /\ (o_mech o <> None -> o_mech o' <> None) /\ o_body o' = o_body o.
Proof.
  intros h2. induction h2 as [| e h2 IH] using rev_ind; intros h1 j o E.
  - rewrite app_nil_r. exists o; auto.
  - destruct (IH h1 j o E) as [o1 [E1 [M1 B1]]]. rewrite app_assoc, wrun_snoc.
    assert (L : (j < length (w_objs (wrun w0 (h1 ++ h2))))%nat) by (apply nth_error_Some; congruence).
    generalize dependent (wrun w0 (h1 ++ h2)). intros w E1 L.
    assert (Triv : exists o', nth_error (w_objs w) j = Some o' /\ (o_mech o <> None -> o_mech o' <> None) /\ o_body o' = o_body o) by (exists o1; auto).
    destruct e as [a | p' | c is | k | k]; simpl; try exact Triv.
    + destruct (forallb _ is && _); [| exact Triv]. destruct (construct c (w_params w)); simpl; [| exact Triv].
      rewrite nth_error_app1 by exact L. exact Triv.
    + destruct (nth_error (w_objs w) k); simpl; [| exact Triv]. rewrite nth_error_app1 by exact L. exact Triv.
    + destruct (nth_error (w_objs w) k) as [ok |] eqn:Ek; simpl; [| exact Triv].
      destruct (Nat.eq_dec j k) as [<- | NE]; [| rewrite set_nth_other by exact NE; exact Triv].
      rewrite set_nth_same by exact L. rewrite E1 in Ek; inversion Ek; subst ok.
      exists (fst (get_mechanism (w_acct w) o1)). split; [reflexivity |].
      unfold get_mechanism. destruct (o_mech o1) as [b |] eqn:Em.
      * simpl. split; [| exact B1]. intros _. rewrite Em. discriminate.
      * assert (N : o_mech o <> None -> False) by (intros N; apply M1 in N; congruence).
        destruct (create_mechanism (o_body o1) (derefs (w_acct w) (o_specs o1))); simpl; [destruct (o_body o1) eqn:Eb |]; simpl;
          (split; [intros X; exfalso; now apply N | congruence]).
Qed.

Theorem use_once : forall h n1 n2 j b1 b2 c p is,
  happened (trace w0 h) n1 (GetMechanism j) (OMech true (Ok b1)) ->
  happened (trace w0 h) n2 (GetMechanism j) (OMech true (Ok b2)) ->
  (n1 < n2)%nat -> comes_from p0 (trace w0 h) j c p is -> c = KWithParams.
Proof.
  intros h n1 n2 j b1 b2 c p is H1 H2 L F.
  destruct (use_split _ _ _ _ _ H2) as [h2 [r2 [o2 [-> [T2 [E2 G2]]]]]].
  assert (H1' : happened (trace w0 h2) n1 (GetMechanism j) (OMech true (Ok b1))).
  { rewrite <- T2. unfold happened in *. rewrite <- H1. clear -L. revert n1 n2 L.
    generalize (trace w0 (h2 ++ GetMechanism j :: r2)). induction l as [| x l IH]; intros [| n1] [| n2] L; simpl; try lia; try reflexivity.
    apply IH; lia. }
  destruct (use_split _ _ _ _ _ H1') as [h1 [r1 [o1 [-> [T1 [E1 G1]]]]]].
  destruct (use_object _ _ _ _ _ _ _ E2 F) as [_ [OK _]].
  assert (Snd : exists o', nth_error (w_objs (wrun w0 (h1 ++ [GetMechanism j]))) j = Some o' /\
     (o_mech o' <> None \/ exists q, o_body o' = WithParams q)).
  { rewrite wrun_snoc. simpl. rewrite E1. simpl.
    exists (fst (get_mechanism (w_acct (wrun w0 h1)) o1)). split.
    - apply set_nth_same. apply nth_error_Some; congruence.
    - unfold get_mechanism in *. destruct (o_mech o1); [simpl in G1; congruence |].
      destruct (create_mechanism (o_body o1) (derefs (w_acct (wrun w0 h1)) (o_specs o1))); simpl in *; [| congruence].
      destruct (o_body o1) eqn:Eb; simpl; try (left; discriminate). right. now exists p1. }
  destruct Snd as [o' [E' Or]].
  destruct (created_stays r1 (h1 ++ [GetMechanism j]) j o' E') as [o3 [E3 [M3 B3]]].
  rewrite <- app_assoc in E3. simpl in E3. rewrite E2 in E3. inversion E3; subst o3.
  destruct Or as [Or | [q Or]].
  - exfalso. apply M3 in Or. unfold get_mechanism in G2. destruct (o_mech o2); [simpl in G2; congruence | congruence].
  - destruct OK as [A _]. rewrite B3, Or in A. destruct c; simpl in A; try reflexivity; exfalso.
    + apply rmap_ok in A. destruct A as [? [_ A]]; discriminate.
    + apply rmap_ok in A. destruct A as [? [_ A]]; discriminate.
    + apply rmap_ok in A. destruct A as [? [_ A]]; discriminate.
    + apply rmap_ok in A. destruct A as [? [_ A]]; discriminate.
    + destruct (min_value p); [| discriminate]. destruct (max_value p); [| discriminate].
      apply rbind_ok in A. destruct A as [? [_ A]]. apply rmap_ok in A. destruct A as [? [_ A]]; discriminate.
Qed.

Theorem use_agree : forall h n1 n2 j1 j2 cr1 cr2 b1 b2 c p is,
  happened (trace w0 h) n1 (GetMechanism j1) (OMech cr1 (Ok b1)) ->
  happened (trace w0 h) n2 (GetMechanism j2) (OMech cr2 (Ok b2)) ->
  comes_from p0 (trace w0 h) j1 c p is -> comes_from p0 (trace w0 h) j2 c p is -> b1 = b2.
Proof.
  intros h n1 n2 j1 j2 cr1 cr2 b1 b2 c p is H1 H2 F1 F2.
  assert (R1 := use_right _ _ _ _ _ _ _ _ H1 F1). assert (R2 := use_right _ _ _ _ _ _ _ _ H2 F2).
  destruct (i_object _ _ _ (inv_run h) j1 c p is F1) as [o [_ [A [B [D _]]]]].
  assert (X1 := right_create h c p is b1 _ D B A R1). assert (X2 := right_create h c p is b2 _ D B A R2). congruence.
Qed.
End History.
