(** Proofs for C62: the invariant over histories. *)
From Coq Require Import List ZArith QArith Bool Lia.
From Verif Require Import Base ParamsModel SensModel BudgetModel CombinerModel SelectModel DpModel LateModel LateSpec LateProofs.
Import ListNotations.

(** ** Traces that grow at the end *)
Lemma wrun_snoc : forall h w e, wrun w (h ++ [e]) = fst (wstep (wrun w h) e).
Proof. intros; unfold wrun; now rewrite fold_left_app. Qed.
Lemma trace_app : forall h h' w, trace w (h ++ h') = trace w h ++ trace (wrun w h) h'.
Proof. induction h as [| e h IH]; intros h' w; simpl; [reflexivity | now rewrite IH]. Qed.
Lemma trace_snoc : forall h w e, trace w (h ++ [e]) = trace w h ++ [(e, snd (wstep (wrun w h) e))].
Proof. intros; now rewrite trace_app. Qed.
Lemma trace_length : forall h w, length (trace w h) = length h.
Proof. induction h as [| e h IH]; intros w; simpl; [reflexivity | now rewrite IH]. Qed.

Lemma happened_snoc : forall t x n e o, happened (t ++ [x]) n e o ->
  (n < length t)%nat /\ happened t n e o \/ n = length t /\ x = (e, o).
Proof.
  unfold happened. intros t x n e o H. destruct (Nat.lt_ge_cases n (length t)) as [L | L].
  - left. rewrite nth_error_app1 in H by exact L. now split.
  - right. rewrite nth_error_app2 in H by exact L.
    destruct (n - length t)%nat as [| k] eqn:E; simpl in H; [| destruct k; discriminate].
    split; [lia | congruence].
Qed.
Lemma happened_weaken : forall t x n e o, happened t n e o -> happened (t ++ x) n e o.
Proof.
  unfold happened. intros. rewrite nth_error_app1; [assumption | apply nth_error_Some; congruence].
Qed.
Lemma happened_last : forall t e o, happened (t ++ [(e, o)]) (length t) e o.
Proof. unfold happened; intros. rewrite nth_error_app2 by lia. now rewrite Nat.sub_diag. Qed.
Lemma happened_lt : forall t n e o, happened t n e o -> (n < length t)%nat.
Proof. unfold happened; intros. apply nth_error_Some; congruence. Qed.
Lemma firstn_snoc : forall (A : Type) n (t : list A) x, (n <= length t)%nat -> firstn n (t ++ x) = firstn n t.
Proof. intros A n t x L. rewrite firstn_app. replace (n - length t)%nat with 0%nat by lia. simpl. now rewrite app_nil_r. Qed.

Lemma computed_snoc : forall t x, computed (t ++ [x]) <-> computed t \/ x = (Account Compute, OAcct (Ok OutUnit)).
Proof. intros t x. unfold computed. rewrite in_app_iff. simpl. intuition. Qed.

Lemma params_after_snoc : forall t p e o, params_after p (t ++ [(e, o)]) =
  match e with Edit p' => p' | _ => params_after p t end.
Proof.
  induction t as [| [e' o'] t IH]; intros p e o; simpl.
  - destruct e; reflexivity.
  - destruct e'; apply IH.
Qed.

Lemma comes_from_snoc : forall p0 t x j c p is, comes_from p0 (t ++ [x]) j c p is <->
  comes_from p0 t j c p is \/
  (x = (Construct c is, OObject j) /\ p = params_after p0 t) \/
  (exists j0, x = (Transfer j0, OObject j) /\ comes_from p0 t j0 c p is).
Proof.
  intros p0 t x j c p is. split.
  - intros H. inversion H as [t' n j' c' is' A | t' n j0 j' c' p' is' A B]; subst.
    + destruct (happened_snoc _ _ _ _ _ A) as [[L A'] | [-> ->]].
      * left. rewrite firstn_snoc by lia. now apply constructed.
      * right; left. split; [reflexivity |]. now rewrite firstn_snoc, firstn_all by lia.
    + destruct (happened_snoc _ _ _ _ _ A) as [[L A'] | [-> ->]].
      * left. rewrite firstn_snoc in B by lia. eapply copied; eassumption.
      * right; right. exists j0. split; [reflexivity |]. now rewrite firstn_snoc, firstn_all in B by lia.
  - intros [H | [[-> ->] | [j0 [-> H]]]].
    + inversion H as [t' n j' c' is' A | t' n j0 j' c' p' is' A B]; subst.
      * assert (L := happened_lt _ _ _ _ A).
        rewrite <- (firstn_snoc _ n t [x]) by lia. apply constructed. now apply happened_weaken.
      * assert (L := happened_lt _ _ _ _ A). apply (copied p0 (t ++ [x]) n j0); [now apply happened_weaken |].
        rewrite firstn_snoc by lia. exact B.
    + replace (params_after p0 t) with (params_after p0 (firstn (length t) (t ++ [(Construct c is, OObject j)])))
        by (rewrite firstn_snoc, firstn_all by lia; reflexivity).
      apply constructed. apply happened_last.
    + apply (copied p0 _ (length t) j0); [apply happened_last |].
      rewrite firstn_snoc, firstn_all by lia. exact H.
Qed.

Lemma early_snoc : forall t x j, early_copy (t ++ [x]) j <->
  early_copy t j \/ exists j0, x = (Transfer j0, OObject j) /\ (~ computed t \/ early_copy t j0).
Proof.
  intros t x j. split.
  - intros H. inversion H as [t' n j0 j' A B | t' n j0 j' A B]; subst;
      destruct (happened_snoc _ _ _ _ _ A) as [[L A'] | [-> ->]]; rewrite firstn_snoc in B by lia.
    + left. eapply early_now; eassumption.
    + right. exists j0. rewrite firstn_all in B. split; [reflexivity | now left].
    + left. eapply early_before; eassumption.
    + right. exists j0. rewrite firstn_all in B. split; [reflexivity | now right].
  - intros [H | [j0 [-> H]]].
    + inversion H as [t' n j0 j' A B | t' n j0 j' A B]; subst; assert (L := happened_lt _ _ _ _ A).
      * apply (early_now _ n j0); [now apply happened_weaken |]. now rewrite firstn_snoc by lia.
      * apply (early_before _ n j0); [now apply happened_weaken |]. now rewrite firstn_snoc by lia.
    + destruct H as [H | H].
      * apply (early_now _ (length t) j0); [apply happened_last |]. now rewrite firstn_snoc, firstn_all by lia.
      * apply (early_before _ (length t) j0); [apply happened_last |]. now rewrite firstn_snoc, firstn_all by lia.
Qed.

(** ** The invariant *)
Definition tracks (a : acct) (r : spec_ref) (i : nat) : Prop :=
  exists m', nth_error (mechs a) i = Some m' /\
  match r with Shared i' => i' = i | Own m => same m m' end.

(** A copy without budget of mechanism number i. *)
Definition shadow (a : acct) (m : mech) (i : nat) : Prop :=
  unset m /\ exists m', nth_error (mechs a) i = Some m' /\ m_type m = m_type m'.

Definition object_ok (t : list (event * outcome)) (a : acct) (o : obj) (j : nat) (c : class) (p : params) (is : list nat) : Prop :=
  construct c p = Ok (o_body o) /\ length is = specs_needed c /\
  (forall i, In i is -> (i < length (mechs a))%nat) /\
  ((early_copy t j /\ o_mech o = None /\ exists ms, o_specs o = map Own ms /\ Forall2 (shadow a) ms is) \/
   (~ early_copy t j /\ Forall2 (tracks a) (o_specs o) is /\
    (~ computed t -> o_specs o = map Shared is) /\
    (forall b, o_mech o = Some b -> computed t /\ create_mechanism (o_body o) (specs_at a is) = Ok b))).

Record inv (p0 : params) (t : list (event * outcome)) (w : world) : Prop := {
  i_params : w_params w = params_after p0 t;
  i_budget : computed t /\ after (w_acct w) \/ ~ computed t /\ before (w_acct w);
  i_origin : forall j o, nth_error (w_objs w) j = Some o -> exists c p is, comes_from p0 t j c p is;
  i_object : forall j c p is, comes_from p0 t j c p is ->
             exists o, nth_error (w_objs w) j = Some o /\ object_ok t (w_acct w) o j c p is;
  i_early : forall j, early_copy t j -> (j < length (w_objs w))%nat
}.

Lemma tracks_derefs : forall a l is, Forall2 (tracks a) l is -> Forall2 same (derefs a l) (specs_at a is).
Proof.
  intros a l is F. induction F as [| r i l is T F IH]; [constructor |].
  unfold specs_at in *. simpl. destruct T as [m' [E R]]. rewrite E. destruct r as [i' | m]; simpl.
  - subst i'. rewrite E. constructor; [apply same_refl | exact IH].
  - constructor; [exact R | exact IH].
Qed.
Lemma tracks_shared : forall a is, (forall i, In i is -> (i < length (mechs a))%nat) -> Forall2 (tracks a) (map Shared is) is.
Proof.
  intros a is. induction is as [| i is IH]; intros H; simpl; constructor.
  - destruct (nth_error (mechs a) i) as [m |] eqn:E.
    + exists m. split; auto.
    + apply nth_error_None in E. specialize (H i (or_introl eq_refl)). lia.
  - apply IH. intros k I; apply H; now right.
Qed.
Lemma tracks_kept : forall a a' l is, kept_same (mechs a) (mechs a') -> Forall2 (tracks a) l is -> Forall2 (tracks a') l is.
Proof.
  intros a a' l is K F. induction F as [| r i l is [m' [E R]] F IH]; constructor; auto.
  destruct (K i m' E) as [m'' [E' S']]. exists m''. split; [exact E' |].
  destruct r; [exact R | eapply same_trans; eassumption].
Qed.
Lemma kept_length : forall l l', kept_same l l' -> (length l <= length l')%nat.
Proof.
  intros l l' K. destruct (length l) as [| n] eqn:E; [lia |].
  destruct (nth_error l n) as [m |] eqn:En; [| apply nth_error_None in En; lia].
  destruct (K n m En) as [m' [E' _]]. assert (n < length l')%nat by (apply nth_error_Some; congruence). lia.
Qed.
Lemma specs_at_kept : forall a a' is, kept_same (mechs a) (mechs a') ->
  (forall i, In i is -> (i < length (mechs a))%nat) -> Forall2 same (specs_at a is) (specs_at a' is).
Proof.
  intros a a' is K. induction is as [| i is IH]; intros H; unfold specs_at in *; simpl; [constructor |].
  destruct (nth_error (mechs a) i) as [m |] eqn:E.
  - destruct (K i m E) as [m' [E' S']]. rewrite E'. constructor; [exact S' |]. apply IH. intros k I; apply H; now right.
  - apply nth_error_None in E. specialize (H i (or_introl eq_refl)). lia.
Qed.
Lemma derefs_own : forall a ms, derefs a (map Own ms) = ms.
Proof. intros a ms. induction ms as [| m ms IH]; simpl; [reflexivity | now rewrite IH]. Qed.
Lemma specs_at_before : forall a is, before a -> Forall unset (specs_at a is).
Proof.
  intros a is B. unfold specs_at. induction is as [| i is IH]; simpl; [constructor |].
  destruct (nth_error (mechs a) i) as [m |] eqn:E; [| exact IH].
  constructor; [| exact IH]. apply nth_error_In in E. unfold before in B. rewrite Forall_forall in B. now apply B.
Qed.

Lemma shadow_unset : forall a ms is, Forall2 (shadow a) ms is -> Forall unset ms.
Proof. intros a ms is F. induction F as [| m i ms is [U _] F IH]; constructor; auto. Qed.
Lemma shadow_kept : forall a a' ms is,
  (forall i m, nth_error (mechs a) i = Some m -> exists m', nth_error (mechs a') i = Some m' /\ m_type m = m_type m') ->
  Forall2 (shadow a) ms is -> Forall2 (shadow a') ms is.
Proof.
  intros a a' ms is K F. induction F as [| m i ms is [U [m' [E T]]] F IH]; constructor; auto.
  split; [exact U |]. destruct (K i m' E) as [m'' [E' T']]. exists m''. split; [exact E' | congruence].
Qed.
Lemma shadow_before : forall a is, before a -> (forall i, In i is -> (i < length (mechs a))%nat) ->
  Forall2 (shadow a) (derefs a (map Shared is)) is.
Proof.
  intros a is B. induction is as [| i is IH]; intros H; simpl; [constructor |].
  destruct (nth_error (mechs a) i) as [m |] eqn:E.
  - constructor; [| apply IH; intros k I; apply H; now right]. split; [| exists m; auto].
    apply nth_error_In in E. unfold before in B. rewrite Forall_forall in B. now apply B.
  - apply nth_error_None in E. specialize (H i (or_introl eq_refl)). lia.
Qed.
Lemma kept_types : forall l l', kept_same l l' ->
  forall i m, nth_error l i = Some m -> exists m', nth_error l' i = Some m' /\ m_type m = m_type m'.
Proof. intros l l' K i m E. destruct (K i m E) as [m' [E' [T _]]]. now exists m'. Qed.
Lemma map_types : forall l l', map m_type l' = map m_type l ->
  forall i m, nth_error l i = Some m -> exists m', nth_error l' i = Some m' /\ m_type m = m_type m'.
Proof.
  intros l l' K i m E. assert (M : nth_error (map m_type l') i = Some (m_type m)) by (rewrite K; now apply map_nth_error).
  rewrite nth_error_map in M. destruct (nth_error l' i) as [m' |]; [| discriminate]. simpl in M. exists m'. split; congruence.
Qed.

(** An event that creates no object. *)
Lemma no_object_origin : forall p0 t e oc j c p is, (forall j, oc <> OObject j) ->
  comes_from p0 (t ++ [(e, oc)]) j c p is <-> comes_from p0 t j c p is.
Proof.
  intros p0 t e oc j c p is N. rewrite comes_from_snoc. split; [| now left].
  intros [H | [[X _] | [j0 [X _]]]]; [exact H | |]; inversion X; subst; exfalso; eapply N; reflexivity.
Qed.
Lemma no_object_early : forall t e oc j, (forall j, oc <> OObject j) ->
  early_copy (t ++ [(e, oc)]) j <-> early_copy t j.
Proof.
  intros t e oc j N. rewrite early_snoc. split; [| now left].
  intros [H | [j0 [X _]]]; [exact H |]; inversion X; subst; exfalso; eapply N; reflexivity.
Qed.
Lemma not_compute : forall t e oc, (e <> Account Compute \/ oc <> OAcct (Ok OutUnit)) ->
  computed (t ++ [(e, oc)]) <-> computed t.
Proof.
  intros t e oc N. rewrite computed_snoc. split; [| now left].
  intros [H | H]; [exact H |]. inversion H; subst. destruct N; congruence.
Qed.

Lemma object_ok_same : forall t x a o j c p is,
  (early_copy (t ++ [x]) j <-> early_copy t j) -> (computed (t ++ [x]) <-> computed t) ->
  object_ok t a o j c p is -> object_ok (t ++ [x]) a o j c p is.
Proof.
  intros t x a o j c p is E C [A [B [D H]]]. split; [exact A |]. split; [exact B |]. split; [exact D |].
  destruct H as [[H1 H2] | [H1 [H2 [H3 H4]]]].
  - left. split; [now apply E | exact H2].
  - right. split; [now rewrite E |]. split; [exact H2 |]. split.
    + intros N; apply H3. now rewrite <- C.
    + intros b Hb. destruct (H4 b Hb). split; [now apply C | assumption].
Qed.

Lemma set_nth_length : forall (A : Type) n (x : A) l, length (set_nth n x l) = length l.
Proof. intros A n x l; revert n; induction l as [| y l IH]; intros [| n]; simpl; auto. Qed.
Lemma set_nth_same : forall (A : Type) n (x : A) l, (n < length l)%nat -> nth_error (set_nth n x l) n = Some x.
Proof. intros A n x l; revert n; induction l as [| y l IH]; intros [| n] H; simpl in *; try lia; auto. apply IH; lia. Qed.
Lemma set_nth_other : forall (A : Type) n m (x : A) l, m <> n -> nth_error (set_nth n x l) m = nth_error l m.
Proof.
  intros A n m x l; revert n m; induction l as [| y l IH]; intros [| n] [| m] H; simpl; try reflexivity; try congruence.
  apply IH; congruence.
Qed.

(** What get_mechanism does to a good object. *)
Lemma get_mechanism_ok : forall t a o j c p is,
  (computed t /\ after a \/ ~ computed t /\ before a) -> object_ok t a o j c p is ->
  object_ok t a (fst (get_mechanism a o)) j c p is /\
  (forall cr b, snd (get_mechanism a o) = (cr, Ok b) ->
     ~ early_copy t j /\ computed t /\ create_mechanism (o_body o) (specs_at a is) = Ok b) /\
  (~ early_copy t j -> computed t -> snd (snd (get_mechanism a o)) = create_mechanism (o_body o) (specs_at a is)).
Proof.
  intros t a o j c p is AB OK. assert (OK' := OK). destruct OK as [A [B [D H]]].
  unfold get_mechanism. destruct H as [[H1 [H2 [ms [H3 H4]]]] | [H1 [H2 [H3 H4]]]].
  - rewrite H2, H3, derefs_own. destruct (create_unset (o_body o) ms (shadow_unset _ _ _ H4)) as [e ->]. simpl.
    split; [exact OK' |]. split; [intros cr b E; inversion E |]. intros N; contradiction.
  - destruct (o_mech o) as [b |] eqn:Eb.
    + simpl. destruct (H4 b eq_refl) as [C1 C2]. split; [exact OK' |]. split.
      * intros cr b' E; inversion E; subst. auto.
      * intros _ _. now rewrite C2.
    + assert (CS : create_mechanism (o_body o) (derefs a (o_specs o)) = create_mechanism (o_body o) (specs_at a is))
        by (apply create_same; now apply tracks_derefs).
      rewrite CS. destruct (create_mechanism (o_body o) (specs_at a is)) as [b | e] eqn:E; simpl.
      * assert (CT : computed t).
        { destruct AB as [[C _] | [_ Bf]]; [exact C |]. destruct (create_unset (o_body o) _ (specs_at_before a is Bf)) as [e E']. congruence. }
        split; [| split; [intros cr b' X; inversion X; subst; auto | reflexivity]].
        assert (OKn : object_ok t a (Obj (o_body o) (o_specs o) (Some b)) j c p is).
        { split; [exact A |]. split; [exact B |]. split; [exact D |]. right. split; [exact H1 |]. split; [exact H2 |].
          split; [exact H3 |]. simpl. intros b' X; inversion X; subst. auto. }
        destruct (o_body o); auto.
      * split; [exact OK' |]. split; [intros cr b' X; inversion X | reflexivity].
Qed.

Theorem inv_step : forall p0 t w e, inv p0 t w -> inv p0 (t ++ [(e, snd (wstep w e))]) (fst (wstep w e)).
Proof.
  intros p0 t w e [IP IB IO IOb IE].
  destruct e as [o | p' | c is | j | j].
  - (* accountant *)
    assert (NO : forall j, OAcct (snd (step (w_acct w) o)) <> OObject j) by discriminate.
    simpl. set (x := (Account o, OAcct (snd (step (w_acct w) o)))).
    assert (Small : computed t /\ after (w_acct w) \/ ~ computed t /\ before (w_acct w) /\ (o <> Compute \/ snd (step (w_acct w) o) <> Ok OutUnit) \/
                    ~ computed t /\ before (w_acct w) /\ o = Compute /\ snd (step (w_acct w) o) = Ok OutUnit).
    { destruct IB as [H | [C Bf]]; [now left |]. right.
      destruct o; try (left; split; [exact C | split; [exact Bf | left; discriminate]]).
      destruct (snd (step (w_acct w) Compute)) as [[| i | b] | ex] eqn:E; [right; auto | left | left | left];
        (split; [exact C | split; [exact Bf | right; discriminate]]). }
    assert (Bud : (computed (t ++ [x]) /\ after (fst (step (w_acct w) o)) \/ ~ computed (t ++ [x]) /\ before (fst (step (w_acct w) o))) /\
       ((computed (t ++ [x]) <-> computed t) /\ kept_same (mechs (w_acct w)) (mechs (fst (step (w_acct w) o))) \/
        ~ computed t /\ computed (t ++ [x]) /\ before (w_acct w) /\ length (mechs (fst (step (w_acct w) o))) = length (mechs (w_acct w)) /\
        map m_type (mechs (fst (step (w_acct w) o))) = map m_type (mechs (w_acct w)))).
    { destruct Small as [[C Af] | [[C [Bf N]] | [C [Bf [-> N]]]]].
      - destruct (step_after (w_acct w) o Af) as [Af' [K L]]. split.
        + left. split; [apply computed_snoc; now left | exact Af'].
        + left. split; [| exact K]. split; [intros _; exact C | intros _; apply computed_snoc; now left].
      - destruct (step_before (w_acct w) o Bf N) as [Bf' K].
        assert (CC : computed (t ++ [x]) <-> computed t).
        { apply not_compute. destruct N as [N | N]; [left; congruence | right; congruence]. }
        split; [right; split; [now rewrite CC | exact Bf'] | left; split; [exact CC | exact K]].
      - destruct (compute_ok (w_acct w) Bf N) as [Af [L TY]].
        assert (C' : computed (t ++ [x])) by (apply computed_snoc; right; unfold x; now rewrite N).
        split; [left; split; [exact C' | exact Af] | right; auto]. }
    destruct Bud as [Bud Keep].
    constructor; simpl.
    + unfold x. rewrite params_after_snoc. exact IP.
    + exact Bud.
    + intros j ob Hj. destruct (IO j ob Hj) as [c [p [is H]]]. exists c, p, is. apply comes_from_snoc. now left.
    + intros j c p is H. unfold x in H. rewrite no_object_origin in H by exact NO.
      destruct (IOb j c p is H) as [ob [Hj [A [B [D OK]]]]]. exists ob. split; [exact Hj |].
      assert (EE : early_copy (t ++ [x]) j <-> early_copy t j) by (unfold x; now apply no_object_early).
      split; [exact A |]. split; [exact B |].
      destruct Keep as [[CC K] | [C [C' [Bf [L TY]]]]].
      * split. { intros i I. specialize (D i I). apply kept_length in K. lia. }
        destruct OK as [[E1 [E2 [ms [E2' E2'']]]] | [E1 [E2 [E3 E4]]]];
          [left; split; [now apply EE | split; [exact E2 | exists ms; split; [exact E2' | apply (shadow_kept (w_acct w)); [now apply kept_types | exact E2'']]]] |].
        right. split; [now rewrite EE |]. split; [eapply tracks_kept; eassumption |].
        split; [intros N; apply E3; now rewrite <- CC |].
        intros b Eb. destruct (E4 b Eb) as [F1 F2]. split; [now apply CC |].
        rewrite <- F2. symmetry. apply create_same. now apply specs_at_kept.
      * split. { intros i I. specialize (D i I). lia. }
        destruct OK as [[E1 [E2 [ms [E2' E2'']]]] | [E1 [E2 [E3 E4]]]];
          [left; split; [now apply EE | split; [exact E2 | exists ms; split; [exact E2' | apply (shadow_kept (w_acct w)); [now apply map_types | exact E2'']]]] |].
        right. split; [now rewrite EE |]. split.
        { rewrite (E3 C). apply tracks_shared. intros i I. specialize (D i I). lia. }
        split; [intros N; contradiction |].
        intros b Eb. destruct (E4 b Eb) as [F1 _]. contradiction.
    + intros j H. unfold x in H. rewrite no_object_early in H by exact NO. now apply IE.
  - (* Edit *)
    simpl. assert (NO : forall j, ODone <> OObject j) by discriminate.
    assert (CC : computed (t ++ [(Edit p', ODone)]) <-> computed t) by (apply not_compute; left; discriminate).
    constructor; simpl.
    + now rewrite params_after_snoc.
    + destruct IB as [[C Af] | [C Bf]]; [left | right]; (split; [now rewrite CC | assumption]).
    + intros j ob Hj. destruct (IO j ob Hj) as [c [p [is H]]]. exists c, p, is. apply comes_from_snoc. now left.
    + intros j c p is H. rewrite no_object_origin in H by exact NO.
      destruct (IOb j c p is H) as [ob [Hj OK]]. exists ob. split; [exact Hj |].
      apply object_ok_same; auto. now apply no_object_early.
    + intros j H. rewrite no_object_early in H by exact NO. now apply IE.
  - (* Construct *)
    simpl. destruct (forallb _ is && _) eqn:Ebe.
    2:{ assert (NO : forall j, OFailed TypeError <> OObject j) by discriminate.
        assert (CC : computed (t ++ [(Construct c is, OFailed TypeError)]) <-> computed t) by (apply not_compute; left; discriminate).
        constructor; simpl.
        - now rewrite params_after_snoc.
        - destruct IB as [[C Af] | [C Bf]]; [left | right]; (split; [now rewrite CC | assumption]).
        - intros j ob Hj. destruct (IO j ob Hj) as [c' [p [is' H]]]. exists c', p, is'. apply comes_from_snoc. now left.
        - intros j c' p is' H. rewrite no_object_origin in H by exact NO.
          destruct (IOb j c' p is' H) as [ob [Hj OK]]. exists ob. split; [exact Hj |].
          apply object_ok_same; auto. now apply no_object_early.
        - intros j H. rewrite no_object_early in H by exact NO. now apply IE. }
    apply andb_prop in Ebe. destruct Ebe as [LT LEN]. apply Nat.eqb_eq in LEN. rewrite forallb_forall in LT.
    destruct (construct c (w_params w)) as [b | ex] eqn:EC.
    2:{ assert (NO : forall j, OFailed ex <> OObject j) by discriminate.
        assert (CC : computed (t ++ [(Construct c is, OFailed ex)]) <-> computed t) by (apply not_compute; left; discriminate).
        constructor; simpl.
        - now rewrite params_after_snoc.
        - destruct IB as [[C Af] | [C Bf]]; [left | right]; (split; [now rewrite CC | assumption]).
        - intros j ob Hj. destruct (IO j ob Hj) as [c' [p [is' H]]]. exists c', p, is'. apply comes_from_snoc. now left.
        - intros j c' p is' H. rewrite no_object_origin in H by exact NO.
          destruct (IOb j c' p is' H) as [ob [Hj OK]]. exists ob. split; [exact Hj |].
          apply object_ok_same; auto. now apply no_object_early.
        - intros j H. rewrite no_object_early in H by exact NO. now apply IE. }
    simpl. set (x := (Construct c is, OObject (length (w_objs w)))).
    assert (CC : computed (t ++ [x]) <-> computed t) by (apply not_compute; left; discriminate).
    assert (EE : forall j, early_copy (t ++ [x]) j <-> early_copy t j).
    { intros j. rewrite early_snoc. split; [| now left]. intros [H | [j0 [X _]]]; [exact H | discriminate]. }
    constructor; simpl.
    + unfold x. now rewrite params_after_snoc.
    + destruct IB as [[C Af] | [C Bf]]; [left | right]; (split; [now rewrite CC | assumption]).
    + intros j ob Hj. destruct (Nat.lt_ge_cases j (length (w_objs w))) as [L | L].
      * rewrite nth_error_app1 in Hj by exact L. destruct (IO j ob Hj) as [c' [p [is' H]]].
        exists c', p, is'. apply comes_from_snoc. now left.
      * rewrite nth_error_app2 in Hj by exact L.
        assert (j = length (w_objs w)).
        { destruct (j - length (w_objs w))%nat as [| k] eqn:Ek; [lia | destruct k; discriminate]. } subst j.
        exists c, (params_after p0 t), is. apply comes_from_snoc. right; left. split; reflexivity.
    + intros j c' p is' H. apply comes_from_snoc in H. destruct H as [H | [[X Hp] | [j0 [X _]]]]; [| | discriminate].
      * destruct (IOb j c' p is' H) as [ob [Hj OK]]. exists ob. split.
        { rewrite nth_error_app1; [exact Hj | apply nth_error_Some; congruence]. }
        apply object_ok_same; auto.
      * inversion X; subst c' is' j. exists (Obj b (map Shared is) None). split.
        { rewrite nth_error_app2 by lia. now rewrite Nat.sub_diag. }
        assert (LT' : forall i, In i is -> (i < length (mechs (w_acct w)))%nat) by (intros i I; apply Nat.ltb_lt; now apply LT).
        split; [simpl; rewrite Hp, <- IP; exact EC |]. split; [exact LEN |]. split; [exact LT' |].
        right. split. { rewrite EE. intros E. apply IE in E. lia. }
        split; [simpl; now apply tracks_shared |]. split; [reflexivity |]. simpl; discriminate.
    + intros j H. apply EE in H. apply IE in H. rewrite app_length. lia.
  - (* Transfer *)
    simpl. destruct (nth_error (w_objs w) j) as [ob |] eqn:Ej.
    2:{ assert (NO : forall j, OFailed TypeError <> OObject j) by discriminate.
        assert (CC : computed (t ++ [(Transfer j, OFailed TypeError)]) <-> computed t) by (apply not_compute; left; discriminate).
        constructor; simpl.
        - now rewrite params_after_snoc.
        - destruct IB as [[C Af] | [C Bf]]; [left | right]; (split; [now rewrite CC | assumption]).
        - intros j' ob Hj. destruct (IO j' ob Hj) as [c' [p [is' H]]]. exists c', p, is'. apply comes_from_snoc. now left.
        - intros j' c' p is' H. rewrite no_object_origin in H by exact NO.
          destruct (IOb j' c' p is' H) as [ob [Hj OK]]. exists ob. split; [exact Hj |].
          apply object_ok_same; auto. now apply no_object_early.
        - intros j' H. rewrite no_object_early in H by exact NO. now apply IE. }
    simpl. set (x := (Transfer j, OObject (length (w_objs w)))).
    assert (CC : computed (t ++ [x]) <-> computed t) by (apply not_compute; left; discriminate).
    assert (EO : forall j', (j' < length (w_objs w))%nat -> early_copy (t ++ [x]) j' <-> early_copy t j').
    { intros j' L. rewrite early_snoc. split; [| now left]. intros [H | [j0 [X _]]]; [exact H |]. inversion X; subst. lia. }
    assert (EN : early_copy (t ++ [x]) (length (w_objs w)) <-> ~ computed t \/ early_copy t j).
    { rewrite early_snoc. split.
      - intros [H | [j0 [X H]]]; [apply IE in H; lia |]. inversion X; subst. exact H.
      - intros H. right. exists j. split; [reflexivity | exact H]. }
    constructor; simpl.
    + unfold x. now rewrite params_after_snoc.
    + destruct IB as [[C Af] | [C Bf]]; [left | right]; (split; [now rewrite CC | assumption]).
    + intros j' ob' Hj. destruct (Nat.lt_ge_cases j' (length (w_objs w))) as [L | L].
      * rewrite nth_error_app1 in Hj by exact L. destruct (IO j' ob' Hj) as [c' [p [is' H]]].
        exists c', p, is'. apply comes_from_snoc. now left.
      * rewrite nth_error_app2 in Hj by exact L.
        assert (j' = length (w_objs w)).
        { destruct (j' - length (w_objs w))%nat as [| k] eqn:Ek; [lia | destruct k; discriminate]. } subst j'.
        destruct (IO j ob Ej) as [c [p [is H]]]. exists c, p, is. apply comes_from_snoc. right; right.
        exists j. split; [reflexivity | exact H].
    + intros j' c' p is' H. apply comes_from_snoc in H. destruct H as [H | [[X Hp] | [j0 [X H]]]]; [| discriminate |].
      * destruct (IOb j' c' p is' H) as [ob' [Hj OK]]. exists ob'.
        assert (L : (j' < length (w_objs w))%nat) by (apply nth_error_Some; congruence).
        split; [rewrite nth_error_app1; [exact Hj | exact L] |].
        apply object_ok_same; auto.
      * inversion X; subst j0 j'. destruct (IOb j c' p is' H) as [ob' [Hj [A [B [D OK]]]]].
        rewrite Ej in Hj; inversion Hj; subst ob'. exists (transfer (w_acct w) ob). split.
        { rewrite nth_error_app2 by lia. now rewrite Nat.sub_diag. }
        split; [exact A |]. split; [exact B |]. split; [exact D |].
        destruct OK as [[E1 [E2 [ms [E3 E4]]]] | [E1 [E2 [E3 E4]]]].
        { left. split; [apply EN; now right |]. split; [reflexivity |]. exists ms. split; [| exact E4].
          simpl. now rewrite E3, derefs_own. }
        destruct IB as [[C Af] | [C Bf]].
        { right. split. { rewrite EN. intros [N | N]; contradiction. }
          split; [| split; [rewrite CC; contradiction | simpl; discriminate]].
          simpl. clear -E2. induction E2 as [| r i l is [m' [E R]] F IH]; simpl; [constructor |].
          destruct r as [i' | m]; simpl.
          - subst i'. rewrite E. simpl. constructor; [| exact IH]. exists m'. split; [exact E | apply same_refl].
          - constructor; [| exact IH]. exists m'. split; [exact E | exact R]. }
        { left. split; [apply EN; now left |]. split; [reflexivity |].
          exists (derefs (w_acct w) (o_specs ob)). split; [reflexivity |]. rewrite (E3 C).
          now apply shadow_before. }
    + intros j' H. rewrite app_length. simpl. apply early_snoc in H. destruct H as [H | [j0 [X _]]].
      * apply IE in H. lia.
      * inversion X; subst. lia.
  - (* GetMechanism *)
    simpl. destruct (nth_error (w_objs w) j) as [ob |] eqn:Ej.
    + set (oc := OMech (fst (snd (get_mechanism (w_acct w) ob))) (snd (snd (get_mechanism (w_acct w) ob)))).
      assert (NO : forall j, oc <> OObject j) by (intros; discriminate).
      assert (CC : computed (t ++ [(GetMechanism j, oc)]) <-> computed t) by (apply not_compute; left; discriminate).
      assert (LJ : (j < length (w_objs w))%nat) by (apply nth_error_Some; congruence).
      constructor; simpl.
      * now rewrite params_after_snoc.
      * destruct IB as [[C Af] | [C Bf]]; [left | right]; (split; [now rewrite CC | assumption]).
      * intros j' ob' Hj.
        assert (L : (j' < length (w_objs w))%nat).
        { rewrite <- (set_nth_length _ j (fst (get_mechanism (w_acct w) ob))). apply nth_error_Some; congruence. }
        destruct (nth_error (w_objs w) j') as [o0 |] eqn:E0; [| apply nth_error_None in E0; lia].
        destruct (IO j' o0 E0) as [c' [p [is' H]]]. exists c', p, is'. apply comes_from_snoc. now left.
      * intros j' c' p is' H. rewrite no_object_origin in H by exact NO.
        destruct (IOb j' c' p is' H) as [ob' [Hj OK]].
        destruct (Nat.eq_dec j' j) as [-> | NE].
        -- rewrite Ej in Hj; inversion Hj; subst ob'. exists (fst (get_mechanism (w_acct w) ob)).
           split; [now apply set_nth_same |].
           apply object_ok_same; [now apply no_object_early | exact CC |].
           now apply (get_mechanism_ok t (w_acct w) ob j c' p is' IB OK).
        -- exists ob'. split; [now rewrite set_nth_other |].
           apply object_ok_same; auto. now apply no_object_early.
      * intros j' H. rewrite no_object_early in H by exact NO. rewrite set_nth_length. now apply IE.
    + assert (NO : forall j, OFailed TypeError <> OObject j) by discriminate.
      assert (CC : computed (t ++ [(GetMechanism j, OFailed TypeError)]) <-> computed t) by (apply not_compute; left; discriminate).
      constructor; simpl.
      * now rewrite params_after_snoc.
      * destruct IB as [[C Af] | [C Bf]]; [left | right]; (split; [now rewrite CC | assumption]).
      * intros j' ob Hj. destruct (IO j' ob Hj) as [c' [p [is' H]]]. exists c', p, is'. apply comes_from_snoc. now left.
      * intros j' c' p is' H. rewrite no_object_origin in H by exact NO.
        destruct (IOb j' c' p is' H) as [ob [Hj OK]]. exists ob. split; [exact Hj |].
        apply object_ok_same; auto. now apply no_object_early.
      * intros j' H. rewrite no_object_early in H by exact NO. now apply IE.
Qed.
