(** Lemmas for C65: what iterators yield. *)
From Coq Require Import List Bool PeanoNat Lia Eqdep_dec.
From Verif Require Import Base BackendModel LazyModel.
Import ListNotations.

Section Lazy.
Context {ty : Type} `{EqDec ty} (interp : ty -> Type).
Notation gen := (gen interp).
Notation heap := (heap interp).
Notation lookup := (lookup interp).
Notation store := (store interp).
Notation next := (next interp).
Notation drain := (drain interp).
Notation contains := (contains interp).
Notation obj := {t : ty & gen t}.
Implicit Types h : heap.

Lemma lookup_iff h a t (g : gen t) : lookup h a t = Some g <-> nth_error h a = Some (existT _ t g).
Proof.
  unfold LazyModel.lookup. split.
  - destruct (nth_error h a) as [[t' g']|]; [|discriminate]. destruct (eq_dec t' t) as [e|]; [|discriminate].
    destruct e. cbn. intro E. injection E as ->. reflexivity.
  - intros ->. destruct (eq_dec t t) as [e|n]; [|congruence]. rewrite (UIP_dec eq_dec e eq_refl). reflexivity.
Qed.
Lemma lookup_lt h a t (g : gen t) : lookup h a t = Some g -> a < length h.
Proof. intro E. apply lookup_iff in E. apply nth_error_Some. congruence. Qed.

Lemma store_length h a o : length (store h a o) = length h.
Proof. revert a. induction h as [|x h IH]; intros [|a]; cbn; auto. Qed.
Lemma store_same h a o : a < length h -> nth_error (store h a o) a = Some o.
Proof. revert a. induction h as [|x h IH]; intros [|a] L; cbn in *; try lia; auto. apply IH. lia. Qed.
Lemma store_other h a b o : a <> b -> nth_error (store h a o) b = nth_error h b.
Proof. revert a b. induction h as [|x h IH]; intros [|a] [|b] N; cbn; auto; try congruence. Qed.

Definition is_list_at h b := exists t l, nth_error h b = Some (existT _ t (LList t l)).
(** The memory changes only at iterators in [F]. *)
Definition evolves (F : list nat) h h' : Prop :=
  length h' = length h /\ (forall b, ~ In b F -> nth_error h' b = nth_error h b) /\
  (forall b, is_list_at h b -> nth_error h' b = nth_error h b).
Lemma evolves_refl F h : evolves F h h.
Proof. repeat split; auto. Qed.
Lemma evolves_trans F h1 h2 h3 : evolves F h1 h2 -> evolves F h2 h3 -> evolves F h1 h3.
Proof.
  intros (A & B & C) (A' & B' & C'). split; [congruence|]. split.
  - intros b N. rewrite B' by exact N. apply B. exact N.
  - intros b L. rewrite <- (C b L). apply C'. destruct L as (t & l & L). exists t, l. rewrite C; [exact L|]. exists t, l. exact L.
Qed.
Lemma evolves_mono F G h h' : incl F G -> evolves F h h' -> evolves G h h'.
Proof. intros I (A & B & C). split; [exact A|]. split; [|exact C]. intros b N. apply B. intro X. apply N. apply I. exact X. Qed.
Lemma store_evolves h a t (g : gen t) o : lookup h a t = Some g -> as_list interp g = None -> evolves [a] h (store h a o).
Proof.
  intros L N. split; [apply store_length|]. split.
  - intros b Nb. apply store_other. intro X. apply Nb. left. exact X.
  - intros b (t' & l & E). apply store_other. intros ->. apply lookup_iff in L. rewrite L in E.
    injection E as E1 E2. subst t'. apply inj_pair2_eq_dec in E2; [|exact eq_dec]. subst g. discriminate.
Qed.

(** [den h F a t l]: the iterator at [a] will yield the elements [l], and uses the
    iterators [F] only. *)
Inductive den h : list nat -> nat -> forall t, list (interp t) -> Prop :=
| den_items a t l : lookup h a t = Some (GItems t l) -> den h [a] a t l
| den_map F a s t f src l : lookup h a t = Some (GMap s t f src) -> ~ In a F -> den h F src s l -> den h (a :: F) a t (map f l)
| den_flat F a s t f src buf l : lookup h a t = Some (GFlat s t f src buf) -> ~ In a F -> den h F src s l ->
    den h (a :: F) a t (buf ++ flat_map f l)
| den_filter F a t p src l : lookup h a t = Some (GFilter t p src) -> ~ In a F -> den h F src t l -> den h (a :: F) a t (filter p l)
| den_in F a t k dec key src keys ks l : lookup h a t = Some (GIn t k dec key src keys) -> ~ In a F -> den h F src t l ->
    lookup h keys k = Some (LList k ks) -> den h (a :: F) a t (filter (fun x => @mem _ dec (key x) ks) l)
| den_later F a s t d src l : lookup h a t = Some (GLater s t d src) -> ~ In a F -> den h F src s l -> den h (a :: F) a t (d l)
| den_chain F a t srcs l : lookup h a t = Some (GChain t srcs) -> ~ In a F -> dens h F srcs t l -> den h (a :: F) a t l
with dens h : list nat -> list nat -> forall t, list (interp t) -> Prop :=
| dens_nil t : dens h [] [] t []
| dens_cons F G s ss t l m : den h F s t l -> dens h G ss t m -> (forall b, In b F -> ~ In b G) -> dens h (F ++ G) (s :: ss) t (l ++ m).

Scheme den_mut := Induction for den Sort Prop with dens_mut := Induction for dens Sort Prop.
Combined Scheme den_both from den_mut, dens_mut.

Lemma den_in_footprint h F a t l : den h F a t l -> In a F.
Proof. destruct 1; left; reflexivity. Qed.
Lemma den_lookup h F a t l : den h F a t l -> exists g, lookup h a t = Some g /\ as_list interp g = None.
Proof. destruct 1; eexists; (split; [eassumption | reflexivity]). Qed.

(** What yields [l] still does when its iterators and the lists are unchanged. *)
Lemma lookup_same h h' a t (g : gen t) : nth_error h' a = nth_error h a -> lookup h a t = Some g -> lookup h' a t = Some g.
Proof. intros E. rewrite !lookup_iff. congruence. Qed.
Lemma den_frame_both h :
  (forall F a t l (D : den h F a t l), forall h', (forall b, In b F -> nth_error h' b = nth_error h b) ->
     (forall b, is_list_at h b -> nth_error h' b = nth_error h b) -> den h' F a t l) /\
  (forall F srcs t l (D : dens h F srcs t l), forall h', (forall b, In b F -> nth_error h' b = nth_error h b) ->
     (forall b, is_list_at h b -> nth_error h' b = nth_error h b) -> dens h' F srcs t l).
Proof.
  apply (den_both h (fun F a t l _ => forall h', (forall b, In b F -> nth_error h' b = nth_error h b) ->
     (forall b, is_list_at h b -> nth_error h' b = nth_error h b) -> den h' F a t l)
    (fun F srcs t l _ => forall h', (forall b, In b F -> nth_error h' b = nth_error h b) ->
     (forall b, is_list_at h b -> nth_error h' b = nth_error h b) -> dens h' F srcs t l)); intros.
  - apply den_items. eapply lookup_same; [|eassumption]. apply H0. left. reflexivity.
  - eapply den_map; [eapply lookup_same; [|eassumption]; apply H1; left; reflexivity | assumption|]. apply H0; [intros; apply H1; right; assumption | assumption].
  - eapply den_flat; [eapply lookup_same; [|eassumption]; apply H1; left; reflexivity | assumption|]. apply H0; [intros; apply H1; right; assumption | assumption].
  - eapply den_filter; [eapply lookup_same; [|eassumption]; apply H1; left; reflexivity | assumption|]. apply H0; [intros; apply H1; right; assumption | assumption].
  - eapply den_in; [eapply lookup_same; [|eassumption]; apply H1; left; reflexivity | assumption | |].
    + apply H0; [intros; apply H1; right; assumption | assumption].
    + eapply lookup_same; [|eassumption]. apply H2. exists k, ks. apply lookup_iff. assumption.
  - eapply den_later; [eapply lookup_same; [|eassumption]; apply H1; left; reflexivity | assumption|]. apply H0; [intros; apply H1; right; assumption | assumption].
  - eapply den_chain; [eapply lookup_same; [|eassumption]; apply H1; left; reflexivity | assumption|]. apply H0; [intros; apply H1; right; assumption | assumption].
  - apply dens_nil.
  - apply dens_cons; [apply H0 | apply H1 | assumption]; auto; intros; apply H2; apply in_or_app; auto.
Qed.
Lemma den_frame h F G a t l h' : den h F a t l -> evolves G h h' -> (forall b, In b F -> ~ In b G) -> den h' F a t l.
Proof.
  intros D (A & B & C) N. apply (proj1 (den_frame_both h) F a t l D); auto.
Qed.
Lemma dens_frame h F G srcs t l h' : dens h F srcs t l -> evolves G h h' -> (forall b, In b F -> ~ In b G) -> dens h' F srcs t l.
Proof.
  intros D (A & B & C) N. apply (proj2 (den_frame_both h) F srcs t l D); auto.
Qed.
Lemma lookup_frame h G a t (g : gen t) h' : lookup h a t = Some g -> evolves G h h' -> ~ In a G -> lookup h' a t = Some g.
Proof. intros L (A & B & C) N. eapply lookup_same; [|exact L]. apply B. exact N. Qed.
Lemma list_frame h G a t l h' : lookup h a t = Some (LList t l) -> evolves G h h' -> lookup h' a t = Some (LList t l).
Proof. intros L (A & B & C). eapply lookup_same; [|exact L]. apply C. exists t, l. apply lookup_iff. exact L. Qed.

(** *** One step *)
Definition steps N := forall F h a t l, length F <= N -> den h F a t l ->
  exists n h' F', (forall m, n <= m -> next m h a t = Some (hd_error l, h')) /\ den h' F' a t (tl l) /\
    incl F' F /\ length F' <= length F /\ evolves F h h'.

Lemma steps_drain N : steps N -> forall F h a t l, length F <= N -> den h F a t l ->
  exists n h' F', (forall m, n <= m -> drain m h a t = Some (l, h')) /\ den h' F' a t [] /\
    incl F' F /\ length F' <= length F /\ evolves F h h'.
Proof.
  intros St F h a t l. revert F h. induction l as [|x l IH]; intros F h Lf D.
  - destruct (St F h a t _ Lf D) as (n & h' & F' & E & D' & I & L' & Ev). exists (S n), h', F'.
    split; [|auto]. intros [|m] Lm; [lia|]. cbn [LazyModel.drain]. rewrite E by lia. reflexivity.
  - destruct (St F h a t _ Lf D) as (n & h1 & F1 & E & D1 & I1 & L1 & Ev1). cbn [tl hd_error] in *.
    destruct (IH F1 h1 ltac:(lia) D1) as (n2 & h2 & F2 & E2 & D2 & I2 & L2 & Ev2).
    exists (S (n + n2)), h2, F2. split; [|split; [exact D2|]].
    + intros [|m] Lm; [lia|]. cbn [LazyModel.drain]. rewrite E by lia. rewrite E2 by lia. reflexivity.
    + split; [eapply incl_tran; eassumption|]. split; [lia|]. eapply evolves_trans; [exact Ev1|]. eapply evolves_mono; eassumption.
Qed.

Lemma incl_cons_keep (a : nat) F F' : incl F' F -> incl (a :: F') (a :: F).
Proof. intros I b [->|B]; [left; reflexivity | right; apply I; exact B]. Qed.
Lemma not_in_incl (a : nat) F F' : incl F' F -> ~ In a F -> ~ In a F'.
Proof. intros I N X. apply N. apply I. exact X. Qed.

Lemma filter_step N t (p : interp t -> bool) : steps N -> forall l F h a src, length F <= N -> lookup h a t = Some (GFilter t p src) -> ~ In a F ->
  den h F src t l ->
  exists n h' F', (forall m, n <= m -> next m h a t = Some (hd_error (filter p l), h')) /\ den h' F' a t (tl (filter p l)) /\
    incl F' (a :: F) /\ length F' <= length (a :: F) /\ evolves (a :: F) h h'.
Proof.
  intros St. induction l as [|x l IH]; intros F h a src Lf La Na D.
  - destruct (St F h src t _ Lf D) as (n & h1 & F1 & E & D1 & I1 & L1 & Ev1).
    exists (S n), h1, (a :: F1). split; [|split; [|split; [apply incl_cons_keep; exact I1|split; [cbn; lia|eapply evolves_mono; [|exact Ev1]; apply incl_tl, incl_refl]]]].
    + intros [|m] Lm; [lia|]. cbn [LazyModel.next]. rewrite La. rewrite E by lia. reflexivity.
    + change (tl (filter p [])) with (filter p (tl (@nil (interp t)))). eapply den_filter; [eapply lookup_frame; eassumption | eapply not_in_incl; eassumption | exact D1].
  - destruct (St F h src t _ Lf D) as (n & h1 & F1 & E & D1 & I1 & L1 & Ev1). cbn [hd_error tl] in *.
    assert (La1 : lookup h1 a t = Some (GFilter t p src)) by (eapply lookup_frame; eassumption).
    assert (Na1 : ~ In a F1) by (eapply not_in_incl; eassumption).
    assert (Ev1' : evolves (a :: F) h h1) by (eapply evolves_mono; [|exact Ev1]; apply incl_tl, incl_refl).
    cbn [filter]. destruct (p x) eqn:Px.
    + exists (S n), h1, (a :: F1). split; [|split; [|split; [apply incl_cons_keep; exact I1|split; [cbn; lia | exact Ev1']]]].
      * intros [|m] Lm; [lia|]. cbn [LazyModel.next]. rewrite La. rewrite E by lia. rewrite Px. reflexivity.
      * cbn [tl]. eapply den_filter; eassumption.
    + destruct (IH F1 h1 a src ltac:(lia) La1 Na1 D1) as (n2 & h2 & F2 & E2 & D2 & I2 & L2 & Ev2).
      exists (S (n + n2)), h2, F2. split; [|split; [exact D2|split; [eapply incl_tran; [exact I2 | apply incl_cons_keep; exact I1]|split; [cbn in *; lia|]]]].
      * intros [|m] Lm; [lia|]. cbn [LazyModel.next]. rewrite La. rewrite E by lia. rewrite Px. apply E2. lia.
      * eapply evolves_trans; [exact Ev1'|]. eapply evolves_mono; [|exact Ev2]. apply incl_cons_keep. exact I1.
Qed.

Lemma in_step N t k dec (key : interp t -> interp k) keys ks : steps N -> forall l F h a src, length F <= N ->
  lookup h a t = Some (GIn t k dec key src keys) -> ~ In a F -> lookup h keys k = Some (LList k ks) ->
  den h F src t l ->
  let p := fun x => @mem _ dec (key x) ks in
  exists n h' F', (forall m, n <= m -> next m h a t = Some (hd_error (filter p l), h')) /\ den h' F' a t (tl (filter p l)) /\
    incl F' (a :: F) /\ length F' <= length (a :: F) /\ evolves (a :: F) h h'.
Proof.
  intros St. induction l as [|x l IH]; intros F h a src Lf La Na Lk D p.
  - destruct (St F h src t _ Lf D) as (n & h1 & F1 & E & D1 & I1 & L1 & Ev1).
    exists (S n), h1, (a :: F1). split; [|split; [|split; [apply incl_cons_keep; exact I1|split; [cbn; lia|eapply evolves_mono; [|exact Ev1]; apply incl_tl, incl_refl]]]].
    + intros [|m] Lm; [lia|]. cbn [LazyModel.next]. rewrite La. rewrite E by lia. reflexivity.
    + change (tl (filter p [])) with (filter p (tl (@nil (interp t)))). eapply den_in; [eapply lookup_frame; eassumption | eapply not_in_incl; eassumption | exact D1 | eapply list_frame; eassumption].
  - destruct (St F h src t _ Lf D) as (n & h1 & F1 & E & D1 & I1 & L1 & Ev1). cbn [hd_error tl] in *.
    assert (La1 : lookup h1 a t = Some (GIn t k dec key src keys)) by (eapply lookup_frame; eassumption).
    assert (Na1 : ~ In a F1) by (eapply not_in_incl; eassumption).
    assert (Lk1 : lookup h1 keys k = Some (LList k ks)) by (eapply list_frame; eassumption).
    assert (Ev1' : evolves (a :: F) h h1) by (eapply evolves_mono; [|exact Ev1]; apply incl_tl, incl_refl).
    assert (Ec : forall m, 1 <= m -> contains m h1 keys k dec (key x) = Some (p x, h1)).
    { intros [|m] Lm; [lia|]. cbn [LazyModel.contains]. rewrite Lk1. cbn [as_list]. reflexivity. }
    cbn [filter]. destruct (p x) eqn:Px.
    + exists (S (S n)), h1, (a :: F1). split; [|split; [|split; [apply incl_cons_keep; exact I1|split; [cbn; lia | exact Ev1']]]].
      * intros [|m] Lm; [lia|]. cbn [LazyModel.next]. rewrite La. rewrite E by lia. rewrite Ec by lia. reflexivity.
      * cbn [tl]. eapply den_in; eassumption.
    + destruct (IH F1 h1 a src ltac:(lia) La1 Na1 Lk1 D1) as (n2 & h2 & F2 & E2 & D2 & I2 & L2 & Ev2).
      exists (S (S (n + n2))), h2, F2. split; [|split; [exact D2|split; [eapply incl_tran; [exact I2 | apply incl_cons_keep; exact I1]|split; [cbn in *; lia|]]]].
      * intros [|m] Lm; [lia|]. cbn [LazyModel.next]. rewrite La. rewrite E by lia. rewrite Ec by lia. apply E2. lia.
      * eapply evolves_trans; [exact Ev1'|]. eapply evolves_mono; [|exact Ev2]. apply incl_cons_keep. exact I1.
Qed.

Lemma lookup_store h a t (g : gen t) : a < length h -> lookup (store h a (existT _ t g)) a t = Some g.
Proof. intro L. apply lookup_iff. apply store_same. exact L. Qed.

Lemma flat_step N s t (f : interp s -> list (interp t)) : steps N -> forall l buf F h a src, length F <= N ->
  lookup h a t = Some (GFlat s t f src buf) -> ~ In a F -> den h F src s l ->
  exists n h' F', (forall m, n <= m -> next m h a t = Some (hd_error (buf ++ flat_map f l), h')) /\ den h' F' a t (tl (buf ++ flat_map f l)) /\
    incl F' (a :: F) /\ length F' <= length (a :: F) /\ evolves (a :: F) h h'.
Proof.
  intros St l.
  assert (Buf : forall y buf l F h a src, length F <= N -> lookup h a t = Some (GFlat s t f src (y :: buf)) -> ~ In a F -> den h F src s l ->
    exists n h' F', (forall m, n <= m -> next m h a t = Some (Some y, h')) /\ den h' F' a t (buf ++ flat_map f l) /\
    incl F' (a :: F) /\ length F' <= length (a :: F) /\ evolves (a :: F) h h').
  { intros y buf l0 F h a src Lf La Na D. exists 1, (store h a (existT _ t (GFlat s t f src buf))), (a :: F).
    assert (Ev : evolves [a] h (store h a (existT _ t (GFlat s t f src buf)))) by (eapply store_evolves; [exact La | reflexivity]).
    split; [|split; [|split; [apply incl_refl|split; [lia|]]]].
    - intros [|m] Lm; [lia|]. cbn [LazyModel.next]. rewrite La. reflexivity.
    - eapply den_flat; [apply lookup_store; eapply lookup_lt; exact La | exact Na|]. eapply den_frame; [exact D | exact Ev|].
      intros b Ib [->|[]]. exact (Na Ib).
    - eapply evolves_mono; [|exact Ev]. intros b [->|[]]. left. reflexivity. }
  induction l as [|x l IH]; intros [|y buf] F h a src Lf La Na D; try (eapply Buf; eassumption).
  - destruct (St F h src s _ Lf D) as (n & h1 & F1 & E & D1 & I1 & L1 & Ev1).
    exists (S n), h1, (a :: F1). split; [|split; [|split; [apply incl_cons_keep; exact I1|split; [cbn; lia|eapply evolves_mono; [|exact Ev1]; apply incl_tl, incl_refl]]]].
    + intros [|m] Lm; [lia|]. cbn [LazyModel.next]. rewrite La. rewrite E by lia. reflexivity.
    + change (tl ([] ++ flat_map f [])) with ([] ++ flat_map f (tl (@nil (interp s)))). eapply den_flat; [eapply lookup_frame; eassumption | eapply not_in_incl; eassumption | exact D1].
  - destruct (St F h src s _ Lf D) as (n & h1 & F1 & E & D1 & I1 & L1 & Ev1). cbn [hd_error tl] in *.
    assert (La1 : lookup h1 a t = Some (GFlat s t f src [])) by (eapply lookup_frame; eassumption).
    assert (Na1 : ~ In a F1) by (eapply not_in_incl; eassumption).
    assert (Ev1' : evolves (a :: F) h h1) by (eapply evolves_mono; [|exact Ev1]; apply incl_tl, incl_refl).
    set (h2 := store h1 a (existT _ t (GFlat s t f src (f x)))).
    assert (Ev2 : evolves [a] h1 h2) by (eapply store_evolves; [exact La1 | reflexivity]).
    assert (La2 : lookup h2 a t = Some (GFlat s t f src (f x))) by (apply lookup_store; eapply lookup_lt; exact La1).
    assert (D2 : den h2 F1 src s l) by (eapply den_frame; [exact D1 | exact Ev2|]; intros b Ib [->|[]]; exact (Na1 Ib)).
    assert (Ev12 : evolves (a :: F) h h2) by (eapply evolves_trans; [exact Ev1'|]; eapply evolves_mono; [|exact Ev2]; intros b [->|[]]; left; reflexivity).
    destruct (IH (f x) F1 h2 a src ltac:(lia) La2 Na1 D2) as (n3 & h3 & F3 & E3 & D3 & I3 & L3 & Ev3).
    exists (S (n + n3)), h3, F3. split; [|split; [exact D3|split; [eapply incl_tran; [exact I3 | apply incl_cons_keep; exact I1]|split; [cbn in *; lia|]]]].
    + intros [|m] Lm; [lia|]. cbn [LazyModel.next]. rewrite La. rewrite E by lia. fold h2. rewrite E3 by lia. reflexivity.
    + eapply evolves_trans; [exact Ev12|]. eapply evolves_mono; [|exact Ev3]. apply incl_cons_keep. exact I1.
Qed.

Lemma steps_all N : steps N.
Proof.
  induction N as [|N St]; intros F h a t l Lf D.
  { exfalso. destruct D; cbn in Lf; lia. }
  destruct D as [a t l La | F a s t f src l La Na D | F a s t f src buf l La Na D | F a t p src l La Na D
                | F a t k dec key src keys ks l La Na D Lk | F a s t d src l La Na D | F a t srcs l La Na D]; cbn [length] in Lf.
  - destruct l as [|x l].
    + exists 1, h, [a]. split; [|split; [apply den_items; exact La | split; [apply incl_refl | split; [lia | apply evolves_refl]]]].
      intros [|m] Lm; [lia|]. cbn [LazyModel.next]. rewrite La. reflexivity.
    + exists 1, (store h a (existT _ t (GItems t l))), [a].
      split; [|split; [apply den_items; apply lookup_store; eapply lookup_lt; exact La | split; [apply incl_refl | split; [lia | eapply store_evolves; [exact La | reflexivity]]]]].
      intros [|m] Lm; [lia|]. cbn [LazyModel.next]. rewrite La. reflexivity.
  - destruct (St F h src s _ ltac:(lia) D) as (n & h1 & F1 & E & D1 & I1 & L1 & Ev1).
    exists (S n), h1, (a :: F1). split; [|split; [|split; [apply incl_cons_keep; exact I1|split; [cbn; lia|eapply evolves_mono; [|exact Ev1]; apply incl_tl, incl_refl]]]].
    + intros [|m] Lm; [lia|]. cbn [LazyModel.next]. rewrite La. rewrite E by lia. destruct l; reflexivity.
    + replace (tl (map f l)) with (map f (tl l)) by (destruct l; reflexivity).
      eapply den_map; [eapply lookup_frame; eassumption | eapply not_in_incl; eassumption | exact D1].
  - apply (flat_step N s t f St l buf F h a src); auto. lia.
  - apply (filter_step N t p St l F h a src); auto. lia.
  - apply (in_step N t k dec key keys ks St l F h a src); auto. lia.
  - destruct (steps_drain N St F h src s l ltac:(lia) D) as (n & h1 & F1 & E & D1 & I1 & L1 & Ev1).
    assert (La1 : lookup h1 a t = Some (GLater s t d src)) by (eapply lookup_frame; eassumption).
    assert (Ev1' : evolves (a :: F) h h1) by (eapply evolves_mono; [|exact Ev1]; apply incl_tl, incl_refl).
    set (h2 := store h1 a (existT _ t (GItems t (d l)))).
    assert (Ev2 : evolves (a :: F) h1 h2) by (eapply evolves_mono; [|eapply store_evolves; [exact La1 | reflexivity]]; intros b [->|[]]; left; reflexivity).
    assert (La2 : lookup h2 a t = Some (GItems t (d l))) by (apply lookup_store; eapply lookup_lt; exact La1).
    assert (N1 : incl [a] (a :: F)) by (intros b [->|[]]; left; reflexivity).
    destruct (d l) as [|x dl] eqn:Ed.
    + exists (S (S n)), h2, [a]. split; [|split; [apply den_items; exact La2 | split; [exact N1 | split; [cbn; lia | eapply evolves_trans; eassumption]]]].
      intros [|m] Lm; [lia|]. cbn [LazyModel.next]. rewrite La. rewrite E by lia. rewrite Ed. fold h2.
      destruct m as [|m]; [lia|]. cbn [LazyModel.next]. rewrite La2. reflexivity.
    + exists (S (S n)), (store h2 a (existT _ t (GItems t dl))), [a]. cbn [tl hd_error].
      split; [|split; [apply den_items; apply lookup_store; eapply lookup_lt; exact La2 | split; [exact N1 | split; [cbn; lia|]]]].
      * intros [|m] Lm; [lia|]. cbn [LazyModel.next]. rewrite La. rewrite E by lia. rewrite Ed. fold h2.
      destruct m as [|m]; [lia|]. cbn [LazyModel.next]. rewrite La2. reflexivity.
      * eapply evolves_trans; [eapply evolves_trans; eassumption|]. eapply evolves_mono; [|eapply store_evolves; [exact La2 | reflexivity]]. exact N1.
  - destruct D as [t | F G s ss t l m D Ds Dj].
    + exists 1, h, [a]. split; [|split; [eapply (den_chain h []); [exact La | exact Na | apply dens_nil] | split; [apply incl_refl | split; [cbn; lia | apply evolves_refl]]]].
      intros [|m] Lm; [lia|]. cbn [LazyModel.next]. rewrite La. reflexivity.
    + rewrite app_length in Lf. assert (Na1 : ~ In a F) by (intro X; apply Na, in_or_app; left; exact X).
      assert (Na2 : ~ In a G) by (intro X; apply Na, in_or_app; right; exact X).
      assert (Lf1 : 1 <= length F) by (apply den_in_footprint in D; destruct F; [destruct D | cbn; lia]).
      destruct (St F h s t _ ltac:(lia) D) as (n & h1 & F1 & E & D1 & I1 & L1 & Ev1).
      assert (La1 : lookup h1 a t = Some (GChain t (s :: ss))) by (eapply lookup_frame; eassumption).
      assert (Ev1' : evolves (a :: F ++ G) h h1) by (eapply evolves_mono; [|exact Ev1]; apply incl_tl, incl_appl, incl_refl).
      assert (Ds1 : dens h1 G ss t m) by (eapply dens_frame; [exact Ds | exact Ev1|]; intros b Ib Jb; exact (Dj b Jb Ib)).
      destruct l as [|x l]; cbn [hd_error tl app] in *.
      * set (h2 := store h1 a (existT _ t (GChain t ss))).
        assert (Ev2 : evolves [a] h1 h2) by (eapply store_evolves; [exact La1 | reflexivity]).
        assert (La2 : lookup h2 a t = Some (GChain t ss)) by (apply lookup_store; eapply lookup_lt; exact La1).
        assert (D2 : den h2 (a :: G) a t m).
        { eapply den_chain; [exact La2 | exact Na2|]. eapply dens_frame; [exact Ds1 | exact Ev2|]. intros b Ib [->|[]]. exact (Na2 Ib). }
        destruct (St (a :: G) h2 a t m ltac:(cbn; lia) D2) as (n3 & h3 & F3 & E3 & D3 & I3 & L3 & Ev3).
        assert (Ii : incl (a :: G) (a :: F ++ G)) by (apply incl_cons_keep, incl_appr, incl_refl).
        exists (S (n + n3)), h3, F3. split; [|split; [exact D3 | split; [eapply incl_tran; [exact I3 | exact Ii] | split; [cbn in *; rewrite app_length; lia|]]]].
        -- intros [|k] Lk; [lia|]. cbn [LazyModel.next]. rewrite La. rewrite E by lia. fold h2. apply E3. lia.
        -- eapply evolves_trans; [exact Ev1'|]. eapply evolves_trans; [eapply evolves_mono; [|exact Ev2]; intros b [->|[]]; left; reflexivity|].
           eapply evolves_mono; [exact Ii | exact Ev3].
      * exists (S n), h1, (a :: F1 ++ G). split; [|split; [|split; [|split; [cbn; rewrite !app_length; lia | exact Ev1']]]].
        -- intros [|k] Lk; [lia|]. cbn [LazyModel.next]. rewrite La. rewrite E by lia. reflexivity.
        -- eapply den_chain; [exact La1 | |]; [intro X; apply in_app_or in X; destruct X as [X|X]; [apply Na1, I1, X | exact (Na2 X)]|].
           apply dens_cons; auto.
        -- apply incl_cons_keep. apply incl_app; [apply incl_appl; exact I1 | apply incl_appr, incl_refl].
Qed.

(** list() of an iterator. *)
Lemma den_drain h F a t l : den h F a t l ->
  exists n h', (forall m, n <= m -> drain m h a t = Some (l, h')) /\ (exists F', den h' F' a t []) /\ evolves F h h'.
Proof.
  intro D. destruct (steps_drain (length F) (steps_all _) F h a t l (le_n _) D) as (n & h' & F' & E & D' & _ & _ & Ev).
  exists n, h'. split; [exact E|]. split; [exists F'; exact D' | exact Ev].
Qed.
End Lazy.
