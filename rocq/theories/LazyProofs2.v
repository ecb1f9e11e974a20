(** Lemmas for C65: the operations of the backend. *)
From Coq Require Import List Bool PeanoNat Lia Eqdep_dec.
From Verif Require Import Base BackendModel LazyModel LazyProofs.
Import ListNotations.

Section Lazy.
Context {ty : Type} `{EqDec ty} (interp : ty -> Type).
Notation gen := (gen interp).
Notation heap := (heap interp).
Notation lookup := (lookup interp).
Notation den := (den interp).
Notation dens := (dens interp).
Notation M := (M interp).
Implicit Types h : heap.

(** The collection [c] has the elements [l]; [F] are the iterators that reading it uses. *)
Definition is_col h F c t l := (lookup h c t = Some (LList t l) /\ F = []) \/ den h F c t l.

Lemma den_range_both h : (forall F a t l (D : den h F a t l), forall b, In b F -> b < length h) /\
  (forall F srcs t l (D : dens h F srcs t l), forall b, In b F -> b < length h).
Proof.
  assert (K : forall a t (g : gen t), lookup h a t = Some g -> a < length h) by (intros; eapply lookup_lt; eassumption).
  apply (den_both interp h (fun F a t l _ => forall b, In b F -> b < length h) (fun F srcs t l _ => forall b, In b F -> b < length h));
    intros; cbn in *;
    repeat match goal with
           | X : _ \/ _ |- _ => destruct X
           | X : In _ (_ ++ _) |- _ => apply in_app_iff in X
           | X : False |- _ => destruct X
           end; subst; eauto.
Qed.
Lemma den_range h F a t l : den h F a t l -> forall b, In b F -> b < length h.
Proof. apply (proj1 (den_range_both h)). Qed.
Lemma col_range h F c t l : is_col h F c t l -> forall b, In b F -> b < length h.
Proof. intros [[_ ->]|D] b I; [destruct I | eapply den_range; eassumption]. Qed.

(** The memory grows, and changes only at iterators in [G]. *)
Definition moves (G : list nat) h h' : Prop :=
  length h <= length h' /\ (forall b, b < length h -> ~ In b G -> nth_error h' b = nth_error h b) /\
  (forall b, is_list_at interp h b -> nth_error h' b = nth_error h b).
Definition fresh h (F F' : list nat) := forall b, In b F' -> In b F \/ length h <= b.
Lemma moves_refl G h : moves G h h.
Proof. repeat split; auto. Qed.
Lemma list_at_lt h b : is_list_at interp h b -> b < length h.
Proof. intros (t & l & E). apply nth_error_Some. congruence. Qed.
Lemma moves_trans G G' h1 h2 h3 : moves G h1 h2 -> fresh h1 G G' -> moves G' h2 h3 -> moves G h1 h3.
Proof.
  intros (A & B & C) Fr (A' & B' & C'). split; [lia|]. split.
  - intros b L N. rewrite B'; [apply B; assumption | lia|]. intro X. destruct (Fr b X); [auto | lia].
  - intros b L. rewrite <- (C b L). apply C'. destruct L as (t & l & L). exists t, l. rewrite C; [exact L|]. exists t, l. exact L.
Qed.
Lemma fresh_refl h F : fresh h F F.
Proof. intros b I. left. exact I. Qed.
Lemma fresh_nil h F : fresh h F [].
Proof. intros b []. Qed.
Lemma fresh_trans h1 h2 F1 F2 F3 : length h1 <= length h2 -> fresh h1 F1 F2 -> fresh h2 F2 F3 -> fresh h1 F1 F3.
Proof. intros L A B b I. destruct (B b I) as [X|X]; [apply A; exact X | right; lia]. Qed.
Lemma evolves_moves G h h' : evolves interp G h h' -> moves G h h'.
Proof. intros (A & B & C). split; [lia|]. split; auto. Qed.
Lemma moves_mono G G' h h' : incl G G' -> moves G h h' -> moves G' h h'.
Proof. intros I (A & B & C). split; [exact A|]. split; [|exact C]. intros b L N. apply B; [exact L|]. auto. Qed.
Lemma moves_new G h o : moves G h (h ++ [o]).
Proof.
  split; [rewrite app_length; lia|].
  assert (K : forall b, b < length h -> nth_error (h ++ [o]) b = nth_error h b) by (intros; apply nth_error_app1; assumption).
  split; auto. intros b L. apply K. apply list_at_lt. exact L.
Qed.
Lemma den_moves G h F c t l h' : den h F c t l -> moves G h h' -> (forall b, In b F -> ~ In b G) -> den h' F c t l.
Proof.
  intros D (A & B & C) N. apply (proj1 (den_frame_both interp h) F c t l D); auto.
  intros b I. apply B; [|auto]. eapply den_range; eassumption.
Qed.
Lemma dens_moves G h F c t l h' : dens h F c t l -> moves G h h' -> (forall b, In b F -> ~ In b G) -> dens h' F c t l.
Proof.
  intros D (A & B & C) N. apply (proj2 (den_frame_both interp h) F c t l D); auto.
  intros b I. apply B; [|auto]. eapply (proj2 (den_range_both h)); eassumption.
Qed.
Lemma list_moves G h c t l h' : lookup h c t = Some (LList t l) -> moves G h h' -> lookup h' c t = Some (LList t l).
Proof. intros L (A & B & C). eapply lookup_same; [|exact L]. apply C. exists t, l. apply lookup_iff. exact L. Qed.
Lemma col_moves G h F c t l h' : is_col h F c t l -> moves G h h' -> (forall b, In b F -> ~ In b G) -> is_col h' F c t l.
Proof.
  intros [[L ->]|D] Mv N; [left | right; eapply den_moves; eassumption]. split; [|reflexivity]. eapply list_moves; eassumption.
Qed.

(** The program [e] makes a collection with the elements [l] out of the iterators [F],
    advancing the iterators [G] only. *)
Definition makes (G : list nat) h (F : list nat) {t} (e : M (col t)) (l : list (interp t)) : Prop :=
  exists n c h' F', (forall m, n <= m -> e m h = Some (c, h')) /\ is_col h' F' c t l /\ fresh h F F' /\ moves G h h'.

Lemma makes_ret h F t (c : col t) l : is_col h F c t l -> makes [] h F (ret interp c) l.
Proof.
  intro C. exists 0, c, h, F. split; [reflexivity|]. split; [exact C|]. split; [apply fresh_refl | apply moves_refl].
Qed.
Lemma makes_bind G h F s t (e : M (col s)) (k : col s -> M (col t)) l m : makes G h F e l ->
  (forall c h' F', is_col h' F' c s l -> fresh h F F' -> moves G h h' -> exists G', fresh h G G' /\ makes G' h' F' (k c) m) ->
  makes G h F (bind interp e k) m.
Proof.
  intros (n & c & h1 & F1 & E & C & Fr & Mv) K. destruct (K c h1 F1 C Fr Mv) as (G' & FG & n2 & c2 & h2 & F2 & E2 & C2 & Fr2 & Mv2).
  exists (Nat.max n n2), c2, h2, F2. split.
  - intros m0 L. unfold bind. rewrite E by lia. apply E2. lia.
  - split; [exact C2|]. split; [eapply fresh_trans; [|exact Fr|exact Fr2]; destruct Mv; assumption|].
    eapply moves_trans; eassumption.
Qed.
(** Nothing is read. *)
Lemma makes_lazily h F s t (e : M (col s)) (k : col s -> M (col t)) l m : makes [] h F e l ->
  (forall c h' F', is_col h' F' c s l -> fresh h F F' -> moves [] h h' -> makes [] h' F' (k c) m) ->
  makes [] h F (bind interp e k) m.
Proof. intros E K. eapply makes_bind; [exact E|]. intros c h' F' C Fr Mv. exists []. split; [apply fresh_nil | apply K; assumption]. Qed.
Lemma makes_more G G' h F t (e : M (col t)) l : incl G G' -> makes G h F e l -> makes G' h F e l.
Proof.
  intros I (n & c & h1 & F1 & E & C & Fr & Mv). exists n, c, h1, F1. repeat (split; [assumption|]). eapply moves_mono; eassumption.
Qed.
(** The collection of an unused heap. *)
Lemma makes_wider G h F F0 t (e : M (col t)) l : incl F F0 -> makes G h F e l -> makes G h F0 e l.
Proof.
  intros I (n & c & h1 & F1 & E & C & Fr & Mv). exists n, c, h1, F1. repeat (split; [assumption|]). split; [|exact Mv].
  intros b X. destruct (Fr b X); auto.
Qed.

Lemma lookup_new h t (g : gen t) : lookup (h ++ [existT _ t g]) (length h) t = Some g.
Proof. apply lookup_iff. rewrite nth_error_app2, Nat.sub_diag by lia. reflexivity. Qed.

(** iter(). *)
Lemma iter_rule h F t (c : col t) l : is_col h F c t l ->
  exists i h' F', (forall n, iter interp c n h = Some (i, h')) /\ den h' F' i t l /\ fresh h F F' /\ moves [] h h'.
Proof.
  intros [[L ->]|D].
  - exists (length h), (h ++ [existT _ t (GItems t l)]), [length h]. split.
    + intro n. unfold iter. rewrite L. reflexivity.
    + split; [apply den_items; apply lookup_new|]. split; [|apply moves_new]. intros b [<-|[]]. right. lia.
  - exists c, h, F. split.
    + intro n. unfold iter. destruct (den_lookup interp h F c t l D) as (g & -> & ->). reflexivity.
    + split; [exact D|]. split; [apply fresh_refl | apply moves_refl].
Qed.
(** An operation that reads one iterator. *)
Lemma op_rule h F s t (c : col s) (g : nat -> gen t) l m : is_col h F c s l ->
  (forall h' i F', moves [] h h' -> den h' F' i s l -> lookup h' (length h' - 1) t = Some (g i) -> ~ In (length h' - 1) F' ->
     den h' ((length h' - 1) :: F') (length h' - 1) t m) ->
  makes [] h F (bind interp (iter interp c) (fun i => new interp (g i))) m.
Proof.
  intros C K. destruct (iter_rule h F s c l C) as (i & h1 & F1 & E & D & Fr & Mv).
  exists 0, (length h1), (h1 ++ [existT _ t (g i)]), (length h1 :: F1). split; [|split; [|split]].
  - intros n _. unfold bind. rewrite E. reflexivity.
  - right. replace (length h1) with (length (h1 ++ [existT _ t (g i)]) - 1) by (rewrite app_length; cbn; lia). apply (K _ i).
    + eapply moves_trans; [exact Mv | apply fresh_nil | apply moves_new].
    + eapply (den_moves []); [exact D | apply moves_new | tauto].
    + rewrite app_length. cbn [length]. rewrite Nat.add_sub. apply lookup_new.
    + rewrite app_length. cbn [length]. rewrite Nat.add_sub. intro X. apply (den_range _ _ _ _ _ D) in X. lia.
  - intros b [<-|I]; [right; destruct Mv; lia | apply Fr; exact I].
  - eapply moves_trans; [exact Mv | apply fresh_nil | apply moves_new].
Qed.
Lemma map_rule h F s t (f : interp s -> interp t) (c : col s) l : is_col h F c s l -> makes [] h F (b_map interp f c) (map f l).
Proof. intro C. apply (op_rule h F s t c (fun i => GMap s t f i) l _ C). intros. eapply den_map; eassumption. Qed.
Lemma flat_map_rule h F s t (f : interp s -> list (interp t)) (c : col s) l :
  is_col h F c s l -> makes [] h F (b_flat_map interp f c) (flat_map f l).
Proof. intro C. apply (op_rule h F s t c (fun i => GFlat s t f i []) l _ C). intros. eapply den_flat with (buf := []); eassumption. Qed.
Lemma filter_rule h F t (p : interp t -> bool) (c : col t) l : is_col h F c t l -> makes [] h F (b_filter interp p c) (filter p l).
Proof. intro C. apply (op_rule h F t t c (fun i => GFilter t p i) l _ C). intros. eapply den_filter; eassumption. Qed.
Lemma filter_by_key_rule h F t k dec (key : interp t -> interp k) (c : col t) (keys : col k) l ks : is_col h F c t l ->
  lookup h keys k = Some (LList k ks) ->
  makes [] h F (b_filter_by_key interp dec key c keys) (filter (fun x => @mem _ dec (key x) ks) l).
Proof.
  intros C L. apply (op_rule h F t t c (fun i => GIn t k dec key i keys) l _ C). intros. eapply den_in; try eassumption.
  eapply list_moves; eassumption.
Qed.
Lemma later_rule h F s t (d : list (interp s) -> list (interp t)) (c : col s) l : is_col h F c s l -> makes [] h F (b_later interp d c) (d l).
Proof. intro C. apply (op_rule h F s t c (fun i => GLater s t d i) l _ C). intros. eapply den_later; eassumption. Qed.

(** itertools.chain of collections that do not share iterators. *)
Inductive cols h : list nat -> forall t, list (col t) -> list (interp t) -> Prop :=
| cols_nil t : cols h [] t [] []
| cols_cons F G t (c : col t) cs l m : is_col h F c t l -> cols h G t cs m -> (forall b, In b F -> ~ In b G) ->
    cols h (F ++ G) t (c :: cs) (l ++ m).
Lemma cols_range h F t cs l : cols h F t cs l -> forall b, In b F -> b < length h.
Proof.
  induction 1; intros b I; [destruct I|]. apply in_app_iff in I as [I|I]; [eapply col_range; eassumption | auto].
Qed.
Lemma cols_moves G h F t cs l h' : cols h F t cs l -> moves G h h' -> (forall b, In b F -> ~ In b G) -> cols h' F t cs l.
Proof.
  intros C Mv. induction C; intro N; [apply cols_nil|]. apply cols_cons; [|apply IHC|assumption].
  - eapply col_moves; [eassumption | exact Mv|]. intros; apply N; apply in_or_app; auto.
  - intros; apply N; apply in_or_app; auto.
Qed.
Lemma iters_rule t cs : forall h F l, cols h F t cs l ->
  exists is h' F', (forall n, iters interp cs n h = Some (is, h')) /\ dens h' F' is t l /\ fresh h F F' /\ moves [] h h'.
Proof.
  induction cs as [|c cs IH]; intros h F l C.
  - exists [], h, []. split; [reflexivity|].
    assert (E : l = [] /\ F = []).
    { remember (@nil (col t)) as cs eqn:E. destruct C; [split; reflexivity | discriminate]. }
    destruct E as [-> ->]. split; [apply dens_nil|]. split; [apply fresh_nil | apply moves_refl].
  - assert (K : exists F1 G1 l1 m1, F = F1 ++ G1 /\ l = l1 ++ m1 /\ is_col h F1 c t l1 /\ cols h G1 t cs m1 /\ (forall b, In b F1 -> ~ In b G1)).
    { clear IH. remember (c :: cs) as cs0 eqn:E. destruct C; [discriminate|]. injection E as -> ->.
      exists F, G, l, m. auto. }
    clear C. destruct K as (F1 & G1 & l1 & m1 & -> & -> & C1 & Cs & Dj).
    destruct (iter_rule h F1 t c l1 C1) as (i & h1 & F1' & E & D & Fr & Mv).
    assert (Cs' : cols h1 G1 t cs m1) by (eapply cols_moves; [exact Cs | exact Mv | tauto]).
    destruct (IH h1 G1 m1 Cs') as (is & h2 & F2' & E2 & D2 & Fr2 & Mv2).
    exists (i :: is), h2, (F1' ++ F2'). split; [|split; [|split]].
    + intro n. cbn [iters]. unfold bind. rewrite E, E2. reflexivity.
    + apply dens_cons; [eapply den_moves; [exact D | exact Mv2 | tauto] | exact D2|].
      intros b I1 I2. pose proof (den_range _ _ _ _ _ D b I1) as R1. destruct (Fr2 b I2) as [I|I]; [|lia].
      destruct (Fr b I1) as [J|J]; [exact (Dj b J I)|]. pose proof (cols_range _ _ _ _ _ Cs b I). lia.
    + intros b I. apply in_app_iff in I as [I|I].
      * destruct (Fr b I) as [J|J]; [left; apply in_or_app; auto | auto].
      * destruct (Fr2 b I) as [J|J]; [left; apply in_or_app; auto | right; destruct Mv; lia].
    + eapply moves_trans; [exact Mv | apply fresh_nil | exact Mv2].
Qed.
Lemma flatten_rule h F t cs l : cols h F t cs l -> makes [] h F (b_flatten interp cs) l.
Proof.
  intro C. destruct (iters_rule t cs h F l C) as (is & h1 & F1 & E & D & Fr & Mv).
  exists 0, (length h1), (h1 ++ [existT _ t (GChain t is)]), (length h1 :: F1). split; [|split; [|split]].
  - intros n _. unfold b_flatten, bind. rewrite E. reflexivity.
  - right. eapply den_chain; [apply lookup_new | |eapply (dens_moves []); [exact D | apply moves_new | tauto]].
    intro X. apply (proj2 (den_range_both _) _ _ _ _ D) in X. lia.
  - intros b [<-|I]; [right; destruct Mv; lia | apply Fr; exact I].
  - eapply moves_trans; [exact Mv | apply fresh_nil | apply moves_new].
Qed.

(** list(). *)
Lemma force_rule h F t (c : col t) l : is_col h F c t l ->
  exists n h', (forall m, n <= m -> force interp c m h = Some (l, h')) /\ moves F h h' /\
    (forall F0, is_col h' F0 c t l -> lookup h c t = Some (LList t l) \/ l = []).
Proof.
  intros [[L ->]|D].
  - exists 0, h. split; [intros m _; unfold force; rewrite L; reflexivity|]. split; [apply moves_refl|]. intros F0 _. left. exact L.
  - destruct (den_drain interp h F c t l D) as (n & h' & E & (F' & D') & Ev). exists n, h'. split.
    + intros m L. unfold force. destruct (den_lookup interp h F c t l D) as (g & -> & ->). apply E. exact L.
    + split; [apply evolves_moves; exact Ev|]. intros F0 [[L ->]|D0].
      * exfalso. destruct (den_lookup _ _ _ _ _ _ D') as (g & L' & N). rewrite L in L'. injection L' as <-. discriminate.
      * right. destruct (den_drain interp h' F' c t [] D') as (n1 & h1 & E1 & _).
        destruct (den_drain interp h' F0 c t l D0) as (n2 & h2 & E2 & _).
        specialize (E1 (Nat.max n1 n2) (Nat.le_max_l _ _)). specialize (E2 (Nat.max n1 n2) (Nat.le_max_r _ _)). congruence.
Qed.
(** Reading an iterator again gives nothing. *)
Lemma force_again h F t (c : col t) l : den h F c t l ->
  exists n h' h'', (forall m, n <= m -> force interp c m h = Some (l, h') /\ force interp c m h' = Some ([], h'')).
Proof.
  intro D. destruct (den_drain interp h F c t l D) as (n & h' & E & (F' & D') & Ev).
  destruct (den_drain interp h' F' c t [] D') as (n1 & h1 & E1 & _). exists (Nat.max n n1), h', h1. intros m L. split.
  - unfold force. destruct (den_lookup interp h F c t l D) as (g & -> & ->). apply E. lia.
  - unfold force. destruct (den_lookup interp h' F' c t [] D') as (g & -> & ->). apply E1. lia.
Qed.
Lemma to_multi_rule h F t (c : col t) l : is_col h F c t l -> makes F h F (b_to_multi interp c) l.
Proof.
  intro C. destruct (force_rule h F t c l C) as (n & h' & E & Mv & _).
  exists n, (length h'), (h' ++ [existT _ t (LList t l)]), []. split; [|split; [|split]].
  - intros m L. unfold b_to_multi, bind. rewrite (E m L). reflexivity.
  - left. split; [apply lookup_new | reflexivity].
  - apply fresh_nil.
  - eapply moves_trans; [exact Mv | apply fresh_nil | apply moves_new].
Qed.
Lemma to_multi_list h F t (c : col t) l : is_col h F c t l ->
  exists n c' h', (forall m, n <= m -> b_to_multi interp c m h = Some (c', h')) /\ lookup h' c' t = Some (LList t l) /\ moves F h h'.
Proof.
  intro C. destruct (force_rule h F t c l C) as (n & h' & E & Mv & _).
  exists n, (length h'), (h' ++ [existT _ t (LList t l)]). split; [|split].
  - intros m L. unfold b_to_multi, bind. rewrite (E m L). reflexivity.
  - apply lookup_new.
  - eapply moves_trans; [exact Mv | apply fresh_nil | apply moves_new].
Qed.
End Lazy.
