(** Finite distributions: expectation, independence, differential privacy. *)
From Coq Require Import List ZArith QArith Qreals Reals Bool Lia Lra FunctionalExtensionality.
From Verif Require Import Base BaseLemmas BackendModel ListLemmas VectorModel ExpMechProofs LaplaceSpec SelectSpec DistSpec.
Import ListNotations.
Local Open Scope R_scope.

(** ** Expectation *)
Lemma mixture_nil {A} (F : A -> R) : mixture [] F = 0.
Proof. reflexivity. Qed.
Lemma mixture_cons {A} w (a : A) d F : mixture ((w, a) :: d) F = w * F a + mixture d F.
Proof. reflexivity. Qed.
Lemma mixture_app {A} (d d' : dist A) F : mixture (d ++ d') F = mixture d F + mixture d' F.
Proof.
  induction d as [|[w a] d IH]; cbn [app]; [rewrite mixture_nil; ring|]. rewrite !mixture_cons, IH. ring.
Qed.
Lemma mixture_ext {A} (d : dist A) F G : (forall a, F a = G a) -> mixture d F = mixture d G.
Proof. intro E. unfold mixture. f_equal. apply map_ext. intros [w a]. cbn. rewrite E. reflexivity. Qed.
Lemma mixture_ext_in {A} (d : dist A) F G : (forall w a, In (w, a) d -> w = 0 \/ F a = G a) -> mixture d F = mixture d G.
Proof.
  intro E. unfold mixture. f_equal. apply map_ext_in. intros [w a] I. cbn. destruct (E w a I) as [->| ->]; ring.
Qed.
Lemma mixture_scale {A} (d : dist A) c F : mixture d (fun a => c * F a) = c * mixture d F.
Proof. induction d as [|[w a] d IH]; [rewrite !mixture_nil; ring|]. rewrite !mixture_cons, IH. ring. Qed.
Lemma mixture_add {A} (d : dist A) F G : mixture d (fun a => F a + G a) = mixture d F + mixture d G.
Proof. induction d as [|[w a] d IH]; [rewrite !mixture_nil; ring|]. rewrite !mixture_cons, IH. ring. Qed.
Lemma mixture_const {A} (d : dist A) c : is_dist d -> mixture d (fun _ => c) = c.
Proof.
  intros [_ W]. transitivity (c * sumR (map fst d)); [|rewrite W; ring]. clear W.
  induction d as [|[w a] d IH]; [rewrite mixture_nil; cbn; ring|].
  rewrite mixture_cons, IH. cbn [map fst]. rewrite sumR_cons. ring.
Qed.
Lemma mixture_le {A} (d : dist A) F G : Forall (fun wa => 0 <= fst wa) d -> (forall a, F a <= G a) -> mixture d F <= mixture d G.
Proof.
  intros W L. induction W as [|[w a] d Hw W IH]; [rewrite !mixture_nil; lra|]. rewrite !mixture_cons. cbn in Hw.
  specialize (L a). apply (Rmult_le_compat_l _ _ _ Hw) in L. lra.
Qed.
Lemma mixture_range {A} (d : dist A) F : is_dist d -> (forall a, 0 <= F a <= 1) -> 0 <= mixture d F <= 1.
Proof.
  intros D L. split.
  - rewrite <- (mixture_const d 0 D). apply mixture_le; [apply D|]. apply L.
  - rewrite <- (mixture_const d 1 D). apply mixture_le; [apply D|]. apply L.
Qed.
Lemma mixture_ret {A} (a : A) F : mixture (dret a) F = F a.
Proof. unfold dret. rewrite mixture_cons, mixture_nil. ring. Qed.
Lemma mixture_bind {A B} (d : dist A) (k : A -> dist B) F : mixture (dbind d k) F = mixture d (fun a => mixture (k a) F).
Proof.
  induction d as [|[w a] d IH]; [reflexivity|]. unfold dbind. cbn [flat_map fst snd].
  rewrite mixture_app. fold (dbind d k). rewrite IH, mixture_cons. f_equal.
  unfold mixture. rewrite map_map. cbn [fst snd].
  rewrite <- sumR_scale. f_equal. apply map_ext. intros [w' b]. cbn. ring.
Qed.
Lemma mixture_swap {A B} (d : dist A) (d' : dist B) F :
  mixture d (fun a => mixture d' (fun b => F a b)) = mixture d' (fun b => mixture d (fun a => F a b)).
Proof.
  induction d as [|[w a] d IH].
  - rewrite mixture_nil. rewrite (mixture_ext d' _ (fun _ => 0 * 0)) by (intro; rewrite mixture_nil; ring).
    rewrite mixture_scale. ring.
  - rewrite mixture_cons, IH. rewrite (mixture_ext d' (fun b => mixture ((w, a) :: d) (fun a0 => F a0 b))
      (fun b => w * F a b + mixture d (fun a0 => F a0 b))) by (intro b; exact (mixture_cons w a d (fun a0 => F a0 b))).
    rewrite mixture_add, mixture_scale. reflexivity.
Qed.

Lemma is_dist_ret {A} (a : A) : is_dist (dret a).
Proof. split; [constructor; [cbn; lra | constructor]|]. cbn. lra. Qed.
Lemma is_dist_bind {A B} (d : dist A) (k : A -> dist B) : is_dist d -> (forall a, is_dist (k a)) -> is_dist (dbind d k).
Proof.
  intros D K. split.
  - unfold dbind. apply Forall_flat_map. eapply Forall_impl; [|apply D]. intros [w a] Hw. cbn in *. apply Forall_map.
    eapply Forall_impl; [|apply K]. intros [w' b] Hw'. cbn in *. apply Rmult_le_pos; assumption.
  - transitivity (mixture (dbind d k) (fun _ => 1)).
    + unfold mixture. f_equal. apply map_ext. intro. ring.
    + rewrite mixture_bind. rewrite (mixture_ext _ _ (fun _ => 1)) by (intro a; apply mixture_const, K). apply mixture_const, D.
Qed.
Lemma is_dist_independent {A B} (f : A -> dist B) xs : (forall x, In x xs -> is_dist (f x)) -> is_dist (independent f xs).
Proof.
  induction xs as [|x xs IH]; intro D; cbn [independent]; [apply is_dist_ret|].
  apply is_dist_bind; [apply D; left; reflexivity|]. intro y. apply is_dist_bind; [apply IH; intros; apply D; right; assumption|].
  intro ys. apply is_dist_ret.
Qed.
Lemma is_dist_random_function {A B} `{EqDec A} (f : A -> dist B) b xs :
  (forall x, In x xs -> is_dist (f x)) -> is_dist (random_function f b xs).
Proof.
  induction xs as [|x xs IH]; intro D; cbn [random_function]; [apply is_dist_ret|].
  apply is_dist_bind; [apply D; left; reflexivity|]. intro y. apply is_dist_bind; [apply IH; intros; apply D; right; assumption|].
  intro ys. apply is_dist_ret.
Qed.

Lemma mixture_independent_cons {A B} (f : A -> dist B) x xs F :
  mixture (independent f (x :: xs)) F = mixture (f x) (fun y => mixture (independent f xs) (fun ys => F (y :: ys))).
Proof.
  cbn [independent]. rewrite mixture_bind. apply mixture_ext. intro y. rewrite mixture_bind. apply mixture_ext. intro ys.
  apply mixture_ret.
Qed.
Lemma mixture_independent_app {A B} (f : A -> dist B) xs ys F :
  mixture (independent f (xs ++ ys)) F = mixture (independent f xs) (fun us => mixture (independent f ys) (fun vs => F (us ++ vs))).
Proof.
  revert F. induction xs as [|x xs IH]; intro F; cbn [app].
  - cbn [independent]. rewrite mixture_ret. reflexivity.
  - rewrite !mixture_independent_cons. apply mixture_ext. intro y. rewrite IH. reflexivity.
Qed.
Lemma mixture_independent_map {A B C} (f : B -> dist C) (h : A -> B) xs F :
  mixture (independent f (map h xs)) F = mixture (independent (fun a => f (h a)) xs) F.
Proof.
  revert F. induction xs as [|x xs IH]; intro F; [reflexivity|]. cbn [map]. rewrite !mixture_independent_cons.
  apply mixture_ext. intro y. apply IH.
Qed.
Lemma mixture_independent_ext {A B} (f g : A -> dist B) xs F : (forall x, In x xs -> f x = g x) ->
  mixture (independent f xs) F = mixture (independent g xs) F.
Proof.
  revert F. induction xs as [|x xs IH]; intros F E; [reflexivity|]. rewrite !mixture_independent_cons.
  rewrite (E x) by (left; reflexivity). apply mixture_ext. intro y. apply IH. intros; apply E; right; assumption.
Qed.

(** Outcomes of non-zero probability. *)
Lemma independent_support {A B} (f : A -> dist B) (R : A -> B -> Prop) xs w ys :
  (forall x w y, In x xs -> In (w, y) (f x) -> w = 0 \/ R x y) ->
  In (w, ys) (independent f xs) -> w = 0 \/ Forall2 R xs ys.
Proof.
  revert w ys. induction xs as [|x xs IH]; intros w ys E I.
  - destruct I as [I|[]]. inversion I. right. constructor.
  - cbn [independent] in I. unfold dbind, dret in I. apply in_flat_map in I. destruct I as [[w1 y] [I1 I2]].
    apply in_map_iff in I2. destruct I2 as [[w2 ys'] [E2 I2]]. cbn in E2, I2. inversion E2; subst. clear E2.
    apply in_flat_map in I2. destruct I2 as [[w3 zs] [I3 I4]]. cbn in I4. destruct I4 as [I4|[]]. inversion I4; subst.
    destruct (E x w1 y (or_introl eq_refl) I1) as [-> |Rx]; [left; ring|].
    destruct (IH w3 zs) as [-> |Rs]; [intros; eapply E; [right; eassumption|eassumption] | exact I3 | left; ring|].
    right. constructor; assumption.
Qed.
Lemma mixture_independent_support {A B} (f : A -> dist B) (R : A -> B -> Prop) xs F G :
  (forall x w y, In x xs -> In (w, y) (f x) -> w = 0 \/ R x y) ->
  (forall ys, Forall2 R xs ys -> F ys = G ys) ->
  mixture (independent f xs) F = mixture (independent f xs) G.
Proof.
  intros E FG. apply mixture_ext_in. intros w ys I. destruct (independent_support f R xs w ys E I); auto.
Qed.

(** ** Random functions at given points *)
Section Upd.
Context {A B : Type} `{EqDec A}.
Definition upd (x : A) (y : B) (g : A -> B) : A -> B := fun a => if eqb x a then y else g a.
Lemma upd_same x y y' g : upd x y (upd x y' g) = upd x y g.
Proof. extensionality a. unfold upd. destruct (eqb x a); reflexivity. Qed.
Lemma upd_comm x x' y y' g : x <> x' -> upd x y (upd x' y' g) = upd x' y' (upd x y g).
Proof.
  intro N. extensionality a. unfold upd. destruct (eqb x a) eqn:E, (eqb x' a) eqn:E'; try reflexivity.
  apply eqb_eq in E, E'. congruence.
Qed.
Lemma mixture_random_cons (f : A -> dist B) b x xs F :
  mixture (random_function f b (x :: xs)) F = mixture (f x) (fun y => mixture (random_function f b xs) (fun g => F (upd x y g))).
Proof.
  cbn [random_function]. rewrite mixture_bind. apply mixture_ext. intro y. rewrite mixture_bind. apply mixture_ext. intro g.
  apply mixture_ret.
Qed.
Definition but (q : A) (xs : list A) : list A := filter (fun x => negb (eqb x q)) xs.

Lemma random_overwritten (f : A -> dist B) b q y xs : forall F, (forall x, In x xs -> is_dist (f x)) ->
  mixture (random_function f b xs) (fun g => F (upd q y g)) = mixture (random_function f b (but q xs)) (fun g => F (upd q y g)).
Proof.
  induction xs as [|x xs IH]; intros F D; [reflexivity|].
  assert (D' : forall x, In x xs -> is_dist (f x)) by (intros; apply D; right; assumption).
  rewrite mixture_random_cons. unfold but. cbn [filter]. fold (but q xs). destruct (eqb x q) eqn:E; cbn [negb].
  - apply eqb_eq in E. subst x.
    rewrite (mixture_ext _ _ (fun _ => mixture (random_function f b (but q xs)) (fun g => F (upd q y g)))).
    + apply mixture_const. apply D. left. reflexivity.
    + intro y'. rewrite <- IH by exact D'. apply mixture_ext. intro g. rewrite upd_same. reflexivity.
  - rewrite mixture_random_cons. assert (N : q <> x) by (intro; subst; rewrite eqb_refl in E; discriminate).
    apply mixture_ext. intro y'.
    rewrite (mixture_ext _ _ (fun g => F (upd x y' (upd q y g)))) by (intro g; rewrite upd_comm by exact N; reflexivity).
    rewrite (IH (fun h => F (upd x y' h))) by exact D'. apply mixture_ext. intro g. rewrite (upd_comm q x) by exact N. reflexivity.
Qed.

Lemma random_at (f : A -> dist B) b q xs : forall F, In q xs -> (forall x, In x xs -> is_dist (f x)) ->
  mixture (random_function f b xs) F =
  mixture (f q) (fun y => mixture (random_function f b (but q xs)) (fun g => F (upd q y g))).
Proof.
  induction xs as [|x xs IH]; intros F I D; [destruct I|].
  assert (D' : forall x, In x xs -> is_dist (f x)) by (intros; apply D; right; assumption).
  rewrite mixture_random_cons. unfold but. cbn [filter]. fold (but q xs). destruct (eqb x q) eqn:E; cbn [negb].
  - apply eqb_eq in E. subst x. apply mixture_ext. intro y. apply random_overwritten. exact D'.
  - assert (N : x <> q) by (intro; subst; rewrite eqb_refl in E; discriminate). destruct I as [I|I]; [contradiction|].
    rewrite (mixture_ext _ _ (fun y => mixture (f q) (fun y' => mixture (random_function f b (but q xs)) (fun g => F (upd x y (upd q y' g)))))).
    2: { intro y. exact (IH (fun g => F (upd x y g)) I D'). }
    rewrite mixture_swap. apply mixture_ext. intro y'. rewrite mixture_random_cons. apply mixture_ext. intro y.
    apply mixture_ext. intro g. rewrite (upd_comm q x) by congruence. reflexivity.
Qed.

(** The values at distinct points [qs] are independent draws. *)
Lemma random_values (f : A -> dist B) b qs : forall xs F, NoDup qs -> incl qs xs -> (forall x, In x xs -> is_dist (f x)) ->
  mixture (random_function f b xs) (fun g => F (map g qs)) = mixture (independent f qs) F.
Proof.
  induction qs as [|q qs IH]; intros xs F N I D.
  - cbn [map independent]. rewrite mixture_ret. apply mixture_const. apply is_dist_random_function. exact D.
  - inversion N as [|? ? Nq Nqs]; subst. rewrite (random_at f b q xs) by (try exact D; apply I; left; reflexivity).
    rewrite mixture_independent_cons. apply mixture_ext. intro y.
    rewrite (mixture_ext _ _ (fun g => F (y :: map g qs))).
    + apply (IH (but q xs) (fun ys => F (y :: ys)) Nqs).
      * intros x X. apply filter_In. split; [apply I; right; exact X|]. destruct (eqb x q) eqn:E; [|reflexivity].
        apply eqb_eq in E. subst. contradiction.
      * intros x X. apply D. apply filter_In in X. apply X.
    + intro g. cbn [map]. unfold upd at 1. rewrite eqb_refl. f_equal. f_equal. apply map_ext_in. intros a Ha.
      unfold upd. destruct (eqb q a) eqn:E; [|reflexivity]. apply eqb_eq in E. subst. contradiction.
Qed.
End Upd.

(** ** Differential privacy, with tests instead of events *)
Definition below {A} (eps delta : R) (d d' : dist A) : Prop :=
  forall F, (forall a, 0 <= F a <= 1) -> mixture d F <= exp eps * mixture d' F + delta.

Lemma below_prob {A} eps delta (d d' : dist A) E : below eps delta d d' -> prob d E <= exp eps * prob d' E + delta.
Proof. intro B. apply B. intro a. unfold indicator. destruct (E a); lra. Qed.

Lemma below_bind {A B} e1 d1 e2 d2 (d d' : dist A) (k k' : A -> dist B) :
  0 <= d2 -> is_dist d -> is_dist d' -> (forall a, is_dist (k a)) -> (forall a, is_dist (k' a)) ->
  below e1 d1 d d' -> (forall a, below e2 d2 (k a) (k' a)) -> below (e1 + e2) (d1 + d2) (dbind d k) (dbind d' k').
Proof.
  intros P2 D D' K K' B1 B2 F HF. rewrite !mixture_bind.
  pose (G := fun a => Rmin 1 (exp e2 * mixture (k' a) F)).
  assert (X : mixture d (fun a => mixture (k a) F) <= mixture d (fun a => G a + d2)).
  { apply mixture_le; [apply D|]. intro a. specialize (B2 a F HF). pose proof (mixture_range (k a) F (K a) HF).
    unfold G, Rmin. destruct (Rle_dec 1 (exp e2 * mixture (k' a) F)); lra. }
  rewrite mixture_add, (mixture_const d d2 D) in X.
  assert (Y : mixture d G <= exp e1 * mixture d' G + d1).
  { apply B1. intro a. unfold G. pose proof (mixture_range (k' a) F (K' a) HF). pose proof (exp_pos e2).
    split; [apply Rmin_glb; [lra | apply Rmult_le_pos; lra] | apply Rmin_l]. }
  assert (W : mixture d' G <= exp e2 * mixture d' (fun a => mixture (k' a) F)).
  { rewrite <- mixture_scale. apply mixture_le; [apply D'|]. intro a. apply Rmin_r. }
  rewrite exp_plus. pose proof (exp_pos e1). apply (Rmult_le_compat_l (exp e1)) in W; lra.
Qed.

Lemma below_weaken {A} e d d' (p q : dist A) : d <= d' -> below e d p q -> below e d' p q.
Proof. intros L B F HF. specialize (B F HF). lra. Qed.
Lemma below_same {A} (d : dist A) : below 0 0 d d.
Proof. intros F _. rewrite exp_0. lra. Qed.

(** *** Events suffice *)
Section Events.
Context {A : Type} `{EqDec A}.
Definition mass (d : dist A) (a : A) : R := prob d (fun b => eqb a b).
Lemma mass_cons w b d a : mass ((w, b) :: d) a = w * indicator (eqb a b) + mass d a.
Proof. reflexivity. Qed.
Lemma sum_at (L : list A) b c F : NoDup L -> In b L -> sumR (map (fun a => c * indicator (eqb a b) * F a) L) = c * F b.
Proof.
  induction L as [|a L IH]; intros N I; [destruct I|]. inversion N as [|? ? Na NL]; subst. cbn [map]. rewrite sumR_cons.
  destruct (eqb a b) eqn:E.
  - apply eqb_eq in E. subst a. cbn [indicator].
    assert (Z0 : sumR (map (fun a => c * indicator (eqb a b) * F a) L) = 0).
    { clear -Na. induction L as [|a L IH]; [reflexivity|]. cbn [map]. rewrite sumR_cons, IH by (intro; apply Na; right; assumption).
      destruct (eqb a b) eqn:E; [apply eqb_eq in E; subst; exfalso; apply Na; left; reflexivity|]. cbn. ring. }
    rewrite Z0. ring.
  - destruct I as [I|I]; [subst; rewrite eqb_refl in E; discriminate|]. rewrite IH by assumption. cbn. ring.
Qed.
Lemma sumR_add {B} (f g : B -> R) l : sumR (map (fun x => f x + g x) l) = sumR (map f l) + sumR (map g l).
Proof. induction l as [|x l IH]; [cbn; ring|]. cbn [map]. rewrite !sumR_cons, IH. ring. Qed.
Lemma mixture_mass (L : list A) (d : dist A) F : NoDup L -> incl (map snd d) L ->
  mixture d F = sumR (map (fun a => mass d a * F a) L).
Proof.
  intros N. induction d as [|[w b] d IH]; intro I.
  - rewrite mixture_nil. clear. induction L as [|a L IH]; [reflexivity|]. cbn [map]. rewrite sumR_cons, <- IH.
    unfold mass, prob. rewrite mixture_nil. ring.
  - rewrite mixture_cons, IH by (intros x X; apply I; right; exact X).
    rewrite <- (sum_at L b w F N) by (apply I; left; reflexivity). rewrite <- sumR_add. f_equal. apply map_ext. intro a.
    rewrite mass_cons. ring.
Qed.
Lemma below_events eps delta (d d' : dist A) :
  (forall E, prob d E <= exp eps * prob d' E + delta) -> below eps delta d d'.
Proof.
  intros D F HF. pose (L := distinct (map snd d ++ map snd d')).
  assert (N : NoDup L) by apply NoDup_distinct.
  assert (I : incl (map snd d) L) by (intros x X; apply in_distinct; apply in_or_app; auto).
  assert (I' : incl (map snd d') L) by (intros x X; apply in_distinct; apply in_or_app; auto).
  pose (E := fun a => if Rlt_dec (exp eps * mass d' a) (mass d a) then true else false).
  specialize (D E). unfold prob in D.
  rewrite (mixture_mass L d _ N I), (mixture_mass L d' _ N I') in D.
  rewrite (mixture_mass L d _ N I), (mixture_mass L d' _ N I').
  rewrite <- sumR_scale in *.
  assert (S : sumR (map (fun a => mass d a * F a + - (1) * (exp eps * (mass d' a * F a))) L) <=
              sumR (map (fun a => mass d a * indicator (E a) + - (1) * (exp eps * (mass d' a * indicator (E a)))) L)).
  { apply sumR_le. intros a _. unfold E. specialize (HF a).
    apply Rle_trans with ((mass d a - exp eps * mass d' a) * F a); [lra|].
    destruct (Rlt_dec (exp eps * mass d' a) (mass d a)) as [X|X]; cbn [indicator].
    - apply Rle_trans with ((mass d a - exp eps * mass d' a) * 1); [apply Rmult_le_compat_l; lra | lra].
    - assert (0 <= (exp eps * mass d' a - mass d a) * F a) by (apply Rmult_le_pos; lra). lra. }
  rewrite !sumR_add, !sumR_scale in S. rewrite !sumR_scale in *. lra.
Qed.
End Events.

(** ** Independent groups of draws *)
Fixpoint stacked {B} (ds : list (dist (list B))) : dist (list B) :=
  match ds with
  | [] => dret []
  | d :: ds' => dbind d (fun ys => dbind (stacked ds') (fun zs => dret (ys ++ zs)))
  end.
Lemma mixture_stacked_cons {B} (d : dist (list B)) ds F :
  mixture (stacked (d :: ds)) F = mixture d (fun ys => mixture (stacked ds) (fun zs => F (ys ++ zs))).
Proof.
  cbn [stacked]. rewrite mixture_bind. apply mixture_ext. intro ys. rewrite mixture_bind. apply mixture_ext. intro zs.
  apply mixture_ret.
Qed.
Lemma stacked_dist {B} (ds : list (dist (list B))) : Forall is_dist ds -> is_dist (stacked ds).
Proof.
  induction 1 as [|d ds D _ IH]; cbn [stacked]; [apply is_dist_ret|]. apply is_dist_bind; [exact D|]. intro ys.
  apply is_dist_bind; [exact IH|]. intro. apply is_dist_ret.
Qed.
Lemma mixture_independent_concat {A B} (f : A -> dist B) groups F :
  mixture (independent f (concat groups)) F = mixture (stacked (map (independent f) groups)) F.
Proof.
  revert F. induction groups as [|g gs IH]; intro F; [reflexivity|]. cbn [concat map].
  rewrite mixture_independent_app, mixture_stacked_cons. apply mixture_ext. intro ys. apply IH.
Qed.

(** Two lists of groups, each pair within its own budget. *)
Lemma below_stacked {B} (es ds : list R) (xs xs' : list (dist (list B))) :
  Forall (fun x => 0 <= x) ds -> length es = length xs -> length ds = length xs -> length xs' = length xs ->
  Forall is_dist xs -> Forall is_dist xs' ->
  Forall (fun t => below (fst (fst t)) (snd (fst t)) (fst (snd t)) (snd (snd t))) (combine (combine es ds) (combine xs xs')) ->
  below (sumR es) (sumR ds) (stacked xs) (stacked xs').
Proof.
  revert es ds xs'. induction xs as [|x xs IH]; intros [|e es] [|d ds] [|x' xs'] Pd L1 L2 L3 D D' C; try discriminate.
  - apply below_same.
  - cbn [combine] in C. inversion C as [|? ? C1 C2]; subst. cbn [fst snd] in C1.
    inversion D; subst. inversion D'; subst. inversion Pd; subst.
    rewrite !sumR_cons. cbn [stacked]. apply below_bind; try assumption.
    + clear -H6. induction H6 as [|y ds Hy F IH]; [cbn; lra|]. rewrite sumR_cons. lra.
    + intro ys. apply is_dist_bind; [apply stacked_dist; assumption|]. intro. apply is_dist_ret.
    + intro ys. apply is_dist_bind; [apply stacked_dist; assumption|]. intro. apply is_dist_ret.
    + intros ys F HF. rewrite !mixture_bind. apply IH; try assumption; try (cbn in *; lia).
      intro zs. rewrite mixture_ret. apply HF.
Qed.
