(** Lemmas for C68: the random program, combiner by combiner. *)
From Coq Require Import List ZArith QArith Qreals Reals Bool PeanoNat Lia Lra.
From Verif Require Import Base BackendModel ListLemmas ParamsModel BudgetModel CombinerModel EngineModel EngineSpec SelectModel SelectSpec VectorModel LaplaceSpec
  DistSpec DistProofs DpSpec CustomModel CustomSpec CustomProofs.
Import ListNotations.
Local Open Scope R_scope.

(** The value of a list [l] at the position of [x] in [xs]. *)
Definition value_for {X Y} `{EqDec X} (xs : list X) (l : list Y) (default : Y) (x : X) : Y :=
  match find (fun e => eqb (fst e) x) (combine xs l) with Some e => snd e | None => default end.
Lemma value_for_map {X Y} `{EqDec X} (xs : list X) (f : X -> Y) d x : In x xs -> value_for xs (map f xs) d x = f x.
Proof.
  unfold value_for. induction xs as [|y xs IH]; intro I; [destruct I|]. cbn [map combine find fst].
  destruct (eqb y x) eqn:E; [apply eqb_eq in E; subst; reflexivity|]. apply IH. destruct I as [->|I]; [|exact I]. rewrite eqb_refl in E. discriminate.
Qed.

(** Draws at distinct points [xs], seen through the points [ys]. *)
Lemma redraw_at {X Y} `{EqDec X} (f : X -> dist Y) d xs ys F : NoDup xs -> NoDup ys -> incl ys xs -> (forall x, In x xs -> is_dist (f x)) ->
  mixture (independent f ys) F = mixture (independent f xs) (fun l => F (map (value_for xs l d) ys)).
Proof.
  intros Nx Ny I D. rewrite <- (random_values f d ys xs F Ny I D).
  rewrite <- (random_values f d xs xs (fun l => F (map (value_for xs l d) ys)) Nx (incl_refl _) D).
  apply mixture_ext. intro g. f_equal. apply map_ext_in. intros y Iy. rewrite value_for_map; [reflexivity | apply I; exact Iy].
Qed.

Lemma slices_app_repeat {Y} n m : forall (x l : list Y), length x = n -> slices (repeat n (S m)) (x ++ l) = x :: slices (repeat n m) l.
Proof.
  intros x l L. cbn [repeat slices]. rewrite firstn_app, L, Nat.sub_diag, firstn_all2, firstn_O, app_nil_r by lia.
  rewrite skipn_app, L, Nat.sub_diag, skipn_all2 by lia. reflexivity.
Qed.
Lemma independent_lengths {X Y} (f : X -> dist Y) xs w l : In (w, l) (independent f xs) -> length l = length xs.
Proof.
  revert w l. induction xs as [|x xs IH]; intros w l I; cbn [independent] in I.
  - destruct I as [I|[]]. injection I as _ <-. reflexivity.
  - unfold dbind in I. apply in_flat_map in I. destruct I as [[w1 y] [_ I]]. apply in_map_iff in I. destruct I as [[w2 l2] [E2 I]]. injection E2 as _ <-.
    apply in_flat_map in I. destruct I as [[w3 l3] [I3 I]]. apply in_map_iff in I. destruct I as [[w4 l4] [E4 I]]. injection E4 as _ <-.
    destruct I as [I|[]]. injection I as _ <-. cbn [snd fst length] in *. f_equal. apply (IH w3 l3 I3).
Qed.

(** Draws in rows. *)
Lemma rows_flat {K T Y} (f : K * T -> dist Y) (ts : list T) (ks : list K) : forall G,
  mixture (independent (fun k => independent (fun t => f (k, t)) ts) ks) G =
  mixture (independent f (flat_map (fun k => map (pair k) ts) ks)) (fun l => G (slices (repeat (length ts) (length ks)) l)).
Proof.
  induction ks as [|k ks IH]; intro G.
  - cbn [independent flat_map length]. rewrite !mixture_ret. reflexivity.
  - cbn [flat_map]. rewrite mixture_independent_cons, mixture_independent_app, mixture_independent_map.
    apply mixture_ext_in. intros w ys I. right. apply independent_lengths in I. rewrite IH. apply mixture_ext. intro l. f_equal.
    cbn [length]. rewrite slices_app_repeat by exact I. reflexivity.
Qed.
Lemma slices_map {K T Y} (g : K * T -> Y) (ts : list T) (ks : list K) :
  slices (repeat (length ts) (length ks)) (map g (flat_map (fun k => map (pair k) ts) ks)) = map (fun k => map (fun t => g (k, t)) ts) ks.
Proof.
  induction ks as [|k ks IH]; [reflexivity|]. cbn [flat_map length map]. rewrite map_app, slices_app_repeat by (rewrite !map_length; reflexivity).
  rewrite IH, map_map. reflexivity.
Qed.

Lemma NoDup_pairs {K T} (ks : list K) (ts : list T) : NoDup ks -> NoDup ts -> NoDup (flat_map (fun k => map (pair k) ts) ks).
Proof.
  intros N Nt. induction ks as [|k ks IH]; [constructor|]. inversion N as [|? ? Nx Nr]; subst. cbn [flat_map]. apply NoDup_app_iff. split; [|split].
  - clear -Nt. induction Nt as [|t ts X _ IH]; cbn [map]; constructor; [|exact IH]. intro I. apply in_map_iff in I. destruct I as [t' [E I]]. injection E as ->. contradiction.
  - apply IH. exact Nr.
  - intros [k' t] I1 I2. apply in_map_iff in I1. destruct I1 as [t' [E _]]. injection E as -> _. apply in_flat_map in I2. destruct I2 as [k2 [I2 I3]].
    apply in_map_iff in I3. destruct I3 as [? [E3 _]]. injection E3 as -> _. contradiction.
Qed.
Lemma NoDup_pairs_swapped {K T} (ks : list K) (ts : list T) : NoDup ks -> NoDup ts -> NoDup (concat (map (fun t => map (fun k => (k, t)) ks) ts)).
Proof.
  intros N Nt. induction ts as [|t ts IH]; [constructor|]. inversion Nt as [|? ? Nx Nr]; subst. cbn [map concat]. apply NoDup_app_iff. split; [|split].
  - clear -N. induction N as [|k ks X _ IH]; cbn [map]; constructor; [|exact IH]. intro I. apply in_map_iff in I. destruct I as [k' [E I]]. injection E as ->. contradiction.
  - apply IH. exact Nr.
  - intros [k t'] I1 I2. apply in_map_iff in I1. destruct I1 as [k' [E _]]. injection E as _ <-. apply in_concat in I2. destruct I2 as [l [I2 I3]].
    apply in_map_iff in I2. destruct I2 as [t2 [<- I2]]. apply in_map_iff in I3. destruct I3 as [? [E3 _]]. injection E3 as _ ->. contradiction.
Qed.
Lemma in_pairs_swapped {K T} (ks : list K) (ts : list T) k t : In (k, t) (concat (map (fun t => map (fun k => (k, t)) ks) ts)) <-> In k ks /\ In t ts.
Proof.
  split.
  - intro I. apply in_concat in I. destruct I as [l [I2 I3]]. apply in_map_iff in I2. destruct I2 as [t2 [<- I2]]. apply in_map_iff in I3.
    destruct I3 as [k2 [E3 I3]]. injection E3 as -> ->. auto.
  - intros [I1 I2]. apply in_concat. exists (map (fun k => (k, t)) ks). split; [apply in_map_iff; exists t; auto | apply in_map_iff; exists k; auto].
Qed.

Section Canonical.
Context {P B : Type} `{EqDec P} (keep : selector -> Z -> R) (p : params) (b : Q * Q).
Variables (K ks : list P) (n : P -> option Z) (law : nat -> P -> dist B) (ts : list nat) (b0 : B).

Definition the_rows : list (P * (option Z * list (dist B))) := map (fun k => (k, (n k, map (fun t => law t k) ts))) ks.
Definition chosen_keys (bits : list bool) : list P := filter (fun k => mem k ks && value_for K bits false k) K.
Definition cells (KK : list P) : list (P * nat) := concat (map (fun t => map (fun k => (k, t)) KK) ts).
Definition view (KK : list P) (l : list B) : list (option (list B)) :=
  map (fun k => if mem k KK then Some (map (fun t => value_for (cells KK) l b0 (k, t)) ts) else None) K.

Lemma filter_bits {X} (r : P -> X) (sel : P -> bool) (l : list P) :
  map fst (filter snd (combine (map r l) (map sel l))) = map r (filter sel l).
Proof. induction l as [|k l IH]; [reflexivity|]. cbn [map combine filter snd]. destruct (sel k); cbn [map fst]; rewrite IH; reflexivity. Qed.

Lemma seen_rows {X} (kk : list P) (f : P -> X) : incl kk K ->
  seen K (map (fun k => (k, f k)) kk) = (map (fun k => if mem k kk then Some (f k) else None) K, []).
Proof.
  intro I. unfold seen. f_equal.
  - apply map_ext. intro k. clear I. induction kk as [|k' kk IH]; [reflexivity|]. cbn [map find fst mem existsb].
    unfold mem in IH |- *. cbn [existsb]. destruct (eqb k' k) eqn:E.
    + apply eqb_eq in E. subst. rewrite eqb_refl. reflexivity.
    + assert (E' : eqb k k' = false). { destruct (eqb k k') eqn:E'; [|reflexivity]. apply eqb_eq in E'. subst. rewrite eqb_refl in E. discriminate. }
      rewrite E'. exact IH.
  - rewrite map_map. cbn [fst]. rewrite map_id. induction kk as [|k kk IH]; [reflexivity|]. cbn [filter].
    assert (M : mem k K = true) by (apply mem_true_iff; apply I; left; reflexivity). rewrite M. apply IH. intros x Ix. apply I. right. exact Ix.
Qed.

Lemma draw_canonical F : NoDup K -> NoDup ks -> incl ks K -> NoDup ts ->
  (forall k, In k K -> is_dist (flip keep p b (n k))) -> (forall t k, In t ts -> In k ks -> is_dist (law t k)) ->
  mixture (draw keep p b K (Ok the_rows)) F =
  mixture (independent (fun k => flip keep p b (n k)) K) (fun bits =>
    mixture (stacked (map (fun t => independent (law t) (chosen_keys bits)) ts)) (fun l =>
      F (Ok (view (chosen_keys bits) l, [])))).
Proof.
  intros NK Nks I Nt Dn Dl. unfold draw. rewrite mixture_bind. unfold the_rows. rewrite mixture_independent_map. cbn [fst snd].
  rewrite (redraw_at (fun k => flip keep p b (n k)) false K ks) by assumption.
  apply mixture_ext. intro bits. cbv zeta. set (sel := value_for K bits false). rewrite filter_bits.
  set (kk := filter sel ks). set (KK := chosen_keys bits).
  assert (Nkk : NoDup kk) by (apply NoDup_filter; exact Nks). assert (NKK : NoDup KK) by (apply NoDup_filter; exact NK).
  assert (Same : forall k, In k kk <-> In k KK).
  { intro k. unfold kk, KK, chosen_keys. rewrite !filter_In, andb_true_iff, mem_true_iff. fold sel. split; [intros [A C]; auto | intros [_ [A C]]; auto]. }
  assert (Ikk : incl kk ks) by (intros k Ik; apply filter_In in Ik; apply Ik).
  rewrite mixture_bind, mixture_independent_map. cbn [snd]. rewrite map_map. cbn [fst]. rewrite map_id.
  pose (f := fun kt : P * nat => law (snd kt) (fst kt)).
  assert (E0 : forall G, mixture (independent (fun k => independent (fun d => d) (map (fun t => law t k) ts)) kk) G =
                     mixture (independent (fun k => independent (fun t => f (k, t)) ts) kk) G).
  { intro G. clear. revert G. induction kk as [|k kk IH]; intro G; [reflexivity|]. rewrite !mixture_independent_cons, mixture_independent_map.
    apply mixture_ext. intro y. apply IH. }
  rewrite E0, rows_flat.
  rewrite (redraw_at f b0 (cells KK)); [|apply NoDup_pairs_swapped; assumption | apply NoDup_pairs; assumption | | ].
  - unfold cells at 1. rewrite mixture_independent_concat, map_map.
    assert (E1 : forall G, mixture (stacked (map (fun t => independent f (map (fun k => (k, t)) KK)) ts)) G =
                           mixture (stacked (map (fun t => independent (law t) KK) ts)) G).
    { clear. induction ts as [|t l IH]; intro G; [reflexivity|]. cbn [map]. rewrite !mixture_stacked_cons, mixture_independent_map. apply mixture_ext. intro ys.
      apply IH. }
    rewrite E1. apply mixture_ext. intro l. rewrite mixture_ret, slices_map. f_equal. f_equal.
    assert (C : forall f0 : P -> list B, combine kk (map f0 kk) = map (fun k => (k, f0 k)) kk).
    { clear. intro f0. induction kk as [|k kk IH]; [reflexivity|]. cbn [map combine]. rewrite IH. reflexivity. }
    rewrite C. rewrite seen_rows by (intros k Ik; apply I; apply Ikk; exact Ik). f_equal. unfold view. apply map_ext. intro k.
    assert (M : mem k kk = mem k KK). { apply eq_true_iff_eq. rewrite !mem_true_iff. apply Same. }
    rewrite M. reflexivity.
  - intros [k t] It. apply in_flat_map in It. destruct It as [k' [Ik It]]. apply in_map_iff in It. destruct It as [t' [E It]]. injection E as -> ->.
    unfold cells. apply in_pairs_swapped. split; [apply Same; exact Ik | exact It].
  - intros [k t] It. unfold cells in It. apply in_pairs_swapped in It. unfold f. cbn [fst snd]. apply Dl; [apply It|]. apply Ikk. apply Same. apply It.
Qed.
End Canonical.
