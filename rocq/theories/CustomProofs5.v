(** Lemmas for C68: one call is differentially private. *)
From Coq Require Import List ZArith QArith Qreals Reals Bool PeanoNat Permutation Lia Lra.
From Verif Require Import Base BackendModel BackendSpec BackendProofs ListLemmas BounderModel BounderSpec ParamsModel SensModel BudgetModel CombinerModel
  EngineModel EngineSpec EngineProofs EngineProofs2 EngineProofs3 EngineProofs4 EngineProofs5 SelectModel SelectSpec SelectProofs SelectProofs2 SelectProofs3 SelectProps
  VectorModel ExpMechProofs LaplaceModel LaplaceSpec LaplaceProofs WrapperModel DistSpec DistProofs DpModel DpSpec DpProofs DpProofs2 DpProofs3 DpProofs4 DpProofs5
  CustomModel CustomSpec CustomProofs CustomProofs2 CustomProofs3 CustomProofs4.
Import ListNotations.
Local Open Scope R_scope.
Local Close Scope Q_scope.

Lemma sumR_nonneg {T} (f : T -> R) l : (forall t, In t l -> 0 <= f t) -> 0 <= sumR (map f l).
Proof.
  induction l as [|t l IH]; intro P; [cbn; lra|]. cbn [map]. rewrite sumR_cons. assert (0 <= f t) by (apply P; left; reflexivity).
  assert (0 <= sumR (map f l)) by (apply IH; intros; apply P; right; assumption). lra.
Qed.
Lemma both_stacked_in {B T} (eps delta : T -> R) (g g' : T -> dist (list B)) (l : list T) :
  (forall t, In t l -> 0 <= delta t) -> (forall t, In t l -> is_dist (g t)) -> (forall t, In t l -> is_dist (g' t)) ->
  (forall t, In t l -> both (eps t) (delta t) (g t) (g' t)) ->
  both (sumR (map eps l)) (sumR (map delta l)) (stacked (map g l)) (stacked (map g' l)).
Proof.
  intros P D D' Bo. induction l as [|t l IH].
  - cbn. apply both_same.
  - cbn [map stacked]. rewrite !sumR_cons. apply both_bind.
    + apply sumR_nonneg. intros; apply P; right; assumption.
    + apply D. left. reflexivity.
    + apply D'. left. reflexivity.
    + intro a. apply is_dist_bind; [|intro; apply is_dist_ret]. apply stacked_dist. apply Forall_map, Forall_forall. intros; apply D; right; assumption.
    + intro a. apply is_dist_bind; [|intro; apply is_dist_ret]. apply stacked_dist. apply Forall_map, Forall_forall. intros; apply D'; right; assumption.
    + apply Bo. left. reflexivity.
    + intro a. apply both_post. apply IH; intros; [apply P | apply D | apply D' | apply Bo]; right; assumption.
Qed.

Lemma slices_length {T} sizes : forall (l : list T), length (slices sizes l) = length sizes.
Proof. induction sizes as [|n sizes IH]; intro l; [reflexivity|]. cbn. rewrite IH. reflexivity. Qed.

Section OneQuery.
Context {U P V A B : Type} `{EqDec U} `{EqDec P} `{EqDec B} (keep : selector -> Z -> R) (cls : nat -> custom V A (dist B)).

(** The budgets of one object of a call. *)
Definition budgets_of (q : query U P V) (bs : list (Q * Q)) (a : nat) : list (Q * Q) :=
  value_for (q_objects q) (slices (map (fun a => length (object_requests cls q a)) (q_objects q)) bs) [] a.

Lemma combine_value_for {X Y} `{EqDec X} (xs : list X) (ys : list Y) d : NoDup xs -> length ys = length xs ->
  combine xs ys = map (fun x => (x, value_for xs ys d x)) xs.
Proof.
  unfold value_for. revert ys. induction xs as [|x xs IH]; intros [|y ys] N L; try discriminate; [reflexivity|]. inversion N as [|? ? Nx Nr]; subst. injection L as L.
  cbn [combine map find fst]. rewrite eqb_refl. cbn [snd]. f_equal. etransitivity; [exact (IH ys Nr L)|]. apply map_ext_in. intros x' I'.
  assert (E : eqb x x' = false). { destruct (eqb x x') eqn:E; [|reflexivity]. apply eqb_eq in E. subst. contradiction. }
  rewrite E. reflexivity.
Qed.

Lemma own_combiners_map (q : query U P V) bs : NoDup (q_objects q) ->
  own_combiners cls q bs = map (fun a => make_ready (cls a) (own_params (q_params q)) (budgets_of q bs a)) (q_objects q).
Proof.
  intro N. unfold own_combiners. rewrite (combine_value_for _ _ [] N), map_map; [reflexivity|]. rewrite slices_length, map_length. reflexivity.
Qed.

Definition count_for (q : query U P V) (kept : list ((U * P) * list V)) (k : P) : option Z :=
  if selects_privately (q_params q) (q_public q) then Some (Z.of_nat (length (groups (q_public q) kept k))) else None.
Definition law_for (q : query U P V) (bs : list (Q * Q)) (g : P -> list (list V)) (a : nat) (k : P) : dist B :=
  answer (cls a) (own_params (q_params q)) (budgets_of q bs a) (g k).

Lemma rows_shape (q : query U P V) bs : NoDup (q_objects q) -> accepted (q_params q) -> contribution_bounds_already_enforced (q_params q) = false ->
  exists kept ks,
    bound_contributions (q_params q) (custom_expects cls (q_objects q)) (q_sampling q) (fun vs => vs) (taking_part q) = Ok kept /\
    custom_result (custom_expects cls (q_objects q)) (own_combiners cls q bs) q =
      Ok (the_rows ks (count_for q kept) (law_for q bs (groups (q_public q) kept)) (q_objects q)) /\
    NoDup ks /\ (forall k, In k ks <-> groups (q_public q) kept k <> []).
Proof.
  intros N Ha Hb. destruct (custom_result_rows (custom_expects cls (q_objects q)) (own_combiners cls q bs) q Ha Hb) as [kept [rows [Ek [Er [Nr [Kr Rr]]]]]].
  exists kept, (map fst rows). split; [exact Ek|]. split; [|split; [exact Nr | exact Kr]]. rewrite Er. f_equal.
  unfold the_rows. rewrite map_map. rewrite <- (map_id rows) at 1. apply map_ext_in. intros [k [n os]] I. cbn [fst]. destruct (Rr k n os I) as [-> F].
  f_equal. f_equal. rewrite own_combiners_map in F by exact N. unfold law_for, answer. clear -F.
  induction (q_objects q) as [|a l IH] in os, F |- *; cbn [map] in F; inversion F as [|? ? ? ? [x [M ->]] F']; subst; [reflexivity|].
  cbn [map]. rewrite M. cbn [make_ready r_compute]. f_equal. apply IH. exact F'.
Qed.

(** The budgets of a call. *)
Definition call_good (q : query U P V) (bs : list (Q * Q)) : Prop :=
  (selects_privately (q_params q) (q_public q) = true -> (0 < fst (own_selection cls q bs))%Q /\ (0 <= snd (own_selection cls q bs) < 1)%Q) /\
  forall a, In a (q_objects q) -> keeps_promise (cls a) (own_params (q_params q)) (budgets_of q bs a) /\ (0 <= sumQ (map snd (budgets_of q bs a)))%Q.

Definition query_eps (q : query U P V) bs : R :=
  (if selects_privately (q_params q) (q_public q) then Q2R (fst (own_selection cls q bs)) else 0) +
  sumR (map (fun a => Q2R (sumQ (map fst (budgets_of q bs a)))) (q_objects q)).
Definition query_delta (q : query U P V) bs : R :=
  (if selects_privately (q_params q) (q_public q) then Q2R (snd (own_selection cls q bs)) else 0) +
  sumR (map (fun a => Q2R (sumQ (map snd (budgets_of q bs a)))) (q_objects q)).

Lemma selects_public (q : query U P V) keys : valid_query keys q ->
  selects_privately (q_params q) (q_public q) = match q_public q with None => true | Some _ => false end.
Proof.
  intros [_ [Ha [[Em _] [Hc [_ [_ [_ [_ Hk]]]]]]]]. unfold selects_privately. destruct (q_public q); [reflexivity|]. destruct Hk as [Pf _]. rewrite Pf.
  destruct (post_aggregation_thresholding (q_params q)) eqn:Tp; [|reflexivity]. exfalso.
  unfold check_aggregate_params, raise_if in Hc. rewrite Em, Tp in Hc. cbn in Hc.
  destruct (is_some (max_contributions (q_params q))); destruct (contribution_bounds_already_enforced (q_params q)); cbn in Hc; discriminate.
Qed.

Lemma is_dist_some {T} (d : dist T) : is_dist d -> exists t : T, True.
Proof. intros [_ S]. destruct d as [|[w t] d]; [cbn in S; lra | exists t; exact I]. Qed.

Lemma nonempty_groups (public : option (list P)) (kept : list ((U * P) * list V)) k : (match public with Some pub => In k pub | None => False end) -> groups public kept k <> [].
Proof.
  destruct public as [pub|]; [|intros []]. intros I E. unfold groups in E. apply app_eq_nil in E. destruct E as [_ E]. apply map_eq_nil in E.
  assert (J : In k (filter (fun k' => eqb k' k) pub)) by (apply filter_In; split; [exact I | apply eqb_refl]). rewrite E in J. destruct J.
Qed.
Lemma answer_dist (c : custom V A (dist B)) p bs gs : (forall a, is_dist (cu_compute c p bs a)) -> gs <> [] -> is_dist (answer c p bs gs).
Proof. intros D Ne. unfold answer, merged. destruct gs as [|g gs]; [contradiction|]. cbn [map]. apply D. Qed.

Lemma coin_dist w : 0 <= w <= 1 -> is_dist [(w, true); (1 - w, false)].
Proof. intros [L1 L2]. split; [constructor; [cbn; lra|]; constructor; [cbn; lra | constructor] | cbn; lra]. Qed.
Lemma independent_dist {X Y} (f : X -> dist Y) xs : (forall x, In x xs -> is_dist (f x)) -> is_dist (independent f xs).
Proof.
  induction xs as [|x xs IH]; intro D; cbn [independent]; [apply is_dist_ret|]. apply is_dist_bind; [apply D; left; reflexivity|].
  intro y. apply is_dist_bind; [apply IH; intros; apply D; right; assumption|]. intro. apply is_dist_ret.
Qed.

Lemma groups_count public (kept : list ((U * P) * list V)) k : public = None -> length (groups public kept k) = nk k (map fst kept).
Proof. intros ->. unfold groups, nk. rewrite app_nil_r, map_length, !filter_map, !map_length. reflexivity. Qed.

Lemma query_both (q : query U P V) keys bs u : pydp_contract keep -> NoDup (q_objects q) -> valid_query keys q -> call_good q bs ->
  let out q := custom_result (custom_expects cls (q_objects q)) (own_combiners cls q bs) q in
  let law q := draw keep (q_params q) (own_selection cls q bs) keys (out q) in
  is_dist (law q) /\ is_dist (law (drop_unit u q)) /\ both (query_eps q bs) (query_delta q bs) (law q) (law (drop_unit u q)).
Proof.
  intros Kp No Vq [Gs Go]. cbv zeta.
  assert (Vq0 := Vq). destruct Vq as [Ob [Ha [Em [Hc [Hb [Hv [Hp [Nk Hk]]]]]]]].
  destruct (rows_shape q bs No Ha Hb) as [kept [ks [Ek [Er [Nks Iks]]]]].
  destruct (rows_shape (drop_unit u q) bs No Ha Hb) as [kept' [ks' [Ek' [Er' [Nks' Iks']]]]].
  assert (E' := bound_drop_unit u q _ _ Ek). cbn [drop_unit q_objects] in Ek'. rewrite E' in Ek'. injection Ek' as <-. clear E'.
  change (own_selection cls (drop_unit u q) bs) with (own_selection cls q bs). change (q_params (drop_unit u q)) with (q_params q).
  rewrite Er, Er'. clear Er Er'.
  change (q_public (drop_unit u q)) with (q_public q) in *. change (q_objects (drop_unit u q)) with (q_objects q) in *.
  change (count_for (drop_unit u q)) with (count_for q). change (law_for (drop_unit u q)) with (law_for q).
  set (n := count_for q kept). set (n' := count_for q (but_unit u kept)). set (g := groups (q_public q) kept) in *. set (g' := groups (q_public q) (but_unit u kept)) in *.
  set (b := own_selection cls q bs) in *. set (objs := q_objects q) in *. set (p := q_params q) in *.
  destruct (kept_unit_bounded q keys _ kept Vq0 Ek) as [Nkept Ub].
  assert (Sp := selects_public q keys Vq0). fold p in Sp.
  assert (Gsub : forall k, g' k <> [] -> g k <> []).
  { intros k Ne. assert (O := groups_but_unit u k (q_public q) kept Nkept). fold g g' in O. unfold one_less in O. destruct (group_of u k kept).
    - destruct O as [xs [ys [-> _]]]. destruct xs; discriminate.
    - rewrite <- O. exact Ne. }
  (* partitions are among the keys *)
  assert (Gin : forall k, g k <> [] -> In k keys).
  { intros k Ne. unfold g, groups in Ne.
    destruct (kept_keys _ _ _ _ _ Hv Ek) as [_ Ik].
    assert (Ck : filter (fun e => eqb (snd (fst e)) k) kept <> [] -> exists r, In r (taking_part q) /\ snd (fst r) = k).
    { intro F. destruct (filter (fun e => eqb (snd (fst e)) k) kept) as [|e l] eqn:Ef; [contradiction|].
      assert (Ie : In e (filter (fun e => eqb (snd (fst e)) k) kept)) by (rewrite Ef; left; reflexivity). apply filter_In in Ie. destruct Ie as [Ie Ee]. apply eqb_eq in Ee.
      assert (J : In (fst e) (map fst (taking_part q))) by (apply Ik; apply in_map; exact Ie). apply in_map_iff in J. destruct J as [r [Er J]]. exists r. rewrite Er. auto. }
    unfold taking_part in Ck. fold p in Ck. destruct (q_public q) as [pub|].
    - destruct Hk as [Hk1 Hk2]. apply Hk1. destruct (filter (fun k' => eqb k' k) pub) as [|k2 l] eqn:Ef.
      + cbn [map] in Ne. rewrite app_nil_r in Ne. destruct Ck as [r [Ir Er]]; [intro X; rewrite X in Ne; apply Ne; reflexivity|].
        fold p in Hk2. destruct (public_partitions_already_filtered p).
        * apply (Hk2 eq_refl). apply in_map_iff. exists r. auto.
        * apply filter_In in Ir. destruct Ir as [_ Ir]. rewrite Er in Ir. apply mem_true_iff. exact Ir.
      + assert (Ie : In k2 (filter (fun k' => eqb k' k) pub)) by (rewrite Ef; left; reflexivity). apply filter_In in Ie. destruct Ie as [Ie Ee]. apply eqb_eq in Ee. subst. exact Ie.
    - destruct Hk as [_ [_ Hk]]. rewrite app_nil_r in Ne. destruct Ck as [r [Ir Er]]; [intro X; rewrite X in Ne; apply Ne; reflexivity|].
      apply Hk. apply in_map_iff. exists r. auto. }
  assert (Iks1 : incl ks keys) by (intros k Ik; apply Gin; apply Iks; exact Ik).
  assert (Iks2 : incl ks' ks) by (intros k Ik; apply Iks; apply Gsub; apply Iks'; exact Ik).
  (* selection *)
  assert (Sel : (exists l0, selects_privately p (q_public q) = true /\ q_public q = None /\ max_contributions p = None /\ max_partitions_contributed p = Some l0 /\
                   private_strategy (keep (aggregate_selector p (fst b) (snd b))) l0 (Q2R (fst b)) (Q2R (snd b))) \/
                (selects_privately p (q_public q) = false /\ forall k, In k keys -> g' k <> [])).
  { destruct (q_public q) as [pub|] eqn:Ep.
    - right. split; [exact Sp|]. intros k Ik. unfold g'. apply nonempty_groups. apply (proj1 Hk). exact Ik.
    - left. destruct Hk as [_ [Hm _]]. fold p in Hm. destruct (accepted_facts _ Ha) as [_ [_ [_ Hl]]]. fold p in Hl. rewrite Hm in Hl. destruct Hl as [l0 [linf [E0 [E1 [P0 P1]]]]].
      exists l0. split; [exact Sp|]. split; [reflexivity|]. split; [exact Hm|]. split; [exact E0|]. destruct (Gs Sp) as [He Hd].
      exact (Kp (aggregate_selector p (fst b) (snd b)) l0 E0 P0 He Hd (known_strategy _) (fun t Et => accepted_pre_threshold _ t Ha Et)). }
  assert (Fd : forall m : P -> list (list V), forall k, is_dist (flip keep p b (if selects_privately p (q_public q) then Some (Z.of_nat (length (m k))) else None))).
  { intros m k. destruct Sel as [[l0 [-> [_ [_ [_ [K1 _]]]]]]|[-> _]]; [|apply is_dist_ret]. cbn [flip]. apply coin_dist. apply K1. }
  assert (Dn : forall k, is_dist (flip keep p b (n k))) by (intro k; apply (Fd g)).
  assert (Dn' : forall k, is_dist (flip keep p b (n' k))) by (intro k; apply (Fd g')).
  assert (Wd : forall a gs, In a objs -> gs <> [] -> is_dist (answer (cls a) (own_params p) (budgets_of q bs a) gs)).
  { intros a gs Ia Ne. apply answer_dist; [|exact Ne]. apply (Go a Ia). }
  assert (Dl : forall t k, In t objs -> In k ks -> is_dist (law_for q bs g t k)) by (intros t k It Ik; apply Wd; [exact It | apply Iks; exact Ik]).
  assert (Dl' : forall t k, In t objs -> In k ks' -> is_dist (law_for q bs g' t k)) by (intros t k It Ik; apply Wd; [exact It | apply Iks'; exact Ik]).
  (* an inhabitant *)
  assert (Ib : exists b0 : B, True).
  { destruct objs as [|a l] eqn:Eo; [contradiction|]. destruct (Go a (or_introl eq_refl)) as [[D _] _].
    apply (is_dist_some _ (D (cu_create (cls a) (own_params p) []))). }
  destruct Ib as [b0 _].
  set (rest := rest_of u (q_public q) kept).
  assert (Rne : forall k, In k ks -> rest k <> []).
  { intros k Ik. unfold rest, rest_of. fold g g'. destruct (g' k) eqn:Eg; [apply Iks; exact Ik | discriminate]. }
  pose (stage2 := fun (m : P -> list (list V)) bits => dbind (stacked (map (fun t => independent (law_for q bs m t) (chosen_keys keys ks bits)) objs))
                     (fun l => dret (Ok (view keys objs b0 (chosen_keys keys ks bits) l, [])) : dist (seen_outcome P B))).
  assert (C1 : forall F, mixture (draw keep p b keys (Ok (the_rows ks n (law_for q bs g) objs))) F =
                         mixture (dbind (independent (fun k => flip keep p b (n k)) keys) (stage2 g)) F).
  { intro F. rewrite (draw_canonical keep p b keys ks n (law_for q bs g) objs b0 F Nk Nks Iks1 No) by auto. rewrite mixture_bind. apply mixture_ext. intro bits.
    unfold stage2. rewrite mixture_bind. apply mixture_ext. intro l. rewrite mixture_ret. reflexivity. }
  assert (C2 : forall F, mixture (draw keep p b keys (Ok (the_rows ks' n' (law_for q bs g') objs))) F =
                         mixture (dbind (independent (fun k => flip keep p b (n' k)) keys) (stage2 rest)) F).
  { intro F. rewrite (draw_canonical keep p b keys ks' n' (law_for q bs g') objs b0 F Nk Nks' (fun k Ik => Iks1 k (Iks2 k Ik)) No) by auto. rewrite mixture_bind.
    apply (mixture_independent_support _ (fun k bit => bit = true -> In k ks')).
    - intros k w bit Ik Iw. destruct bit; [|right; discriminate]. destruct (mem k ks') eqn:Mk; [right; intros _; apply mem_true_iff; exact Mk|]. left.
      apply mem_false_iff in Mk. assert (Gk : g' k = []). { destruct (g' k) eqn:X; [reflexivity|]. exfalso. apply Mk. apply Iks'. rewrite X. discriminate. }
      destruct Sel as [[l0 [Es [_ [_ [_ [_ [K2 _]]]]]]]|[Es Hne]]; [|exfalso; apply (Hne k Ik); exact Gk].
      unfold n', count_for in Iw. fold p in Iw. rewrite Es in Iw. fold g' in Iw. rewrite Gk in Iw. cbn [flip length] in Iw. destruct Iw as [X|[X|[]]]; [|discriminate].
      injection X as <-. apply K2. cbn. lia.
    - intros bits F2. unfold stage2. rewrite mixture_bind.
      assert (Ec : chosen_keys keys ks' bits = chosen_keys keys ks bits).
      { unfold chosen_keys. apply filter_ext_In. intros k Ik. destruct (value_for keys bits false k) eqn:Vb; [|rewrite !andb_false_r; reflexivity]. rewrite !andb_true_r.
        assert (In k ks').
        { clear -F2 Vb. unfold value_for in Vb. induction F2 as [|k1 bit l l' R1 F2 IH]; [discriminate|]. cbn [combine find fst] in Vb.
          destruct (eqb k1 k) eqn:E; [apply eqb_eq in E; subst; apply R1; exact Vb | apply IH; exact Vb]. }
        transitivity true; [|symmetry]; apply mem_true_iff; auto. }
      rewrite Ec. assert (Ech : forall k, In k (chosen_keys keys ks bits) -> In k ks').
      { intros k Ik. rewrite <- Ec in Ik. unfold chosen_keys in Ik. apply filter_In in Ik. destruct Ik as [_ Ik]. apply andb_true_iff in Ik. apply mem_true_iff. apply Ik. }
      assert (Es : map (fun t => independent (law_for q bs g' t) (chosen_keys keys ks bits)) objs = map (fun t => independent (law_for q bs rest t) (chosen_keys keys ks bits)) objs).
      { apply map_ext. intro t. clear -Ech Iks' g. induction (chosen_keys keys ks bits) as [|k l IH]; [reflexivity|]. cbn [independent].
        rewrite IH by (intros; apply Ech; right; assumption). f_equal. unfold law_for. f_equal. unfold rest, rest_of. fold g g'.
        assert (Ne : g' k <> []) by (apply Iks'; apply Ech; left; reflexivity). destruct (g' k); [contradiction | reflexivity]. }
      rewrite Es. apply mixture_ext. intro l. rewrite mixture_ret. reflexivity. }
  assert (Ch : forall bits k, In k (chosen_keys keys ks bits) -> In k ks).
  { intros bits k Ik. unfold chosen_keys in Ik. apply filter_In in Ik. destruct Ik as [_ Ik]. apply andb_true_iff in Ik. apply mem_true_iff. apply Ik. }
  assert (S1 : forall m, (forall k, In k ks -> m k <> []) -> forall bits t, In t objs -> is_dist (independent (law_for q bs m t) (chosen_keys keys ks bits))).
  { intros m Hm bits t It. apply independent_dist. intros k Ik. apply Wd; [exact It|]. apply Hm. apply (Ch bits). exact Ik. }
  assert (S2 : forall m, (forall k, In k ks -> m k <> []) -> forall bits, is_dist (stage2 m bits)).
  { intros m Hm bits. unfold stage2. apply is_dist_bind; [|intro; apply is_dist_ret]. apply stacked_dist. apply Forall_map, Forall_forall. intros t It. apply S1; assumption. }
  assert (Gne : forall k, In k ks -> g k <> []) by (intros k Ik; apply Iks; exact Ik).
  assert (T1 : is_dist (dbind (independent (fun k => flip keep p b (n k)) keys) (stage2 g))).
  { apply is_dist_bind; [apply independent_dist; auto | apply S2; exact Gne]. }
  assert (T2 : is_dist (dbind (independent (fun k => flip keep p b (n' k)) keys) (stage2 rest))).
  { apply is_dist_bind; [apply independent_dist; auto | apply S2; exact Rne]. }
  assert (Draw : forall rr, (forall r, In r rr -> is_dist (flip keep p b (fst (snd r))) /\ Forall is_dist (snd (snd r))) -> is_dist (draw keep p b keys (Ok rr) : dist (seen_outcome P B))).
  { intros rr Hr. unfold draw. apply is_dist_bind; [apply independent_dist; intros r Ir; apply (Hr r Ir)|]. intro bits. cbv zeta.
    apply is_dist_bind; [|intro; apply is_dist_ret]. apply independent_dist. intros r Ir.
    assert (Ir' : In r rr). { apply in_map_iff in Ir. destruct Ir as [[r1 bit] [<- Ir]]. apply filter_In in Ir. destruct Ir as [Ir _]. apply in_combine_l in Ir. exact Ir. }
    apply independent_dist. intros d Id. destruct (Hr r Ir') as [_ F]. rewrite Forall_forall in F. apply F. exact Id. }
  split; [|split].
  - apply Draw. intros r Ir. unfold the_rows in Ir. apply in_map_iff in Ir. destruct Ir as [k [<- Ik]]. cbn [fst snd]. split; [apply Dn|].
    apply Forall_map, Forall_forall. intros t It. apply Dl; assumption.
  - apply Draw. intros r Ir. unfold the_rows in Ir. apply in_map_iff in Ir. destruct Ir as [k [<- Ik]]. cbn [fst snd]. split; [apply Dn'|].
    apply Forall_map, Forall_forall. intros t It. apply Dl'; assumption.
  - eapply both_ext; [exact C1 | exact C2|]. unfold query_eps, query_delta. fold p b objs. apply both_bind.
    + apply sumR_nonneg. intros a Ia. destruct (Go a Ia) as [_ Ge]. apply Qle_Rle in Ge. rewrite RMicromega.Q2R_0 in Ge. exact Ge.
    + apply independent_dist. auto.
    + apply independent_dist. auto.
    + apply S2. exact Gne.
    + apply S2. exact Rne.
    + destruct Sel as [[l0 [Es [Ep [Hm [E0 [K1 [K2 K3]]]]]]]|[Es _]].
      * rewrite Es. unfold n, n', count_for. fold p g g'. rewrite Es. cbn [flip].
        apply both_events. intro Ev.
        assert (Pr : forall m : P -> list (list V), prob (independent (fun k => [(keep (aggregate_selector p (fst b) (snd b)) (Z.of_nat (length (m k))), true);
               (1 - keep (aggregate_selector p (fst b) (snd b)) (Z.of_nat (length (m k))), false)]) keys) Ev =
             SelectSpec.kept (keep (aggregate_selector p (fst b) (snd b))) (map (fun k => Z.of_nat (length (m k))) keys) Ev).
        { intro m. rewrite <- kept_prob. unfold prob. rewrite mixture_independent_map. reflexivity. }
        rewrite !Pr. apply K3. apply neighbouring_counts.
        -- intro k. lia.
        -- intro k. unfold g, g'. rewrite !groups_count by exact Ep. unfold but_unit.
           assert (W := nk_without u k (map fst kept)). assert (O := nk_one u k (map fst kept) Nkept). rewrite filter_map in W at 1. lia.
        -- assert (Cg := nk_changed u keys (map fst kept) Nk).
           assert (X1 : filter (fun x : U * P => negb (eqb (fst x) u)) (map fst kept) = map fst (but_unit u kept)) by (unfold but_unit; rewrite filter_map; reflexivity).
           assert (X2 : length (filter (fun x : U * P => eqb (fst x) u) (map fst kept)) = length (kept_of u kept)) by (rewrite filter_map, map_length; reflexivity).
           rewrite X1, X2 in Cg.
           assert (Ul := Ub u). unfold unit_bounded in Ul. fold p in Ul. rewrite Hm in Ul. destruct Ul as [Ul _]. specialize (Ul l0 E0). rewrite map_length in Ul.
           rewrite (filter_ext _ (fun k => negb (Nat.eqb (nk k (map fst kept)) (nk k (map fst (but_unit u kept)))))).
           ++ lia.
           ++ intro k. unfold g, g'. rewrite !groups_count by exact Ep. f_equal. apply eq_true_iff_eq. rewrite Z.eqb_eq, Nat.eqb_eq. lia.
      * rewrite Es. unfold n, n', count_for. fold p. rewrite Es. apply both_same.
    + intro bits. unfold stage2. apply both_post. apply (both_stacked_in (fun a => Q2R (sumQ (map fst (budgets_of q bs a)))) (fun a => Q2R (sumQ (map snd (budgets_of q bs a))))).
      * intros a Ia. destruct (Go a Ia) as [_ Ge]. apply Qle_Rle in Ge. rewrite RMicromega.Q2R_0 in Ge. exact Ge.
      * intros a Ia. apply S1; assumption.
      * intros a Ia. apply S1; assumption.
      * intros a Ia. apply both_events. intro Ev. destruct (Go a Ia) as [[_ Pm] _].
        assert (Nc : NoDup (chosen_keys keys ks bits)) by (apply NoDup_filter; exact Nk).
        assert (R := neighbouring_groups u (q_public q) kept (chosen_keys keys ks bits) p (custom_expects cls objs) (cu_expects_sampling (cls a)) Nkept Nc (Ub u)).
        assert (Rm : forall m : P -> list (list V), prob (independent (law_for q bs m a) (chosen_keys keys ks bits)) Ev =
                   prob (independent (answer (cls a) (own_params p) (budgets_of q bs a)) (map m (chosen_keys keys ks bits))) Ev).
        { intro m. unfold prob. rewrite mixture_independent_map. reflexivity. }
        rewrite !Rm. apply Pm. apply R.
        -- intro Ex. unfold custom_expects. apply existsb_exists. exists a. auto.
        -- intros k Ik. apply Gne. apply (Ch bits). exact Ik.
Qed.
End OneQuery.
