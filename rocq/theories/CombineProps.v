(** C47: what CombinePerKey computes. *)
From Coq Require Import List ZArith QArith Bool Lia Permutation.
From Verif Require Import Base BaseLemmas BackendModel BackendSpec BackendProofs ListLemmas BounderModel BounderSpec ParamsModel SensModel BudgetModel CombinerModel
  EngineModel EngineSpec EngineProofs EngineProofs2 EngineProofs3 EngineProofs4 EngineProofs5 EnforcedSpec LawSpec LawProofs3 WrapperModel WrapperSpec WrapperProps.
Import ListNotations.
Local Open Scope nat_scope.

(** A PrivateCombineFn that computes [whole] of all the values, in any order. *)
Definition computes {V A O} (f : combine_fn V A O) (whole : list V -> A) : Prop :=
  cf_create f = whole [] /\
  (forall vs v, cf_add f (whole vs) v = whole (vs ++ [v])) /\
  (forall vs vs', cf_merge f [whole vs; whole vs'] = whole (vs ++ vs')) /\
  (forall vs vs', Permutation vs vs' -> whole vs = whole vs').

Section Combine.
Context {U P V A O : Type} `{EqDec U} `{EqDec P} (f : combine_fn V A O) (whole : list V -> A).

Lemma create_whole : computes f whole -> forall vs, fn_create f vs = (1%Z, whole vs).
Proof.
  intros [C [Ad _]] vs. unfold fn_create. f_equal. rewrite C.
  assert (G : forall vs l, fold_left (cf_add f) vs (whole l) = whole (l ++ vs)%list).
  { clear vs. induction vs as [|v vs IH]; intro l; [rewrite app_nil_r; reflexivity|]. cbn [fold_left]. rewrite Ad, IH, <- app_assoc. reflexivity. }
  apply (G vs []).
Qed.
Lemma merge_whole : computes f whole -> forall gs z l,
  fold_left (fn_merge f) (map (fn_create f) gs) (z, whole l) = ((z + Z.of_nat (length gs))%Z, whole (l ++ concat gs)).
Proof.
  intros C. assert (Cr := create_whole C). destruct C as [_ [_ [M _]]]. induction gs as [|g gs IH]; intros z l.
  - cbn. rewrite Z.add_0_r, app_nil_r. reflexivity.
  - cbn [map fold_left]. rewrite Cr. unfold fn_merge at 2. cbn [fst snd]. rewrite M, IH. f_equal; [cbn [length]; lia|].
    cbn [concat]. rewrite app_assoc. reflexivity.
Qed.

Definition groups_of (k : P) (kept : list ((U * P) * list V)) : list (list V) := map snd (filter (fun e => eqb (snd (fst e)) k) kept).
Lemma combined (kept : list ((U * P) * list V)) k z a : computes f whole ->
  In (k, (z, a)) (combine_per_key (fn_merge f) (map (fun e => (snd (fst e), snd e)) (map_values (fn_create f) kept))) <->
  groups_of k kept <> [] /\ z = Z.of_nat (length (groups_of k kept)) /\ a = whole (concat (groups_of k kept)).
Proof.
  intro C. rewrite in_combine_per_key.
  assert (E : values_of k (map (fun e => (snd (fst e), snd e)) (map_values (fn_create f) kept)) = map (fn_create f) (groups_of k kept)).
  { unfold values_of, groups_of, map_values. rewrite map_map, filter_map, !map_map. reflexivity. }
  rewrite E. destruct (groups_of k kept) as [|g gs]; cbn [map fold1].
  - split; [discriminate | intros [X _]; congruence].
  - rewrite (create_whole C), (merge_whole C). cbn [length concat]. replace (1 + Z.of_nat (length gs))%Z with (Z.of_nat (S (length gs))) by lia.
    split; [intro X; injection X as <- <-; repeat split; discriminate | intros [_ [-> ->]]; reflexivity].
Qed.

(** The groups of a partition are those of its privacy ids, and together they are its values. *)
Lemma groups_of_partition (rows : list (U * P * V)) kept k : Permutation kept (group_by_key rows) ->
  Permutation (concat (groups_of k kept)) (map snd (rows_in k rows)) /\ length (groups_of k kept) = length (ids_of k rows).
Proof.
  intro Pm.
  assert (N : NoDup (map fst kept)).
  { apply (Permutation_NoDup (l := map fst (group_by_key rows))); [apply Permutation_map, Permutation_sym, Pm | rewrite group_by_key_keys; apply NoDup_distinct]. }
  split.
  - assert (R : Permutation (flat_map (fun e => map (fun v => (fst e, v)) (snd e)) kept) rows).
    { eapply Permutation_trans; [apply Permutation_flat_map; exact Pm|]. apply group_by_key_ungroup. }
    assert (R2 := Permutation_map snd (filter_Permutation (fun r => eqb (snd (fst r)) k) _ _ R)).
    unfold rows_in. eapply Permutation_trans; [|exact R2]. clear. unfold groups_of.
    induction kept as [|[[u k'] g] kept IH]; [reflexivity|]. cbn [filter flat_map fst snd]. rewrite filter_app, map_app.
    assert (G : map snd (filter (fun r : U * P * V => eqb (snd (fst r)) k) (map (fun v => (u, k', v)) g)) = if eqb k' k then g else []).
    { rewrite filter_map. cbn [fst snd]. destruct (eqb k' k).
      - rewrite map_map. cbn [snd]. induction g as [|v g IHg]; [reflexivity|]. cbn. rewrite IHg. reflexivity.
      - induction g as [|v g IHg]; [reflexivity|]. cbn. exact IHg. }
    cbn [fst] in *. rewrite G. destruct (eqb k' k); cbn [map concat app]; [apply Permutation_app_head; exact IH | exact IH].
  - unfold groups_of. rewrite map_length, <- (map_length (fun e => fst (fst e))). apply Permutation_length. apply NoDup_Permutation.
    + assert (G : forall l : list ((U * P) * list V), NoDup (map fst l) -> NoDup (map (fun e => fst (fst e)) (filter (fun e => eqb (snd (fst e)) k) l))).
      { clear. induction l as [|[[u k'] g] l IH]; intro N; [constructor|]. cbn [map fst] in N. inversion N as [|? ? Ni N']; subst. cbn [filter fst snd].
        destruct (eqb k' k) eqn:B; [|apply IH; exact N']. cbn [map fst]. constructor; [|apply IH; exact N']. intro I. apply Ni.
        apply in_map_iff in I. destruct I as [[[u2 k2] g2] [E I]]. apply filter_In in I. destruct I as [I B2]. cbn [fst snd] in E, B2.
        apply eqb_eq in B. apply eqb_eq in B2. subst. apply in_map_iff. exists (u, k, g2). split; [reflexivity | exact I]. }
      apply G. exact N.
    + unfold ids_of. apply NoDup_distinct.
    + intro u. unfold ids_of. rewrite in_distinct. rewrite !in_map_iff. split.
      * intros [[[u' k'] g] [E I]]. apply filter_In in I. destruct I as [I B]. cbn [fst snd] in E, B. apply eqb_eq in B. subst.
        apply (Permutation_in _ Pm) in I. apply in_group_by_key in I. destruct I as [I _]. apply in_map_iff in I. destruct I as [[[u2 k2] v] [E I]].
        injection E as -> ->. exists (u, k, v). split; [reflexivity|]. apply filter_In. split; [exact I | apply ListLemmas.eqb_refl].
      * intros [[[u' k'] v] [E I]]. apply filter_In in I. destruct I as [I B]. cbn [fst snd] in E, B. apply eqb_eq in B. subst.
        exists ((u, k), values_of (u, k) rows). split; [reflexivity|]. apply filter_In. split; [|apply ListLemmas.eqb_refl].
        apply (Permutation_in _ (Permutation_sym Pm)). apply in_group_by_key. split; [apply in_map_iff; exists (u, k, v); auto | reflexivity].
Qed.
End Combine.

(** CombinePerKey without public partitions and with data within the bounds: every partition that
    is kept, for the number of its privacy ids, gets the function of all of its values. *)
Theorem C47_combine_computes_the_function {U P V A O} `{EqDec U} `{EqDec P} (w : world U P) (f : combine_fn V A O) whole k
    (pcol : list (U * (P * V))) p :
  computes f whole -> post_init (beam_combine_params k) = Ok p -> check_aggregate_params true true p = Ok tt ->
  let rows := map (fun x => (fst x, fst (snd x), snd (snd x))) pcol in
  within_bounds p rows ->
  exists ops out, beam_combine w f k pcol = Ok (ops, Ok out) /\ NoDup (map fst out) /\
  forall part o, In (part, o) out <->
    In part (map (fun x => fst (snd x)) pcol) /\
    o = cf_extract f (whole (map (fun x => snd (snd x)) (filter (fun x => eqb (fst (snd x)) part) pcol))) /\
    (selects_privately p (@None (list P)) = true ->
     w_keep w (partition_selection_strategy p) (max_partitions_contributed p) (pre_threshold p) part (Z.of_nat (length (ids_of part rows))) = true).
Proof.
  intros C Ep Ec rows W. assert (Ha : accepted p) by (exists (beam_combine_params k); exact Ep).
  destruct (bound_ok p true (w_sampling w) (fun vs : list V => vs) rows Ha) as [kept Ek].
  assert (Pm := kept_groups p true (w_sampling w) rows kept Ha W Ek).
  assert (Cm := combined f whole kept). 
  unfold beam_combine, run_custom. rewrite Ep. cbn [rbind]. rewrite Ec. cbn [rbind]. fold rows. rewrite bound_natural, Ek. cbn [rmap].
  set (col := combine_per_key _ _) in *. eexists. eexists. split; [reflexivity|].
  assert (Nd : NoDup (map fst col)) by (unfold col; rewrite combine_per_key_keys; apply NoDup_distinct).
  set (kp := w_keep w (partition_selection_strategy p) (max_partitions_contributed p) (pre_threshold p)).
  set (col3 := if selects_privately p (@None (list P)) then select_private_partitions 1 kp col else col).
  assert (Nd3 : NoDup (map fst col3)).
  { unfold col3. destruct (selects_privately p (@None (list P))); [|exact Nd]. unfold select_private_partitions. clear - Nd.
    induction col as [|[x y] l IH]; [constructor|]. cbn [map fst] in Nd. inversion Nd as [|? ? Ni Nd']; subst. cbn [filter]. destruct (kp _ _); [|apply IH; exact Nd'].
    cbn [map fst]. constructor; [|apply IH; exact Nd']. intro I. apply Ni. apply in_map_iff in I. destruct I as [e [E I]]. apply filter_In in I. apply in_map_iff. exists e. tauto. }
  split; [rewrite map_map; exact Nd3|]. intros part o.
  destruct (groups_of_partition rows kept part Pm) as [Gv Gl].
  assert (Ev : map snd (rows_in part rows) = map (fun x => snd (snd x)) (filter (fun x => eqb (fst (snd x)) part) pcol)).
  { unfold rows_in, rows. rewrite filter_map, map_map. reflexivity. }
  rewrite Ev in Gv.
  assert (Gn : groups_of part kept <> [] <-> In part (map (fun x => fst (snd x)) pcol)).
  { split.
    - intro N. destruct (groups_of part kept) as [|g gs] eqn:Eg; [congruence|]. cbn [length] in Gl.
      destruct (ids_of part rows) as [|u us] eqn:Ei; [discriminate|]. assert (I : In u (ids_of part rows)) by (rewrite Ei; left; reflexivity).
      unfold ids_of in I. apply (proj1 (in_distinct _ _)) in I. apply in_map_iff in I. destruct I as [r [_ I]]. apply filter_In in I. destruct I as [I B]. apply eqb_eq in B.
      unfold rows in I. apply in_map_iff in I. destruct I as [x [<- I]]. cbn [fst snd] in B. apply in_map_iff. exists x. auto.
    - intros I N. rewrite N in Gl. cbn [length] in Gl. apply in_map_iff in I. destruct I as [x [E I]].
      assert (J : In (fst x) (ids_of part rows)).
      { unfold ids_of. apply in_distinct. apply in_map_iff. exists (fst x, fst (snd x), snd (snd x)). split; [reflexivity|]. apply filter_In. split.
        - unfold rows. apply in_map_iff. exists x. auto.
        - cbn [fst snd]. rewrite E. apply ListLemmas.eqb_refl. }
      destruct (ids_of part rows); [destruct J | discriminate]. }
  destruct C as [C1 [C2 [C3 C4]]]. assert (C : computes f whole) by (repeat split; assumption).
  rewrite in_map_iff. split.
  - intros [[part' [z a]] [E I]]. cbn [fst snd] in E. injection E as -> <-.
    assert (I' : In (part, (z, a)) col /\ (selects_privately p (@None (list P)) = true -> kp part z = true)).
    { unfold col3 in I. destruct (selects_privately p (@None (list P))); [|split; [exact I | discriminate]]. unfold select_private_partitions in I. apply filter_In in I.
      destruct I as [I B]. split; [exact I|]. intros _. cbn [fst snd] in B. rewrite divide_by_one in B. exact B. }
    destruct I' as [I' K]. apply Cm in I'; [|exact C]. destruct I' as [N [-> ->]]. split; [apply Gn; exact N|].
    split; [rewrite (C4 _ _ Gv); reflexivity|]. intro Sp. rewrite <- Gl. exact (K Sp).
  - intros [Ip [-> K]]. apply Gn in Ip.
    exists (part, (Z.of_nat (length (groups_of part kept)), whole (concat (groups_of part kept)))). cbn [fst snd]. split; [rewrite (C4 _ _ Gv); reflexivity|].
    assert (I : In (part, (Z.of_nat (length (groups_of part kept)), whole (concat (groups_of part kept)))) col) by (apply Cm; [exact C | auto]).
    unfold col3. destruct (selects_privately p (@None (list P))); [|exact I]. unfold select_private_partitions. apply filter_In. split; [exact I|].
    cbn [fst snd]. rewrite divide_by_one, Gl. exact (K eq_refl).
Qed.
Print Assumptions C47_combine_computes_the_function.

(** The hypotheses are met: sums of partitions with values of two privacy ids. *)
Example C47_combine_hypotheses_met :
  let k := CombineParams Z (Some (PInt 2)) (Some (PInt 2)) 1 None in
  let pcol := [(1, (5, 3)); (2, (5, 4)); (2, (6, 1)); (1, (5, 2))]%Z in
  computes demo_fn (fun vs => fold_left Z.add vs 0%Z) /\
  (exists p, post_init (beam_combine_params k) = Ok p /\ check_aggregate_params true true p = Ok tt /\
             within_bounds p (map (fun x => (fst x, fst (snd x), snd (snd x))) pcol)) /\
  rmap snd (beam_combine (demo_world Z Z) demo_fn k pcol) = Ok (Ok [(5, 9); (6, 1)]%Z).
Proof.
  cbv zeta. split; [|split].
  - assert (G : forall l a, fold_left Z.add l a = (a + fold_left Z.add l 0)%Z).
    { induction l as [|x l IH]; intro a; [cbn; lia|]. cbn [fold_left]. rewrite (IH (a + x)%Z), (IH (0 + x)%Z). lia. }
    split; [reflexivity|]. split; [|split].
    + intros vs v. rewrite fold_left_app. reflexivity.
    + intros vs vs'. rewrite fold_left_app. cbn [cf_merge demo_fn fold_left]. rewrite (G vs' (fold_left Z.add vs 0%Z)). lia.
    + induction 1; [reflexivity | | | congruence]; cbn [fold_left]; [rewrite (G l (0 + x)%Z), (G l' (0 + x)%Z); lia | f_equal; lia].
  - eexists. split; [reflexivity|]. split; [reflexivity|]. split; [discriminate|]. split.
    + intros l0 E u. injection E as <-. unfold partitions_of. cbn. repeat match goal with |- context [eqb ?x ?y] => destruct (eqb x y) end; vm_compute; discriminate.
    + intros l E u q. injection E as <-. unfold values_of. cbn. repeat match goal with |- context [eqb ?x ?y] => destruct (eqb x y) eqn:? end; cbn; try lia;
        exfalso; repeat match goal with H : eqb _ _ = true |- _ => apply eqb_eq in H end; congruence.
  - vm_compute. reflexivity.
Qed.
