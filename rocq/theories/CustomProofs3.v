(** Lemmas for C68: the groups of values with and without a privacy unit. *)
From Coq Require Import List ZArith QArith Bool PeanoNat Lia Permutation.
From Verif Require Import Base BackendModel BackendSpec BackendProofs ListLemmas BounderModel BounderSpec BounderProofs ParamsModel SensModel BudgetModel CombinerModel
  EngineModel EngineSpec EngineProofs EngineProofs2 EngineProofs3 EngineProofs4 EngineProofs5 SelectModel CustomModel CustomSpec CustomProofs CustomProofs2.
Import ListNotations.
Local Open Scope nat_scope.

Lemma NoDup_incl_Permutation {T} (l : list T) : forall l', NoDup l -> incl l l' -> exists r, Permutation l' (l ++ r).
Proof.
  induction l as [|x l IH]; intros l' N I; [exists l'; reflexivity|]. inversion N as [|? ? Nx Nl]; subst.
  destruct (in_split x l' (I x (or_introl eq_refl))) as [l1 [l2 ->]].
  destruct (IH (l1 ++ l2) Nl) as [r Pr].
  { intros y Iy. assert (Iy' := I y (or_intror Iy)). apply in_app_or in Iy'. apply in_or_app. destruct Iy' as [Iy'|[Iy'|Iy']]; auto. subst. contradiction. }
  exists r. rewrite <- Permutation_middle. cbn. constructor. exact Pr.
Qed.

Section Neighbours.
Context {U P V : Type} `{EqDec U} `{EqDec P}.

Lemma unit_bounded_sub (p : params) ex ex' (gs gs' r : list (list V)) : (ex' = true -> ex = true) ->
  unit_bounded p ex gs' -> Permutation gs' (gs ++ r) -> unit_bounded p ex' gs.
Proof.
  intros Hx B Pm. unfold unit_bounded in *. destruct (max_contributions p) as [m|].
  - destruct B as [B1 B2]. split.
    + assert (L : length (concat gs') = length (concat (gs ++ r))).
      { clear -Pm. induction Pm as [|x l l' Pm IH|x y l|l l' l'' P1 I1 P2 I2]; cbn; rewrite ?app_length; lia. }
      rewrite concat_app, app_length in L. lia.
    + rewrite Forall_forall in *. intros g Ig. apply B2. eapply Permutation_in; [symmetry; exact Pm|]. apply in_or_app. left. exact Ig.
  - destruct B as [B1 B2]. split.
    + intros l0 E. specialize (B1 l0 E). apply Permutation_length in Pm. rewrite app_length in Pm. lia.
    + intros Ex linf E. specialize (B2 (Hx Ex) linf E). rewrite Forall_forall in *. intros g Ig. apply B2.
      eapply Permutation_in; [symmetry; exact Pm|]. apply in_or_app. left. exact Ig.
Qed.

Definition group_of (u : U) (k : P) (kept : list ((U * P) * list V)) : option (list V) :=
  match find (fun e => eqb (fst e) (u, k)) kept with Some e => Some (snd e) | None => None end.
Definition but_unit (u : U) (kept : list ((U * P) * list V)) : list ((U * P) * list V) :=
  filter (fun e => negb (eqb (fst (fst e)) u)) kept.

Lemma kept_unit_bounded (q : query U P V) keys ex kept : valid_query keys q ->
  bound_contributions (q_params q) ex (q_sampling q) (fun vs => vs) (taking_part q) = Ok kept ->
  NoDup (map fst kept) /\ forall u, unit_bounded (q_params q) ex (map snd (kept_of u kept)).
Proof.
  intros [_ [Ha [_ [_ [Hb [Hv [Hp [Nk _]]]]]]]] E. rewrite <- to_bound_taking_part in E.
  destruct (accepted_facts _ Ha) as [_ [_ [_ Hf]]]. unfold unit_bounded. destruct (max_contributions (q_params q)) as [m|] eqn:Em.
  - destruct (kept_facts_total _ _ _ _ _ m Em Hv E) as [N [Ne B]]. split; [exact N|]. intro u. destruct Hf as [Pm _]. split.
    + specialize (B u). assert (L : length (concat (map snd (kept_of u kept))) = length (as_rows (kept_of u kept))).
      { clear. unfold as_rows. induction (kept_of u kept) as [|e l IH]; [reflexivity|]. cbn [map concat flat_map]. rewrite !app_length, map_length. lia. }
      lia.
    + apply Forall_forall. intros g Ig. apply in_map_iff in Ig. destruct Ig as [e [<- Ie]]. apply Ne. unfold kept_of in Ie. apply filter_In in Ie. apply Ie.
  - destruct Hf as [l0 [linf [E0 [E1 [P0 P1]]]]].
    destruct (kept_facts _ _ _ _ (q_rows q) _ l0 Em E0 Hv Hp (to_bound_incl _ _ _) E) as [N [B1 [B2 _]]]. split; [exact N|].
    intro u. split.
    + intros l0' E0'. rewrite E0 in E0'. injection E0' as <-. rewrite map_length. specialize (B1 u). lia.
    + intros Ex linf' E1'. apply Forall_forall. intros g Ig. apply in_map_iff in Ig. destruct Ig as [e [<- Ie]].
      unfold kept_of in Ie. apply filter_In in Ie. specialize (B2 Ex linf' E1' e (proj1 Ie)). rewrite E1 in E1'. injection E1' as <-. lia.
Qed.

Lemma bound_drop_unit (u : U) (q : query U P V) ex kept :
  bound_contributions (q_params q) ex (q_sampling q) (fun vs => vs) (taking_part q) = Ok kept ->
  bound_contributions (q_params (drop_unit u q)) ex (q_sampling (drop_unit u q)) (fun vs => vs) (taking_part (drop_unit u q)) = Ok (but_unit u kept).
Proof.
  intro E. rewrite <- to_bound_taking_part in *. cbn [drop_unit q_params q_sampling q_public q_rows]. unfold without.
  rewrite (to_bound_filter (q_params q) (q_public q) (fun x => negb (eqb x u))), (bound_filter (fun x => negb (eqb x u))), E. reflexivity.
Qed.

Lemma groups_but_unit (u : U) (k : P) public (kept : list ((U * P) * list V)) : NoDup (map fst kept) ->
  one_less (group_of u k kept) (groups public kept k) (groups public (but_unit u kept) k).
Proof.
  intro N. unfold groups. set (t := match public with Some pub => _ | None => [] end). clearbody t.
  induction kept as [|[[u' k'] g] kept IH]; [reflexivity|]. cbn [map] in N. inversion N as [|? ? Nx Nr]; subst. specialize (IH Nr).
  unfold group_of, but_unit in *. cbn [find filter fst snd].
  destruct (eqb (u', k') (u, k)) eqn:E.
  - apply eqb_eq in E. injection E as -> ->. rewrite !eqb_refl. cbn [negb map snd]. cbn [one_less]. exists [], (map snd (filter (fun e => eqb (snd (fst e)) k) kept) ++ t).
    split; [reflexivity|]. cbn [app]. f_equal. f_equal. rewrite filter_filter. apply filter_ext_In. intros [[u2 k2] g2] I2. cbn [fst snd].
    destruct (eqb k2 k) eqn:Ek; [|apply andb_false_r]. rewrite andb_true_r. apply eqb_eq in Ek. subst k2.
    destruct (eqb u2 u) eqn:Eu; [|reflexivity]. apply eqb_eq in Eu. subst u2. exfalso. apply Nx. apply in_map_iff. exists ((u, k), g2). split; [reflexivity | exact I2].
  - destruct (eqb k' k) eqn:Ek.
    + apply eqb_eq in Ek. subst k'. assert (Eu : eqb u' u = false).
      { destruct (eqb u' u) eqn:Eu; [|reflexivity]. apply eqb_eq in Eu. subst. rewrite eqb_refl in E. discriminate. }
      rewrite Eu. cbn [negb filter fst snd]. rewrite eqb_refl. cbn [map snd app].
      destruct (find (fun e => eqb (fst e) (u, k)) kept) as [e|]; cbn [one_less] in *.
      * destruct IH as [xs [ys [-> ->]]]. exists (g :: xs), ys. split; reflexivity.
      * rewrite IH. reflexivity.
    + destruct (negb (eqb u' u)); cbn [filter fst snd]; rewrite ?Ek; exact IH.
Qed.

Lemma groups_of_unit (u : U) (kept : list ((U * P) * list V)) (ks : list P) : NoDup (map fst kept) -> NoDup ks ->
  exists r, Permutation (map snd (kept_of u kept)) (flat_map (fun k => match group_of u k kept with Some g => [g] | None => [] end) ks ++ r).
Proof.
  intros N Nk. pose (es := flat_map (fun k => match find (fun e => eqb (fst e) (u, k)) kept with Some e => [e] | None => [] end) ks).
  assert (Es : flat_map (fun k => match group_of u k kept with Some g => [g] | None => [] end) ks = map snd es).
  { unfold es, group_of. clear. induction ks as [|k ks IH]; [reflexivity|]. cbn [flat_map]. rewrite map_app, IH. destruct (find _ kept); reflexivity. }
  assert (Key : forall k e, find (fun e => eqb (fst e) (u, k)) kept = Some e -> fst e = (u, k) /\ In e kept).
  { intros k e F. apply find_some in F. destruct F as [F1 F2]. apply eqb_eq in F2. auto. }
  assert (Ne : NoDup es).
  { unfold es. clear -Nk Key. induction ks as [|k ks IH]; [constructor|]. inversion Nk as [|? ? Nx Nr]; subst. cbn [flat_map].
    destruct (find (fun e => eqb (fst e) (u, k)) kept) as [e|] eqn:F; [|apply IH; exact Nr]. cbn [app]. constructor; [|apply IH; exact Nr].
    intro I. apply in_flat_map in I. destruct I as [k2 [I2 I3]]. destruct (find (fun e => eqb (fst e) (u, k2)) kept) as [e2|] eqn:F2; [|destruct I3].
    destruct I3 as [->|[]]. apply Key in F, F2. destruct F as [F _], F2 as [F2 _]. rewrite F in F2. injection F2 as ->. contradiction. }
  destruct (NoDup_incl_Permutation es (kept_of u kept) Ne) as [r Pr].
  { intros e Ie. unfold es in Ie. apply in_flat_map in Ie. destruct Ie as [k [_ I3]]. destruct (find (fun e => eqb (fst e) (u, k)) kept) as [e2|] eqn:F2; [|destruct I3].
    destruct I3 as [->|[]]. apply Key in F2. destruct F2 as [F2 I2]. unfold kept_of. apply filter_In. split; [exact I2|]. rewrite F2. apply eqb_refl. }
  exists (map snd r). rewrite Es, <- map_app. apply Permutation_map. exact Pr.
Qed.

(** The partitions [ks] with and without privacy unit [u]; those in which nobody would be
    left are not changed. *)
Definition rest_of (u : U) public (kept : list ((U * P) * list V)) (k : P) : list (list V) :=
  match groups public (but_unit u kept) k with [] => groups public kept k | gs => gs end.

Lemma neighbouring_groups (u : U) public (kept : list ((U * P) * list V)) (ks : list P) p ex ex' :
  NoDup (map fst kept) -> NoDup ks -> unit_bounded p ex (map snd (kept_of u kept)) -> (ex' = true -> ex = true) ->
  (forall k, In k ks -> groups public kept k <> []) ->
  unit_removed p ex' (map (groups public kept) ks) (map (rest_of u public kept) ks).
Proof.
  intros N Nk B Hx Hne.
  pose (d := fun k => match groups public (but_unit u kept) k with [] => None | _ => group_of u k kept end).
  exists (map d ks). rewrite !map_length. split; [reflexivity|]. split; [reflexivity|]. split; [|split; [|split]].
  - assert (C : combine (map d ks) (combine (map (groups public kept) ks) (map (rest_of u public kept) ks)) =
                map (fun k => (d k, (groups public kept k, rest_of u public kept k))) ks).
    { clear. induction ks as [|k ks IH]; [reflexivity|]. cbn [map combine]. rewrite IH. reflexivity. }
    rewrite C. apply Forall_map, Forall_forall. intros k _. cbn [fst snd]. unfold d, rest_of.
    assert (G := groups_but_unit u k public kept N). destruct (groups public (but_unit u kept) k); [reflexivity | exact G].
  - destruct (groups_of_unit u kept (filter (fun k => match groups public (but_unit u kept) k with [] => false | _ => true end) ks) N) as [r Pr].
    { apply NoDup_filter. exact Nk. }
    eapply unit_bounded_sub; [exact Hx | exact B|]. rewrite Pr. apply Permutation_app_tail. apply Permutation_refl'. clear.
    induction ks as [|k ks IH]; [reflexivity|]. cbn [map flat_map filter]. unfold d at 1.
    destruct (groups public (but_unit u kept) k) as [|g gs] eqn:E; [exact IH|]. cbn [flat_map]. rewrite IH. reflexivity.
  - apply Forall_map, Forall_forall. exact Hne.
  - apply Forall_map, Forall_forall. intros k Ik. unfold rest_of. destruct (groups public (but_unit u kept) k) eqn:E; [apply Hne; exact Ik | discriminate].
Qed.

Lemma kept_from_rows (q : query U P V) keys ex kept e : valid_query keys q ->
  bound_contributions (q_params q) ex (q_sampling q) (fun vs => vs) (taking_part q) = Ok kept -> In e kept ->
  submset (snd e) (values_of (fst e) (taking_part q)).
Proof.
  intros [_ [Ha [_ [_ [Hb [Hv [Hp [Nk _]]]]]]]] E I.
  destruct (accepted_facts _ Ha) as [_ [_ [_ Hf]]]. destruct (max_contributions (q_params q)) as [m|] eqn:Em.
  - unfold bound_contributions, valid_sampling in *. rewrite Em in *. destruct (m =? 0)%Z; [discriminate|]. injection E as <-. set (rows := taking_part q) in *.
    destruct (per_privacy_id_any_bounds (Z.to_nat m) (fun vs => vs) rows _
                (per_privacy_id_local_any (ch_pid (q_sampling q)) _ _ rows Hv)) as [kept [Pm [N [Ne B]]]].
    rewrite map_values_id in Pm. apply (Permutation_in _ Pm) in I. destruct e as [k vs]. cbn [fst snd]. destruct (B (fst k)) as [Sm _].
    assert (S' : submset (values_of k (as_rows (kept_of (fst k) kept))) (values_of k (rows_of (fst k) rows))).
    { apply submset_map, submset_filter, Sm. }
    apply (submset_trans _ (values_of k (rows_of (fst k) rows))).
    + apply (submset_trans _ (values_of k (as_rows (kept_of (fst k) kept)))); [|exact S'].
      assert (I' : In (k, vs) (kept_of (fst k) kept)) by (apply filter_In; split; [exact I | apply eqb_refl]).
      apply in_split in I'. destruct I' as [l1 [l2 E]]. rewrite E. unfold as_rows. rewrite flat_map_app.
      cbn [flat_map fst snd]. unfold values_of. rewrite !filter_app, !map_app.
      exists (map snd (filter (fun kv => eqb (fst kv) k) (flat_map (fun e => map (fun v => (fst e, v)) (snd e)) l1))
              ++ map snd (filter (fun kv => eqb (fst kv) k) (flat_map (fun e => map (fun v => (fst e, v)) (snd e)) l2))).
      rewrite (filter_all _ (map (fun v => (k, v)) vs)).
      * rewrite map_map. cbn [snd]. rewrite map_id. rewrite !app_assoc. apply Permutation_app_tail, Permutation_app_comm.
      * intros x Hx. apply in_map_iff in Hx. destruct Hx as [v [<- _]]. apply eqb_refl.
    + apply submset_map, submset_filter, submset_filter_self.
  - destruct Hf as [l0 [linf [E0 [E1 [P0 P1]]]]]. rewrite <- to_bound_taking_part in *.
    destruct (kept_facts _ _ _ _ (q_rows q) _ l0 Em E0 Hv Hp (to_bound_incl _ _ _) E) as [_ [_ [_ Sm]]]. apply Sm. exact I.
Qed.
End Neighbours.
