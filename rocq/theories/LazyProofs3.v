(** Lemmas for C65: the pipelines of the engine. *)
From Coq Require Import List ZArith QArith Reals Bool PeanoNat Lia.
From Verif Require Import Base BackendModel BounderModel ParamsModel SensModel CombinerModel EngineModel HistModel ExpMechModel.
From Verif Require Import LazyModel LazyEngineModel LazySpec LazyProofs LazyProofs2.
Import ListNotations.
Local Close Scope Q_scope. Local Close Scope R_scope. Local Open Scope nat_scope.

Section Engine.
Context {U P : Type} `{EqDec U} `{EqDec P}.
Notation interp := (@interp U P).
Notation heap := (heap interp).
Notation lookup := (lookup interp).
Notation makes := (makes interp).
Notation is_col := (is_col interp).
Notation moves := (moves interp).
Notation fresh := (fresh interp).
Implicit Types h : heap.

Lemma makes_as G h F t (e : M interp (col t)) l l' : makes G h F e l -> l = l' -> makes G h F e l'.
Proof. intros E <-. exact E. Qed.

(** One operation. *)
Ltac rule_of h F e :=
  lazymatch e with
  | @b_map _ _ _ ?s ?t ?f ?c => match goal with C : is_col h F c _ ?l |- _ => constr:(map_rule interp h F s t f c l C) end
  | @b_flat_map _ _ _ ?s ?t ?f ?c => match goal with C : is_col h F c _ ?l |- _ => constr:(flat_map_rule interp h F s t f c l C) end
  | @b_filter _ _ _ ?t ?p ?c => match goal with C : is_col h F c _ ?l |- _ => constr:(filter_rule interp h F t p c l C) end
  | @b_later _ _ _ ?s ?t ?d ?c => match goal with C : is_col h F c _ ?l |- _ => constr:(later_rule interp h F s t d c l C) end
  | @b_filter_by_key _ _ _ ?t ?k ?dec ?key ?c ?keys =>
      match goal with C : is_col h F c _ ?l, L : lookup h keys _ = Some (LList _ ?ks) |- _ =>
        constr:(filter_by_key_rule interp h F t k dec key c keys l ks C L) end
  | _ => lazymatch goal with R : forall h F c l, is_col h F c _ l -> makes [] h F _ _ |- _ => constr:(R) end
  end.
Ltac expand e := eval unfold b_group_by_key, b_sample_fixed_per_key, b_map_values, b_summary, b_to_list in e.
Ltac op :=
  lazymatch goal with
  | |- LazyProofs2.makes _ [] ?h ?F (bind _ ?e ?k) ?m =>
      let e' := expand e in
      let r := rule_of h F e' in
      refine (makes_lazily interp h F _ _ e k _ m r _);
      let c := fresh "c" in let h' := fresh "h" in let F' := fresh "F" in let C := fresh "C" in let Fr := fresh "Fr" in let Mv := fresh "Mv" in
      cbv beta; intros c h' F' C Fr Mv
  | |- LazyProofs2.makes _ [] ?h ?F ?e ?m =>
      let e' := expand e in
      let r := rule_of h F e' in exact r
  end.

Lemma group_by_key_rule h F k v dec (c : col (TPair k v)) l : is_col h F c (TPair k v) l ->
  makes [] h F (b_group_by_key dec c) (@group_by_key _ _ dec l).
Proof. intro C. exact (later_rule interp h F (TPair k v) (TPair k (TList v)) _ c l C). Qed.
Lemma sample_rule h F k v dec ch n (c : col (TPair k v)) l : is_col h F c (TPair k v) l ->
  makes [] h F (b_sample_fixed_per_key dec ch n c) (@sample_fixed_per_key _ _ dec ch n l).
Proof. intro C. exact (later_rule interp h F (TPair k v) (TPair k (TList v)) _ c l C). Qed.
Lemma map_values_rule h F k v w (f : interp v -> interp w) (c : col (TPair k v)) l : is_col h F c (TPair k v) l ->
  makes [] h F (b_map_values (k := k) f c) (map_values f l).
Proof. intro C. exact (map_rule interp h F (TPair k v) (TPair k w) _ c l C). Qed.
Lemma combine_rule h F k a dec (merge : interp a -> interp a -> interp a) (c : col (TPair k a)) l : is_col h F c (TPair k a) l ->
  makes [] h F (b_combine_per_key dec merge c) (@combine_per_key _ _ dec merge l).
Proof.
  intro C. unfold b_combine_per_key. op. op.
Qed.

Lemma cross_and_per_rule h F v a ch1 ch2 l0 linf (agg : list (interp v) -> interp a) (c : col (row v)) l : is_col h F c (row v) l ->
  makes [] h F (lazy_cross_and_per ch1 ch2 l0 linf agg c) (bound_cross_and_per ch1 ch2 l0 linf agg l).
Proof.
  intro C. unfold lazy_cross_and_per. op. op. op. op. op.
  op.
Qed.
Lemma per_privacy_id_rule h F v a ch n (agg : list (interp v) -> interp a) (c : col (row v)) l : is_col h F c (row v) l ->
  makes [] h F (lazy_per_privacy_id ch n agg c) (bound_per_privacy_id ch n agg l).
Proof.
  intro C. unfold lazy_per_privacy_id. op. op. op. op.
  op.
Qed.
Lemma cross_partition_rule h F v a ch l0 (agg : list (interp v) -> interp a) (c : col (row v)) l : is_col h F c (row v) l ->
  makes [] h F (lazy_cross_partition ch l0 agg c) (bound_cross_partition ch l0 agg l).
Proof.
  intro C. unfold lazy_cross_partition. op. op. op. op. op.
  op.
Qed.
Lemma linf_rule h F v a ch n (agg : list (interp v) -> interp a) (c : col (row v)) l : is_col h F c (row v) l ->
  makes [] h F (lazy_linf ch n agg c) (bound_linf ch n agg l).
Proof.
  intro C. unfold lazy_linf. op. op. op.
Qed.
Lemma noop_rule h F v a (agg : list (interp v) -> interp a) (c : col (row v)) l : is_col h F c (row v) l ->
  makes [] h F (lazy_noop agg c) (bound_noop agg l).
Proof.
  intro C. unfold lazy_noop. op. op. op.
Qed.
(** A program fails, or makes the result. *)
Definition makes_or_fails h F {t} (e : M interp (col t)) (r : result (list (interp t))) : Prop :=
  match r with Ok l => makes [] h F e l | Err _ => exists n, forall m, n <= m -> e m h = None end.
Lemma bound_rule h F v a p s sm (agg : list (interp v) -> interp a) (c : col (row v)) l : is_col h F c (row v) l ->
  makes_or_fails h F (lazy_bound_contributions p s sm agg c) (bound_contributions p s sm agg l).
Proof.
  intro C. unfold lazy_bound_contributions, bound_contributions.
  destruct (max_contributions p) as [m|].
  { destruct (Z.eqb m 0); [exists 0; reflexivity | apply per_privacy_id_rule; exact C]. }
  destruct (perform_cross_partition_contribution_bounding p); destruct s.
  - destruct (max_partitions_contributed p); [|exists 0; reflexivity].
    destruct (max_contributions_per_partition p); [apply cross_and_per_rule; exact C | exists 0; reflexivity].
  - destruct (max_partitions_contributed p); [apply cross_partition_rule; exact C | exists 0; reflexivity].
  - destruct (max_contributions_per_partition p); [apply linf_rule; exact C | exists 0; reflexivity].
  - apply noop_rule; exact C.
Qed.

Lemma drop_rule h F v (c : col (row v)) (pub : col TP) l ks : is_col h F c (row v) l -> lookup h pub TP = Some (LList TP ks) ->
  makes [] h F (lazy_drop_partitions c pub) (drop_partitions ks l).
Proof.
  intros C L. unfold lazy_drop_partitions. op. pose proof (list_moves interp _ _ _ _ _ _ L Mv) as L1. op. op.
Qed.
(** Two collections without common iterators. *)
Lemma flatten_two h F G t (c d : col t) l m : is_col h F c t l -> is_col h G d t m -> (forall b, In b F -> ~ In b G) ->
  makes [] h (F ++ G) (b_flatten interp [c; d]) (l ++ m).
Proof.
  intros C D N. apply flatten_rule. apply cols_cons; [exact C | |exact N].
  rewrite <- (app_nil_r m), <- (app_nil_r G). apply cols_cons; [exact D | apply cols_nil | intros b _ []].
Qed.
Lemma add_empty_rule h F a (c : col (TPair TP a)) (pub : col TP) (empty : interp a) l ks : is_col h F c (TPair TP a) l ->
  lookup h pub TP = Some (LList TP ks) -> makes [] h F (lazy_add_empty c pub empty) (add_empty_public_partitions l ks empty).
Proof.
  intros C L. unfold lazy_add_empty.
  assert (E : makes [] h [] (b_map interp (s := TP) (t := TPair TP a) (fun k => (k, empty)) pub) (map (fun k => (k, empty)) ks)).
  { eapply makes_as; [eapply map_rule; left; split; [exact L | reflexivity] | reflexivity]. }
  destruct E as (n & c1 & h1 & F1 & E & C1 & Fr & Mv).
  assert (C' : is_col h1 F c (TPair TP a) l) by (eapply col_moves; [exact C | exact Mv | tauto]).
  assert (Dj : forall b, In b F -> ~ In b F1).
  { intros b I J. destruct (Fr b J) as [[]|X]. pose proof (col_range interp _ _ _ _ _ C b I). lia. }
  destruct (flatten_two h1 F F1 _ c c1 _ _ C' C1 Dj) as (n2 & c2 & h2 & F2 & E2 & C2 & Fr2 & Mv2).
  exists (Nat.max n n2), c2, h2, F2. split; [|split; [exact C2 | split]].
  - intros m L0. unfold bind. rewrite E by lia. apply E2. lia.
  - intros b I. destruct (Fr2 b I) as [J|J]; [|right; destruct Mv; lia]. apply in_app_iff in J as [J|J]; [left; exact J|].
    destruct (Fr b J) as [[]|X]. right. exact X.
  - eapply moves_trans; [exact Mv | apply fresh_nil | exact Mv2].
Qed.

Lemma mof_bind h F s t (e : M interp (col s)) (k : col s -> M interp (col t)) r g : makes_or_fails h F e r ->
  (forall c h' F' l, r = Ok l -> is_col h' F' c s l -> moves [] h h' -> makes_or_fails h' F' (k c) (g l)) ->
  makes_or_fails h F (bind interp e k) (rbind r g).
Proof.
  intros E K. destruct r as [l|e0]; cbn [makes_or_fails rbind] in *.
  - destruct E as (n & c & h1 & F1 & E & C & Fr & Mv). specialize (K c h1 F1 l eq_refl C Mv).
    destruct (g l) as [m|e0]; cbn [makes_or_fails] in *.
    + destruct K as (n2 & c2 & h2 & F2 & E2 & C2 & Fr2 & Mv2). exists (Nat.max n n2), c2, h2, F2. split; [|split; [exact C2 | split]].
      * intros m0 L. unfold bind. rewrite E by lia. apply E2. lia.
      * eapply fresh_trans; [|exact Fr|exact Fr2]. destruct Mv; assumption.
      * eapply moves_trans; [exact Mv | apply fresh_nil | exact Mv2].
    + destruct K as (n1 & K). exists (Nat.max n n1). intros m L. unfold bind. rewrite E by lia. apply K. lia.
  - destruct E as (n & E). exists n. intros m L. unfold bind. rewrite E by exact L. reflexivity.
Qed.

Lemma partitions_moves G h h' pub public : partitions_at h pub public -> moves G h h' -> partitions_at h' pub public.
Proof.
  destruct pub, public; cbn; try tauto. intros L Mv. eapply list_moves; eassumption.
Qed.

(** *** aggregate *)

Definition metrics_rows (p : params) (cs : list combiner) (nz : P -> nat -> noises) (col : list (P * cacc))
  : list (interp (TPair TP TMet)) :=
  let out := map (fun r : P * cacc => (fst r, compound_metrics (nz (fst r)) cs (snd r)) : interp (TPair TP TMet)) col in
  if post_aggregation_thresholding p
  then filter (fun r => match snd r with Ok m => above_threshold m | Err _ => true end) out else out.

Lemma truthy_list h (c : col TP) ks n : lookup h c TP = Some (LList TP ks) ->
  truthy c n h = Some (match ks with [] => false | _ => true end, h).
Proof. intro L. unfold truthy. rewrite L. destruct ks; reflexivity. Qed.

Lemma mof_as h F t (e : M interp (col t)) r r' : makes_or_fails h F e r -> r = r' -> makes_or_fails h F e r'.
Proof. intros E <-. exact E. Qed.

Lemma aggregate_rule p sm sk nz pub public h F (c : col (row TV)) rows : is_col h F c (row TV) rows -> partitions_at h pub public ->
  makes_or_fails h F (lazy_aggregate p sm sk nz pub c)
    (rbind (create_compound_combiner p) (fun cs =>
     rmap (metrics_rows p cs nz) (selected_accumulators p cs sm sk public rows))).
Proof.
  intros C Pub. unfold lazy_aggregate. destruct (create_compound_combiner p) as [cs|e]; cbn [rbind]; [|exists 0; reflexivity].
  set (rows1 := match public with
                | Some ks => if public_partitions_already_filtered p then rows else drop_partitions ks rows
                | None => rows
                end).
  set (tail := fun r2 => rbind r2 (fun l2 : list (P * cacc) =>
         let col1 := match public with
                     | Some (k :: ks) => add_empty_public_partitions l2 (k :: ks) (compound_create cs [])
                     | _ => l2
                     end in
         rmap (metrics_rows p cs nz)
           (let col := combine_per_key (compound_merge cs) col1 in
            if selects_privately p public then
              match max_rows_per_privacy_id p with
              | Some m => Ok (select_private_partitions m sk col)
              | None => Err TypeError
              end
            else Ok col))).
  assert (Eq : rmap (metrics_rows p cs nz) (selected_accumulators p cs sm sk public rows) = tail (contributions p cs sm public rows)).
  { unfold selected_accumulators, raw_accumulators, tail. destruct (contributions p cs sm public rows); reflexivity. }
  rewrite Eq. clear Eq.
  assert (Eq : tail (contributions p cs sm public rows) = rbind (Ok rows1) (fun rs => tail
    (if contribution_bounds_already_enforced p then Ok (map (fun r => (snd (fst r), compound_create cs [snd r])) rs)
     else rmap (map (fun e => (snd (fst e), snd e))) (bound_contributions p (compound_expects_sampling cs) sm (compound_create cs) rs)))) by reflexivity.
  rewrite Eq. clear Eq. eapply mof_bind with (s := row TV).
  { unfold rows1. destruct pub as [pc|], public as [ks|]; cbn in Pub; try contradiction.
    - destruct (public_partitions_already_filtered p); [exact (makes_ret interp h F (row TV) c rows C) | exact (drop_rule h F TV c pc rows ks C Pub)].
    - exact (makes_ret interp h F (row TV) c rows C). }
  intros c1 h1 F1 l1 _ C1 Mv1. assert (Pub1 := partitions_moves _ _ _ _ _ Pub Mv1). clearbody rows1. unfold tail.
  eapply mof_bind with (s := TPair TP TAcc).
  { destruct (contribution_bounds_already_enforced p).
    - exact (map_rule interp h1 F1 (row TV) (TPair TP TAcc) (fun r => (snd (fst r), compound_create cs [snd r])) c1 l1 C1).
    - assert (Eq : forall r : result (list (interp (row TAcc))), rmap (map (fun e => (snd (fst e), snd e))) r = rbind r (fun l => Ok (map (fun e => (snd (fst e), snd e)) l)))
        by (intros [?|?]; reflexivity).
      eapply mof_as; [|symmetry; apply Eq]. eapply mof_bind with (s := row TAcc).
      + exact (bound_rule h1 F1 TV TAcc p (compound_expects_sampling cs) sm (compound_create cs) c1 l1 C1).
      + intros c2 h2 F2 l2 _ C2 Mv2.
        exact (map_rule interp h2 F2 (row TAcc) (TPair TP TAcc) (fun e => (snd (fst e), snd e)) c2 l2 C2). }
  intros c2 h2 F2 l2 _ C2 Mv2. assert (Pub2 := partitions_moves _ _ _ _ _ Pub1 Mv2). cbv zeta.
  set (col1 := match public with
               | Some (k :: ks) => add_empty_public_partitions l2 (k :: ks) (compound_create cs [])
               | _ => l2
               end).
  match goal with |- makes_or_fails _ _ _ ?r => assert (Eq : r = rbind (Ok col1) (fun l => rmap (metrics_rows p cs nz)
           (let col := combine_per_key (compound_merge cs) l in
            if selects_privately p public then
              match max_rows_per_privacy_id p with
              | Some m => Ok (select_private_partitions m sk col)
              | None => Err TypeError
              end
            else Ok col))) by reflexivity end.
  rewrite Eq. clear Eq. eapply mof_bind with (s := TPair TP TAcc).
  { unfold col1. destruct pub as [pc|], public as [ks|]; cbn in Pub2; try contradiction.
    - cbn [makes_or_fails]. assert (K : makes [] h2 F2 (match ks with [] => ret interp c2 | _ => lazy_add_empty (a := TAcc) c2 pc (compound_create cs []) end)
         (match ks with [] => l2 | k :: ks0 => add_empty_public_partitions l2 (k :: ks0) (compound_create cs []) end)).
      { destruct ks as [|k ks]; [exact (makes_ret interp h2 F2 (TPair TP TAcc) c2 l2 C2)|].
        exact (add_empty_rule h2 F2 TAcc c2 pc (compound_create cs []) l2 (k :: ks) C2 Pub2). }
      destruct K as (n & c3 & h3 & F3 & E & R). exists n, c3, h3, F3. split; [|exact R].
      intros m L. unfold bind. rewrite (truthy_list _ _ _ m Pub2). destruct ks; apply E; exact L.
    - exact (makes_ret interp h2 F2 (TPair TP TAcc) c2 l2 C2). }
  intros c3 h3 F3 l3 _ C3 Mv3. assert (Pub3 := partitions_moves _ _ _ _ _ Pub2 Mv3). clearbody col1. cbv zeta.
  set (col := combine_per_key (compound_merge cs) l3).
  match goal with |- makes_or_fails _ _ _ ?r => assert (Eq : r = rbind (Ok col) (fun l => rbind (if selects_privately p public then
              match max_rows_per_privacy_id p with
              | Some m => Ok (select_private_partitions m sk l)
              | None => Err TypeError
              end else Ok l) (fun l5 => Ok (metrics_rows p cs nz l5)))) end.
  { cbn [rbind]. destruct (selects_privately p public); [|reflexivity]. destruct (max_rows_per_privacy_id p); reflexivity. }
  rewrite Eq. clear Eq. eapply mof_bind with (s := TPair TP TAcc).
  { exact (combine_rule h3 F3 TP TAcc dec_P (compound_merge cs) c3 l3 C3). }
  intros c4 h4 F4 l4 _ C4 Mv4. eapply mof_bind with (s := TPair TP TAcc).
  { unfold selects_privately.
    replace (negb (is_some pub) && negb (post_aggregation_thresholding p) && negb (public_partitions_already_filtered p))
      with (negb (is_some public) && negb (post_aggregation_thresholding p) && negb (public_partitions_already_filtered p))
      by (destruct pub, public; cbn in Pub; try contradiction; reflexivity).
    destruct (negb (is_some public) && negb (post_aggregation_thresholding p) && negb (public_partitions_already_filtered p)).
    - destruct (max_rows_per_privacy_id p) as [m|]; [|exists 0; reflexivity].
      exact (filter_rule interp h4 F4 (TPair TP TAcc) (fun r => sk (fst r) (divide_and_round_up (fst (snd r)) m)) c4 l4 C4).
    - exact (makes_ret interp h4 F4 (TPair TP TAcc) c4 l4 C4). }
  intros c5 h5 F5 l5 _ C5 Mv5. unfold metrics_rows. cbv zeta. cbn [makes_or_fails].
  eapply makes_lazily.
  { exact (map_rule interp h5 F5 (TPair TP TAcc) (TPair TP TMet) (fun r => (fst r, compound_metrics (nz (fst r)) cs (snd r))) c5 l5 C5). }
  intros c6 h6 F6 C6 _ Mv6. destruct (post_aggregation_thresholding p).
  - exact (filter_rule interp h6 F6 (TPair TP TMet) _ c6 _ C6).
  - exact (makes_ret interp h6 F6 (TPair TP TMet) c6 _ C6).
Qed.

Lemma metrics_rows_read p cs nz (l : list (P * cacc)) :
  map_result (fun r : P * result (list (mname * released)) => rmap (pair (fst r)) (snd r)) (metrics_rows p cs nz l) =
  rmap (fun out => if post_aggregation_thresholding p then filter (fun row => above_threshold (snd row)) out else out)
    (map_result (fun row => rmap (pair (fst row)) (compound_metrics (nz (fst row)) cs (snd row))) l).
Proof.
  unfold metrics_rows. destruct (post_aggregation_thresholding p).
  - induction l as [|[k a] l IH]; [reflexivity|]. cbn [map filter map_result fst snd].
    destruct (compound_metrics (nz k) cs a) as [m|e]; cbn [rmap rbind]; [|reflexivity].
    destruct (above_threshold m) eqn:T; cbn [map_result fst snd rmap rbind].
    + rewrite IH. destruct (map_result _ l) as [o|e]; cbn [rmap]; [|reflexivity]. cbn [filter snd]. rewrite T. reflexivity.
    + rewrite IH. destruct (map_result (fun row => rmap (pair (fst row)) (compound_metrics (nz (fst row)) cs (snd row))) l) as [o|e]; cbn [rmap]; [|reflexivity]. cbn [filter snd]. rewrite T. reflexivity.
  - induction l as [|[k a] l IH]; [reflexivity|]. cbn [map map_result fst snd].
    destruct (compound_metrics (nz k) cs a) as [m|e]; cbn [rmap rbind]; [|reflexivity]. rewrite IH.
    destruct (map_result _ l); reflexivity.
Qed.

Lemma select_rule l0 ch sk h F (c : col (TPair TU TP)) rows : is_col h F c (TPair TU TP) rows ->
  makes [] h F (lazy_select_partitions l0 ch sk c) (select_partitions l0 ch sk rows).
Proof.
  intro C. unfold lazy_select_partitions. op. op. op. eapply makes_lazily; [eapply combine_rule; eassumption|].
  intros c5 h5 F5 C5 _ Mv5. op. op.
Qed.
End Engine.
