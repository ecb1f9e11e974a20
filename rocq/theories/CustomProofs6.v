(** Lemmas for C68: several calls on one engine. *)
From Coq Require Import List ZArith QArith Qreals Reals Bool PeanoNat Permutation Lia Lra.
From Verif Require Import Base BackendModel BackendSpec BackendProofs ListLemmas BounderModel BounderSpec ParamsModel SensModel BudgetModel BudgetSpec CombinerModel
  EngineModel EngineSpec SelectModel SelectSpec PrivateProofs3
  VectorModel ExpMechProofs LaplaceModel LaplaceSpec LaplaceProofs WrapperModel DistSpec DistProofs DpModel DpSpec DpProofs DpProofs2 DpProofs3 DpProofs4 DpProofs5
  CustomModel CustomSpec CustomProofs CustomProofs2 CustomProofs3 CustomProofs4 CustomProofs5.
Import ListNotations.
Local Open Scope R_scope.
Local Close Scope Q_scope.

Lemma combine_snd {A B} (l : list A) (l' : list B) : length l' = length l -> map snd (combine l l') = l'.
Proof. revert l'. induction l as [|x l IH]; intros [|y l'] L; try discriminate; [reflexivity|]. cbn. f_equal. apply IH. cbn in L. lia. Qed.

Lemma slices_forall2 {X Y} (R : X -> Y -> Prop) (rss : list (list X)) : forall tl l, Forall2 R (concat rss ++ tl) l ->
  Forall2 (Forall2 R) rss (slices (map (@length X) rss) l) /\ Forall2 R tl (skipn (length (concat rss)) l) /\
  l = concat (slices (map (@length X) rss) l) ++ skipn (length (concat rss)) l.
Proof.
  induction rss as [|rs rss IH]; intros tl l F.
  - cbn in *. split; [constructor|]. split; [exact F | reflexivity].
  - cbn [concat] in F. rewrite <- app_assoc in F. destruct (forall2_firstn_skipn _ _ _ _ F) as [F1 F2]. destruct (IH _ _ F2) as [G1 [G2 G3]].
    cbn [map slices concat]. split; [constructor; assumption|]. rewrite app_length.
    assert (E : skipn (length rs + length (concat rss)) l = skipn (length (concat rss)) (skipn (length rs) l)) by (rewrite skipn_twice, Nat.add_comm; reflexivity).
    rewrite E. split; [exact G2|]. rewrite <- app_assoc, <- G3. symmetry. apply firstn_skipn.
Qed.

Section Queries.
Context {U P V A B : Type} `{EqDec U} `{EqDec P} `{EqDec B} (keep : selector -> Z -> R) (cls : nat -> custom V A (dist B)).

Lemma budgets_of_map (q : query U P V) bs : NoDup (q_objects q) ->
  map (budgets_of cls q bs) (q_objects q) = slices (map (fun a => length (object_requests cls q a)) (q_objects q)) bs.
Proof.
  intro N. assert (L : length (slices (map (fun a => length (object_requests cls q a)) (q_objects q)) bs) = length (q_objects q)) by (rewrite slices_length, map_length; reflexivity).
  assert (C := combine_value_for (q_objects q) _ [] N L). apply (f_equal (map snd)) in C. rewrite map_map in C. cbn [snd] in C.
  rewrite combine_snd in C by exact L. symmetry. exact C.
Qed.

Lemma query_budgets (q : query U P V) bs : NoDup (q_objects q) -> Forall2 granted_ok (query_requests cls q) bs ->
  (forall a, In a (q_objects q) -> Forall2 granted_ok (object_requests cls q a) (budgets_of cls q bs a)) /\
  (selects_privately (q_params q) (q_public q) = true -> granted_ok selection_request (own_selection cls q bs)) /\
  forall f : Q * Q -> Q, Q2R (sumQ (map f bs)) =
    (if selects_privately (q_params q) (q_public q) then Q2R (f (own_selection cls q bs)) else 0) +
    sumR (map (fun a => Q2R (sumQ (map f (budgets_of cls q bs a)))) (q_objects q)).
Proof.
  intros N F. unfold query_requests in F. rewrite flat_map_concat_map in F. destruct (slices_forall2 (X:=request) _ _ _ _ F) as [G1 [G2 G3]].
  rewrite map_map in G1, G3. rewrite <- (budgets_of_map q bs N) in G1, G3. rewrite <- (flat_map_concat_map (object_requests cls q)) in G2, G3. split; [|split].
  - clear -G1. induction (q_objects q) as [|a l IH]; [intros a []|]. cbn [map] in G1. inversion G1; subst. intros a' [->|I]; [assumption | apply IH; assumption].
  - intro Sp. rewrite Sp in G2. inversion G2 as [|? y ? l' Gy Fl E1 E2]; subst. inversion Fl; subst. unfold own_selection.
    rewrite <- (firstn_skipn (length (flat_map (object_requests cls q) (q_objects q))) bs), <- E2.
    assert (Lf : length (firstn (length (flat_map (object_requests cls q) (q_objects q))) bs) = length (flat_map (object_requests cls q) (q_objects q))).
    { apply firstn_length_le. apply forall2_len in F. rewrite app_length, <- flat_map_concat_map in F. lia. }
    rewrite app_nth2 by lia. rewrite Lf, Nat.sub_diag. exact Gy.
  - intro f. rewrite G3 at 1. rewrite map_app, sumQ_app_R, Rplus_comm. f_equal.
    + destruct (selects_privately (q_params q) (q_public q)).
      * inversion G2 as [|? y ? l' Gy Fl E1 E2]; subst. inversion Fl; subst.
        assert (Ny : own_selection cls q bs = y).
        { unfold own_selection. rewrite <- (firstn_skipn (length (flat_map (object_requests cls q) (q_objects q))) bs), <- E2.
          assert (Lf : length (firstn (length (flat_map (object_requests cls q) (q_objects q))) bs) = length (flat_map (object_requests cls q) (q_objects q))).
          { apply firstn_length_le. apply forall2_len in F. rewrite app_length, <- flat_map_concat_map in F. lia. }
          rewrite app_nth2 by lia. rewrite Lf, Nat.sub_diag. reflexivity. }
        rewrite Ny, <- ?E2. replace (Q2R (sumQ (map f [y]))) with (Q2R (f y + 0)%Q) by reflexivity. rewrite Q2R_plus, RMicromega.Q2R_0. lra.
      * inversion G2 as [E1 E2|]; subst. rewrite <- ?E2. change (sumQ (map f [])) with 0%Q. apply RMicromega.Q2R_0.
    + clear. induction (q_objects q) as [|a l IH]; [apply RMicromega.Q2R_0|]. cbn [map concat]. rewrite map_app, sumQ_app_R, sumR_cons, IH. reflexivity.
Qed.

(** Every call with its own budgets. *)
Fixpoint draw_own (l : list (query U P V * list P * list (Q * Q))) : dist (list (seen_outcome P B)) :=
  match l with
  | [] => dret []
  | (q, keys, b) :: l' =>
      dbind (draw keep (q_params q) (own_selection cls q b) keys
               (custom_result (custom_expects cls (q_objects q)) (own_combiners cls q b) q)) (fun o =>
      dbind (draw_own l') (fun os => dret (o :: os)))
  end.

Lemma independent_ext_in {X Y} (f g : X -> dist Y) xs : (forall x, In x xs -> f x = g x) -> independent f xs = independent g xs.
Proof.
  induction xs as [|x xs IH]; intro E; [reflexivity|]. cbn [independent]. rewrite IH by (intros; apply E; right; assumption).
  rewrite E by (left; reflexivity). reflexivity.
Qed.
Lemma draw_selection p b b' keys (out : result (list (P * (option Z * list (dist B))))) :
  (forall rows, out = Ok rows -> Forall (fun r => fst (snd r) = None) rows) -> draw keep p b keys out = draw keep p b' keys out.
Proof.
  intro N. unfold draw. destruct out as [rows|e]; [|reflexivity]. specialize (N rows eq_refl). rewrite Forall_forall in N.
  rewrite (independent_ext_in (fun row => flip keep p b (fst (snd row))) (fun row => flip keep p b' (fst (snd row)))); [reflexivity|].
  intros r Ir. rewrite (N r Ir). reflexivity.
Qed.

Lemma draw_all_own bs h (qks : list (query U P V * list P)) : forall ns bss,
  Forall2 (fun qn b => execute cls h bs (fst qn) = custom_result (custom_expects cls (q_objects (fst qn))) (own_combiners cls (fst qn) b) (fst qn) /\
                       (selects_privately (q_params (fst qn)) (q_public (fst qn)) = true -> nth (snd qn) bs (0, 0)%Q = own_selection cls (fst qn) b))
    (combine (map fst qks) ns) bss -> length ns = length qks ->
  draw_all keep cls h bs (combine qks ns) = draw_own (combine qks bss).
Proof.
  induction qks as [|[q keys] qks IH]; intros [|n ns] bss F L; try discriminate; [reflexivity|]. cbn [map combine fst] in F.
  inversion F as [|? b ? bss' [E S] F']; subst. cbn [fst snd] in *. cbn [combine draw_all draw_own]. rewrite (IH ns bss' F') by (cbn in L; lia). rewrite E.
  destruct (selects_privately (q_params q) (q_public q)) eqn:Sp; [rewrite (S eq_refl); reflexivity|].
  f_equal. apply draw_selection. intros rows Er. unfold custom_result in Er. destruct (custom_accumulators _ _ q) as [col|]; [|discriminate]. cbn [rbind] in Er.
  rewrite Sp in Er. injection Er as <-. apply Forall_map, Forall_forall. reflexivity.
Qed.

Lemma build_drop u d (q : query U P V) : build cls d (drop_unit u q) = build cls d q.
Proof. reflexivity. Qed.
Lemma build_all_drop u (qs : list (query U P V)) : forall d, build_all cls d (map (drop_unit u) qs) = build_all cls d qs.
Proof. induction qs as [|q qs IH]; intro d; [reflexivity|]. cbn [map build_all]. rewrite build_drop. destruct (build cls d q). rewrite IH. reflexivity. Qed.
Lemma build_all_length (qs : list (query U P V)) : forall d, length (snd (build_all cls d qs)) = length qs.
Proof.
  induction qs as [|q qs IH]; intro d; [reflexivity|]. cbn [build_all]. destruct (build cls d q) as [d1 n]. specialize (IH d1).
  destruct (build_all cls d1 qs). cbn in *. lia.
Qed.

Lemma run_queries_own bs (qks : list (query U P V * list P)) : NoDup (flat_map q_objects (map fst qks)) ->
  length bs = length (flat_map (query_requests cls) (map fst qks)) ->
  run_queries keep cls bs qks = draw_own (combine qks (per_query cls (map fst qks) bs)).
Proof.
  intros N L. unfold run_queries. destruct (build_all cls (Driver (fun _ => None) []) (map fst qks)) as [d ns] eqn:Eb.
  destruct (build_all_requests cls _ _ _ _ Eb) as [R _]. cbn [d_requests app] in R.
  apply draw_all_own.
  - apply (all_own cls bs _ _ _ _ Eb N). rewrite R. lia.
  - assert (X := build_all_length (map fst qks) (Driver (fun _ => None) [])). rewrite Eb, map_length in X. exact X.
Qed.

Definition drop_in (u : U) (qk : query U P V * list P) : query U P V * list P := (drop_unit u (fst qk), snd qk).

Lemma own_both u (l : list (query U P V * list P * list (Q * Q))) : pydp_contract keep ->
  Forall (fun t => NoDup (q_objects (fst (fst t))) /\ valid_query (snd (fst t)) (fst (fst t)) /\ call_good cls (fst (fst t)) (snd t)) l ->
  is_dist (draw_own l) /\ is_dist (draw_own (map (fun t => (drop_in u (fst t), snd t)) l)) /\
  both (sumR (map (fun t => query_eps cls (fst (fst t)) (snd t)) l)) (sumR (map (fun t => query_delta cls (fst (fst t)) (snd t)) l))
    (draw_own l) (draw_own (map (fun t => (drop_in u (fst t), snd t)) l)).
Proof.
  intros Kp F. induction F as [|[[q keys] b] l [No [Vq Cg]] F [D [D' Bo]]].
  - split; [apply is_dist_ret|]. split; [apply is_dist_ret|]. apply both_same.
  - cbn [fst snd] in *. destruct (query_both keep cls q keys b u Kp No Vq Cg) as [R [R' B0]]. cbn [map drop_in fst snd draw_own].
    assert (Kd : forall o, is_dist (dbind (draw_own l) (fun os => dret (o :: os)))) by (intro; apply is_dist_bind; [exact D | intro; apply is_dist_ret]).
    assert (Kd' : forall o, is_dist (dbind (draw_own (map (fun t => (drop_in u (fst t), snd t)) l)) (fun os => dret (o :: os))))
      by (intro; apply is_dist_bind; [exact D' | intro; apply is_dist_ret]).
    split; [apply is_dist_bind; assumption|]. split; [apply is_dist_bind; assumption|]. rewrite !sumR_cons. apply both_bind; try assumption.
    + apply sumR_nonneg. intros [[q2 k2] b2] I2. rewrite Forall_forall in F. destruct (F _ I2) as [_ [_ [G1 G2]]]. cbn [fst snd] in *. unfold query_delta.
      assert (X1 : 0 <= (if selects_privately (q_params q2) (q_public q2) then Q2R (snd (own_selection cls q2 b2)) else 0)).
      { destruct (selects_privately (q_params q2) (q_public q2)); [|lra]. destruct (G1 eq_refl) as [_ [X _]]. apply Qle_Rle in X. rewrite RMicromega.Q2R_0 in X. exact X. }
      assert (X2 : 0 <= sumR (map (fun a => Q2R (sumQ (map snd (budgets_of cls q2 b2 a)))) (q_objects q2))).
      { apply sumR_nonneg. intros a Ia. destruct (G2 a Ia) as [_ Ge]. apply Qle_Rle in Ge. rewrite RMicromega.Q2R_0 in Ge. exact Ge. }
      lra.
    + intro o. apply both_post. exact Bo.
Qed.

Lemma sumQ_granted rs (bs : list (Q * Q)) : Forall2 granted_ok rs bs -> (0 <= sumQ (map snd bs))%Q.
Proof.
  induction 1 as [|r b rs bs [_ [[X _] _]] F IH]; [apply Qle_refl|]. cbn [map]. change (sumQ (snd b :: map snd bs)) with (snd b + sumQ (map snd bs))%Q.
  rewrite <- (Qplus_0_l 0). apply Qplus_le_compat; assumption.
Qed.

Lemma queries_both u bs (qks : list (query U P V * list P)) : pydp_contract keep ->
  NoDup (flat_map q_objects (map fst qks)) ->
  Forall (fun qk => valid_query (snd qk) (fst qk) /\
                    forall a, In a (q_objects (fst qk)) -> forall b, Forall2 granted_ok (object_requests cls (fst qk) a) b ->
                      keeps_promise (cls a) (own_params (q_params (fst qk))) b) qks ->
  Forall2 granted_ok (flat_map (query_requests cls) (map fst qks)) bs ->
  both (Q2R (sumQ (map fst bs))) (Q2R (sumQ (map snd bs))) (run_queries keep cls bs qks) (run_queries keep cls bs (map (drop_in u) qks)).
Proof.
  intros Kp N Vq G. assert (L : length bs = length (flat_map (query_requests cls) (map fst qks))) by (symmetry; apply (forall2_len _ _ _ G)).
  assert (Em : map fst (map (drop_in u) qks) = map (drop_unit u) (map fst qks)) by (rewrite !map_map; reflexivity).
  rewrite (run_queries_own bs qks N L).
  rewrite (run_queries_own bs (map (drop_in u) qks)).
  2: { rewrite Em. clear -N. replace (flat_map q_objects (map (drop_unit u) (map fst qks))) with (flat_map q_objects (map fst qks)); [exact N|].
       clear. induction qks as [|qk qks IH]; [reflexivity|]. cbn [map flat_map]. rewrite IH. reflexivity. }
  2: { rewrite Em, L. f_equal. clear. induction qks as [|qk qks IH]; [reflexivity|]. cbn [map flat_map]. rewrite IH. reflexivity. }
  assert (Ep : per_query cls (map fst (map (drop_in u) qks)) bs = per_query cls (map fst qks) bs).
  { unfold per_query. f_equal. rewrite !map_map. reflexivity. }
  rewrite Ep.
  assert (Ec : forall bss : list (list (Q * Q)), combine (map (drop_in u) qks) bss = map (fun t => (drop_in u (fst t), snd t)) (combine qks bss)).
  { clear. induction qks as [|qk qks IH]; intros [|b bss]; try reflexivity. cbn [map combine fst snd]. rewrite IH. reflexivity. }
  rewrite Ec. rewrite flat_map_concat_map in G. rewrite <- (app_nil_r (concat _)) in G. destruct (slices_forall2 (X:=request) _ _ _ _ G) as [G1 [G2 G3]].
  inversion G2 as [E1 E2|]. rewrite <- E2, app_nil_r in G3. rewrite (map_map (query_requests cls) (@length request)) in G1, G3.
  change (slices (map (fun x => length (query_requests cls x)) (map fst qks)) bs) with (per_query cls (map fst qks) bs) in G1, G3.
  set (bss := per_query cls (map fst qks) bs) in *. clearbody bss.
  assert (Sum : forall f : Q * Q -> Q, Q2R (sumQ (map f bs)) = sumR (map (fun b => Q2R (sumQ (map f b))) bss)).
  { intro f. rewrite G3. clear. induction bss as [|b bss IH]; [apply RMicromega.Q2R_0|]. cbn [map concat]. rewrite map_app, sumQ_app_R, sumR_cons, IH. reflexivity. }
  rewrite !Sum. clear G G2 G3 E1 E2 L Em Ep Ec Sum bs.
  assert (Good : Forall (fun t => NoDup (q_objects (fst (fst t))) /\ valid_query (snd (fst t)) (fst (fst t)) /\ call_good cls (fst (fst t)) (snd t) /\
                   query_eps cls (fst (fst t)) (snd t) = Q2R (sumQ (map fst (snd t))) /\ query_delta cls (fst (fst t)) (snd t) = Q2R (sumQ (map snd (snd t)))) (combine qks bss) /\
                 map snd (combine qks bss) = bss).
  { revert bss G1 N. induction Vq as [|[q keys] qks [V1 V2] Vq IH]; intros bss G1 N.
    - cbn [map] in G1. inversion G1; subst. split; constructor.
    - cbn [map fst snd] in *. inversion G1 as [|? b ? bss' Gb G1']; subst. cbn [flat_map] in N. destruct (proj1 (NoDup_app_iff _ _) N) as [Nq [Nr _]].
      destruct (IH bss' G1' Nr) as [I1 I2]. cbn [combine map snd]. split; [|rewrite I2; reflexivity]. constructor; [|exact I1]. cbn [fst snd].
      destruct (query_budgets q b Nq Gb) as [Q1 [Q2 Q3]]. split; [exact Nq|]. split; [exact V1|]. split; [|split].
      + split.
        * intro Sp. destruct (Q2 Sp) as [X1 [X2 _]]. auto.
        * intros a Ia. split; [apply V2; auto | apply (sumQ_granted _ _ (Q1 a Ia))].
      + unfold query_eps. rewrite (Q3 fst). reflexivity.
      + unfold query_delta. rewrite (Q3 snd). reflexivity. }
  destruct Good as [Good Es]. rewrite <- Es at 1 2. rewrite !map_map.
  assert (M1 : map (fun t : query U P V * list P * list (Q * Q) => Q2R (sumQ (map fst (snd t)))) (combine qks bss) = map (fun t => query_eps cls (fst (fst t)) (snd t)) (combine qks bss)).
  { apply map_ext_in. intros t It. rewrite Forall_forall in Good. symmetry. apply (Good t It). }
  assert (M2 : map (fun t : query U P V * list P * list (Q * Q) => Q2R (sumQ (map snd (snd t)))) (combine qks bss) = map (fun t => query_delta cls (fst (fst t)) (snd t)) (combine qks bss)).
  { apply map_ext_in. intros t It. rewrite Forall_forall in Good. symmetry. apply (Good t It). }
  rewrite M1, M2. apply own_both; [exact Kp|]. eapply Forall_impl; [|exact Good]. cbn. intros t [X1 [X2 [X3 _]]]. auto.
Qed.
End Queries.
