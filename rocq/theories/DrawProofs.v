(** Lemmas for C81. *)
From Coq Require Import List ZArith QArith Qreals Qabs Reals Bool Permutation Lia Lqa Lra.
From Verif Require Import Base BaseLemmas BackendModel ListLemmas BackendSpec ParamsModel SensModel CombinerModel
  EngineModel EngineSpec BudgetModel BudgetSpec VectorModel ExpMechModel ExpMechProofs
  LaplaceModel LaplaceSpec LaplaceProofs SelectModel SelectSpec PrivateProofs3 WrapperModel DistSpec DistProofs DpModel DpSpec
  DpProofs DpProofs2 DpProofs3 DpProofs4 DpProofs5 ProgSpec ProgProofs ProgProofs2 DrawSpec.
Import ListNotations.
Local Open Scope R_scope.
Local Close Scope Q_scope.

Section Games.
Context {U P : Type} `{EqDec U} `{EqDec P} (py : pydp).

Lemma game_both u (g : game U P) rs x : fair_game u g rs x -> pydp_keeps_promises py -> forall bs, Forall2 granted_ok rs bs ->
  is_dist (run_game py g bs) /\ is_dist (run_game py (forget_game u g) bs) /\
  both (Q2R (sumQ (map fst bs)) + Q2R x) (Q2R (sumQ (map snd bs))) (run_game py g bs) (run_game py (forget_game u g) bs).
Proof.
  intros W Hpy. induction W as [x Px|coins next rs x Dc Wn IH|o next rs x x' Vo Wn IH Lx]; intros bs G.
  - inversion G; subst. cbn. split; [apply is_dist_ret|]. split; [apply is_dist_ret|]. change (sumQ []) with 0%Q. rewrite RMicromega.Q2R_0, Rplus_0_l.
    apply both_eps with 0; try apply is_dist_ret; [|apply both_same]. apply Qle_Rle in Px. rewrite RMicromega.Q2R_0 in Px. exact Px.
  - cbn [run_game forget_game].
    split; [|split].
    + apply is_dist_bind_in; [exact Dc|]. intros w c I. apply is_dist_bind; [apply (IH w c I bs G) | intro; apply is_dist_ret].
    + apply is_dist_bind_in; [exact Dc|]. intros w c I. apply is_dist_bind; [apply (IH w c I bs G) | intro; apply is_dist_ret].
    + apply both_random; [exact Dc|]. intros w c I. apply both_post. apply (IH w c I bs G).
  - destruct (forall2_firstn_skipn _ _ _ _ G) as [G1 G2]. set (n := length (op_requests o)) in *.
    destruct (op_both py u o (firstn n bs) Hpy Vo G1) as [D [D' [P1 [P2 B]]]].
    cbn [run_game forget_game]. rewrite forget_requests. fold n.
    assert (K : forall w a, In (w, a) (run_op py o (firstn n bs)) \/ In (w, a) (run_op py (forget_op u o) (firstn n bs)) ->
      is_dist (dbind (run_game py (next a) (skipn n bs)) (fun rest => dret (inr a :: rest))) /\
      is_dist (dbind (run_game py (forget_game u (next a)) (skipn n bs)) (fun rest => dret (inr a :: rest))) /\
      both (Q2R (sumQ (map fst (skipn n bs))) + Q2R x) (Q2R (sumQ (map snd (skipn n bs))))
        (dbind (run_game py (next a) (skipn n bs)) (fun rest => dret (inr a :: rest)))
        (dbind (run_game py (forget_game u (next a)) (skipn n bs)) (fun rest => dret (inr a :: rest)))).
    { intros w a I. assert (Pa : possible o a) by (destruct I as [I|I]; [apply (P1 w) | apply (P2 w)]; exact I).
      destruct (IH a Pa (skipn n bs) G2) as [Q1 [Q2 Q3]].
      split; [apply is_dist_bind; [exact Q1 | intro; apply is_dist_ret]|]. split; [apply is_dist_bind; [exact Q2 | intro; apply is_dist_ret]|].
      apply both_post. exact Q3. }
    assert (DD : is_dist (dbind (run_op py o (firstn n bs)) (fun a => dbind (run_game py (next a) (skipn n bs)) (fun rest => dret (inr a :: rest))))).
    { apply is_dist_bind_in; [exact D|]. intros w a I. apply (K w a). left. exact I. }
    assert (DD' : is_dist (dbind (run_op py (forget_op u o) (firstn n bs)) (fun a => dbind (run_game py (forget_game u (next a)) (skipn n bs)) (fun rest => dret (inr a :: rest))))).
    { apply is_dist_bind_in; [exact D'|]. intros w a I. apply (K w a). right. exact I. }
    split; [exact DD|]. split; [exact DD'|].
    assert (Sp : forall f : Q * Q -> Q, Q2R (sumQ (map f bs)) = Q2R (sumQ (map f (firstn n bs))) + Q2R (sumQ (map f (skipn n bs)))).
    { intro f. rewrite <- sumQ_app_R, <- map_app, firstn_skipn. reflexivity. }
    rewrite !Sp.
    apply both_eps with ((Q2R (sumQ (map fst (firstn n bs))) + Q2R (op_extra o)) + (Q2R (sumQ (map fst (skipn n bs))) + Q2R x)); [|exact DD|exact DD'|].
    + apply Qle_Rle in Lx. rewrite Q2R_plus in Lx. lra.
    + apply both_bind_in; [apply (deltas_nonneg rs); exact G2 | exact D | exact D' | exact K | exact B].
Qed.

Lemma some_draw (coins : dist nat) : is_dist coins -> exists w c, In (w, c) coins.
Proof. intros [_ S1]. destruct coins as [|[w c] coins]; [cbn in S1; lra|]. exists w, c. left. reflexivity. Qed.

Lemma possible_exists u (o : operation U P) : valid_op u o -> exists a, possible o a.
Proof.
  intros Vo. destruct o as [c N X T|s|a|b].
  - exists (Aggregated (Ok (repeat None (length (c_keys c)), []))). cbn. apply repeat_length.
  - exists (Selected (repeat true (length (s_keys s))) []). cbn. apply repeat_length.
  - exists (Noised (Ok (repeat (Some 0%Q) (length (a_keys a)), []))). cbn. split; [apply repeat_length|].
    apply Forall_forall. intros y Iy. apply repeat_spec in Iy. subst. discriminate.
  - exists (Bounded (Ok 1%Z)). cbn. destruct Vo as [Vo _]. apply ParamsProps.C38_private_bounds_check in Vo.
    destruct Vo as (_ & _ & _ & (z & Ez & Pz) & _). injection Ez as <-. lia.
Qed.

Lemma game_requests u (g : game U P) rs x : fair_game u g rs x -> Forall (fun r => req_count r = 1%Z) rs.
Proof.
  induction 1 as [|coins next rs x Dc Wn IH|o next rs x x' Vo Wn IH Lx]; [constructor| |].
  - destruct (some_draw coins Dc) as [w [c I]]. apply (IH w c I).
  - apply Forall_app. split.
    + destruct o as [c N X T|s|a|b]; cbn [op_requests]; try (repeat constructor; fail).
      unfold call_requests. apply Forall_app. split.
      * apply Forall_flat_map. apply Forall_forall. intros cb _. apply Forall_forall. intros y Iy. apply repeat_spec in Iy. subst. reflexivity.
      * destruct (selects_privately _ _); repeat constructor.
    + destruct (possible_exists u o Vo) as [a Pa]. apply (IH a Pa).
Qed.
End Games.
