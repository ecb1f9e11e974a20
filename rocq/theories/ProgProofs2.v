(** Lemmas for C63: programs. *)
From Coq Require Import List ZArith QArith Qreals Qabs Reals Bool Permutation Lia Lqa Lra.
From Verif Require Import Base BaseLemmas BackendModel ListLemmas BackendSpec ParamsModel SensModel CombinerModel
  EngineModel EngineSpec BudgetModel BudgetSpec VectorModel ExpMechModel ExpMechProofs
  LaplaceModel LaplaceSpec LaplaceProofs SelectModel SelectSpec PrivateProofs3 WrapperModel DistSpec DistProofs DpModel DpSpec
  DpProofs DpProofs2 DpProofs3 DpProofs4 DpProofs5 ProgSpec ProgProofs.
Import ListNotations.
Local Open Scope R_scope.
Local Close Scope Q_scope.

Section Programs.
Context {U P : Type} `{EqDec U} `{EqDec P} (py : pydp).

Lemma call_possible (c : call U P) N X T b col : call_facts c col -> enough_budgets c b ->
  forall w r, In (w, r) (run_call py N X T c b) -> exists ms, r = Ok (ms, []) /\ length ms = length (c_keys c).
Proof.
  intros Fc Gl w o I. unfold run_call in I. cbv zeta in I.
  apply in_flat_map in I. destruct I as [[w1 keep] [_ I]]. apply in_map_iff in I. destruct I as [[w2 o2] [E2 I]]. injection E2 as _ <-. cbn [snd] in *.
  apply in_flat_map in I. destruct I as [[w3 noise] [_ I]]. apply in_map_iff in I. destruct I as [[w4 o4] [E4 I]]. injection E4 as _ <-. cbn [snd] in *.
  apply in_flat_map in I. destruct I as [[w5 noised] [_ I]]. apply in_map_iff in I. destruct I as [[w6 o6] [E6 I]]. injection E6 as _ <-. cbn [snd] in *.
  apply in_flat_map in I. destruct I as [[w7 answers] [_ I]]. apply in_map_iff in I. destruct I as [[w8 o8] [E8 I]]. injection E8 as _ <-. cbn [snd] in *.
  destruct I as [I|[]]. injection I as _ <-. rewrite (aggregate_seen c b col keep noise noised answers Fc Gl).
  unfold shape. eexists. split; [reflexivity|]. rewrite map_length, combine_length, map_length. apply Nat.min_id.
Qed.


Lemma op_both u (o : operation U P) bs : pydp_keeps_promises py -> valid_op u o -> Forall2 granted_ok (op_requests o) bs ->
  is_dist (run_op py o bs) /\ is_dist (run_op py (forget_op u o) bs) /\
  possible_in o (run_op py o bs) /\ possible_in o (run_op py (forget_op u o) bs) /\
  both (Q2R (sumQ (map fst bs)) + Q2R (op_extra o)) (Q2R (sumQ (map snd bs))) (run_op py o bs) (run_op py (forget_op u o) bs).
Proof.
  intros Hpy V G. destruct o as [c N X T|s|a|b]; cbn [op_requests op_extra valid_op] in *.
  - destruct V as [Vc [L L']]. rewrite RMicromega.Q2R_0, Rplus_0_r.
    assert (G' : Forall2 granted_ok (flat_map call_requests [c]) bs) by (cbn [flat_map]; rewrite app_nil_r; exact G).
    destruct (divide_good [c] bs (Forall_cons _ Vc (Forall_nil _)) G') as [_ [F [Ee Ed]]]. cbn [divide combine map fst snd] in F, Ee, Ed.
    inversion F as [|? ? [_ Gb] _]; subst. cbn [fst snd] in Gb. rewrite !sumR_cons in Ee, Ed. change (sumR []) with 0 in Ee, Ed. rewrite Rplus_0_r in Ee, Ed.
    set (b := Budgets (firstn (list_sum (map requests (c_combiners c))) bs) (nth (list_sum (map requests (c_combiners c))) bs (0, 0)%Q)) in *.
    destruct (run_both py c b u N X T Hpy Vc Gb L L') as [D [D' B]].
    destruct (valid_call_facts c Vc) as [col Fc]. destruct (valid_call_facts _ (forget_valid u c Vc)) as [col' Fc'].
    cbn [run_op forget_op forget c_combiners]. fold b. rewrite <- Ee, <- Ed.
    split; [apply is_dist_bind; [exact D | intro; apply is_dist_ret]|]. split; [apply is_dist_bind; [exact D' | intro; apply is_dist_ret]|].
    assert (Po : forall (x : call U P) cx, call_facts x cx -> c_params x = c_params c -> c_combiners x = c_combiners c -> c_keys x = c_keys c ->
              possible_in (Aggregate c N X T) (dbind (run_call py N X T x b) (fun r => dret (Aggregated r)))).
    { intros x cx Fx E1 E2 E3 w r I. apply in_flat_map in I. destruct I as [[w1 r1] [I1 I]]. apply in_map_iff in I. destruct I as [[w2 r2] [E I]].
      injection E as _ <-. cbn [snd] in *. destruct I as [I|[]]. injection I as _ <-.
      destruct (call_possible x N X T b cx Fx) with (w := w1) (r := r1) as [ms [-> Lm]]; [unfold enough_budgets; rewrite E2; apply (gb_length _ _ Gb) | exact I1|].
      cbn [possible]. rewrite <- E3. exact Lm. }
    split; [apply (Po c col); auto|]. split; [apply (Po (forget u c) col'); auto|].
    apply both_post. exact B.
  - inversion G as [|? [e d] ? l [He [Hd _]] Gl]; subst. inversion Gl; subst. cbn [fst snd] in *.
    destruct (selection_both py u s e d Hpy V He Hd) as [D [D' [P1 [P2 B]]]]. cbn [run_op forget_op nth fst snd map].
    change (sumQ [e]) with (e + 0)%Q. change (sumQ [d]) with (d + 0)%Q. rewrite !Q2R_plus, RMicromega.Q2R_0, !Rplus_0_r. auto.
  - inversion G as [|? [e d] ? l [He [Hd Hg]] Gl]; subst. inversion Gl; subst. cbn [fst snd] in *.
    destruct (addition_both py u a e d Hpy V He Hd) as [D [D' [P1 [P2 B]]]].
    { intro Ek. apply Hg. unfold req_type. cbn. rewrite Ek. reflexivity. }
    cbn [run_op forget_op nth fst snd map].
    change (sumQ [e]) with (e + 0)%Q. change (sumQ [d]) with (d + 0)%Q. rewrite !Q2R_plus, RMicromega.Q2R_0, !Rplus_0_r. auto.
  - inversion G; subst. destruct (bounding_both u b V) as [D [D' [P1 [P2 B]]]]. cbn [run_op forget_op map].
    change (sumQ []) with 0%Q. rewrite RMicromega.Q2R_0, Rplus_0_l. auto.
Qed.

Lemma deltas_nonneg rs bs : Forall2 granted_ok rs bs -> 0 <= Q2R (sumQ (map snd bs)).
Proof.
  intro G. apply sumQ_nonneg_R. apply Forall_map. clear -G. induction G as [|r b rs bs [_ [[A _] _]] _ IH]; constructor; assumption.
Qed.

Lemma forget_requests u (o : operation U P) : op_requests (forget_op u o) = op_requests o.
Proof. destruct o; reflexivity. Qed.

Lemma program_both u (g : program U P) rs x : well_formed u g rs x -> pydp_keeps_promises py -> forall bs, Forall2 granted_ok rs bs ->
  is_dist (run_program py g bs) /\ is_dist (run_program py (forget_program u g) bs) /\
  both (Q2R (sumQ (map fst bs)) + Q2R x) (Q2R (sumQ (map snd bs))) (run_program py g bs) (run_program py (forget_program u g) bs).
Proof.
  intros W Hpy. induction W as [x Px|o next rs x x' Vo Wn IH Lx]; intros bs G.
  - inversion G; subst. cbn. split; [apply is_dist_ret|]. split; [apply is_dist_ret|]. change (sumQ []) with 0%Q. rewrite RMicromega.Q2R_0, Rplus_0_l.
    apply both_eps with 0; try apply is_dist_ret; [|apply both_same]. apply Qle_Rle in Px. rewrite RMicromega.Q2R_0 in Px. exact Px.
  - destruct (forall2_firstn_skipn _ _ _ _ G) as [G1 G2]. set (n := length (op_requests o)) in *.
    destruct (op_both u o (firstn n bs) Hpy Vo G1) as [D [D' [P1 [P2 B]]]].
    cbn [run_program forget_program]. rewrite forget_requests. fold n.
    assert (K : forall w a, In (w, a) (run_op py o (firstn n bs)) \/ In (w, a) (run_op py (forget_op u o) (firstn n bs)) ->
      is_dist (dbind (run_program py (next a) (skipn n bs)) (fun rest => dret (a :: rest))) /\
      is_dist (dbind (run_program py (forget_program u (next a)) (skipn n bs)) (fun rest => dret (a :: rest))) /\
      both (Q2R (sumQ (map fst (skipn n bs))) + Q2R x) (Q2R (sumQ (map snd (skipn n bs))))
        (dbind (run_program py (next a) (skipn n bs)) (fun rest => dret (a :: rest)))
        (dbind (run_program py (forget_program u (next a)) (skipn n bs)) (fun rest => dret (a :: rest)))).
    { intros w a I. assert (Pa : possible o a) by (destruct I as [I|I]; [apply (P1 w) | apply (P2 w)]; exact I).
      destruct (IH a Pa (skipn n bs) G2) as [Q1 [Q2 Q3]].
      split; [apply is_dist_bind; [exact Q1 | intro; apply is_dist_ret]|]. split; [apply is_dist_bind; [exact Q2 | intro; apply is_dist_ret]|].
      apply both_post. exact Q3. }
    assert (DD : is_dist (dbind (run_op py o (firstn n bs)) (fun a => dbind (run_program py (next a) (skipn n bs)) (fun rest => dret (a :: rest))))).
    { apply is_dist_bind_in; [exact D|]. intros w a I. apply (K w a). left. exact I. }
    assert (DD' : is_dist (dbind (run_op py (forget_op u o) (firstn n bs)) (fun a => dbind (run_program py (forget_program u (next a)) (skipn n bs)) (fun rest => dret (a :: rest))))).
    { apply is_dist_bind_in; [exact D'|]. intros w a I. apply (K w a). right. exact I. }
    split; [exact DD|]. split; [exact DD'|].
    assert (Sp : forall f : Q * Q -> Q, Q2R (sumQ (map f bs)) = Q2R (sumQ (map f (firstn n bs))) + Q2R (sumQ (map f (skipn n bs)))).
    { intro f. rewrite <- sumQ_app_R, <- map_app, firstn_skipn. reflexivity. }
    rewrite !Sp.
    apply both_eps with ((Q2R (sumQ (map fst (firstn n bs))) + Q2R (op_extra o)) + (Q2R (sumQ (map fst (skipn n bs))) + Q2R x)); [|exact DD|exact DD'|].
    + apply Qle_Rle in Lx. rewrite Q2R_plus in Lx. lra.
    + apply both_bind_in; [apply (deltas_nonneg rs); exact G2 | exact D | exact D' | exact K | exact B].
Qed.
End Programs.
