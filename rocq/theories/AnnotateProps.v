(** C84: annotators see every release once, with its parameters and the budget that is due
    to it; add_dp_noise is announced a budget that it does not get. *)
From Coq Require Import String List ZArith QArith Qreals Reals Bool Lia Lra Lqa.
From Verif Require Import Base BaseLemmas BudgetModel BudgetSpec BudgetProofs BudgetTreeProofs
  LabelModel LabelProofs SelectSpec LaplaceSpec VectorModel DistSpec DistProofs DpSpec ProgSpec ProgProps
  AnnotateModel AnnotateSpec AnnotateProofs.
Import ListNotations.
Local Open Scope Q_scope.

(** A program on Beam calls methods of DPEngine any number of times.  Each returned
    collection is what the registered annotators, each called once and in the order of
    registration, make of the result; all are given the parameters of the call and the
    budget due to it.  Labels given to annotators start with "annotation"; no two stages of
    the whole pipeline, annotations included, have the same label.  The accountant is used
    as if there were no annotators. *)
Theorem C84_every_annotator_once {C Pm} :
  forall e d num ws s0 suffix (annotators : list (annotator C Pm)) calls rs s g,
    new_accountant e d num ws = Ok s0 ->
    build annotators calls s0 (new_generator suffix) = Ok (rs, s, g) ->
    NoDup (flat_map (fun r => r_stages r ++ r_annotations r) rs) /\
    s = run s0 (flat_map (fun c => method_ops (c_method c)) calls) /\
    Forall2 (fun c r =>
      List.length (r_stages r) = List.length (c_stages c) /\
      List.length (r_annotations r) = List.length annotators /\
      Forall (fun l => exists i, l = ("annotation" ++ i)%string) (r_annotations r) /\
      r_col r = annotated annotators (r_annotations r) (c_params c)
        (due e d num ws (match c_method c with Scoped w _ => w | AddNoise _ w => w end)) (c_col c)) calls rs.
Proof.
  intros e d num ws s0 suffix annotators calls rs s g Hnew Hb.
  destruct (new_accountant_inv _ _ _ _ _ Hnew) as (E & _ & _ & _ & _ & Hn).
  apply build_spec in Hb.
  - destruct Hb as (G1 & G2 & G3 & G4). split; [|split; [exact G3|]].
    + cbn [new_generator g_labels] in G1. rewrite app_nil_r in G1. rewrite G1 in G2.
      apply NoDup_rev in G2. rewrite rev_involutive in G2. exact G2.
    + subst s0. cbn [total_eps total_delta exp_num exp_weights] in G4. clear - G4.
      induction G4 as [|c r calls rs (L1 & L2 & F & Ec) G4 IH]; constructor; [|exact IH].
      split; [exact L1|]. split; [exact L2|]. split; [|exact Ec].
      eapply Forall_impl; [|exact F]. intros l (i & ->). exists (i ++ g_suffix (new_generator suffix))%string. reflexivity.
  - subst s0. cbn. destruct num as [n|]; [apply (Hn n); reflexivity|exact I].
  - constructor.
Qed.

(** Such programs do not raise: positive weights, Gaussian noise only with delta, and
    declared weights that do not add up to zero. *)
Theorem C84_programs_run {C Pm} :
  forall e d num ws s0 suffix (annotators : list (annotator C Pm)) (cs : list (engine_call * (list (option string) * C * Pm))),
    new_accountant e d num ws = Ok s0 ->
    (forall x l, ws = Some (x :: l) -> ~ sumQ (x :: l) == 0) ->
    Forall (usable d) (map fst cs) ->
    exists rs s g, build annotators
      (map (fun c => Call (as_method (fst c)) (fst (fst (snd c))) (snd (fst (snd c))) (snd (snd c))) cs)
      s0 (new_generator suffix) = Ok (rs, s, g).
Proof.
  intros e d num ws s0 suffix annotators cs Hnew Hw Hu.
  destruct (new_accountant_inv _ _ _ _ _ Hnew) as (E & _).
  assert (Hf : finalized s0 = false) by (subst; reflexivity).
  assert (Hd : total_delta s0 = d) by (subst; reflexivity).
  assert (Ht : told_ok s0).
  { subst s0. unfold told_ok. cbn. destruct num; [exact I|]. destruct ws as [[|x l]|]; try exact I. apply Hw. reflexivity. }
  clear E Hnew Hw num ws. generalize (new_generator suffix) as g. clear suffix.
  revert s0 Hf Hd Ht. induction cs as [|[c [[st col] p]] cs IH]; intros s Hf Hd Ht g; cbn [map build].
  - eauto.
  - cbn [map fst] in Hu. inversion Hu as [|x y U1 U2]; subst x y. cbn [fst snd c_method c_stages c_col c_params].
    destruct (run_call d c s Hf Hd U1) as [A B]. specialize (B Ht).
    unfold method_ops in A, B. rewrite outs_app in B. apply Forall_app in B as [B1 B2].
    rewrite run_app in A.
    destruct (perform_ok _ s OutUnit B1) as [r1 ->]. cbn [rbind fst snd].
    destruct (next_labels st g) as [ls g1]. destruct (beam_annotate _ _ _ _ _ g1) as [[c1 la] g2].
    destruct (perform_ok _ _ OutUnit B2) as [r2 ->]. cbn [rbind fst snd]. rewrite A.
    destruct (IH U2 (extend s (cfw c) [asked_weight c]) Hf Hd Ht g2) as (rs & s' & g' & ->).
    cbn [rbind]. eauto.
Qed.

(** Finding: backends other than Beam ignore registered annotators. *)
Theorem C84_annotators_of_other_backends_refuted :
  exists (annotators : list (annotator (list Z) unit)) col labels,
    List.length labels = List.length annotators /\ NoDup labels /\
    default_annotate annotators col "annotation" tt None <> annotated annotators labels tt None col.
Proof.
  exists [fun c _ _ _ => (c ++ [7%Z])%list], [1%Z], ["annotation"%string].
  split; [reflexivity|]. split; [repeat constructor; intros []|]. cbn. discriminate.
Qed.

(** What the calls of a program get.  The epsilon is split in proportion to the weights of
    the aggregations and selections; add_dp_noise counts with weight 1, whatever
    budget_weight it is called with. *)
Theorem C84_what_calls_get :
  forall e d num ws s0 cs s2,
    new_accountant e d num ws = Ok s0 -> cs <> [] -> Forall (usable d) cs ->
    step (run s0 (program_ops cs)) Compute = (s2, Ok OutUnit) ->
    exists ess : list (list Q),
      read_eps s2 (concat ess) /\
      Forall2 (fun es c => List.length es = mechanisms_of c) ess cs /\
      Forall2 (fun es c => sumQ es == e * counted_weight c / sumQ (map counted_weight cs)) ess cs.
Proof. exact what_calls_get. Qed.

Lemma ratio_eq e a b A B : 0 < e -> 0 < A -> 0 < B -> (e * a / A == e * b / B <-> a * B == b * A).
Proof.
  intros He HA HB. split; intros H.
  - assert (X : (e * a / A) * (A * B) / e == (e * b / B) * (A * B) / e) by (rewrite H; reflexivity).
    assert (X1 : (e * a / A) * (A * B) / e == a * B) by (field; Lqa.lra).
    assert (X2 : (e * b / B) * (A * B) / e == b * A) by (field; Lqa.lra).
    rewrite X1, X2 in X. exact X.
  - assert (X : a / A == b / B).
    { assert (X1 : a / A == (a * B) / (A * B)) by (field; Lqa.lra). rewrite X1, H. field. Lqa.lra. }
    transitivity (e * (a / A)); [field; Lqa.lra|]. rewrite X. field. Lqa.lra.
Qed.

Lemma forall2_weaken {A B} (S T : A -> B -> Prop) l m : (forall x y, S x y -> T x y) -> Forall2 S l m -> Forall2 T l m.
Proof. intros Im F. induction F; constructor; auto. Qed.

Lemma forall2_chain {A B C} (S : A -> B -> Prop) (T : B -> C -> Prop) l m n :
  Forall2 S l m -> Forall2 T m n -> Forall2 (fun x z => exists y, In y m /\ S x y /\ T y z) l n.
Proof.
  intros F. revert n. induction F as [|x y l m Sx F IH]; intros n G; inversion G; subst; constructor.
  - exists y. split; [left; reflexivity|auto].
  - eapply forall2_weaken; [|apply IH; eassumption]. intros a c (b & I & K). exists b. split; [right; exact I|exact K].
Qed.

(** The budgets announced to annotators are those that the calls get exactly if the weights
    that count are in proportion to those that were asked for.  In particular: if every call
    of add_dp_noise has budget_weight 1. *)
Theorem C84_announced_is_granted_exactly :
  forall e d num ws s0 cs s2,
    new_accountant e d num ws = Ok s0 -> (num <> None \/ exists l, ws = Some l /\ l <> []) ->
    cs <> [] -> Forall (usable d) cs ->
    step (run s0 (program_ops cs)) Compute = (s2, Ok OutUnit) ->
    exists ess : list (list Q),
      read_eps s2 (concat ess) /\
      Forall2 (fun es c => List.length es = mechanisms_of c) ess cs /\
      (Forall2 (fun es b => sumQ es == fst b) ess (announced (program_ops cs) (outs s0 (program_ops cs))) <->
       forall c c', In c cs -> In c' cs ->
         counted_weight c * asked_weight c' == counted_weight c' * asked_weight c).
Proof.
  intros e d num ws s0 cs s2 Hnew Hdecl Hne Hu Hc.
  destruct (new_accountant_inv _ _ _ _ _ Hnew) as (_ & He & _).
  destruct (what_calls_get _ _ _ _ _ _ _ Hnew Hne Hu Hc) as (ess & Hr & Hl & Hg).
  destruct (what_is_announced _ _ _ _ _ _ _ Hnew Hdecl Hne Hu Hc) as (Ha & Wa).
  assert (Wc : 0 < sumQ (map counted_weight cs)).
  { apply sumQ_pos; [destruct cs; [contradiction|discriminate]|]. apply Forall_forall. intros x Hx.
    apply in_map_iff in Hx as (c & <- & Hx). rewrite Forall_forall in Hu. apply (cfw_spec d c (Hu c Hx)). }
  exists ess. split; [exact Hr|]. split; [exact Hl|].
  set (A := sumQ (map asked_weight cs)) in *. set (K := sumQ (map counted_weight cs)) in *. split.
  - intros F.
    assert (G : forall c, In c cs -> counted_weight c * A == asked_weight c * K).
    { revert Hg Ha F. generalize (announced (program_ops cs) (outs s0 (program_ops cs))) as bs. intros bs Hg. clearbody A K. clear - Hg He Wa Wc.
      revert bs. induction Hg as [|es c ess l Ec Hg IH]; intros bs Ha F x Hx; [destruct Hx|].
      inversion Ha as [|y b l' bs' Eb Ha']; subst. inversion F as [|y z l' bs'' Ef F']; subst.
      destruct Hx as [<-|Hx]; [|eapply IH; eassumption].
      rewrite Ec, Eb in Ef. apply ratio_eq in Ef; auto. }
    intros c c' Hi Hi'. specialize (G c Hi) as G1. specialize (G c' Hi') as G2.
    assert (N : ~ A == 0) by Lqa.lra.
    apply (Qmult_inj_r _ _ A N).
    transitivity ((counted_weight c * A) * asked_weight c'); [ring|]. rewrite G1.
    transitivity ((asked_weight c' * K) * asked_weight c); [ring|]. rewrite <- G2. ring.
  - intros P.
    assert (G : forall c, In c cs -> counted_weight c * A == asked_weight c * K).
    { intros c Hi. unfold A, K. rewrite <- !sumQ_scale. apply sumQ_Forall2.
      apply Forall2_map_same. intros c' Hi'. rewrite (P c c' Hi Hi'). ring. }
    assert (X : Forall2 (fun es b => exists c, In c cs /\ sumQ es == e * counted_weight c / K /\ fst b == e * asked_weight c / A)
      ess (announced (program_ops cs) (outs s0 (program_ops cs)))).
    { eapply forall2_chain; [exact Hg|exact Ha]. }
    eapply forall2_weaken; [|exact X]. intros es b (c & Hi & E1 & E2). rewrite E1, E2. apply ratio_eq; auto.
Qed.

Theorem C84_announced_is_granted :
  forall e d num ws s0 cs s2,
    new_accountant e d num ws = Ok s0 -> (num <> None \/ exists l, ws = Some l /\ l <> []) ->
    cs <> [] -> Forall (usable d) cs ->
    (forall t w, In (Noise t w) cs -> w == 1) ->
    step (run s0 (program_ops cs)) Compute = (s2, Ok OutUnit) ->
    exists ess : list (list Q),
      read_eps s2 (concat ess) /\
      Forall2 (fun es c => List.length es = mechanisms_of c) ess cs /\
      Forall2 (fun es b => sumQ es == fst b) ess (announced (program_ops cs) (outs s0 (program_ops cs))).
Proof.
  intros e d num ws s0 cs s2 Hnew Hdecl Hne Hu H1 Hc.
  destruct (C84_announced_is_granted_exactly _ _ _ _ _ _ _ Hnew Hdecl Hne Hu Hc) as (ess & Hr & Hl & Hi).
  exists ess. split; [exact Hr|]. split; [exact Hl|]. apply Hi.
  assert (Eq : forall c, In c cs -> counted_weight c == asked_weight c).
  { intros [w l|t w] I; cbn; [reflexivity|]. symmetry. apply (H1 t w I). }
  intros c c' I I'. rewrite (Eq c I), (Eq c' I'). ring.
Qed.

(** Finding: with declared weights 1 and 3 for an aggregation and a call of add_dp_noise
    with budget_weight 3, annotators are told that the noise gets three quarters of the
    epsilon; it gets one half, and the aggregation twice of what was announced. *)
Theorem C84_announced_is_granted_refuted :
  exists s0 s2 b1 b2 e1 e2,
    let cs := [Aggregation 1 [IMech LAPLACE 1]; Noise LAPLACE 3] in
    new_accountant 4 0 None (Some [1; 3]) = Ok s0 /\
    Forall (usable 0) cs /\
    step (run s0 (program_ops cs)) Compute = (s2, Ok OutUnit) /\
    announced (program_ops cs) (outs s0 (program_ops cs)) = [b1; b2] /\ read_eps s2 [e1; e2] /\
    fst b1 == 1 /\ fst b2 == 3 /\ e1 == 2 /\ e2 == 2.
Proof.
  pose (s0 := Acct 4 0 None (Some [1; 3]) [] [] [] false).
  pose (ops := program_ops [Aggregation 1 [IMech LAPLACE 1]; Noise LAPLACE 3]).
  pose (s2 := fst (step (run s0 ops) Compute)).
  exists s0, s2.
  exists (4 * (1 / sumQ [1; 3]), 0 * (1 / sumQ [1; 3])), (4 * (3 / sumQ [1; 3]), 0 * (3 / sumQ [1; 3])).
  eexists. eexists. cbv zeta. split; [reflexivity|]. split; [|split; [vm_compute; reflexivity|split; [vm_compute; reflexivity|split]]].
  - repeat constructor; cbn; try discriminate.
  - unfold read_eps. vm_compute. repeat constructor.
  - repeat split; vm_compute; reflexivity.
Qed.

(** Annotators cost no privacy: the answers of a program, each changed by the annotators
    with labels, parameters and budgets that may depend on the answers, are as
    indistinguishable as the answers. *)
Definition annotate_answers {Ans Pm} (annotators : list (annotator Ans Pm))
    (details : list Ans -> list (list string * Pm * option (Q * Q))) (answers : list Ans) : list Ans :=
  map (fun da => annotated annotators (fst (fst (fst da))) (snd (fst (fst da))) (snd (fst da)) (snd da))
    (combine (details answers) answers).

Theorem C84_annotators_cost_no_privacy {U P Pm} `{EqDec U} `{EqDec P}
    (e d : Q) num ws s0 ops s2 es ds (g : program U P) rs x (u : U) (py : pydp)
    (annotators : list (annotator (answer P) Pm)) details :
  new_accountant e d num ws = Ok s0 ->
  Forall op_pos ops ->
  granted ops (outs s0 ops) = rs -> rs <> [] ->
  step (run s0 ops) Compute = (s2, Ok OutUnit) ->
  read_eps s2 es -> read_delta s2 ds ->
  well_formed u g rs x ->
  pydp_keeps_promises py ->
  forall E, indistinguishable (Q2R e + Q2R x)%R (Q2R d)
    (prob (dbind (run_program py g (combine es ds)) (fun a => dret (annotate_answers annotators details a))) E)
    (prob (dbind (run_program py (forget_program u g) (combine es ds)) (fun a => dret (annotate_answers annotators details a))) E).
Proof.
  intros Hnew Hpos Hg Hne Hc Hes Hds W Hpy E.
  assert (X : forall p : dist (list (answer P)),
    prob (dbind p (fun a => dret (annotate_answers annotators details a))) E = prob p (fun a => E (annotate_answers annotators details a))).
  { intros p. unfold prob. rewrite mixture_bind. apply mixture_ext. intros a.
    exact (mixture_ret _ (fun b => SelectSpec.indicator (E b))). }
  rewrite !X. eapply C63_total_budget_of_programs; eassumption.
Qed.

(** ** Hypotheses are met *)
Example C84_hypotheses_met :
  exists s0 s2 rs s g,
    let cs := [Aggregation 1 [IMech LAPLACE 1; IMech GENERIC 1]; Noise LAPLACE 1; Aggregation 2 [IMech GAUSSIAN 1]] in
    let annotators : list (annotator (list Z) Z) :=
      [fun c _ p _ => (c ++ [p])%list; fun c _ _ b => (c ++ [match b with Some _ => 1%Z | None => 0%Z end])%list] in
    let calls := map (fun c => Call (as_method c) [Some "count"%string; Some "annotation"%string; None] [5%Z] 9%Z) cs in
    new_accountant 4 (1 # 10) None (Some [1; 1; 2]) = Ok s0 /\
    Forall (usable (1 # 10)) cs /\
    step (run s0 (program_ops cs)) Compute = (s2, Ok OutUnit) /\
    build annotators calls s0 (new_generator (Some "x"%string)) = Ok (rs, s, g) /\
    map r_col rs = [[5; 9; 1]; [5; 9; 1]; [5; 9; 1]]%Z /\
    map r_annotations rs = [["annotation_1_x"; "annotation_2_x"]; ["annotation_4_x"; "annotation_5_x"];
                            ["annotation_7_x"; "annotation_8_x"]]%string /\
    map fst (announced (program_ops cs) (outs s0 (program_ops cs))) = [4 * (1 / sumQ [1; 1; 2]); 4 * (1 / sumQ [1; 1; 2]); 4 * (2 / sumQ [1; 1; 2])].
Proof.
  pose (s0 := Acct 4 (1 # 10) None (Some [1; 1; 2]) [] [] [] false).
  pose (cs := [Aggregation 1 [IMech LAPLACE 1; IMech GENERIC 1]; Noise LAPLACE 1; Aggregation 2 [IMech GAUSSIAN 1]]).
  pose (s2 := fst (step (run s0 (program_ops cs)) Compute)).
  exists s0, s2. do 3 eexists. cbv zeta.
  split; [reflexivity|]. split; [repeat constructor; cbn; try discriminate|].
  split; [vm_compute; reflexivity|]. split; [vm_compute; reflexivity|]. repeat split; vm_compute; reflexivity.
Qed.

Print Assumptions C84_every_annotator_once.
Print Assumptions C84_programs_run.
Print Assumptions C84_annotators_of_other_backends_refuted.
Print Assumptions C84_what_calls_get.
Print Assumptions C84_announced_is_granted_exactly.
Print Assumptions C84_announced_is_granted.
Print Assumptions C84_announced_is_granted_refuted.
Print Assumptions C84_annotators_cost_no_privacy.
