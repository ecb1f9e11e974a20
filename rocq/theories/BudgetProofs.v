(** Proofs about the budget accountant model. *)
From Coq Require Import List ZArith QArith Lia Bool Setoid Morphisms Lqa.
From Verif Require Import Base BaseLemmas BudgetModel BudgetSpec.
Import ListNotations.
Local Open Scope Q_scope.

(** ** Basic facts about lists of mechanisms *)

Definition mkey (m : mech) : mech_type * Z := (m_type m, m_count m).
Definition mread (m : mech) : option Q * option Q := (m_eps m, m_delta m).

Lemma update_at_map {B} (h : mech -> B) g i ms :
  (forall m, h (g m) = h m) -> map h (update_at i g ms) = map h ms.
Proof.
  intros Hg. revert i. induction ms; intros [|i]; simpl; auto.
  - rewrite Hg; reflexivity.
  - rewrite IHms; reflexivity.
Qed.

Lemma fold_update_map {B} (h : mech -> B) g idx ms :
  (forall m, h (g m) = h m) ->
  map h (fold_left (fun acc i => update_at i g acc) idx ms) = map h ms.
Proof.
  intros Hg. revert ms. induction idx; simpl; intros; auto.
  rewrite IHidx. apply update_at_map; auto.
Qed.

Lemma normalise_map {B} (h : mech -> B) w idx ms ms' :
  (forall f m, h (scale_mech f m) = h m) ->
  normalise w idx ms = Ok ms' -> map h ms' = map h ms.
Proof.
  intros Hg. unfold normalise. destruct idx as [|i idx].
  - intros E; injection E as <-; reflexivity.
  - destruct (Qeq_bool _ 0); [discriminate|]. intros E; injection E as <-.
    rewrite fold_update_map; auto. apply update_at_map; auto.
Qed.

Lemma update_at_Forall (P : mech -> Prop) g i ms :
  (forall m, P m -> P (g m)) -> Forall P ms -> Forall P (update_at i g ms).
Proof.
  intros Hg H. revert i. induction H; intros [|i]; simpl; constructor; auto.
Qed.

Lemma fold_update_Forall (P : mech -> Prop) g idx ms :
  (forall m, P m -> P (g m)) -> Forall P ms ->
  Forall P (fold_left (fun acc i => update_at i g acc) idx ms).
Proof.
  intros Hg. revert ms. induction idx; simpl; intros; auto.
  apply IHidx. apply update_at_Forall; auto.
Qed.

Definition wpos (m : mech) : Prop := 0 < m_weight m /\ (0 < m_count m)%Z.

Lemma weight_at_nonneg ms i : Forall wpos ms -> 0 <= weight_at ms i.
Proof.
  intros H. unfold weight_at. destruct (nth_error ms i) eqn:E; [|lra].
  apply nth_error_In in E. rewrite Forall_forall in H. apply H in E. destruct E. lra.
Qed.

Lemma normalise_pos w idx ms ms' :
  0 < w -> Forall wpos ms -> normalise w idx ms = Ok ms' -> Forall wpos ms'.
Proof.
  intros Hw Hms. unfold normalise. destruct idx as [|i idx].
  - intros E; injection E as <-; auto.
  - set (total := sumQ _). destruct (Qeq_bool total 0) eqn:Et; [discriminate|].
    intros E; injection E as <-.
    apply Qeq_bool_false in Et.
    assert (Ht : 0 < total).
    { assert (0 <= total).
      { apply sumQ_nonneg. apply Forall_forall. intros x Hx.
        apply in_map_iff in Hx as (j & <- & _). apply weight_at_nonneg; auto. }
      lra. }
    assert (Hf : 0 < w / total) by (apply Qdiv_pos; auto).
    assert (Hs : forall m, wpos m -> wpos (scale_mech (w / total) m)).
    { intros m [H1 H2]. split; simpl; auto. apply Qmult_lt_0_compat; auto. }
    apply fold_update_Forall; auto. apply update_at_Forall; auto.
Qed.

(** ** Invariants of single calls *)

Lemma start_agg_state s w : fst (start_agg s w) = add_actual s w.
Proof.
  unfold start_agg. destruct (exp_num s) as [n|].
  - destruct (negb _); reflexivity.
  - destruct (exp_weights s) as [[|x l]|]; try reflexivity.
    destruct (Qeq_bool _ 0); reflexivity.
Qed.

Lemma step_totals s o :
  total_eps (fst (step s o)) = total_eps s /\ total_delta (fst (step s o)) = total_delta s /\
  exp_num (fst (step s o)) = exp_num s /\ exp_weights (fst (step s o)) = exp_weights s.
Proof.
  destruct o; simpl.
  - unfold request_budget. destruct (finalized s); simpl; auto.
    destruct noise_std; simpl; auto. destruct t; simpl; auto.
    destruct (Qeq_bool _ 0); simpl; auto.
  - auto.
  - unfold exit_scope. destruct (scopes s) as [|[w idx] rest]; simpl; auto.
    destruct (normalise _ _ _); simpl; auto.
  - rewrite start_agg_state; simpl; auto.
  - unfold compute_budgets. destruct (check_restrictions s); simpl; auto.
    destruct (finalized s); simpl; auto.
    destruct (mechs s); simpl; auto. destruct (scopes s); simpl; auto.
Qed.

Lemma run_totals ops s :
  total_eps (run s ops) = total_eps s /\ total_delta (run s ops) = total_delta s /\
  exp_num (run s ops) = exp_num s /\ exp_weights (run s ops) = exp_weights s.
Proof.
  revert s. induction ops as [|o ops IH]; simpl; intros; auto.
  destruct (IH (fst (step s o))) as (A & B & C & D).
  destruct (step_totals s o) as (A' & B' & C' & D').
  rewrite A, B, C, D. auto.
Qed.

(** The mechanism list evolves by appending exactly the granted request. *)
Lemma step_keys s o :
  map mkey (mechs (fst (step s o))) =
  map mkey (mechs s) ++
  match o, snd (step s o) with
  | Request t _ c _, Ok _ => [(t, c)]
  | _, _ => []
  end.
Proof.
  destruct o; simpl.
  - unfold request_budget. destruct (finalized s); simpl; [rewrite app_nil_r; auto|].
    destruct noise_std; simpl; [rewrite app_nil_r; auto|].
    destruct t; simpl; try (rewrite map_app; reflexivity).
    destruct (Qeq_bool _ 0); simpl; [rewrite app_nil_r; auto|]. rewrite map_app; reflexivity.
  - rewrite app_nil_r; auto.
  - rewrite app_nil_r. unfold exit_scope. destruct (scopes s) as [|[w idx] rest]; simpl; auto.
    destruct (normalise _ _ _) eqn:E; simpl; auto.
    eapply normalise_map in E; [exact E|]. reflexivity.
  - rewrite app_nil_r. rewrite start_agg_state; simpl; auto.
  - rewrite app_nil_r. unfold compute_budgets. destruct (check_restrictions s); simpl; auto.
    destruct (finalized s); simpl; auto.
    destruct (mechs s) eqn:Em; simpl; [rewrite Em; auto|].
    destruct (scopes s); simpl; [|rewrite Em; auto].
    f_equal. rewrite map_map. apply map_ext. reflexivity.
Qed.

Lemma outs_app s ops1 ops2 : outs s (ops1 ++ ops2) = outs s ops1 ++ outs (run s ops1) ops2.
Proof. revert s. induction ops1; simpl; intros; auto. rewrite IHops1. reflexivity. Qed.

Lemma outs_length s ops : length (outs s ops) = length ops.
Proof. revert s. induction ops; simpl; intros; auto. Qed.

Lemma run_app s ops1 ops2 : run s (ops1 ++ ops2) = run (run s ops1) ops2.
Proof. unfold run. apply fold_left_app. Qed.

Lemma run_keys ops s :
  map mkey (mechs (run s ops)) =
  map mkey (mechs s) ++ map (fun r => (req_type r, req_count r)) (granted ops (outs s ops)).
Proof.
  revert s. induction ops as [|o ops IH]; simpl; intros s.
  - rewrite app_nil_r; auto.
  - rewrite IH, step_keys, <- app_assoc. f_equal.
    destruct o; simpl; try reflexivity.
    destruct (snd (request_budget s t w count noise_std)); reflexivity.
Qed.

Lemma step_pos s o :
  op_pos o -> Forall wpos (mechs s) -> Forall (fun sc => 0 < fst sc) (scopes s) ->
  Forall wpos (mechs (fst (step s o))) /\ Forall (fun sc => 0 < fst sc) (scopes (fst (step s o))).
Proof.
  intros Ho Hm Hs.
  assert (Hreg : forall t w c, 0 < w -> (0 < c)%Z ->
     Forall wpos (mechs (register s (Mech t w c None None))) /\
     Forall (fun sc => 0 < fst sc) (scopes (register s (Mech t w c None None)))).
  { intros t w c Hw Hc. unfold register; simpl. split.
    - apply Forall_app; split; auto. repeat constructor; simpl; auto.
    - apply Forall_forall. intros x Hx. apply in_map_iff in Hx as (y & <- & Hy).
      rewrite Forall_forall in Hs. apply (Hs y Hy). }
  destruct o; simpl in *.
  - destruct Ho as [Hw Hc]. unfold request_budget.
    destruct (finalized s); simpl; auto.
    destruct noise_std; simpl; auto. destruct t; try (apply Hreg; auto).
    destruct (Qeq_bool _ 0); simpl; auto.
  - split; auto.
  - unfold exit_scope. destruct (scopes s) as [|[w idx] rest] eqn:Es; simpl; auto.
    + split; auto. rewrite Es; constructor.
    + inversion Hs; subst. simpl in *.
      destruct (normalise _ _ _) eqn:E; simpl; auto.
      split; auto. eapply normalise_pos; eauto.
  - rewrite start_agg_state; simpl; auto.
  - unfold compute_budgets. destruct (check_restrictions s); simpl; auto.
    destruct (finalized s); simpl; auto.
    destruct (mechs s) as [|m ms] eqn:Em; [simpl; rewrite Em; auto|].
    destruct (scopes s) eqn:Es; [|simpl; rewrite Em, Es; auto].
    cbn [fst]. simpl scopes. rewrite Es. split; auto.
    simpl mechs. rewrite Forall_forall in *. intros x Hx.
    change (In x (map (set_budget (total_eps s) (total_delta s)
      (total_weight_eps (m :: ms)) (total_weight_delta (m :: ms))) (m :: ms))) in Hx.
    apply in_map_iff in Hx as (y & <- & Hy). apply (Hm y Hy).
Qed.

Lemma run_pos ops s :
  Forall op_pos ops -> Forall wpos (mechs s) -> Forall (fun sc => 0 < fst sc) (scopes s) ->
  Forall wpos (mechs (run s ops)).
Proof.
  intros H. revert s. induction H as [|o ops Ho Hops IH]; simpl; intros s Hm Hs; auto.
  destruct (step_pos s o Ho Hm Hs) as [A B]. apply IH; auto.
Qed.

Lemma new_accountant_inv e d num ws s0 :
  new_accountant e d num ws = Ok s0 ->
  s0 = Acct e d num ws [] [] [] false /\ 0 < e /\ 0 <= d /\ d < 1 /\
  (num <> None -> ws = None) /\ (forall n, num = Some n -> (0 < n)%Z).
Proof.
  unfold new_accountant, validate_epsilon_delta.
  destruct (Qle_bool e 0) eqn:E1; [discriminate|].
  destruct (Qle_bool 0 d) eqn:E2; [|discriminate]. simpl.
  destruct (Qle_bool 1 d) eqn:E3; [discriminate|].
  apply Qle_bool_false in E1. apply Qle_bool_iff in E2. apply Qle_bool_false in E3.
  destruct num as [n|], ws as [l|]; try discriminate.
  - destruct (n <=? 0)%Z eqn:En; [discriminate|]. intros E; injection E as <-.
    repeat split; auto. intros k Hk; injection Hk as <-. lia.
  - intros E; injection E as <-. repeat split; auto; congruence.
  - intros E; injection E as <-. repeat split; auto; congruence.
Qed.

(** ** Totals computed by the accountant *)

Lemma total_weight_eps_sum ms :
  total_weight_eps ms == sumQ (map (fun m => m_weight m * inject_Z (m_count m)) ms).
Proof.
  unfold total_weight_eps.
  assert (H : forall a, fold_left (fun acc m => acc + m_weight m * inject_Z (m_count m)) ms a
     == a + sumQ (map (fun m => m_weight m * inject_Z (m_count m)) ms)).
  { induction ms; simpl; intros; [ring|]. rewrite IHms. ring. }
  rewrite H. ring.
Qed.

Lemma total_weight_delta_sum ms :
  total_weight_delta ms ==
  sumQ (map (fun m => if use_delta m then m_weight m * inject_Z (m_count m) else 0) ms).
Proof.
  unfold total_weight_delta.
  assert (H : forall a, fold_left (fun acc m =>
       if use_delta m then acc + m_weight m * inject_Z (m_count m) else acc) ms a
     == a + sumQ (map (fun m => if use_delta m then m_weight m * inject_Z (m_count m) else 0) ms)).
  { induction ms; simpl; intros; [ring|]. rewrite IHms. destruct (use_delta a); ring. }
  rewrite H. ring.
Qed.

(** What a successful compute_budgets does. *)
Lemma compute_ok s s2 :
  step s Compute = (s2, Ok OutUnit) ->
  check_restrictions s = Ok tt /\ finalized s = false /\
  ((mechs s = [] /\ s2 = set_final s) \/
   (mechs s <> [] /\ scopes s = [] /\
    s2 = set_mechs (set_final s)
           (map (set_budget (total_eps s) (total_delta s) (total_weight_eps (mechs s))
                            (total_weight_delta (mechs s))) (mechs s)))).
Proof.
  simpl. unfold compute_budgets.
  destruct (check_restrictions s) as [[]|] eqn:Ec; [|discriminate].
  destruct (finalized s) eqn:Ef; [discriminate|].
  destruct (mechs s) eqn:Em.
  - intros E; injection E as <-. split; auto.
  - destruct (scopes s) eqn:Es; [|discriminate].
    intros E; injection E as <-. split; auto. split; auto. right. split; [discriminate|]. split; auto.
Qed.

Lemma Forall2_map_same {A B C} (R : B -> C -> Prop) (f : A -> B) (g : A -> C) l :
  (forall x, In x l -> R (f x) (g x)) -> Forall2 R (map f l) (map g l).
Proof.
  induction l; simpl; intros H; constructor; auto.
Qed.

Lemma weighted_sum_map {A} (c : A -> Z) (x : A -> Q) l :
  weighted_sum (map c l) (map x l) == sumQ (map (fun m => inject_Z (c m) * x m) l).
Proof.
  unfold weighted_sum. induction l; simpl; [reflexivity|]. rewrite IHl. reflexivity.
Qed.

Lemma wpos_term m : wpos m -> 0 < m_weight m * inject_Z (m_count m).
Proof.
  intros [H1 H2]. apply Qmult_lt_0_compat; auto.
  change 0 with (inject_Z 0). rewrite <- Zlt_Qlt. auto.
Qed.

Lemma inject_ge1 c : (0 < c)%Z -> 1 <= inject_Z c.
Proof. intros. change 1 with (inject_Z 1). rewrite <- Zle_Qle. lia. Qed.

(** ** C01 / C02 *)

Lemma naive_eps_general ms te td :
  ~ total_weight_eps ms == 0 ->
  weighted_sum (map m_count ms)
    (map (fun m => if Qeq_bool (total_weight_eps ms) 0 then 0
                   else te * m_weight m / total_weight_eps ms) ms) == te * (1 + 0 * td).
Proof.
  intros Hne. assert (Hb := proj2 (Qeq_bool_false _ _) Hne). rewrite Hb.
  rewrite weighted_sum_map.
  rewrite (sumQ_ext _ (fun m => (te / total_weight_eps ms) * (m_weight m * inject_Z (m_count m)))).
  - rewrite sumQ_scale, <- total_weight_eps_sum. field. auto.
  - intros x _. field. auto.
Qed.

Lemma granted_counts e d num ws s0 ops :
  new_accountant e d num ws = Ok s0 ->
  map m_count (mechs (run s0 ops)) = map req_count (granted ops (outs s0 ops)) /\
  map m_type (mechs (run s0 ops)) = map req_type (granted ops (outs s0 ops)).
Proof.
  intros H. apply new_accountant_inv in H as (-> & _).
  set (s0 := Acct e d num ws [] [] [] false).
  pose proof (run_keys ops s0) as K. simpl in K.
  split.
  - transitivity (map snd (map mkey (mechs (run s0 ops)))).
    + rewrite map_map. reflexivity.
    + rewrite K, map_map. reflexivity.
  - transitivity (map fst (map mkey (mechs (run s0 ops)))).
    + rewrite map_map. reflexivity.
    + rewrite K, map_map. reflexivity.
Qed.

Lemma new_run_pos e d num ws s0 ops :
  new_accountant e d num ws = Ok s0 -> Forall op_pos ops -> Forall wpos (mechs (run s0 ops)).
Proof.
  intros H Hp. apply new_accountant_inv in H as (-> & _).
  apply run_pos; simpl; auto.
Qed.

Lemma map_nil_inv {A B} (f : A -> B) l : map f l = [] -> l = [].
Proof. destruct l; simpl; congruence. Qed.

Lemma c01_lemma e d num ws s0 ops s2 :
  new_accountant e d num ws = Ok s0 ->
  Forall op_pos ops ->
  step (run s0 ops) Compute = (s2, Ok OutUnit) ->
  granted ops (outs s0 ops) <> [] ->
  exists es,
    read_eps s2 es /\
    length es = length (granted ops (outs s0 ops)) /\
    weighted_sum (map req_count (granted ops (outs s0 ops))) es == e /\
    Forall (fun x => 0 < x /\ x <= e) es.
Proof.
  intros Hnew Hpos Hc Hne.
  pose proof (new_run_pos _ _ _ _ _ _ Hnew Hpos) as Hwp.
  destruct (granted_counts _ _ _ _ _ ops Hnew) as [Hcounts Htypes].
  pose proof (run_totals ops s0) as (Te & Td & _ & _).
  pose proof Hnew as Hinv. apply new_accountant_inv in Hinv as (Es0 & He & Hd & _).
  assert (Te0 : total_eps (run s0 ops) = e) by (rewrite Te, Es0; reflexivity).
  apply compute_ok in Hc as (_ & _ & [[Hm _] | (Hm & Hs & E2)]).
  { exfalso. apply Hne. rewrite Hm in Hcounts. simpl in Hcounts.
    symmetry in Hcounts. eapply map_nil_inv; eauto. }
  set (ms := mechs (run s0 ops)) in *.
  set (tw := total_weight_eps ms) in *.
  assert (Htw : 0 < tw).
  { unfold tw. rewrite total_weight_eps_sum. apply sumQ_pos.
    - intro C. apply map_nil_inv in C. contradiction.
    - apply Forall_forall. intros x Hx. apply in_map_iff in Hx as (m & <- & Hin).
      apply wpos_term. rewrite Forall_forall in Hwp. auto. }
  assert (Hb : Qeq_bool tw 0 = false) by (apply Qeq_bool_false; lra).
  exists (map (fun m => if Qeq_bool tw 0 then 0 else e * m_weight m / tw) ms).
  split; [|split; [|split]].
  - unfold read_eps. subst s2. simpl. apply Forall2_map_same. intros m _.
    unfold get_eps, set_budget. simpl. rewrite Te0. fold tw. reflexivity.
  - rewrite map_length. apply (f_equal (@length _)) in Hcounts.
    rewrite !map_length in Hcounts. exact Hcounts.
  - rewrite <- Hcounts. fold ms. unfold tw.
    rewrite (naive_eps_general ms e d); [ring|]. fold tw. lra.
  - rewrite Hb. apply Forall_forall. intros x Hx. apply in_map_iff in Hx as (m & <- & Hin).
    rewrite Forall_forall in Hwp. pose proof (Hwp m Hin) as [Hw Hcnt].
    split.
    + apply Qdiv_pos; auto. apply Qmult_lt_0_compat; auto.
    + apply Qle_shift_div_r; auto. apply Qmult_le_l; auto.
      assert (Hle : m_weight m * inject_Z (m_count m) <= tw).
      { unfold tw. rewrite total_weight_eps_sum. apply sumQ_In_le.
        - apply Forall_forall. intros y Hy. apply in_map_iff in Hy as (m' & <- & Hin').
          apply Qlt_le_weak, wpos_term, Hwp; auto.
        - apply in_map_iff. exists m; auto. }
      pose proof (inject_ge1 _ Hcnt). nra.
Qed.

Lemma c01_general_lemma e d num ws s0 ops s2 :
  new_accountant e d num ws = Ok s0 ->
  step (run s0 ops) Compute = (s2, Ok OutUnit) ->
  granted ops (outs s0 ops) <> [] ->
  exists es,
    read_eps s2 es /\
    length es = length (granted ops (outs s0 ops)) /\
    (weighted_sum (map req_count (granted ops (outs s0 ops))) es == e \/
     Forall (fun x => x == 0) es).
Proof.
  intros Hnew Hc Hne.
  destruct (granted_counts _ _ _ _ _ ops Hnew) as [Hcounts Htypes].
  pose proof (run_totals ops s0) as (Te & Td & _ & _).
  pose proof Hnew as Hinv. apply new_accountant_inv in Hinv as (Es0 & He & Hd & _).
  assert (Te0 : total_eps (run s0 ops) = e) by (rewrite Te, Es0; reflexivity).
  apply compute_ok in Hc as (_ & _ & [[Hm _] | (Hm & Hs & E2)]).
  { exfalso. apply Hne. rewrite Hm in Hcounts. simpl in Hcounts.
    symmetry in Hcounts. eapply map_nil_inv; eauto. }
  set (ms := mechs (run s0 ops)) in *.
  set (tw := total_weight_eps ms) in *.
  exists (map (fun m => if Qeq_bool tw 0 then 0 else e * m_weight m / tw) ms).
  split; [|split].
  - unfold read_eps. subst s2. simpl. apply Forall2_map_same. intros m _.
    unfold get_eps, set_budget. simpl. rewrite Te0. fold tw. reflexivity.
  - rewrite map_length. apply (f_equal (@length _)) in Hcounts.
    rewrite !map_length in Hcounts. exact Hcounts.
  - destruct (Qeq_bool tw 0) eqn:Hb.
    + right. apply Forall_forall. intros x Hx. apply in_map_iff in Hx as (m & <- & Hin). reflexivity.
    + left. rewrite <- Hcounts. fold ms. apply Qeq_bool_false in Hb as Hb'.
      pose proof (naive_eps_general ms e d) as G. fold tw in G. rewrite Hb in G.
      rewrite G; auto. ring.
Qed.

Lemma existsb_use_delta ms :
  existsb use_delta ms = existsb uses_delta (map m_type ms).
Proof. induction ms; simpl; auto. rewrite IHms. reflexivity. Qed.

Lemma c02_lemma e d num ws s0 ops s2 :
  new_accountant e d num ws = Ok s0 ->
  Forall op_pos ops ->
  step (run s0 ops) Compute = (s2, Ok OutUnit) ->
  exists ds,
    read_delta s2 ds /\
    length ds = length (granted ops (outs s0 ops)) /\
    weighted_sum (map req_count (granted ops (outs s0 ops))) ds ==
      (if existsb uses_delta (map req_type (granted ops (outs s0 ops))) then d else 0) /\
    Forall2 (fun t x => 0 <= x /\ x <= d /\ (t = LAPLACE -> x == 0))
            (map req_type (granted ops (outs s0 ops))) ds.
Proof.
  intros Hnew Hpos Hc.
  pose proof (new_run_pos _ _ _ _ _ _ Hnew Hpos) as Hwp.
  destruct (granted_counts _ _ _ _ _ ops Hnew) as [Hcounts Htypes].
  pose proof (run_totals ops s0) as (Te & Td & _ & _).
  pose proof Hnew as Hinv. apply new_accountant_inv in Hinv as (Es0 & He & Hd & _).
  assert (Td0 : total_delta (run s0 ops) = d) by (rewrite Td, Es0; reflexivity).
  apply compute_ok in Hc as (_ & _ & [[Hm E2] | (Hm & Hs & E2)]).
  { exists []. rewrite Hm in Hcounts. simpl in Hcounts. symmetry in Hcounts.
    apply map_nil_inv in Hcounts. rewrite Hcounts. simpl. subst s2.
    repeat split; try constructor. unfold read_delta. simpl. rewrite Hm. constructor. }
  set (ms := mechs (run s0 ops)) in *.
  set (tw := total_weight_delta ms) in *.
  set (fd := fun m => if use_delta m then (if Qeq_bool tw 0 then 0 else d * m_weight m / tw) else 0).
  assert (Htw : existsb use_delta ms = true -> 0 < tw).
  { intros Hex. apply existsb_exists in Hex as (m & Hin & Hu).
    unfold tw. rewrite total_weight_delta_sum.
    rewrite Forall_forall in Hwp.
    eapply Qlt_le_trans; [|apply sumQ_In_le].
    - apply (wpos_term m); auto.
    - apply Forall_forall. intros y Hy. apply in_map_iff in Hy as (m' & <- & Hin').
      destruct (use_delta m'); [|lra]. apply Qlt_le_weak, wpos_term; auto.
    - apply in_map_iff. exists m. rewrite Hu. auto. }
  exists (map fd ms). split; [|split; [|split]].
  - unfold read_delta. subst s2. simpl. apply Forall2_map_same. intros m _.
    unfold get_delta, set_budget. simpl. rewrite Td0. fold tw. reflexivity.
  - rewrite map_length. apply (f_equal (@length _)) in Hcounts.
    rewrite !map_length in Hcounts. exact Hcounts.
  - rewrite <- Hcounts, <- Htypes. rewrite <- existsb_use_delta. fold ms.
    rewrite weighted_sum_map.
    destruct (existsb use_delta ms) eqn:Hex.
    + specialize (Htw eq_refl). unfold fd.
      assert (Hb : Qeq_bool tw 0 = false) by (apply Qeq_bool_false; lra). rewrite Hb.
      rewrite (sumQ_ext _ (fun m => (d / tw) *
         (if use_delta m then m_weight m * inject_Z (m_count m) else 0))).
      * rewrite sumQ_scale, <- total_weight_delta_sum. fold tw. field. lra.
      * intros m _. destruct (use_delta m); field; lra.
    + rewrite (sumQ_ext _ (fun m => 0 * 1)).
      * rewrite sumQ_scale. ring.
      * intros m Hin. unfold fd.
        destruct (use_delta m) eqn:Hu; [|ring].
        exfalso. assert (existsb use_delta ms = true); [|congruence].
        apply existsb_exists. exists m; auto.
  - rewrite <- Htypes. fold ms. apply Forall2_map_same. intros m Hin.
    rewrite Forall_forall in Hwp. pose proof (Hwp m Hin) as [Hw Hcnt].
    unfold fd. destruct (use_delta m) eqn:Hu.
    + assert (H0 : 0 < tw) by (apply Htw, existsb_exists; exists m; auto).
      assert (Hb : Qeq_bool tw 0 = false) by (apply Qeq_bool_false; lra). rewrite Hb.
      assert (Hle : m_weight m * inject_Z (m_count m) <= tw).
      { unfold tw. rewrite total_weight_delta_sum. apply sumQ_In_le.
        - apply Forall_forall. intros y Hy. apply in_map_iff in Hy as (m' & <- & Hin').
          destruct (use_delta m'); [|lra]. apply Qlt_le_weak, wpos_term, Hwp; auto.
        - apply in_map_iff. exists m. rewrite Hu. auto. }
      pose proof (inject_ge1 _ Hcnt).
      assert (Hwt : m_weight m <= tw) by nra. clear Hle.
      split; [|split].
      * apply Qle_shift_div_l; auto. nra.
      * apply Qle_shift_div_r; auto.
        rewrite !(Qmult_comm d). apply Qmult_le_compat_r; auto.
      * intros Et. unfold use_delta in Hu. rewrite Et in Hu. discriminate.
    + repeat split; try lra; try reflexivity.
Qed.
