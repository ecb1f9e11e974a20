(** Proofs about scope trees (C03, C05) and the accountant's life cycle (C04). *)
From Coq Require Import List ZArith QArith Lia Bool Setoid Morphisms Lqa.
From Verif Require Import Base BaseLemmas BudgetModel BudgetSpec BudgetProofs.
Import ListNotations.
Local Open Scope Q_scope.

(** ** Induction on scope trees *)
Definition item_ind' (P : item -> Prop)
  (Hm : forall t w, P (IMech t w))
  (Hs : forall w l, Forall P l -> P (IScope w l)) : forall i, P i :=
  fix F (i : item) : P i :=
    match i with
    | IMech t w => Hm t w
    | IScope w l =>
        Hs w l ((fix go (l : list item) : Forall P l :=
                   match l with
                   | [] => Forall_nil _
                   | x :: l' => Forall_cons _ (F x) (go l')
                   end) l)
    end.

(** Final (type, weight) of each mechanism of a tree, once its scopes are left. *)
Definition wsum (c : list (mech_type * Q)) : Q := sumQ (map snd c).
Definition rescale (w : Q) (c : list (mech_type * Q)) : list (mech_type * Q) :=
  map (fun tx => (fst tx, snd tx * (w / wsum c))) c.
Fixpoint fw (i : item) : list (mech_type * Q) :=
  match i with
  | IMech t w => [(t, w)]
  | IScope w l => rescale w (flat_map fw l)
  end.

Definition mk (tx : mech_type * Q) : mech := Mech (fst tx) (snd tx) 1 None None.

Lemma fw_length i : length (fw i) = leaves i.
Proof.
  induction i using item_ind'; simpl; auto.
  unfold rescale. rewrite map_length.
  induction H; simpl; auto. rewrite app_length, H, IHForall. reflexivity.
Qed.

Lemma fw_length_list l :
  length (flat_map fw l) = fold_right (fun x n => (leaves x + n)%nat) 0%nat l.
Proof. induction l; simpl; auto. rewrite app_length, fw_length, IHl. reflexivity. Qed.

Lemma item_ok_list g l :
  fold_right (fun x P => item_ok g x /\ P) True l <-> Forall (item_ok g) l.
Proof.
  induction l; simpl; split; intros H; auto.
  - destruct H. constructor; tauto.
  - inversion H; subst. tauto.
Qed.

Lemma wsum_app a b : wsum (a ++ b) == wsum a + wsum b.
Proof. unfold wsum. rewrite map_app. apply sumQ_app. Qed.

Lemma wsum_rescale w c : ~ wsum c == 0 -> wsum (rescale w c) == w.
Proof.
  intros H. unfold wsum at 1, rescale. rewrite map_map. simpl.
  rewrite (sumQ_scale_r snd). fold (wsum c). field. auto.
Qed.

Lemma fw_spec g i :
  item_ok g i ->
  Forall (fun tx => 0 < snd tx) (fw i) /\
  (leaves i <> 0%nat -> wsum (fw i) == item_weight i).
Proof.
  induction i using item_ind'; simpl; intros Hok.
  - destruct Hok. split; [repeat constructor; auto|]. intros _. unfold wsum; simpl. ring.
  - destruct Hok as [Hw Hl]. apply item_ok_list in Hl.
    assert (Hpos : Forall (fun tx => 0 < snd tx) (flat_map fw l)).
    { clear Hw. induction H; simpl; [constructor|]. inversion Hl; subst.
      apply Forall_app. split; [apply H; auto|]. apply IHForall; auto. }
    destruct (flat_map fw l) as [|tx c] eqn:E.
    + split; [constructor|]. intros Hne. exfalso. apply Hne.
      rewrite <- fw_length_list, E. reflexivity.
    + assert (Ht : 0 < wsum (flat_map fw l)).
      { rewrite E. apply sumQ_pos; [discriminate|].
        clear -Hpos. apply Forall_forall. intros x Hx. apply in_map_iff in Hx as (y & <- & Hy).
        rewrite Forall_forall in Hpos. apply Hpos; auto. }
      rewrite E in Ht. split.
      * apply Forall_forall. intros x Hx. apply in_map_iff in Hx as (y & <- & Hy). simpl.
        rewrite Forall_forall in Hpos. apply Qmult_lt_0_compat; [apply Hpos; auto|].
        apply Qdiv_pos; auto.
      * intros _. apply wsum_rescale. lra.
Qed.

Lemma leaves_zero_fw i : leaves i = 0%nat -> fw i = [].
Proof. intros H. rewrite <- fw_length in H. destruct (fw i); simpl in *; auto; discriminate. Qed.

Lemma wsum_live g l :
  Forall (item_ok g) l -> wsum (flat_map fw l) == live_weight l.
Proof.
  induction 1; simpl; [reflexivity|]. rewrite wsum_app, IHForall.
  unfold live_weight. simpl. apply Qplus_comp; [|reflexivity].
  destruct (Nat.eqb (leaves x) 0) eqn:E.
  - apply Nat.eqb_eq in E. rewrite leaves_zero_fw; auto. reflexivity.
  - apply Nat.eqb_neq in E. eapply fw_spec; eauto.
Qed.

Lemma wsum_pos c : c <> [] -> Forall (fun tx : mech_type * Q => 0 < snd tx) c -> 0 < wsum c.
Proof.
  intros Hc H. apply sumQ_pos.
  - destruct c; simpl; congruence.
  - apply Forall_forall. intros x Hx. apply in_map_iff in Hx as (y & <- & Hy).
    rewrite Forall_forall in H. auto.
Qed.

Lemma fw_list_pos g l : Forall (item_ok g) l -> Forall (fun tx => 0 < snd tx) (flat_map fw l).
Proof.
  induction 1; simpl; [constructor|]. apply Forall_app; split; auto.
  eapply fw_spec; eauto.
Qed.

(** The budget flowing down the tree is proportional to the final weights. *)
Lemma Forall2_flat_map {A B C} (R : B -> C -> Prop) (f : A -> list B) (h : A -> list C) l :
  (forall x, In x l -> Forall2 R (f x) (h x)) -> Forall2 R (flat_map f l) (flat_map h l).
Proof.
  induction l; simpl; intros H; [constructor|].
  apply Forall2_app; auto.
Qed.

Lemma flat_map_map {A B C} (f : A -> list B) (h : B -> C) l :
  map h (flat_map f l) = flat_map (fun x => map h (f x)) l.
Proof. induction l; simpl; auto. rewrite map_app, IHl. reflexivity. Qed.

Lemma share_spec g i b :
  item_ok g i ->
  Forall2 Qeq (share b i) (map (fun tx => b * snd tx / item_weight i) (fw i)).
Proof.
  revert b. induction i using item_ind'; simpl; intros b Hok.
  - destruct Hok. constructor; [|constructor]. field. lra.
  - destruct Hok as [Hw Hl]. apply item_ok_list in Hl.
    pose proof (wsum_live _ _ Hl) as Hlive.
    unfold rescale. rewrite map_map. simpl. rewrite flat_map_map.
    destruct (flat_map fw l) as [|tx c] eqn:E.
    + assert (E' : flat_map fw l = []) by auto.
      apply Forall2_flat_map. intros x Hx.
      assert (fw x = []).
      { destruct (fw x) eqn:Ex; auto. exfalso.
        assert (In p (flat_map fw l)) as Hin by (apply in_flat_map; exists x; rewrite Ex; simpl; auto).
        rewrite E' in Hin. destruct Hin. }
      rewrite Forall_forall in H, Hl.
      pose proof (H x Hx (b * (item_weight x / live_weight l)) (Hl x Hx)) as G.
      rewrite H0 in *. simpl in *. exact G.
    + assert (Ht : 0 < live_weight l).
      { rewrite <- Hlive. apply wsum_pos; [discriminate|].
        rewrite <- E. eapply fw_list_pos; eauto. }
      apply Forall2_flat_map. intros x Hx. rewrite Forall_forall in H, Hl.
      pose proof (H x Hx (b * (item_weight x / live_weight l)) (Hl x Hx)) as G.
      eapply Forall2_Qeq_trans; [exact G|].
      apply Forall2_map_same. intros y Hy. rewrite Hlive.
      assert (Hxw : 0 < item_weight x).
      { pose proof (Hl x Hx) as O. destruct x; simpl in *; tauto. }
      field. lra.
Qed.

(** ** Running the calls of a tree *)

Lemma weight_at_app ms c i :
  weight_at (ms ++ map mk c) (length ms + i) = match nth_error c i with Some tx => snd tx | None => 0 end.
Proof.
  unfold weight_at. rewrite nth_error_app2 by lia.
  replace (length ms + i - length ms)%nat with i by lia.
  rewrite nth_error_map. destruct (nth_error c i); reflexivity.
Qed.

Lemma weights_seq ms c :
  map (weight_at (ms ++ map mk c)) (seq (length ms) (length c)) = map snd c.
Proof.
  revert ms. induction c as [|tx c IH]; intros ms; simpl; auto.
  f_equal.
  - pose proof (weight_at_app ms (tx :: c) 0) as E. rewrite Nat.add_0_r in E. exact E.
  - specialize (IH (ms ++ [mk tx])). rewrite app_length in IH. simpl in IH.
    rewrite Nat.add_1_r in IH. rewrite <- app_assoc in IH. exact IH.
Qed.

Lemma update_at_mid g ms m rest : update_at (length ms) g (ms ++ m :: rest) = ms ++ g m :: rest.
Proof. induction ms; simpl; auto. rewrite IHms. reflexivity. Qed.

Lemma fold_update_seq g ms c :
  fold_left (fun acc i => update_at i g acc) (seq (length ms) (length c)) (ms ++ c) = ms ++ map g c.
Proof.
  revert ms. induction c as [|m c IH]; intros ms; simpl; auto.
  rewrite update_at_mid. specialize (IH (ms ++ [g m])). rewrite app_length in IH. simpl in IH.
  rewrite Nat.add_1_r in IH. rewrite <- !app_assoc in IH. simpl in IH. exact IH.
Qed.

Lemma normalise_seq w ms c :
  Forall (fun tx : mech_type * Q => 0 < snd tx) c ->
  normalise w (seq (length ms) (length c)) (ms ++ map mk c) = Ok (ms ++ map mk (rescale w c)).
Proof.
  intros Hpos. unfold normalise. destruct c as [|tx c0] eqn:Ec; [reflexivity|].
  rewrite <- Ec in *.
  assert (Hl : seq (length ms) (length c) <> []) by (subst c; discriminate).
  destruct (seq (length ms) (length c)) eqn:Es; [congruence|]. rewrite <- Es.
  rewrite weights_seq. fold (wsum c).
  assert (Hw : 0 < wsum c) by (apply wsum_pos; auto; subst; discriminate).
  assert (Hb : Qeq_bool (wsum c) 0 = false) by (apply Qeq_bool_false; lra). rewrite Hb.
  f_equal. replace (length c) with (length (map mk c)) by apply map_length.
  rewrite fold_update_seq. f_equal. unfold rescale. rewrite !map_map. apply map_ext. reflexivity.
Qed.

(** The state after performing [c]'s mechanisms and recording aggregations [aw]. *)
Definition extend (s : acct) (c : list (mech_type * Q)) (aw : list Q) : acct :=
  Acct (total_eps s) (total_delta s) (exp_num s) (exp_weights s)
       (actual_weights s ++ aw) (mechs s ++ map mk c)
       (map (fun sc => (fst sc, snd sc ++ seq (length (mechs s)) (length c))) (scopes s))
       (finalized s).

Lemma extend_nil s : extend s [] [] = s.
Proof.
  unfold extend. destruct s; simpl. rewrite !app_nil_r. f_equal.
  rewrite <- (map_id scopes) at 2. apply map_ext. intros [w l]; simpl. rewrite app_nil_r. reflexivity.
Qed.

Lemma extend_extend s c1 a1 c2 a2 :
  extend (extend s c1 a1) c2 a2 = extend s (c1 ++ c2) (a1 ++ a2).
Proof.
  unfold extend; simpl. rewrite map_app, <- !app_assoc. f_equal.
  rewrite map_map. apply map_ext. intros [w l]; simpl. f_equal.
  rewrite !app_length, map_length, seq_app, <- app_assoc. reflexivity.
Qed.

Definition all_ok (rs : list (result out)) : Prop := Forall (fun r => is_ok r = true) rs.

Lemma run_item g i s :
  finalized s = false -> (g = true -> Qeq_bool (total_delta s) 0 = false) -> item_ok g i ->
  run s (item_ops i) = extend s (fw i) [] /\ all_ok (outs s (item_ops i)) /\
  (forall o, In o (item_ops i) -> match o with StartAgg _ => False | _ => True end).
Proof.
  revert s. induction i using item_ind'; simpl; intros s Hf Hg Hok.
  - destruct Hok as [Hw Ht]. unfold request_budget. rewrite Hf.
    assert (E : request_budget s t w 1 None =
        (register s (Mech t w 1 None None), Ok (OutMech (length (mechs s))))).
    { unfold request_budget. rewrite Hf. destruct t; auto. rewrite Hg; auto. }
    unfold request_budget in E. rewrite Hf in E. rewrite E. simpl.
    split; [|split].
    + unfold register, extend. simpl. rewrite app_nil_r. reflexivity.
    + repeat constructor.
    + intros o [<-|[]]; auto.
  - destruct Hok as [Hw Hl]. apply item_ok_list in Hl.
    set (s1 := set_scopes s ((w, []) :: scopes s)).
    assert (G : forall s', finalized s' = false -> total_delta s' = total_delta s ->
       run s' (flat_map item_ops l) = extend s' (flat_map fw l) [] /\
       all_ok (outs s' (flat_map item_ops l)) /\
       (forall o, In o (flat_map item_ops l) -> match o with StartAgg _ => False | _ => True end)).
    { clear s1 Hw. induction H as [|x l Hx Hrest IH]; simpl; intros s' Hf' Htd.
      - split; [symmetry; apply extend_nil|]. split; [constructor|]. intros o [].
      - inversion Hl; subst.
        destruct (Hx s') as (A & B & C); auto. { rewrite Htd; auto. }
        destruct (IH H2 (extend s' (fw x) [])) as (A' & B' & C'); auto.
        rewrite run_app, A, A', extend_extend. split; [reflexivity|]. split.
        + rewrite outs_app, A. apply Forall_app; auto.
        + intros o Ho. apply in_app_iff in Ho as [Ho|Ho]; [apply C|apply C']; auto. }
    destruct (G s1) as (A & B & C); auto.
    assert (Ex : step (extend s1 (flat_map fw l) []) Exit =
                 (extend s (rescale w (flat_map fw l)) [], Ok OutUnit)).
    { simpl. unfold exit_scope. simpl.
      rewrite normalise_seq by (eapply fw_list_pos; eauto).
      unfold set_mechs, set_scopes, extend; simpl. f_equal. f_equal.
      unfold rescale. rewrite map_length. reflexivity. }
    split; [|split].
    + rewrite run_app. fold s1. rewrite A. simpl in *. rewrite Ex. reflexivity.
    + constructor; [reflexivity|]. fold s1. rewrite outs_app, A. apply Forall_app; split; auto.
      simpl in *. rewrite Ex. repeat constructor.
    + intros o [<-|Ho]; auto. apply in_app_iff in Ho as [Ho|[<-|[]]]; auto. apply C; auto.
Qed.

Lemma run_items g l s :
  finalized s = false -> (g = true -> Qeq_bool (total_delta s) 0 = false) -> Forall (item_ok g) l ->
  run s (flat_map item_ops l) = extend s (flat_map fw l) [] /\
  all_ok (outs s (flat_map item_ops l)) /\
  (forall o, In o (flat_map item_ops l) -> match o with StartAgg _ => False | _ => True end).
Proof.
  revert s. induction l as [|x l IH]; simpl; intros s Hf Hg Hl.
  - split; [symmetry; apply extend_nil|]. split; [constructor|]. intros o [].
  - inversion Hl; subst. destruct (run_item g x s) as (A & B & C); auto.
    destruct (IH (extend s (fw x) [])) as (A' & B' & C'); auto.
    rewrite run_app, A, A', extend_extend. split; [reflexivity|]. split.
    + rewrite outs_app, A. apply Forall_app; auto.
    + intros o Ho. apply in_app_iff in Ho as [Ho|Ho]; [apply C|apply C']; auto.
Qed.

Lemma total_weight_mk c : total_weight_eps (map mk c) == wsum c.
Proof.
  rewrite total_weight_eps_sum, map_map. unfold wsum. apply sumQ_ext. intros x _. simpl.
  unfold inject_Z. ring.
Qed.

Lemma read_after_compute s c aw s2 :
  mechs s = [] -> Forall (fun tx : mech_type * Q => 0 < snd tx) c ->
  step (extend s c aw) Compute = (s2, Ok OutUnit) ->
  exists es, read_eps s2 es /\ Forall2 Qeq es (map (fun tx => total_eps s * snd tx / wsum c) c).
Proof.
  intros Hm Hpos Hc.
  apply compute_ok in Hc as (_ & _ & [[Hn E2] | (Hn & Hs & E2)]).
  - simpl in Hn. rewrite Hm in Hn. simpl in Hn. apply map_nil_inv in Hn. subst c.
    exists []. split; [|constructor]. unfold read_eps. subst s2. simpl. rewrite Hm. constructor.
  - simpl in E2. rewrite Hm in E2. simpl in E2.
    set (tw := total_weight_eps (map mk c)) in *.
    exists (map (fun m => if Qeq_bool tw 0 then 0 else total_eps s * m_weight m / tw) (map mk c)).
    split.
    + unfold read_eps. subst s2. simpl. apply Forall2_map_same. intros m _. reflexivity.
    + rewrite map_map. simpl in Hn. rewrite Hm in Hn. simpl in Hn.
      assert (Hc : c <> []) by (intro Z; subst; apply Hn; reflexivity).
      pose proof (wsum_pos _ Hc Hpos) as Hw.
      assert (Ht : tw == wsum c) by apply total_weight_mk.
      assert (Hb : Qeq_bool tw 0 = false) by (apply Qeq_bool_false; rewrite Ht; lra). rewrite Hb.
      apply Forall2_map_same. intros tx _. simpl. rewrite Ht. reflexivity.
Qed.

(** ** C03 *)
Lemma c03_lemma e d num ws s0 forest s2 :
  new_accountant e d num ws = Ok s0 ->
  Forall (item_ok (negb (Qeq_bool d 0))) forest ->
  step (run s0 (flat_map item_ops forest)) Compute = (s2, Ok OutUnit) ->
  exists es, read_eps s2 es /\ Forall2 Qeq es (share e (IScope 1 forest)).
Proof.
  intros Hnew Hok Hc. apply new_accountant_inv in Hnew as (-> & He & _).
  set (s0 := Acct e d num ws [] [] [] false) in *.
  destruct (run_items (negb (Qeq_bool d 0)) forest s0) as (A & _ & _); auto.
  { intros Hg. simpl. destruct (Qeq_bool d 0); auto; discriminate. }
  rewrite A in Hc.
  pose proof (fw_list_pos _ _ Hok) as Hpos.
  destruct (read_after_compute s0 _ _ _ eq_refl Hpos Hc) as (es & R & F).
  exists es. split; auto. eapply Forall2_Qeq_trans; [exact F|]. apply Forall2_Qeq_sym.
  assert (H1 : item_ok (negb (Qeq_bool d 0)) (IScope 1 forest)).
  { simpl. split; [lra|]. apply item_ok_list; auto. }
  eapply Forall2_Qeq_trans; [apply (share_spec _ _ e H1)|].
  simpl fw. unfold rescale. rewrite map_map. apply Forall2_map_same.
  intros tx Hin. simpl.
  assert (0 < wsum (flat_map fw forest)).
  { apply wsum_pos; auto. intro Z. rewrite Z in Hin. destruct Hin. }
  field. lra.
Qed.

(** Deltas are split among delta-using mechanisms in the same proportions as epsilons. *)
Lemma c03_delta_lemma e d num ws s0 ops s2 es ds :
  new_accountant e d num ws = Ok s0 ->
  Forall op_pos ops ->
  step (run s0 ops) Compute = (s2, Ok OutUnit) ->
  read_eps s2 es -> read_delta s2 ds ->
  forall i j ei ej di dj ti tj,
    nth_error (map req_type (granted ops (outs s0 ops))) i = Some ti ->
    nth_error (map req_type (granted ops (outs s0 ops))) j = Some tj ->
    uses_delta ti = true -> uses_delta tj = true ->
    nth_error es i = Some ei -> nth_error es j = Some ej ->
    nth_error ds i = Some di -> nth_error ds j = Some dj ->
    di * ej == dj * ei.
Proof.
  intros Hnew Hpos Hc Re Rd i j ei ej di dj ti tj Ti Tj Ui Uj Ei Ej Di Dj.
  pose proof (new_run_pos _ _ _ _ _ _ Hnew Hpos) as Hwp.
  destruct (granted_counts _ _ _ _ _ ops Hnew) as [_ Htypes]. rewrite <- Htypes in *.
  apply compute_ok in Hc as (_ & _ & [[Hm E2] | (Hm & Hs & E2)]).
  { rewrite Hm in Ti. destruct i; discriminate. }
  set (ms := mechs (run s0 ops)) in *.
  unfold read_eps, read_delta in *. subst s2. simpl in Re, Rd.
  rewrite Forall2_map_l in Re, Rd.
  assert (N : forall (R : mech -> Q -> Prop) l1 l2 k x y, Forall2 R l1 l2 -> nth_error l1 k = Some x ->
     nth_error l2 k = Some y -> R x y).
  { intros R l1 l2 k x y F. revert k. induction F; intros [|k]; simpl; intros; try discriminate.
    - congruence. - eauto. }
  rewrite nth_error_map in Ti, Tj.
  destruct (nth_error ms i) as [mi|] eqn:Mi; [|discriminate].
  destruct (nth_error ms j) as [mj|] eqn:Mj; [|discriminate].
  injection Ti as <-. injection Tj as <-.
  pose proof (N _ _ _ _ _ _ Re Mi Ei) as A1. pose proof (N _ _ _ _ _ _ Re Mj Ej) as A2.
  pose proof (N _ _ _ _ _ _ Rd Mi Di) as A3. pose proof (N _ _ _ _ _ _ Rd Mj Dj) as A4.
  cbn in A1, A2, A3, A4.
  assert (use_delta mi = true /\ use_delta mj = true) as [Hui Huj].
  { unfold use_delta. destruct (m_type mi), (m_type mj); simpl in *; auto. }
  rewrite Hui in A3. rewrite Huj in A4.
  injection A1 as <-. injection A2 as <-. injection A3 as <-. injection A4 as <-.
  destruct (Qeq_bool (total_weight_eps ms) 0) eqn:B1; [ring|].
  destruct (Qeq_bool (total_weight_delta ms) 0) eqn:B2; [ring|].
  apply Qeq_bool_false in B1. apply Qeq_bool_false in B2.
  field. auto.
Qed.

(** ** C04 *)
Definition unread (m : mech) : Prop := m_eps m = None /\ m_delta m = None.

Lemma step_unread s o :
  Forall unread (mechs s) -> (forall b, (o, snd (step s o)) <> (Compute, Ok b)) ->
  Forall unread (mechs (fst (step s o))).
Proof.
  intros H Hn. destruct o; simpl.
  - unfold request_budget. destruct (finalized s); simpl; auto.
    destruct noise_std; simpl; auto.
    assert (Forall unread (mechs s ++ [Mech t w count None None])).
    { apply Forall_app; split; auto. repeat constructor. }
    destruct t; simpl; auto. destruct (Qeq_bool _ 0); simpl; auto.
  - auto.
  - unfold exit_scope. destruct (scopes s) as [|[w idx] rest]; simpl; auto.
    destruct (normalise _ _ _) eqn:E; simpl; auto.
    unfold normalise in E. destruct idx as [|i idx]; [injection E as <-; auto|].
    destruct (Qeq_bool _ 0); [discriminate|]. injection E as <-.
    apply fold_update_Forall; [|apply update_at_Forall; auto]; intros m [? ?]; split; auto.
  - rewrite start_agg_state; auto.
  - simpl in Hn. unfold compute_budgets in *. destruct (check_restrictions s); auto.
    destruct (finalized s); auto. destruct (mechs s) eqn:Em.
    + simpl. rewrite Em. auto.
    + destruct (scopes s).
      * exfalso. eapply Hn. reflexivity.
      * simpl. rewrite Em. auto.
Qed.

Lemma c04_before_lemma e d num ws s0 ops :
  new_accountant e d num ws = Ok s0 ->
  computed ops (outs s0 ops) = false ->
  Forall (fun r => r = (Err AssertionError, Err AssertionError)) (readings (run s0 ops)).
Proof.
  intros Hnew. apply new_accountant_inv in Hnew as (-> & _).
  set (s0 := Acct e d num ws [] [] [] false).
  assert (G : forall s, Forall unread (mechs s) -> computed ops (outs s ops) = false ->
              Forall unread (mechs (run s ops))).
  { induction ops as [|o ops IH]; simpl; intros s Hs Hc; auto.
    apply IH.
    - apply step_unread; auto. intros b E. injection E as -> E.
      simpl in E, Hc. rewrite E in Hc. discriminate.
    - destruct o; simpl in *; auto.
      destruct (snd (compute_budgets s)); auto. discriminate. }
  intros Hc. specialize (G s0 (Forall_nil _) Hc).
  unfold readings. apply Forall_forall. intros r Hr. apply in_map_iff in Hr as (m & <- & Hin).
  rewrite Forall_forall in G. destruct (G m Hin) as [E1 E2].
  unfold get_eps, get_delta. rewrite E1, E2. reflexivity.
Qed.

Lemma step_final s o :
  finalized s = true ->
  finalized (fst (step s o)) = true /\ readings (fst (step s o)) = readings s /\
  (is_request_or_compute o = true -> is_ok (snd (step s o)) = false /\ fst (step s o) = s).
Proof.
  intros Hf. destruct o; simpl.
  - unfold request_budget. rewrite Hf; simpl; auto.
  - split; auto. split; auto. discriminate.
  - split; [|split; [|discriminate]].
    + unfold exit_scope. destruct (scopes s) as [|[w idx] rest]; simpl; auto.
      destruct (normalise _ _ _); simpl; auto.
    + unfold exit_scope. destruct (scopes s) as [|[w idx] rest]; simpl; auto.
      destruct (normalise _ _ _) eqn:E; simpl; auto.
      unfold readings. simpl. eapply normalise_map in E; [exact E|]. reflexivity.
  - rewrite start_agg_state; simpl. split; auto. split; auto. discriminate.
  - unfold compute_budgets. destruct (check_restrictions s); simpl; auto.
    rewrite Hf; simpl; auto.
Qed.

Lemma final_forever s ops :
  finalized s = true ->
  readings (run s ops) = readings s /\
  Forall (fun p => is_request_or_compute (fst p) = true -> is_ok (snd p) = false)
         (combine ops (outs s ops)).
Proof.
  revert s. induction ops as [|o ops IH]; simpl; intros s Hf; [split; auto; constructor|].
  destruct (step_final s o Hf) as (A & B & C).
  destruct (IH _ A) as (A' & B'). split; [congruence|].
  constructor; auto. simpl. intros Ho. apply C; auto.
Qed.

Lemma compute_ok_final s s2 b : step s Compute = (s2, Ok b) -> finalized s2 = true /\
  Forall (fun r => is_ok (fst r) = true /\ is_ok (snd r) = true) (readings s2) /\
  length (readings s2) = length (mechs s).
Proof.
  simpl. unfold compute_budgets. destruct (check_restrictions s); [|discriminate].
  destruct (finalized s); [discriminate|]. destruct (mechs s) eqn:Em.
  - intros E; injection E as <- <-. unfold readings. simpl. rewrite Em. simpl. repeat split; auto.
  - destruct (scopes s); [|discriminate]. intros E; injection E as <- <-.
    split; auto. split.
    + unfold readings. simpl mechs. apply Forall_forall. intros r Hr.
      apply in_map_iff in Hr as (x & <- & Hx).
      destruct Hx as [<-|Hx]; [simpl; auto|]. apply in_map_iff in Hx as (y & <- & Hy). simpl. auto.
    + unfold readings. simpl. rewrite !map_length. reflexivity.
Qed.

Lemma c04_after_lemma s s2 b ops2 :
  step s Compute = (s2, Ok b) ->
  Forall (fun r => is_ok (fst r) = true /\ is_ok (snd r) = true) (readings s2) /\
  length (readings s2) = length (readings s) /\
  readings (run s2 ops2) = readings s2 /\
  Forall (fun p => is_request_or_compute (fst p) = true -> is_ok (snd p) = false)
         (combine ops2 (outs s2 ops2)).
Proof.
  intros H. apply compute_ok_final in H as (A & B & C).
  split; auto. split; [unfold readings at 2; rewrite map_length; auto|]. apply final_forever; auto.
Qed.

Lemma c04_rejected_lemma s s2 :
  step s Compute = (s2, Err ValueError) -> s2 = s.
Proof.
  simpl. unfold compute_budgets. destruct (check_restrictions s).
  - destruct (finalized s); [discriminate|]. destruct (mechs s); [discriminate|].
    destruct (scopes s); discriminate.
  - intros E; injection E as <- _. reflexivity.
Qed.

(** Failed requests also leave the accountant unchanged. *)
Lemma c04_failed_request_lemma s t w c n s2 x :
  step s (Request t w c n) = (s2, Err x) -> s2 = s.
Proof.
  simpl. unfold request_budget. destruct (finalized s); [intros E; injection E as <- _; auto|].
  destruct n; [intros E; injection E as <- _; auto|].
  destruct t; try discriminate. destruct (Qeq_bool _ 0); [intros E; injection E as <- _; auto|discriminate].
Qed.

(** ** C05 *)

Lemma step_actual s o :
  actual_weights (fst (step s o)) =
  actual_weights s ++ match o with StartAgg w => [w] | _ => [] end.
Proof.
  destruct o; simpl; rewrite ?app_nil_r.
  - unfold request_budget. destruct (finalized s); simpl; auto.
    destruct noise_std; simpl; auto. destruct t; simpl; auto. destruct (Qeq_bool _ 0); simpl; auto.
  - auto.
  - unfold exit_scope. destruct (scopes s) as [|[w idx] rest]; simpl; auto.
    destruct (normalise _ _ _); simpl; auto.
  - rewrite start_agg_state; reflexivity.
  - unfold compute_budgets. destruct (check_restrictions s); simpl; auto.
    destruct (finalized s); simpl; auto. destruct (mechs s); simpl; auto.
    destruct (scopes s); simpl; auto.
Qed.

Lemma run_actual ops s : actual_weights (run s ops) = actual_weights s ++ performed ops.
Proof.
  revert s. induction ops as [|o ops IH]; simpl; intros s; [rewrite app_nil_r; auto|].
  rewrite IH, step_actual, <- app_assoc. reflexivity.
Qed.

Lemma all_eq_Forall2 l1 l2 : length l1 = length l2 -> all_eq l1 l2 = true -> Forall2 Qeq l1 l2.
Proof.
  revert l2. induction l1; intros [|y l2]; simpl; intros Hl H; try discriminate; constructor.
  - apply Qeq_bool_iff. destruct (Qeq_bool a y); auto.
  - apply IHl1; auto. destruct (Qeq_bool a y); auto; discriminate.
Qed.

Lemma Forall2_all_eq l1 l2 : Forall2 Qeq l1 l2 -> all_eq l1 l2 = true.
Proof.
  induction 1; simpl; auto. rewrite IHForall2. apply Qeq_bool_iff in H. rewrite H. auto.
Qed.

Lemma check_spec s :
  (forall n, exp_num s = Some n -> (0 < n)%Z) ->
  (check_restrictions s = Ok tt <->
   matches_declaration (exp_num s) (exp_weights s) (actual_weights s)).
Proof.
  intros Hpos. unfold check_restrictions, matches_declaration.
  set (r1 := match exp_num s with Some n => _ | None => _ end).
  assert (H1 : r1 = Ok tt <-> (forall n, exp_num s = Some n ->
       Z.of_nat (length (actual_weights s)) = n /\ Forall (fun w => w == 1) (actual_weights s))).
  { unfold r1. destruct (exp_num s) as [n|]; [|split; auto; discriminate].
    specialize (Hpos n eq_refl).
    assert ((n =? 0)%Z = false) as -> by (apply Z.eqb_neq; lia). simpl.
    destruct (Z.of_nat (length (actual_weights s)) =? n)%Z eqn:El; simpl.
    - apply Z.eqb_eq in El. destruct (forallb _ _) eqn:Ea; simpl.
      + split; auto. intros _ k Hk; injection Hk as <-. split; auto.
        apply Forall_forall. intros x Hx. rewrite forallb_forall in Ea.
        apply Qeq_bool_iff, Ea; auto.
      + split; [discriminate|]. intros H. destruct (H n eq_refl) as [_ F].
        exfalso. rewrite <- Bool.not_true_iff_false in Ea. apply Ea.
        apply forallb_forall. intros x Hx. apply Qeq_bool_iff.
        rewrite Forall_forall in F; auto.
    - apply Z.eqb_neq in El. split; [discriminate|]. intros H. destruct (H n eq_refl). contradiction. }
  destruct r1 as [[]|e].
  2:{ split; [discriminate|]. intros [A B]. apply H1 in A. discriminate. }
  assert (H1' := proj1 H1 eq_refl).
  destruct (exp_weights s) as [[|x l]|].
  - split; auto. intros _. split; auto. intros l' E; injection E as <-. congruence.
  - destruct (Nat.eqb _ _) eqn:El; simpl negb; cbv iota.
    + apply Nat.eqb_eq in El. destruct (all_eq _ _) eqn:Ea; simpl.
      * split; auto. intros _. split; auto. intros l' E; injection E as <-. intros _.
        apply all_eq_Forall2; auto.
      * split; [discriminate|]. intros [_ B].
        specialize (B _ eq_refl). rewrite Forall2_all_eq in Ea; [discriminate|]. apply B; discriminate.
    + apply Nat.eqb_neq in El. split; [discriminate|]. intros [_ B]. exfalso. apply El.
      eapply Forall2_len. apply B; auto. discriminate.
  - split; auto. intros _. split; auto. discriminate.
Qed.

Lemma check_err_value s x : check_restrictions s = Err x -> x = ValueError.
Proof.
  unfold check_restrictions.
  destruct (exp_num s) as [n|].
  - destruct (negb (n =? 0)%Z).
    + destruct (negb _); [congruence|]. destruct (negb _); [congruence|].
      destruct (exp_weights s) as [[|y l]|]; try discriminate.
      destruct (negb _); [congruence|]. destruct (negb _); congruence.
    + destruct (exp_weights s) as [[|y l]|]; try discriminate.
      destruct (negb _); [congruence|]. destruct (negb _); congruence.
  - destruct (exp_weights s) as [[|y l]|]; try discriminate.
    destruct (negb _); [congruence|]. destruct (negb _); congruence.
Qed.

Lemma c05_enforced_lemma e d num ws s0 ops :
  new_accountant e d num ws = Ok s0 ->
  (snd (step (run s0 ops) Compute) = Err ValueError <->
   ~ matches_declaration num ws (performed ops)).
Proof.
  intros Hnew. pose proof (new_accountant_inv _ _ _ _ _ Hnew) as (E & _ & _ & _ & _ & Hn).
  pose proof (run_totals ops s0) as (_ & _ & En & Ew).
  pose proof (run_actual ops s0) as Ea.
  subst s0. simpl in En, Ew, Ea.
  set (s := run _ ops) in *.
  assert (C := check_spec s). rewrite En, Ew, Ea in C. specialize (C Hn).
  simpl. unfold compute_budgets. destruct (check_restrictions s) as [[]|x] eqn:Ec.
  - split.
    + destruct (finalized s); [discriminate|]. destruct (mechs s); [discriminate|].
      destruct (scopes s); discriminate.
    + intros N. exfalso. apply N, C. reflexivity.
  - simpl. apply check_err_value in Ec. subst x. split; auto.
    intros _ M. apply C in M. discriminate.
Qed.

Definition agg_fw (a : Q * list item) : list (mech_type * Q) := rescale (fst a) (flat_map fw (snd a)).

Definition declared_budget (e d : Q) (num : option Z) (ws : option (list Q)) (w : Q) : option (Q * Q) :=
  match num with
  | Some n => Some (e / inject_Z n, d / inject_Z n)
  | None => match ws with
            | Some (x :: l) => Some (e * (w / sumQ (x :: l)), d * (w / sumQ (x :: l)))
            | _ => None
            end
  end.

Lemma announced_app s ops1 ops2 :
  announced (ops1 ++ ops2) (outs s (ops1 ++ ops2)) =
  announced ops1 (outs s ops1) ++ announced ops2 (outs (run s ops1) ops2).
Proof.
  revert s. induction ops1 as [|o ops1 IH]; simpl; intros s; auto.
  destruct o; simpl; rewrite ?IH; auto.
  destruct (snd (start_agg s w)) as [[| |[b|]]|]; simpl; rewrite ?IH; auto.
Qed.

Lemma announced_none ops s :
  (forall o, In o ops -> match o with StartAgg _ => False | _ => True end) ->
  announced ops (outs s ops) = [].
Proof.
  revert s. induction ops as [|o ops IH]; simpl; intros s H; auto.
  assert (Ho := H o (or_introl eq_refl)).
  destruct o; simpl; try contradiction; apply IH; intros; apply H; auto.
Qed.

Definition decl_ok (num : option Z) (ws : option (list Q)) : Prop :=
  match num, ws with
  | Some n, _ => (0 < n)%Z
  | None, Some (x :: l) => 0 < sumQ (x :: l)
  | None, _ => False
  end.

Lemma start_agg_ok s w :
  decl_ok (exp_num s) (exp_weights s) ->
  start_agg s w = (add_actual s w,
    Ok (OutBudget (declared_budget (total_eps s) (total_delta s) (exp_num s) (exp_weights s) w))).
Proof.
  unfold start_agg, decl_ok, declared_budget. destruct (exp_num s) as [n|].
  - intros Hn. assert ((n =? 0)%Z = false) as -> by (apply Z.eqb_neq; lia). reflexivity.
  - destruct (exp_weights s) as [[|x l]|]; try contradiction.
    intros Hs. assert (Qeq_bool (sumQ (x :: l)) 0 = false) as ->; auto.
    apply Qeq_bool_false. lra.
Qed.

Lemma declared_some e d num ws w : decl_ok num ws ->
  exists b, declared_budget e d num ws w = Some b.
Proof.
  unfold decl_ok, declared_budget. destruct num; eauto. destruct ws as [[|x l]|]; try contradiction. eauto.
Qed.

Lemma run_agg g a s :
  finalized s = false -> (g = true -> Qeq_bool (total_delta s) 0 = false) ->
  decl_ok (exp_num s) (exp_weights s) ->
  Forall (item_ok g) (snd a) ->
  run s (agg_ops a) = extend s (agg_fw a) [fst a] /\ (exists b, declared_budget (total_eps s) (total_delta s) (exp_num s) (exp_weights s) (fst a) = Some b /\ announced (agg_ops a) (outs s (agg_ops a)) = [b]).
Proof.
  intros Hf Hg Hd Hl. destruct a as [w l]. unfold agg_ops. simpl in Hl.
  set (s1 := set_scopes s ((w, []) :: scopes s)).
  destruct (run_items g l s1) as (A & B & C); auto.
  set (s2 := extend s1 (flat_map fw l) []) in *.
  assert (Hd2 : decl_ok (exp_num s2) (exp_weights s2)) by exact Hd.
  pose proof (start_agg_ok s2 w Hd2) as SA.
  assert (Ex : step (add_actual s2 w) Exit = (extend s (agg_fw (w, l)) [w], Ok OutUnit)).
  { simpl. unfold exit_scope. simpl.
    rewrite normalise_seq by (eapply fw_list_pos; eauto).
    unfold set_mechs, set_scopes, extend, agg_fw; simpl. f_equal. f_equal.
    - rewrite app_nil_r. reflexivity.
    - unfold rescale. rewrite map_length. reflexivity. }
  change (fst (w, l)) with w. change (snd (w, l)) with l. split.
  - change (Enter w :: flat_map item_ops l ++ [StartAgg w; Exit])
      with ([Enter w] ++ flat_map item_ops l ++ [StartAgg w; Exit]).
    rewrite !run_app. change (run s [Enter w]) with s1. rewrite A.
    change (run s2 [StartAgg w; Exit]) with (fst (step (fst (start_agg s2 w)) Exit)).
    rewrite SA. cbn [fst]. rewrite Ex. reflexivity.
  - destruct (declared_some (total_eps s) (total_delta s) _ _ w Hd) as (b & Hb).
    exists b. split; auto.
    change (Enter w :: flat_map item_ops l ++ [StartAgg w; Exit])
      with ([Enter w] ++ flat_map item_ops l ++ [StartAgg w; Exit]).
    rewrite !announced_app. change (run s [Enter w]) with s1. rewrite A.
    rewrite announced_none with (ops := flat_map item_ops l); auto.
    change (announced [Enter w] (outs s [Enter w])) with (@nil (Q * Q)). simpl app.
    change (outs s2 [StartAgg w; Exit]) with
      [snd (start_agg s2 w); snd (step (fst (start_agg s2 w)) Exit)].
    rewrite SA. cbn [snd announced].
    change (declared_budget (total_eps s2) (total_delta s2) (exp_num s2) (exp_weights s2) w)
      with (declared_budget (total_eps s) (total_delta s) (exp_num s) (exp_weights s) w).
    rewrite Hb. reflexivity.
Qed.

Lemma run_aggs g aggs s :
  finalized s = false -> (g = true -> Qeq_bool (total_delta s) 0 = false) ->
  decl_ok (exp_num s) (exp_weights s) ->
  Forall (fun a => Forall (item_ok g) (snd a)) aggs ->
  run s (flat_map agg_ops aggs) = extend s (flat_map agg_fw aggs) (map fst aggs) /\ Forall2 (fun a b => declared_budget (total_eps s) (total_delta s) (exp_num s) (exp_weights s) (fst a)
                      = Some b)
          aggs (announced (flat_map agg_ops aggs) (outs s (flat_map agg_ops aggs))).
Proof.
  revert s. induction aggs as [|a aggs IH]; intros s Hf Hg Hd Hl; cbn [flat_map map].
  - split; [symmetry; apply extend_nil|constructor].
  - inversion Hl; subst. destruct (run_agg g a s) as (A & b & Hb & Ab); auto.
    destruct (IH (extend s (agg_fw a) [fst a])) as (A' & B'); auto.
    split.
    + rewrite run_app, A, A', extend_extend. reflexivity.
    + rewrite announced_app, A, Ab. constructor; auto.
Qed.

Lemma performed_items l : performed (flat_map item_ops l) = [].
Proof.
  assert (G : forall i, performed (item_ops i) = []).
  { induction i using item_ind'; simpl; auto.
    unfold performed in *. rewrite flat_map_app. simpl. rewrite app_nil_r.
    induction H; simpl; auto. rewrite flat_map_app, H, IHForall. reflexivity. }
  unfold performed in *. induction l; simpl; auto. rewrite flat_map_app, G, IHl. reflexivity.
Qed.

Lemma performed_aggs aggs : performed (flat_map agg_ops aggs) = map fst aggs.
Proof.
  induction aggs as [|a aggs IH]; simpl; auto. unfold performed in *.
  rewrite !flat_map_app. simpl. rewrite IH.
  pose proof (performed_items (snd a)) as P. unfold performed in P. rewrite P. reflexivity.
Qed.

Lemma sumQ_const_one l : Forall (fun w => w == 1) l -> sumQ l == inject_Z (Z.of_nat (length l)).
Proof.
  induction 1; simpl length; [reflexivity|].
  rewrite Nat2Z.inj_succ. unfold Z.succ. rewrite inject_Z_plus. simpl. rewrite H, IHForall. ring.
Qed.

Lemma c05_announced_lemma e d num ws s0 aggs s2 :
  new_accountant e d num ws = Ok s0 ->
  (num <> None \/ exists l, ws = Some l /\ l <> []) ->
  aggs <> [] ->
  Forall (fun a => 0 < fst a /\ Forall (item_ok (negb (Qeq_bool d 0))) (snd a) /\
                   leaves (IScope (fst a) (snd a)) <> 0%nat) aggs ->
  let ops := flat_map agg_ops aggs in
  step (run s0 ops) Compute = (s2, Ok OutUnit) ->
  exists ess : list (list Q),
    read_eps s2 (concat ess) /\
    Forall2 (fun es a => length es = leaves (IScope (fst a) (snd a))) ess aggs /\
    Forall2 (fun es b => sumQ es == fst b) ess (announced ops (outs s0 ops)) /\
    sumQ (map fst (announced ops (outs s0 ops))) == e.
Proof.
  intros Hnew Hdecl Hne Hok ops Hc.
  pose proof (new_accountant_inv _ _ _ _ _ Hnew) as (E & He & _ & _ & Hexcl & Hn).
  set (g := negb (Qeq_bool d 0)) in *.
  (* compute succeeded, so the declaration is matched *)
  assert (M : matches_declaration num ws (map fst aggs)).
  { rewrite <- performed_aggs. fold ops.
    pose proof (run_totals ops s0) as (_ & _ & En & Ew).
    pose proof (run_actual ops s0) as Ea.
    pose proof (check_spec (run s0 ops)) as C. rewrite En, Ew, Ea in C. subst s0. simpl in C.
    apply C; auto. apply compute_ok in Hc. tauto. }
  assert (Hwpos : Forall (fun w => 0 < w) (map fst aggs)).
  { apply Forall_forall. intros x Hx. apply in_map_iff in Hx as (a & <- & Ha).
    rewrite Forall_forall in Hok. destruct (Hok a Ha); auto. }
  assert (Hwtot : 0 < sumQ (map fst aggs)).
  { apply sumQ_pos; auto. destruct aggs; simpl; congruence. }
  destruct M as [M1 M2].
  assert (Hd : decl_ok num ws).
  { unfold decl_ok. destruct num as [n|]; [apply Hn; auto|].
    destruct Hdecl as [H|(l & -> & Hl)]; [congruence|]. destruct l as [|x l]; [congruence|].
    specialize (M2 _ eq_refl Hl). apply sumQ_Forall2 in M2. rewrite <- M2. auto. }
  destruct (run_aggs g aggs s0) as (A & B).
  { subst; auto. } { subst s0; unfold g; simpl. intros X. destruct (Qeq_bool d 0); auto; discriminate. }
  { subst s0; auto. } { eapply Forall_impl; [|exact Hok]. simpl. tauto. }
  fold ops in A, B. rewrite A in Hc.
  assert (Hm0 : mechs s0 = []) by (subst; auto).
  assert (Te : total_eps s0 = e) by (subst; auto).
  (* the aggregations' final weights *)
  assert (Hagg : forall a, In a aggs -> agg_fw a = fw (IScope (fst a) (snd a)) /\
            item_ok g (IScope (fst a) (snd a)) /\ leaves (IScope (fst a) (snd a)) <> 0%nat).
  { intros a Ha. rewrite Forall_forall in Hok. destruct (Hok a Ha) as (H1 & H2 & H3).
    split; [reflexivity|]. split; auto. simpl. split; auto. apply item_ok_list; auto. }
  assert (Hpos : Forall (fun tx => 0 < snd tx) (flat_map agg_fw aggs)).
  { apply Forall_forall. intros tx Hx. apply in_flat_map in Hx as (a & Ha & Hx).
    destruct (Hagg a Ha) as (E1 & E2 & _). rewrite E1 in Hx.
    pose proof (fw_spec _ _ E2) as [F _]. rewrite Forall_forall in F. auto. }
  assert (Hsum : wsum (flat_map agg_fw aggs) == sumQ (map fst aggs)).
  { clear -Hagg. induction aggs as [|a aggs IH]; simpl; [reflexivity|].
    rewrite wsum_app, IH by (intros; apply Hagg; simpl; auto).
    destruct (Hagg a (or_introl eq_refl)) as (E1 & E2 & E3). rewrite E1.
    pose proof (fw_spec _ _ E2) as [_ F]. rewrite F; auto. reflexivity. }
  apply compute_ok in Hc as (_ & _ & [[Hnil _] | (Hnn & Hsc & E2)]).
  { exfalso. simpl in Hnil. rewrite Hm0 in Hnil. simpl in Hnil. apply map_nil_inv in Hnil.
    rewrite Hnil in Hsum. unfold wsum in Hsum. simpl in Hsum. lra. }
  simpl in E2. rewrite Hm0 in E2. simpl in E2. rewrite Te in E2.
  set (tw := total_weight_eps (map mk (flat_map agg_fw aggs))) in *.
  assert (Htw : tw == sumQ (map fst aggs)) by (unfold tw; rewrite total_weight_mk; auto).
  assert (Hb : Qeq_bool tw 0 = false) by (apply Qeq_bool_false; lra).
  set (fe := fun tx : mech_type * Q => if Qeq_bool tw 0 then 0 else e * snd tx / tw).
  exists (map (fun a => map fe (agg_fw a)) aggs).
  assert (Hdecl' : forall a b, declared_budget (total_eps s0) (total_delta s0) (exp_num s0) (exp_weights s0) (fst a)
                      = Some b -> In a aggs -> fst b == e * fst a / sumQ (map fst aggs)).
  { intros a b Hab Hin. subst s0. unfold declared_budget in Hab. simpl in Hab. destruct num as [n|].
    - injection Hab as <-. simpl. destruct (M1 n eq_refl) as [L1 L2].
      pose proof (sumQ_const_one _ L2) as S1. rewrite L1 in S1. rewrite S1.
      assert (fst a == 1).
      { rewrite Forall_forall in L2. apply L2. apply in_map; auto. }
      rewrite H. rewrite Qmult_1_r. reflexivity.
    - destruct ws as [[|x l]|]; try discriminate. injection Hab as <-. cbn [fst].
      specialize (M2 _ eq_refl). assert (M2' : Forall2 Qeq (map fst aggs) (x :: l)) by (apply M2; discriminate).
      apply sumQ_Forall2 in M2'. rewrite <- M2'. field. lra. }
  split; [|split; [|split]].
  - unfold read_eps. subst s2. simpl mechs.
    assert (Ec : concat (map (fun a => map fe (agg_fw a)) aggs) = map fe (flat_map agg_fw aggs)).
    { rewrite flat_map_map. rewrite flat_map_concat_map. reflexivity. }
    rewrite Ec. rewrite map_map. apply Forall2_map_same. intros m _. reflexivity.
  - apply Forall2_map_l. apply Forall2_same. intros a Ha. simpl. rewrite map_length.
    destruct (Hagg a Ha) as (E1 & _). rewrite E1, fw_length. reflexivity.
  - apply Forall2_map_l. clear -B Hdecl' Hagg Htw Hwtot Hb.
    assert (G : forall l bs, (forall a, In a l -> In a aggs) ->
      Forall2 (fun a b => declared_budget (total_eps s0) (total_delta s0) (exp_num s0) (exp_weights s0) (fst a)
                      = Some b) l bs ->
      Forall2 (fun a b => sumQ (map fe (agg_fw a)) == fst b) l bs).
    { intros l bs Hin F. induction F; constructor.
      - assert (Hx : In x aggs) by (apply Hin; simpl; auto).
        rewrite (Hdecl' _ _ H Hx). unfold fe. rewrite Hb.
        destruct (Hagg x Hx) as (E1 & E2 & E3). rewrite E1.
        rewrite (sumQ_ext _ (fun tx => (e / tw) * snd tx)) by (intros; field; lra).
        rewrite sumQ_scale. fold (wsum (fw (IScope (fst x) (snd x)))).
        pose proof (fw_spec _ _ E2) as [_ F']. rewrite F' by auto. simpl item_weight.
        rewrite <- Htw. field. lra.
      - apply IHF. intros; apply Hin; simpl; auto. }
    apply G; auto.
  - assert (G : forall l bs, (forall a, In a l -> In a aggs) ->
      Forall2 (fun a b => declared_budget (total_eps s0) (total_delta s0) (exp_num s0) (exp_weights s0) (fst a)
                      = Some b) l bs ->
      sumQ (map fst bs) == (e / sumQ (map fst aggs)) * sumQ (map fst l)).
    { intros l bs Hin F. induction F; simpl; [ring|].
      rewrite IHF by (intros; apply Hin; simpl; auto).
      rewrite (Hdecl' _ _ H) by (apply Hin; simpl; auto). field. lra. }
    rewrite (G aggs _ (fun a H => H) B). field. lra.
Qed.
