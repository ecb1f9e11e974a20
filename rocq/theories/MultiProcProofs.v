(** Lemmas for the multi-process backend. *)
From Coq Require Import List ZArith Bool Lia Permutation.
From Verif Require Import Base ListLemmas BackendModel BackendSpec BackendProofs MultiProcModel.
Import ListNotations.

(** ** Lists and dictionaries *)
Lemma set_nth_split {A} i (l : list A) w :
  nth_error l i = Some w -> exists l1 l2, l = l1 ++ w :: l2 /\ forall w', set_nth i w' l = l1 ++ w' :: l2.
Proof.
  revert l. induction i as [|i IH]; intros [|x l] E; try discriminate.
  - inversion E; subst. exists [], l. split; reflexivity.
  - destruct (IH l E) as [l1 [l2 [-> F]]]. exists (x :: l1), l2. split; [reflexivity|]. intro w'. cbn. rewrite F. reflexivity.
Qed.

Lemma update_keys {K C} `{EqDec K} (d : list (K * C)) k g : map fst (update d k g) = map fst d.
Proof. induction d as [|[k' c] d IH]; [reflexivity|]. cbn. destruct (eqb k' k); cbn; congruence. Qed.

Lemma lookup_update {K C} `{EqDec K} (d : list (K * C)) k g k' :
  lookup (update d k g) k' = if eqb k k' then option_map g (lookup d k) else lookup d k'.
Proof.
  induction d as [|[a c] d IH]; cbn; [destruct (eqb k k'); reflexivity|].
  destruct (eqb a k) eqn:E1; cbn.
  - apply eqb_eq in E1. subst a. destruct (eqb k k'); reflexivity.
  - destruct (eqb a k') eqn:E2.
    + apply eqb_eq in E2. subst a. destruct (eqb k k') eqn:E3; [|reflexivity].
      apply eqb_eq in E3. subst k'. rewrite eqb_refl in E1. discriminate.
    + exact IH.
Qed.

Lemma lookup_none {K C} `{EqDec K} (d : list (K * C)) k : lookup d k = None <-> ~ In k (map fst d).
Proof.
  induction d as [|[a c] d IH]; cbn; [tauto|]. destruct (eqb a k) eqn:E.
  - apply eqb_eq in E. subst. split; [discriminate|]. intro N. exfalso. apply N. left. reflexivity.
  - rewrite IH. split; [|tauto]. intros N [X|X]; [|tauto]. subst. rewrite eqb_refl in E. discriminate.
Qed.

Lemma lookup_in {K C} `{EqDec K} (d : list (K * C)) k c : NoDup (map fst d) -> (In (k, c) d <-> lookup d k = Some c).
Proof.
  induction d as [|[a b] d IH]; cbn; [split; [tauto|discriminate]|]. intro N. inversion N; subst.
  destruct (eqb a k) eqn:E.
  - apply eqb_eq in E. subst. split.
    + intros [X|X]; [congruence|]. exfalso. apply H2. change k with (fst (k, c)). apply in_map. exact X.
    + intro X. inversion X. left. reflexivity.
  - rewrite <- IH by assumption. split; [|tauto]. intros [X|X]; [|exact X]. inversion X; subst. rewrite eqb_refl in E. discriminate.
Qed.

Lemma lookup_start {K C} `{EqDec K} (ks : list K) (c : C) k :
  lookup (map (fun x => (x, c)) ks) k = if mem k ks then Some c else None.
Proof.
  induction ks as [|a ks IH]; [reflexivity|]. cbn. unfold eqb at 1. destruct (eq_dec a k) as [->|N].
  - rewrite eqb_refl. reflexivity.
  - rewrite IH. assert (X : eqb k a = false) by (unfold eqb; destruct (eq_dec k a); congruence).
    unfold mem. cbn. rewrite X. reflexivity.
Qed.

(** ** Pool invariants common to both programs *)

(** Rows of key [k] that a worker has not finished. *)
Definition key_of_pending {K X} (p : option (K * X)) : list K := match p with Some (k, _) => [k] | None => [] end.
Definition keys_left {K R X} (key : R -> K) (w : worker K R X) : list K :=
  key_of_pending (pending w) ++ map key (todo w).

Definition keys_inv {K R X C} (key : R -> K) (ks : list K) (s : pool K R X C) : Prop :=
  map fst (dict s) = ks /\ failed s = None /\
  forall w, In w (workers s) -> incl (keys_left key w) ks.

Lemma pstep_keys {K R X C} `{EqDec K} (key : R -> K) (fetch : C -> R -> X) store ks (s : pool K R X C) i :
  keys_inv key ks s -> keys_inv key ks (pstep key fetch store s i).
Proof.
  intros [Hd [Hf Hw]]. unfold pstep. destruct (nth_error (workers s) i) as [w|] eqn:Ew; [|repeat split; assumption].
  assert (Iw := nth_error_In _ _ Ew). destruct (set_nth_split _ _ _ Ew) as [l1 [l2 [El F]]].
  assert (Others : forall w0 w', In w0 (l1 ++ w' :: l2) -> w0 = w' \/ In w0 (workers s)).
  { intros w0 w' X0. rewrite El. apply in_app_iff in X0. destruct X0 as [X0|[X0|X0]]; auto.
    - right. apply in_app_iff. tauto.
    - right. apply in_app_iff. right. right. exact X0. }
  destruct (pending w) as [[k x]|] eqn:Ep.
  - repeat split; cbn [dict failed workers]; [rewrite update_keys; exact Hd|exact Hf|].
    intros w0 X0. rewrite F in X0. destruct (Others _ _ X0) as [->|X1]; [|apply Hw; exact X1].
    intros a Ha. apply (Hw w Iw). unfold keys_left in *. cbn [pending todo key_of_pending app] in Ha. apply in_app_iff. right. exact Ha.
  - destruct (todo w) as [|r rest] eqn:Et; [repeat split; assumption|].
    assert (Hk : In (key r) ks).
    { apply (Hw w Iw). unfold keys_left. rewrite Et. apply in_app_iff. right. left. reflexivity. }
    destruct (lookup (dict s) (key r)) as [c|] eqn:El0.
    + repeat split; cbn [dict failed workers]; [exact Hd|exact Hf|].
      intros w0 X0. rewrite F in X0. destruct (Others _ _ X0) as [->|X1]; [|apply Hw; exact X1].
      intros a Ha. apply (Hw w Iw). unfold keys_left in *. rewrite Et. cbn [pending todo key_of_pending app map] in *.
      apply in_app_iff. right. exact Ha.
    + exfalso. apply lookup_none in El0. apply El0. rewrite Hd. exact Hk.
Qed.

Lemma prun_inv {K R X C} `{EqDec K} (key : R -> K) (fetch : C -> R -> X) store (I : pool K R X C -> Prop) :
  (forall s i, I s -> I (pstep key fetch store s i)) ->
  forall schedule s, I s -> I (prun key fetch store s schedule).
Proof.
  intros St schedule. induction schedule as [|i sc IH]; intros s Hs; [exact Hs|]. cbn. apply IH. apply St. exact Hs.
Qed.

Lemma start_keys {K R X C} `{EqDec K} (key : R -> K) (keys : list K) (init : C) (split : list (list R)) :
  incl (map key (concat split)) keys -> keys_inv key (distinct keys) (@start K R X C _ keys init split).
Proof.
  intro I0. repeat split.
  - cbn [start dict]. rewrite map_map. cbn [fst]. apply map_id.
  - intros w Hw. cbn [start workers] in Hw. apply in_map_iff in Hw. destruct Hw as [l [<- Hl]].
    unfold keys_left. cbn [pending todo key_of_pending app]. intros a Ha. apply in_distinct. apply I0.
    apply in_map_iff in Ha. destruct Ha as [r [<- Hr]]. apply in_map. apply in_concat. exists l. auto.
Qed.

Lemma finished_left {K R X C} (key : R -> K) (s : pool K R X C) :
  finished s = true -> forall w, In w (workers s) -> pending w = None /\ todo w = [].
Proof.
  unfold finished. rewrite forallb_forall. intros F w Hw. specialize (F w Hw). unfold idle in F.
  destruct (todo w), (pending w); try discriminate. auto.
Qed.

(** ** group_by_key *)
Definition left_values {K V} `{EqDec K} (k : K) (w : worker K (K * V) V) : list V :=
  (match pending w with Some (k', v) => if eqb k' k then [v] else [] | None => [] end) ++ values_of k (todo w).
Definition cell {K C} `{EqDec K} (d : C) (dct : list (K * C)) (k : K) : C :=
  match lookup dct k with Some c => c | None => d end.

Definition group_inv {K V} `{EqDec K} (ks : list K) (col : list (K * V)) (s : pool K (K * V) V (list V)) : Prop :=
  keys_inv fst ks s /\
  forall k, In k ks ->
    Permutation (cell [] (dict s) k ++ flat_map (left_values k) (workers s)) (values_of k col).

Lemma values_of_cons {K V} `{EqDec K} (k : K) (kv : K * V) l :
  values_of k (kv :: l) = (if eqb (fst kv) k then [snd kv] else []) ++ values_of k l.
Proof. unfold values_of. cbn. destruct (eqb (fst kv) k); reflexivity. Qed.

Lemma pstep_group {K V} `{EqDec K} ks (col : list (K * V)) s i :
  group_inv ks col s -> group_inv ks col (pstep fst gfetch gstore s i).
Proof.
  intros [Hk Hp]. split; [apply pstep_keys; exact Hk|]. intros k Ik. specialize (Hp k Ik). unfold pstep.
  destruct (nth_error (workers s) i) as [w|] eqn:Ew; [|exact Hp].
  assert (Iw := nth_error_In _ _ Ew). destruct (set_nth_split _ _ _ Ew) as [l1 [l2 [El F]]].
  assert (Iks : incl (keys_left fst w) ks) by (apply Hk; exact Iw).
  destruct (pending w) as [[k' v]|] eqn:Ep.
  - cbn [dict workers]. rewrite F, flat_map_app. cbn [flat_map]. rewrite El, flat_map_app in Hp. cbn [flat_map] in Hp.
    unfold left_values at 2 in Hp. rewrite Ep in Hp. unfold left_values at 2. cbn [pending todo].
    unfold cell in *. rewrite lookup_update.
    destruct (eqb k' k) eqn:E.
    + apply eqb_eq in E. subst k'. destruct (lookup (dict s) k) as [c|] eqn:Ec.
      2: { exfalso. apply lookup_none in Ec. apply Ec. rewrite (proj1 Hk). exact Ik. }
      cbn [option_map]. unfold gstore. eapply Permutation_trans; [|exact Hp].
      rewrite <- !app_assoc. apply Permutation_app_head. cbn [app].
      eapply Permutation_trans; [apply Permutation_middle|]. apply Permutation_refl.
    + cbn [app] in Hp. cbn [app]. exact Hp.
  - destruct (todo w) as [|r rest] eqn:Et; [exact Hp|].
    destruct (lookup (dict s) (fst r)) as [c|] eqn:Ec; [|exact Hp].
    cbn [dict workers]. rewrite F, flat_map_app. cbn [flat_map]. rewrite El, flat_map_app in Hp. cbn [flat_map] in Hp.
    unfold left_values at 2 in Hp. rewrite Ep, Et, values_of_cons in Hp. unfold left_values at 2. cbn [pending todo].
    unfold gfetch. exact Hp.
Qed.

Lemma start_group {K V} `{EqDec K} (first : list (K * V)) split :
  Permutation (concat split) first ->
  group_inv (distinct (map fst first)) first (start (map fst first) [] split).
Proof.
  intro Hp. split.
  - apply start_keys. intros a Ha. eapply Permutation_in; [apply Permutation_map; exact Hp|exact Ha].
  - intros k Ik. unfold cell. cbn [start dict workers]. rewrite lookup_start.
    rewrite (proj2 (mem_true_iff _ _) Ik). cbn [app].
    assert (G : flat_map (left_values k) (map (fun l => Worker l None) split) = values_of k (concat split)).
    { clear. induction split as [|l sp IH]; [reflexivity|]. cbn [map flat_map concat]. rewrite IH, values_of_app. reflexivity. }
    rewrite G. apply values_of_Permutation. exact Hp.
Qed.

(** ** count_per_element *)
Definition left_count {A X} `{EqDec A} (k : A) (w : worker A A X) : nat := occ k (keys_left (fun a => a) w).
Definition left_all {A X} `{EqDec A} (k : A) (ws : list (worker A A X)) : nat := sumN (map (left_count k) ws).

Lemma left_all_app {A X} `{EqDec A} (k : A) (a b : list (worker A A X)) :
  left_all k (a ++ b) = left_all k a + left_all k b.
Proof. unfold left_all. rewrite map_app. unfold sumN. induction a as [|x a IH]; [reflexivity|]. cbn. rewrite IH. lia. Qed.

Lemma left_all_cons {A X} `{EqDec A} (k : A) (w : worker A A X) b :
  left_all k (w :: b) = left_count k w + left_all k b.
Proof. reflexivity. Qed.

Lemma occ_app {A} `{EqDec A} (k : A) a b : occ k (a ++ b) = occ k a + occ k b.
Proof. induction a as [|x a IH]; [reflexivity|]. cbn [app occ]. destruct (eq_dec k x); lia. Qed.

Definition done {A X} `{EqDec A} (col : list A) (k : A) (ws : list (worker A A X)) : Z :=
  (Z.of_nat (occ k col) - Z.of_nat (left_all k ws))%Z.

(** Any interleaving: at most the true count, at least one. *)
Definition count_inv {A} `{EqDec A} (ks col : list A) (s : pool A A Z Z) : Prop :=
  keys_inv (fun a => a) ks s /\
  (forall k, In k ks -> (0 <= cell 0 (dict s) k <= done col k (workers s))%Z /\
     ((0 < done col k (workers s))%Z -> (0 < cell 0 (dict s) k)%Z)) /\
  (forall w k x, In w (workers s) -> pending w = Some (k, x) -> (1 <= x <= done col k (workers s) + 1)%Z).

Lemma eqb_occ1 {A} `{EqDec A} (k k' : A) : occ k [k'] = if eqb k' k then 1 else 0.
Proof. cbn. unfold eqb. destruct (eq_dec k k'), (eq_dec k' k); congruence || reflexivity. Qed.

Lemma pstep_count {A} `{EqDec A} ks col (s : pool A A Z Z) i :
  count_inv ks col s -> count_inv ks col (pstep (fun a => a) cfetch cstore s i).
Proof.
  intros [Hk [Hc Hp]]. split; [apply pstep_keys; exact Hk|]. unfold pstep.
  destruct (nth_error (workers s) i) as [w|] eqn:Ew; [|split; assumption].
  assert (Iw := nth_error_In _ _ Ew). destruct (set_nth_split _ _ _ Ew) as [l1 [l2 [El F]]].
  assert (Iks : incl (keys_left (fun a => a) w) ks) by (apply Hk; exact Iw).
  assert (Oth : forall w0 w', In w0 (l1 ++ w' :: l2) -> w0 = w' \/ In w0 (workers s)).
  { intros w0 w' X0. rewrite El. apply in_app_iff in X0. destruct X0 as [X0|[X0|X0]]; auto.
    - right. apply in_app_iff. tauto.
    - right. apply in_app_iff. right. right. exact X0. }
  destruct (pending w) as [[k' x]|] eqn:Ep.
  - cbn [dict workers]. rewrite F.
    assert (D : forall k, done col k (l1 ++ Worker (todo w) None :: l2) =
                          (done col k (workers s) + if eqb k' k then 1 else 0)%Z).
    { intro k. unfold done. rewrite El, !left_all_app, !left_all_cons. unfold left_count.
      unfold keys_left. rewrite Ep. cbn [pending todo key_of_pending]. rewrite !occ_app, eqb_occ1. cbn [occ].
      destruct (eqb k' k); lia. }
    assert (Px := Hp w k' x Iw Ep).
    assert (Ik' : In k' ks) by (apply Iks; unfold keys_left; rewrite Ep; left; reflexivity).
    split.
    + intros k Ik. specialize (Hc k Ik). rewrite D. unfold cell in *. rewrite lookup_update.
      destruct (eqb k' k) eqn:E; [|rewrite Z.add_0_r; exact Hc].
      apply eqb_eq in E. subst k'. destruct (lookup (dict s) k) as [c|] eqn:Ec.
      2: { exfalso. apply lookup_none in Ec. apply Ec. rewrite (proj1 Hk). exact Ik. }
      cbn [option_map]. unfold cstore. lia.
    + intros w0 k x0 X0 E0. rewrite D. destruct (Oth _ _ X0) as [->|X1]; [discriminate|].
      specialize (Hp w0 k x0 X1 E0). destruct (eqb k' k); lia.
  - destruct (todo w) as [|r rest] eqn:Et; [split; assumption|].
    destruct (lookup (dict s) r) as [c|] eqn:Ec; [|split; assumption].
    cbn [dict workers]. rewrite F.
    assert (D : forall k, done col k (l1 ++ Worker rest (Some (r, cfetch c r)) :: l2) = done col k (workers s)).
    { intro k. unfold done. rewrite El, !left_all_app, !left_all_cons. unfold left_count.
      unfold keys_left. rewrite Ep, Et. cbn [pending todo key_of_pending app map]. reflexivity. }
    assert (Ir : In r ks) by (apply Iks; unfold keys_left; rewrite Et; apply in_app_iff; right; left; reflexivity).
    split.
    + intros k Ik. rewrite D. apply Hc. exact Ik.
    + intros w0 k x0 X0 E0. rewrite D. destruct (Oth _ _ X0) as [->|X1]; [|apply (Hp w0); assumption].
      cbn [pending] in E0. inversion E0; subst. specialize (Hc k Ir). unfold cell in Hc. rewrite Ec in Hc. unfold cfetch. lia.
Qed.

Lemma left_all_start {A} `{EqDec A} (k : A) (split : list (list A)) :
  left_all k (map (fun l => @Worker A A Z l None) split) = occ k (concat split).
Proof.
  induction split as [|l sp IH]; [reflexivity|]. cbn [map concat]. rewrite left_all_cons, IH, occ_app.
  unfold left_count, keys_left. cbn [pending todo key_of_pending app]. rewrite map_id. reflexivity.
Qed.

Lemma occ_perm {A} `{EqDec A} (k : A) l l' : Permutation l l' -> occ k l = occ k l'.
Proof. induction 1; cbn [occ]; lia. Qed.

Lemma start_count {A} `{EqDec A} (first : list A) split :
  Permutation (concat split) first -> count_inv (distinct first) first (start first 0%Z split).
Proof.
  intro Hp. split.
  - apply start_keys. rewrite map_id. intros a Ha. eapply Permutation_in; eassumption.
  - assert (D : forall k, done first k (workers (@start A A Z Z _ first 0%Z split)) = 0%Z).
    { intro k. unfold done. cbn [start workers]. rewrite left_all_start, (occ_perm k _ _ Hp). lia. }
    split.
    + intros k Ik. rewrite D. unfold cell. cbn [start dict]. rewrite lookup_start.
      rewrite (proj2 (mem_true_iff _ _) Ik). lia.
    + intros w k x Hw E. cbn [start workers] in Hw. apply in_map_iff in Hw. destruct Hw as [l [<- _]]. discriminate.
Qed.

(** No two workers have the same key: exact. *)
Definition apart {A X} (ws : list (worker A A X)) : Prop :=
  forall i j wi wj k, nth_error ws i = Some wi -> nth_error ws j = Some wj ->
    In k (keys_left (fun a => a) wi) -> In k (keys_left (fun a => a) wj) -> i = j.
Definition exact_inv {A} `{EqDec A} (ks col : list A) (s : pool A A Z Z) : Prop :=
  keys_inv (fun a => a) ks s /\ apart (workers s) /\
  (forall k, In k ks -> cell 0%Z (dict s) k = done col k (workers s)) /\
  (forall w k x, In w (workers s) -> pending w = Some (k, x) -> x = (cell 0 (dict s) k + 1)%Z).

Lemma nth_set_nth {A} i j (a : A) l : i < length l ->
  nth_error (set_nth i a l) j = if Nat.eqb i j then Some a else nth_error l j.
Proof.
  revert j l. induction i as [|i IH]; intros [|j] [|x l] L; cbn in L; try lia; try reflexivity.
  cbn. apply IH. lia.
Qed.

Lemma apart_set {A X} (ws : list (worker A A X)) i w w' :
  nth_error ws i = Some w -> incl (keys_left (fun a => a) w') (keys_left (fun a => a) w) ->
  apart ws -> apart (set_nth i w' ws).
Proof.
  intros Ew Hi Ha. assert (L : i < length ws) by (apply nth_error_Some; congruence).
  intros a b wa wb k Ea Eb Ka Kb. rewrite nth_set_nth in Ea, Eb by exact L.
  destruct (Nat.eqb_spec i a) as [Ia|Ia], (Nat.eqb_spec i b) as [Ib|Ib]; try congruence.
  - inversion Ea; subst wa. subst a. apply (Ha i b w wb k); auto.
  - inversion Eb; subst wb. subst b. apply (Ha a i wa w k); auto.
  - apply (Ha a b wa wb k); auto.
Qed.

Lemma pstep_exact {A} `{EqDec A} ks col (s : pool A A Z Z) i :
  exact_inv ks col s -> exact_inv ks col (pstep (fun a => a) cfetch cstore s i).
Proof.
  intros [Hk [Ha [Hc Hp]]]. split; [apply pstep_keys; exact Hk|]. unfold pstep.
  destruct (nth_error (workers s) i) as [w|] eqn:Ew; [|repeat split; assumption].
  assert (Iw := nth_error_In _ _ Ew). destruct (set_nth_split _ _ _ Ew) as [l1 [l2 [El F]]].
  assert (Iks : incl (keys_left (fun a => a) w) ks) by (apply Hk; exact Iw).
  assert (L : i < length (workers s)) by (apply nth_error_Some; congruence).
  assert (Oth : forall w0 w', In w0 (set_nth i w' (workers s)) -> w0 = w' \/
              exists j, j <> i /\ nth_error (workers s) j = Some w0).
  { intros w0 w' X0. apply In_nth_error in X0. destruct X0 as [j Ej]. rewrite nth_set_nth in Ej by exact L.
    destruct (Nat.eqb_spec i j); [left; congruence|right; exists j; auto]. }
  destruct (pending w) as [[k' x]|] eqn:Ep.
  - cbn [dict workers].
    assert (D : forall k, done col k (set_nth i (Worker (todo w) None) (workers s)) =
                          (done col k (workers s) + if eqb k' k then 1 else 0)%Z).
    { intro k. rewrite F. unfold done. rewrite El, !left_all_app, !left_all_cons. unfold left_count.
      unfold keys_left. rewrite Ep. cbn [pending todo key_of_pending]. rewrite !occ_app, eqb_occ1. cbn [occ].
      destruct (eqb k' k); lia. }
    assert (Px := Hp w k' x Iw Ep).
    assert (Kw : In k' (keys_left (fun a => a) w)) by (unfold keys_left; rewrite Ep; left; reflexivity).
    split; [|split].
    + apply (apart_set _ _ w); [exact Ew| |exact Ha]. unfold keys_left. cbn [pending todo key_of_pending app].
      intros a X. apply in_app_iff. right. exact X.
    + intros k Ik. rewrite D. specialize (Hc k Ik). unfold cell in *. rewrite lookup_update.
      destruct (eqb k' k) eqn:E; [|rewrite Z.add_0_r; exact Hc].
      apply eqb_eq in E. subst k'. destruct (lookup (dict s) k) as [c|] eqn:Ec.
      2: { exfalso. apply lookup_none in Ec. apply Ec. rewrite (proj1 Hk). exact Ik. }
      cbn [option_map]. unfold cstore. lia.
    + intros w0 k x0 X0 E0. destruct (Oth _ _ X0) as [->|[j [Nj Ej]]]; [discriminate|].
      assert (N : eqb k' k = false).
      { destruct (eqb k' k) eqn:E; [|reflexivity]. apply eqb_eq in E. subst k'. exfalso. apply Nj.
        apply (Ha j i w0 w k); auto. unfold keys_left. rewrite E0. left. reflexivity. }
      rewrite (Hp w0 k x0 (nth_error_In _ _ Ej) E0). unfold cell. rewrite lookup_update, N. reflexivity.
  - destruct (todo w) as [|r rest] eqn:Et; [repeat split; assumption|].
    destruct (lookup (dict s) r) as [c|] eqn:Ec; [|repeat split; assumption].
    cbn [dict workers].
    assert (D : forall k, done col k (set_nth i (Worker rest (Some (r, cfetch c r))) (workers s)) = done col k (workers s)).
    { intro k. rewrite F. unfold done. rewrite El, !left_all_app, !left_all_cons. unfold left_count.
      unfold keys_left. rewrite Ep, Et. cbn [pending todo key_of_pending app map]. reflexivity. }
    split; [|split].
    + apply (apart_set _ _ w); [exact Ew| |exact Ha]. unfold keys_left. rewrite Ep, Et. cbn [pending todo key_of_pending app map].
      apply incl_refl.
    + intros k Ik. rewrite D. apply Hc. exact Ik.
    + intros w0 k x0 X0 E0. destruct (Oth _ _ X0) as [->|[j [Nj Ej]]].
      * cbn [pending] in E0. inversion E0; subst. unfold cell. rewrite Ec. reflexivity.
      * apply (Hp w0 k x0 (nth_error_In _ _ Ej) E0).
Qed.

Lemma start_exact {A} `{EqDec A} (first : list A) split :
  Permutation (concat split) first ->
  (forall i j li lj k, nth_error split i = Some li -> nth_error split j = Some lj -> In k li -> In k lj -> i = j) ->
  exact_inv (distinct first) first (start first 0%Z split).
Proof.
  intros Hp Hd. split; [|split; [|split]].
  - apply start_keys. rewrite map_id. intros a Ha. eapply Permutation_in; eassumption.
  - intros i j wi wj k Ei Ej Ki Kj. cbn [start workers] in Ei, Ej. rewrite nth_error_map in Ei, Ej.
    destruct (nth_error split i) as [li|] eqn:E1; [|discriminate].
    destruct (nth_error split j) as [lj|] eqn:E2; [|discriminate].
    cbn in Ei, Ej. inversion Ei; subst wi. inversion Ej; subst wj.
    unfold keys_left in Ki, Kj. cbn [pending todo key_of_pending app] in Ki, Kj. rewrite map_id in Ki, Kj.
    apply (Hd i j li lj k); assumption.
  - intros k Ik. unfold done, cell. cbn [start dict workers]. rewrite left_all_start, (occ_perm k _ _ Hp), lookup_start.
    rewrite (proj2 (mem_true_iff _ _) Ik). lia.
  - intros w k x Hw E. cbn [start workers] in Hw. apply in_map_iff in Hw. destruct Hw as [l [<- _]]. discriminate.
Qed.

(** Every read is followed at once by the write of the same worker: exact. *)
Definition ser_inv {A} `{EqDec A} (ks col : list A) (s : pool A A Z Z) : Prop :=
  keys_inv (fun a => a) ks s /\
  (forall k, In k ks -> cell 0%Z (dict s) k = done col k (workers s)) /\
  (forall w, In w (workers s) -> pending w = None).

Lemma pstep2_ser {A} `{EqDec A} ks col (s : pool A A Z Z) i :
  ser_inv ks col s ->
  ser_inv ks col (pstep (fun a => a) cfetch cstore (pstep (fun a => a) cfetch cstore s i) i).
Proof.
  intros [Hk [Hc Hp]]. split; [apply pstep_keys, pstep_keys; exact Hk|].
  destruct (nth_error (workers s) i) as [w|] eqn:Ew.
  2: { unfold pstep. rewrite Ew. rewrite Ew. split; assumption. }
  assert (Iw := nth_error_In _ _ Ew). assert (Ep := Hp w Iw).
  destruct (todo w) as [|r rest] eqn:Et.
  { unfold pstep. rewrite Ew, Ep, Et, Ew, Ep, Et. split; assumption. }
  assert (Ir : In r ks).
  { apply (proj2 (proj2 Hk) w Iw). unfold keys_left. rewrite Et. apply in_app_iff. right. left. reflexivity. }
  destruct (lookup (dict s) r) as [c|] eqn:Ec.
  2: { exfalso. apply lookup_none in Ec. apply Ec. rewrite (proj1 Hk). exact Ir. }
  assert (L : i < length (workers s)) by (apply nth_error_Some; congruence).
  destruct (set_nth_split _ _ _ Ew) as [l1 [l2 [El F]]].
  set (w1 := Worker rest (Some (r, cfetch c r))).
  assert (E1 : pstep (fun a => a) cfetch cstore s i = Pool (dict s) (l1 ++ w1 :: l2) (failed s)).
  { unfold pstep. rewrite Ew, Ep, Et, Ec, F. reflexivity. }
  assert (N1 : nth_error (l1 ++ w1 :: l2) i = Some w1).
  { rewrite <- (F w1), nth_set_nth by exact L. rewrite Nat.eqb_refl. reflexivity. }
  assert (F2 : forall w', set_nth i w' (l1 ++ w1 :: l2) = l1 ++ w' :: l2).
  { intro w'. rewrite <- (F w1), <- (F w'). clear. revert i. induction (workers s) as [|x l IH]; intros [|i]; cbn; try reflexivity.
    rewrite IH. reflexivity. }
  rewrite E1. unfold pstep. cbn [workers dict failed]. rewrite N1.
  change (pending w1) with (Some (r, cfetch c r)). change (todo w1) with rest. cbv iota beta.
  rewrite F2. cbn [dict workers]. split.
  - intros k Ik.
    assert (D : done col k (l1 ++ Worker rest None :: l2) = (done col k (workers s) + if eqb r k then 1 else 0)%Z).
    { unfold done. rewrite El, !left_all_app, !left_all_cons. unfold left_count.
      unfold keys_left. rewrite Ep, Et. cbn [pending todo key_of_pending app map].
      change (r :: map (fun a => a) rest) with ([r] ++ map (fun a => a) rest). rewrite !occ_app, eqb_occ1.
      destruct (eqb r k); lia. }
    rewrite D. specialize (Hc k Ik). unfold cell in *. rewrite lookup_update.
    destruct (eqb r k) eqn:E; [|rewrite Z.add_0_r; exact Hc].
    apply eqb_eq in E. subst k. rewrite Ec in *. cbn [option_map]. unfold cstore, cfetch. lia.
  - intros w0 X0. apply in_app_iff in X0. destruct X0 as [X0|[X0|X0]].
    + apply Hp. rewrite El. apply in_app_iff. left. exact X0.
    + subst w0. reflexivity.
    + apply Hp. rewrite El. apply in_app_iff. right. right. exact X0.
Qed.

Lemma start_ser {A} `{EqDec A} (first : list A) split :
  Permutation (concat split) first -> ser_inv (distinct first) first (start first 0%Z split).
Proof.
  intros Hp. split; [|split].
  - apply start_keys. rewrite map_id. intros a Ha. eapply Permutation_in; eassumption.
  - intros k Ik. unfold done, cell. cbn [start dict workers]. rewrite left_all_start, (occ_perm k _ _ Hp), lookup_start.
    rewrite (proj2 (mem_true_iff _ _) Ik). lia.
  - intros w Hw. cbn [start workers] in Hw. apply in_map_iff in Hw. destruct Hw as [l [<- _]]. reflexivity.
Qed.

Lemma prun_ser {A} `{EqDec A} ks col s : forall (s0 : pool A A Z Z),
  ser_inv ks col s0 -> ser_inv ks col (prun (fun a => a) cfetch cstore s0 (flat_map (fun i => [i; i]) s)).
Proof.
  induction s as [|i s IH]; intros s0 Hs; [exact Hs|]. cbn [flat_map app]. unfold prun. cbn [fold_left].
  apply IH. apply pstep2_ser. exact Hs.
Qed.

(** ** A finished pool has nothing left *)
Lemma finished_left_all {A} `{EqDec A} (k : A) (s : pool A A Z Z) : finished s = true -> left_all k (workers s) = 0.
Proof.
  intro F. assert (G := finished_left (fun a => a) s F). unfold left_all. induction (workers s) as [|w ws IH]; [reflexivity|].
  destruct (G w (or_introl eq_refl)) as [P T]. cbn [map]. unfold sumN. cbn [fold_right].
  unfold left_count at 1. unfold keys_left. rewrite P, T. cbn. apply IH. intros w0 X. apply G. right. exact X.
Qed.
Lemma finished_left_values {K V} `{EqDec K} (k : K) (s : pool K (K * V) V (list V)) :
  finished s = true -> flat_map (left_values k) (workers s) = [].
Proof.
  intro F. assert (G := finished_left fst s F). induction (workers s) as [|w ws IH]; [reflexivity|].
  destruct (G w (or_introl eq_refl)) as [P T]. cbn [flat_map]. unfold left_values at 1. rewrite P, T. cbn. apply IH. intros w0 X. apply G. right. exact X.
Qed.

(** ** Progress: from every state reached some schedule finishes *)
Definition work {K R X} (w : worker K R X) : nat :=
  2 * length (todo w) + match pending w with Some _ => 1 | None => 0 end.
Lemma idle_work {K R X} (w : worker K R X) : idle w = true <-> work w = 0.
Proof. unfold idle, work. destruct (todo w), (pending w); cbn; split; intro X0; try discriminate; try lia; reflexivity. Qed.

Lemma can_finish {K R X C} `{EqDec K} (key : R -> K) (fetch : C -> R -> X) store ks n :
  forall s : pool K R X C, keys_inv key ks s -> sumN (map work (workers s)) = n ->
  exists schedule, finished (prun key fetch store s schedule) = true.
Proof.
  induction n as [n IH] using lt_wf_ind. intros s Hk E.
  destruct (finished s) eqn:F; [exists []; exact F|].
  assert (Ex : exists i w, nth_error (workers s) i = Some w /\ idle w = false).
  { unfold finished in F. clear - F. induction (workers s) as [|w ws IHl]; [discriminate|]. cbn in F.
    destruct (idle w) eqn:Iw; [|exists 0, w; auto]. destruct (IHl F) as [i [w' [A B]]]. exists (S i), w'. auto. }
  destruct Ex as [i [w [Ew Iw]]].
  assert (Lt : sumN (map work (workers (pstep key fetch store s i))) < n).
  { rewrite <- E. assert (Iw' := nth_error_In _ _ Ew). destruct (set_nth_split _ _ _ Ew) as [l1 [l2 [El F2]]].
    assert (Sum : forall w', work w' < work w -> sumN (map work (l1 ++ w' :: l2)) < sumN (map work (l1 ++ w :: l2))).
    { clear. intros w' L. unfold sumN. induction l1 as [|a l1 IHl]; cbn [map app fold_right]; [|apply Nat.add_lt_mono_l; exact IHl].
      apply Nat.add_lt_mono_r. exact L. }
    unfold pstep. rewrite Ew. destruct (pending w) as [[k x]|] eqn:Ep.
    - cbn [workers]. rewrite F2, El. apply Sum. unfold work. rewrite Ep. cbn [pending todo]. lia.
    - destruct (todo w) as [|r rest] eqn:Et; [unfold idle in Iw; rewrite Et, Ep in Iw; discriminate|].
      assert (Hr : In (key r) ks).
      { apply (proj2 (proj2 Hk) w Iw'). unfold keys_left. rewrite Et. apply in_app_iff. right. left. reflexivity. }
      destruct (lookup (dict s) (key r)) as [c|] eqn:Ec.
      2: { exfalso. apply lookup_none in Ec. apply Ec. rewrite (proj1 Hk). exact Hr. }
      cbn [workers]. rewrite F2, El. apply Sum. unfold work. rewrite Ep, Et. cbn [pending todo length]. lia. }
  destruct (IH _ Lt (pstep key fetch store s i) (pstep_keys _ _ _ _ _ _ Hk) eq_refl) as [sc Hsc].
  exists (i :: sc). exact Hsc.
Qed.
