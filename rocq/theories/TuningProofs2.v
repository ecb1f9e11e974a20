(** Lemmas for the cross product of C45 and for the choice of the best configuration. *)
From Coq Require Import List ZArith QArith Bool Permutation Sorted Lia.
From Verif Require Import Base BaseLemmas ListLemmas HistModel TuningModel TuningProofs.
Import ListNotations.
Local Open Scope nat_scope.

Lemma seq_blocks k m : seq 0 (k * m) = flat_map (fun a => map (fun b => a * m + b) (seq 0 m)) (seq 0 k).
Proof.
  induction k as [|k IH]; [reflexivity|]. rewrite seq_S, flat_map_app, <- IH. cbn [flat_map]. rewrite app_nil_r.
  replace (S k * m) with (k * m + m) by lia. rewrite seq_app. f_equal. cbn [Nat.add].
  rewrite <- (map_id (seq (k * m) m)) at 1. rewrite <- (Nat.add_0_r (k * m)) at 1.
  generalize 0. induction m as [|m' IHm]; intro s; [reflexivity|].
  clear IH. revert s. generalize (k * S m') as base. clear. intros base s.
  cbn [seq map]. rewrite map_id. revert s. induction m' as [|m IH]; intro s; [reflexivity|].
  cbn [seq map]. f_equal. rewrite <- Nat.add_succ_r. apply IH.
Qed.

Lemma duplicate_each_length {A} (l : list A) m : length (duplicate_each l m) = length l * m.
Proof. induction l as [|x l IH]; [reflexivity|]. unfold duplicate_each in *. cbn [flat_map length]. rewrite app_length, repeat_length, IH. lia. Qed.
Lemma duplicate_list_length {A} (l : list A) k : length (duplicate_list l k) = k * length l.
Proof. induction k as [|k IH]; [reflexivity|]. unfold duplicate_list in *. cbn [repeat concat]. rewrite app_length, IH. lia. Qed.

Lemma nth_error_repeat {A} (x : A) n i : i < n -> nth_error (repeat x n) i = Some x.
Proof. revert i. induction n as [|n IH]; intros i L; [lia|]. destruct i; [reflexivity|]. cbn. apply IH. lia. Qed.

Lemma duplicate_each_nth {A} (l : list A) m a b : b < m -> nth_error (duplicate_each l m) (a * m + b) = nth_error l a.
Proof.
  intro Hb. revert a. induction l as [|x l IH]; intro a.
  - cbn. destruct (a * m + b), a; reflexivity.
  - unfold duplicate_each in *. cbn [flat_map]. destruct a as [|a].
    + rewrite nth_error_app1 by (rewrite repeat_length; lia). cbn [Nat.mul Nat.add nth_error]. apply nth_error_repeat. exact Hb.
    + rewrite nth_error_app2 by (rewrite repeat_length; lia). rewrite repeat_length.
      replace (S a * m + b - m) with (a * m + b) by lia. apply IH.
Qed.

Lemma duplicate_list_nth {A} (l : list A) k a b : a < k -> b < length l ->
  nth_error (duplicate_list l k) (a * length l + b) = nth_error l b.
Proof.
  revert a. induction k as [|k IH]; intros a Ha Hb; [lia|]. unfold duplicate_list in *. cbn [repeat concat].
  destruct a as [|a].
  - rewrite nth_error_app1 by lia. reflexivity.
  - rewrite nth_error_app2 by lia. replace (S a * length l + b - length l) with (a * length l + b) by lia. apply IH; lia.
Qed.

Lemma flat_map_enum {A B} (g : option A -> list B) (l : list A) :
  flat_map (fun x => g (Some x)) l = flat_map (fun a => g (nth_error l a)) (seq 0 (length l)).
Proof.
  induction l as [|x l IH]; [reflexivity|]. cbn [length seq flat_map nth_error]. f_equal. rewrite IH.
  rewrite <- seq_shift, flat_map_map. reflexivity.
Qed.

Lemma list_prod_flat {A B} (l : list A) (l' : list B) : list_prod l l' = flat_map (fun x => map (pair x) l') l.
Proof. induction l as [|x l IH]; [reflexivity|]. cbn. rewrite IH. reflexivity. Qed.

Lemma fold_max_spec {A} (l : list (list A)) n :
  let m := fold_left (fun n c => Nat.max n (length c)) l n in
  n <= m /\ Forall (fun c => length c <= m) l /\ (m = n \/ Exists (fun c => length c = m) l).
Proof.
  revert n. induction l as [|c l IH]; intro n; cbn [fold_left]; [repeat split; [lia | constructor | left; reflexivity]|].
  destruct (IH (Nat.max n (length c))) as (A1 & B1 & C1).
  set (m := fold_left (fun n c => Nat.max n (length c)) l (Nat.max n (length c))) in *. clearbody m.
  split; [lia|]. split; [constructor; [lia | exact B1]|].
  destruct C1 as [C1|C1].
  - destruct (Nat.le_ge_cases (length c) n); [left; lia | right; constructor; lia].
  - right. apply Exists_cons_tl. exact C1.
Qed.

Lemma pad_list_spec {A} (a b : list A) m : pad_list a m = Ok b -> length a <= m ->
  length b = m /\ (forall x, In x b <-> In x a) /\ (length a = m -> b = a).
Proof.
  unfold pad_list. destruct (Nat.ltb_spec (length a) m) as [L|L]; intros E H.
  - destruct a as [|x a']; [discriminate|]. apply Ok_inj in E. subst b. split; [rewrite app_length, repeat_length; lia|].
    split; [|intros; lia]. intro y. rewrite in_app_iff. split; [intros [I|I]; [exact I|] | tauto].
    apply repeat_spec in I. left. symmetry. exact I.
  - apply Ok_inj in E. subst b. split; [lia|]. split; [tauto | reflexivity].
Qed.

Lemma rmapM_Forall2 {A B} (f : A -> result B) l r : rmapM f l = Ok r -> Forall2 (fun a b => f a = Ok b) l r.
Proof.
  revert r. induction l as [|a l IH]; intros r E; cbn [rmapM] in E; [apply Ok_inj in E; subst; constructor|].
  destruct (f a) as [b|] eqn:Fa; cbn [rbind] in E; [|discriminate].
  destruct (rmapM f l) as [bs|] eqn:Fl; cbn [rmap] in E; [|discriminate]. apply Ok_inj in E. subst r. constructor; [exact Fa | apply IH; reflexivity].
Qed.

Lemma min_length_const l m : l <> [] -> Forall (fun c : list Q => length c = m) l -> min_length l = m.
Proof.
  intros N F. destruct l as [|c l]; [congruence|]. cbn [min_length]. inversion F as [|? ? E F']; subst. clear N F.
  induction F' as [|b l Eb F' IH]; [reflexivity|]. cbn [fold_left]. rewrite Eb, Nat.min_id. exact IH.
Qed.

Lemma nth_error_map_seq {A} (f : nat -> A) n i : i < n -> nth_error (map f (seq 0 n)) i = Some (f i).
Proof.
  intro L. rewrite nth_error_map. rewrite (nth_error_nth' (seq 0 n) 0) by (rewrite seq_length; exact L).
  rewrite seq_nth by exact L. reflexivity.
Qed.

Lemma combine_zeros k (ys : list Q) : length ys = k -> combine (repeat 0%Q k) ys = map (pair 0%Q) ys.
Proof. revert k. induction ys as [|y ys IH]; intros k E; subst k; [reflexivity|]. cbn [length repeat combine map]. rewrite IH; reflexivity. Qed.

Lemma forallb_eqb n l : forallb (Nat.eqb n) l = true -> Forall (fun x => x = n) l.
Proof.
  rewrite forallb_forall, Forall_forall. intros H x I. symmetry. apply Nat.eqb_eq, H, I.
Qed.

Lemma make_config_inv c c' n : make_config c = Ok (c', n) -> c' = c /\ Forall (fun x => x = n) (config_sizes c) /\ config_sizes c <> [].
Proof.
  unfold make_config. destruct (config_sizes c) as [|m sizes] eqn:E; [discriminate|].
  destruct (forallb (Nat.eqb m) sizes) eqn:F; cbn [negb]; [|discriminate]. apply forallb_eqb in F.
  destruct (Bool.eqb _ _); cbn [negb]; [|discriminate]. intro H.
  assert (G : Ok (c, m) = Ok (c', n)).
  { destruct (c_min_sum c) as [[|mins]|], (c_max_sum c) as [[|maxs]|]; try exact H.
    destruct mins; [exact H|]. destruct (common_len _) as [a|], (common_len maxs) as [b|]; try discriminate.
    destruct (Nat.eqb a b); [exact H | discriminate]. }
  apply Ok_inj in G. injection G as <- <-. split; [reflexivity|]. split; [constructor; [reflexivity | exact F] | discriminate].
Qed.

(** The settings of the bounds within a partition, [m] of them. *)
Definition setting (counts : option (list Z)) (cols : option (list (list Q))) (i : nat) : option Z * option (list (Q * Q)) :=
  (match counts with Some c => nth_error c i | None => None end,
   match cols with Some cs => Some (map (fun c => (0%Q, nth i c 0%Q)) cs) | None => None end).

Definition olength {A} (o : option (list A)) (m : nat) : Prop := match o with Some l => length l = m | None => True end.
Definition ocols (o : option (list (list Q))) (m : nat) : Prop :=
  match o with Some cs => cs <> [] /\ Forall (fun c => length c = m) cs | None => True end.

(** The configuration built from the padded candidates. *)
Definition build (nbins : nat) (l0 : list Z) (counts : option (list Z)) (cols : option (list (list Q))) (len3 : nat) : config :=
  let max_sum := match cols with
                 | Some [c] => Some (Flat c)
                 | Some cs => Some (Multi (zip_columns cs))
                 | None => None
                 end in
  let min_sum := match max_sum with
                 | Some (Flat c) => Some (Flat (repeat 0%Q (length c)))
                 | Some (Multi l) => Some (Multi (repeat (repeat 0%Q nbins) (length l)))
                 | None => None
                 end in
  let dup := fun s => match s with
                      | Flat l => Flat (duplicate_list l (length l0))
                      | Multi l => Multi (duplicate_list l (length l0))
                      end in
  Config (Some (duplicate_each l0 len3))
         (match counts with Some c => Some (duplicate_list c (length l0)) | None => None end)
         (match min_sum with Some s => Some (dup s) | None => None end)
         (match max_sum with Some s => Some (dup s) | None => None end).

Lemma zip_columns_length cs m : cs <> [] -> Forall (fun c : list Q => length c = m) cs -> length (zip_columns cs) = m.
Proof. intros N F. unfold zip_columns. rewrite map_length, seq_length. apply min_length_const; assumption. Qed.

Lemma build_sizes nbins l0 counts cols len3 m n c : l0 <> [] -> 0 < m -> m <= len3 ->
  olength counts m -> ocols cols m -> (cols = None -> len3 = m) ->
  make_config (build nbins l0 counts cols len3) = Ok (c, n) ->
  c = build nbins l0 counts cols len3 /\ len3 = m /\ n = length l0 * m.
Proof.
  intros N M L C O D E. apply make_config_inv in E. destruct E as (-> & F & _). split; [reflexivity|].
  assert (Hl : 0 < length l0) by (destruct l0; [congruence | cbn; lia]).
  rewrite Forall_forall in F.
  assert (A : length l0 * len3 = n).
  { apply F. unfold config_sizes. apply in_app_iff. left. unfold build. cbn [c_l0 olen]. rewrite duplicate_each_length.
    destruct (Nat.eqb_spec (length l0 * len3) 0); [nia | left; reflexivity]. }
  assert (B : len3 = m).
  { destruct cols as [cs|]; [|apply D; reflexivity]. destruct O as [NE Fc].
    assert (X : length l0 * m = n).
    { apply F. unfold config_sizes. do 3 (apply in_app_iff; right). unfold build.
      destruct cs as [|c1 [|c2 cs]]; [congruence | |]; cbn [c_max_sum olen sums_len].
      - inversion Fc as [|? ? E1 ?]; subst. rewrite duplicate_list_length. destruct (Nat.eqb_spec (length l0 * length c1) 0); [nia | left; reflexivity].
      - rewrite duplicate_list_length, (zip_columns_length _ m) by assumption. destruct (Nat.eqb_spec (length l0 * m) 0); [nia | left; reflexivity]. }
    nia. }
  subst len3. split; [reflexivity | lia].
Qed.

Lemma config_at_build nbins l0 counts cols m a b : a < length l0 -> b < m ->
  olength counts m -> ocols cols m -> (forall cs, cols = Some cs -> length cs = nbins) ->
  config_at (build nbins l0 counts cols m) (a * m + b) =
  (nth_error l0 a, fst (setting counts cols b), snd (setting counts cols b)).
Proof.
  intros Ha Hb C O Hn. unfold config_at. f_equal; [f_equal|].
  - unfold build. cbn [c_l0]. apply duplicate_each_nth. exact Hb.
  - unfold build, setting. cbn [c_linf fst]. destruct counts as [c|]; [|reflexivity]. cbn in C. subst m. apply duplicate_list_nth; assumption.
  - unfold build, setting. cbn [c_min_sum c_max_sum snd]. destruct cols as [cs|]; [|reflexivity].
    destruct O as [NE F]. specialize (Hn cs eq_refl).
    destruct cs as [|c1 [|c2 cs]]; [congruence | |].
    + inversion F as [|? ? E1 ?]; subst. cbn [map].
      assert (R : length (repeat 0%Q (length c1)) = length c1) by apply repeat_length.
      replace (nth_error (duplicate_list (repeat 0%Q (length c1)) (length l0)) (a * length c1 + b))
        with (nth_error (repeat 0%Q (length c1)) b)
        by (rewrite <- R at 3; symmetry; apply duplicate_list_nth; [exact Ha | rewrite R; exact Hb]).
      rewrite nth_error_repeat by exact Hb. rewrite duplicate_list_nth by assumption.
      rewrite (nth_error_nth' c1 0%Q) by exact Hb. reflexivity.
    + set (all := c1 :: c2 :: cs) in *.
      assert (Z := zip_columns_length all m NE F).
      set (zs := zip_columns all) in *.
      assert (R : length (repeat (repeat 0%Q nbins) (length zs)) = m) by (rewrite repeat_length; exact Z).
      replace (nth_error (duplicate_list (repeat (repeat 0%Q nbins) (length zs)) (length l0)) (a * m + b))
        with (nth_error (repeat (repeat 0%Q nbins) (length zs)) b)
        by (symmetry; rewrite <- R; apply duplicate_list_nth; [exact Ha | rewrite R; exact Hb]).
      rewrite nth_error_repeat by lia.
      replace (nth_error (duplicate_list zs (length l0)) (a * m + b)) with (nth_error zs b)
        by (symmetry; rewrite <- Z; apply duplicate_list_nth; [exact Ha | rewrite Z; exact Hb]).
      unfold zs, zip_columns. rewrite (min_length_const all m NE F), nth_error_map_seq by exact Hb.
      rewrite combine_zeros by (rewrite map_length; exact Hn). rewrite map_map. reflexivity.
Qed.

Lemma config_list nbins l0 counts cols m :
  olength counts m -> ocols cols m -> (forall cs, cols = Some cs -> length cs = nbins) ->
  map (config_at (build nbins l0 counts cols m)) (seq 0 (length l0 * m)) =
  map (fun p => (Some (fst p), fst (snd p), snd (snd p))) (list_prod l0 (map (setting counts cols) (seq 0 m))).
Proof.
  intros C O Hn. rewrite seq_blocks, list_prod_flat, !map_flat_map.
  rewrite (flat_map_ext (fun x => map (fun p => (Some (fst p), fst (snd p), snd (snd p))) (map (pair x) (map (setting counts cols) (seq 0 m))))
             (fun x => (fun ox => map (fun b => (ox, fst (setting counts cols b), snd (setting counts cols b))) (seq 0 m)) (Some x)))
    by (intro x; rewrite !map_map; reflexivity).
  rewrite (flat_map_enum (fun ox => map (fun b => (ox, fst (setting counts cols b), snd (setting counts cols b))) (seq 0 m))).
  apply flat_map_ext_In. intros a Ia. apply in_seq in Ia. rewrite map_map. apply map_ext_in. intros b Ib. apply in_seq in Ib.
  apply config_at_build; [lia | lia | assumption..].
Qed.
