(** The cross product theorem and the choice of the best configuration. *)
From Coq Require Import List ZArith QArith Bool Permutation Sorted Lia.
From Verif Require Import Base BaseLemmas ListLemmas HistModel HistProofs2 TuningModel TuningProofs TuningProofs2.
Import ListNotations.
Local Open Scope Z_scope.

Lemma l0_candidates_spec ceils t l0 : l0_candidates ceils t = Ok l0 -> 1 <= t_max_candidates t ->
  NoDup l0 /\ l0 <> [] /\ Z.of_nat (length l0) <= t_max_candidates t /\
  (t_count t = true \/ t_sum t = true -> Z.of_nat (length l0) * Z.of_nat (length l0) <= t_max_candidates t).
Proof.
  unfold l0_candidates. intros E M. destruct (t_l0 t).
  - assert (N0 : l0 <> []).
    { intro Z. subst l0. destruct (relative_step_spec _ _ _ _ E) as (_ & H & _). cbn in H. discriminate. }
    destruct (relative_step_spec _ _ _ _ E) as (A & _ & _ & D & _).
    split; [eapply sorted_NoDup; [|exact A]; intro; lia|]. split; [exact N0|].
    assert (SQ := Z.sqrt_spec (t_max_candidates t) ltac:(lia)).
    assert (SN := Z.sqrt_nonneg (t_max_candidates t)).
    set (s := Z.sqrt (t_max_candidates t)) in *. clearbody s. set (len := Z.of_nat (length l0)) in *.
    assert (L0 : 0 <= len) by (unfold len; lia). clearbody len. unfold Z.succ in SQ.
    destruct (t_count t || t_sum t) eqn:B.
    + assert (P1 : len * len <= s * s) by (apply Z.mul_le_mono_nonneg; assumption).
      split; [nia | intros _; lia].
    + split; [exact D|]. apply orb_false_iff in B. destruct B. intros [X|X]; congruence.
  - apply Ok_inj in E. subst l0. split; [repeat constructor; intros []|]. split; [discriminate|]. cbn. lia.
Qed.

Lemma setting_fst counts cols i : fst (setting counts cols i) = match counts with Some c => nth_error c i | None => None end.
Proof. reflexivity. Qed.

Lemma NoDup_map_seq_fst {A B} (f : nat -> A) (g : A -> B) m : NoDup (map (fun i => g (f i)) (seq 0 m)) -> NoDup (map f (seq 0 m)).
Proof. intro N. rewrite <- (map_map f g) in N. eapply NoDup_map_inv. exact N. Qed.

Lemma map_nth_error_seq {A} (l : list A) : map (nth_error l) (seq 0 (length l)) = map Some l.
Proof.
  induction l as [|x l IH]; [reflexivity|]. cbn [length seq map nth_error]. f_equal. rewrite <- seq_shift, map_map. exact IH.
Qed.
Lemma map_nth_seq {A} (l : list A) d : map (fun i => nth i l d) (seq 0 (length l)) = l.
Proof.
  induction l as [|x l IH]; [reflexivity|]. cbn [length seq map nth]. f_equal. rewrite <- seq_shift, map_map. exact IH.
Qed.

Lemma settings_NoDup counts cols m :
  (m = 1%nat \/ (exists c, counts = Some c /\ length c = m /\ NoDup c) \/
   (exists cs j c, cols = Some cs /\ nth_error cs j = Some c /\ length c = m /\ NoDup c)) ->
  NoDup (map (setting counts cols) (seq 0 m)).
Proof.
  intros [->|[(c & -> & L & N)|(cs & j & c & -> & J & L & N)]].
  - repeat constructor. intros [].
  - apply (NoDup_map_seq_fst _ fst). cbn [setting fst]. subst m.
    change (NoDup (map (fun i => nth_error c i) (seq 0 (length c)))). rewrite map_nth_error_seq.
    apply FinFun.Injective_map_NoDup; [intros x y E; congruence | exact N].
  - apply (NoDup_map_seq_fst _ (fun s => match snd s with Some ps => match nth_error ps j with Some p => snd p | None => 0%Q end | None => 0%Q end)).
    rewrite (map_ext _ (fun i => nth i c 0%Q)).
    + subst m. rewrite map_nth_seq. exact N.
    + intro i. cbn [setting snd]. rewrite nth_error_map, J. reflexivity.
Qed.

(** The cross product. *)
Definition config_view (p : Z * (option Z * option (list (Q * Q)))) : option Z * option Z * option (list (Q * Q)) :=
  (Some (fst p), fst (snd p), snd (snd p)).

Lemma find_candidates_spec ceils0 ceils1 t c n :
  find_candidates ceils0 ceils1 t = Ok (c, n) -> 1 <= t_max_candidates t ->
  (t_sum t = true -> t_sum_bins t <> [] /\ Forall (StronglySorted Qlt) (t_sum_bins t)) ->
  exists l0 settings,
    l0_candidates ceils0 t = Ok l0 /\ NoDup l0 /\ NoDup settings /\
    map (config_at c) (seq 0 n) = map config_view (list_prod l0 settings) /\
    (length settings > 0)%nat /\ n = (length l0 * length settings)%nat /\
    Z.of_nat n <= t_max_candidates t /\
    (t_count t = false -> forall s, In s settings -> fst s = None) /\
    (t_count t = true -> exists cs, constant_relative_step ceils1 (t_linf_max t) (t_max_candidates t / Z.of_nat (length l0)) = Ok cs /\
       (forall x, In x (map fst settings) <-> In x (map Some cs))) /\
    (t_sum t = false -> forall s, In s settings -> snd s = None) /\
    (t_sum t = true -> forall j maxs, nth_error (t_sum_bins t) j = Some maxs ->
       exists cs, bins_max_values_subsample maxs (t_max_candidates t / Z.of_nat (length l0)) = Ok cs /\
         forall y, In y cs <-> exists s ps, In s settings /\ snd s = Some ps /\ length ps = length (t_sum_bins t) /\ nth_error ps j = Some (0%Q, y)).
Proof.
  intros E M HB. unfold find_candidates in E.
  destruct (l0_candidates ceils0 t) as [l0|] eqn:EL0; cbn [rbind] in E; [|discriminate].
  destruct (l0_candidates_spec _ _ _ EL0 M) as (N0 & NE0 & LE0 & SQ0).
  set (k := Z.of_nat (length l0)) in *. assert (Pk : 1 <= k) by (unfold k; destruct l0; [congruence | cbn [length]; lia]).
  set (ml := t_max_candidates t / k) in *.
  assert (Hml : k * ml <= t_max_candidates t) by (unfold ml; apply Z.mul_div_le; lia).
  assert (Pml : t_count t = true \/ t_sum t = true -> 1 <= ml).
  { intro H. apply SQ0 in H. unfold ml. apply Z.div_le_lower_bound; nia. }
  destruct (if t_count t then rmap Some (constant_relative_step ceils1 (t_linf_max t) ml) else Ok None) as [counts|] eqn:EC; cbn [rbind] in E; [|discriminate].
  destruct (if t_sum t then rmap Some (rmapM (fun maxs => bins_max_values_subsample maxs ml) (t_sum_bins t)) else Ok None) as [cols|] eqn:ES; cbn [rbind] in E; [|discriminate].
  set (len1 := match counts with Some c0 => length c0 | None => 1%nat end) in *.
  set (m := match cols with Some cs => fold_left (fun n0 c0 => Nat.max n0 (length c0)) cs len1 | None => len1 end) in *.
  (* facts on the raw candidates *)
  assert (FC : match counts with
               | Some cs => t_count t = true /\ constant_relative_step ceils1 (t_linf_max t) ml = Ok cs
               | None => t_count t = false end).
  { destruct (t_count t); [|apply Ok_inj in EC; subst counts; reflexivity].
    destruct (constant_relative_step ceils1 (t_linf_max t) ml) as [cs|] eqn:X; cbn [rmap] in EC; [|discriminate].
    apply Ok_inj in EC. subst counts. split; reflexivity. }
  assert (FS : match cols with
               | Some cs => t_sum t = true /\ Forall2 (fun maxs c0 => bins_max_values_subsample maxs ml = Ok c0) (t_sum_bins t) cs
               | None => t_sum t = false end).
  { destruct (t_sum t); [|apply Ok_inj in ES; subst cols; reflexivity].
    destruct (rmapM (fun maxs => bins_max_values_subsample maxs ml) (t_sum_bins t)) as [cs|] eqn:X; cbn [rmap] in ES; [|discriminate].
    apply Ok_inj in ES. subst cols. split; [reflexivity | apply rmapM_Forall2; exact X]. }
  assert (CN : forall cs, counts = Some cs -> NoDup cs /\ (1 <= length cs)%nat /\ Z.of_nat (length cs) <= ml).
  { intros cs ->. destruct FC as [_ X]. destruct (relative_step_spec _ _ _ _ X) as (A & H & _ & D & _).
    split; [eapply sorted_NoDup; [|exact A]; intro; lia|]. split; [destruct cs; [cbn in H; discriminate | cbn; lia] | exact D]. }
  assert (SN : forall cs, cols = Some cs -> length cs = length (t_sum_bins t) /\ cs <> [] /\ Forall (fun c0 => NoDup c0 /\ Z.of_nat (length c0) <= ml) cs).
  { intros cs ->. destruct FS as [T X]. destruct (HB T) as [NB SB]. assert (P1 := Pml (or_intror T)).
    assert (LL := Forall2_len _ _ _ X). split; [symmetry; exact LL|]. split; [intro Z; subst cs; destruct (t_sum_bins t); [congruence | discriminate]|].
    clear -X SB P1. induction X as [|maxs c0 bs cs E X IH]; [constructor|]. inversion SB; subst.
    destruct (subsample_spec _ _ _ H1 E) as (A & _ & D & _). constructor; [|apply IH; assumption].
    split; [eapply sorted_NoDup; [|exact A]; apply Qlt_irrefl | lia]. }
  assert (Hlen1 : (1 <= len1)%nat) by (unfold len1; destruct counts; [apply (CN l eq_refl) | lia]).
  assert (Hm : (len1 <= m)%nat /\ (forall cs, cols = Some cs -> Forall (fun c0 => (length c0 <= m)%nat) cs) /\
               (m = len1 \/ exists cs, cols = Some cs /\ Exists (fun c0 => length c0 = m) cs)).
  { unfold m. destruct cols as [cs|].
    - destruct (fold_max_spec cs len1) as (A & B & D). split; [exact A|]. split; [intros cs' X; injection X as <-; exact B|].
      destruct D as [D|D]; [left; exact D | right; exists cs; split; [reflexivity | exact D]].
    - split; [lia|]. split; [discriminate|]. left. reflexivity. }
  destruct Hm as (Hm1 & Hm2 & Hm3).
  assert (Pm : (0 < m)%nat) by lia.
  assert (Mle : Z.of_nat m * k <= t_max_candidates t).
  { assert (X : m = 1%nat \/ Z.of_nat m <= ml).
    { destruct Hm3 as [X|(cs & X & Y)].
      - rewrite X. unfold len1. destruct counts as [cs|]; [right; apply (CN cs eq_refl) | left; reflexivity].
      - right. destruct (SN cs X) as (_ & _ & F). apply Exists_exists in Y. destruct Y as (c0 & I & <-).
        rewrite Forall_forall in F. apply (F c0 I). }
    destruct X as [->|X]; [change (Z.of_nat 1) with 1; lia | nia]. }
  assert (Eml : t_max_candidates t / Z.of_nat (length l0) = ml) by reflexivity.
  clearbody m ml. clear Hlen1.
  destruct (match counts with Some c0 => rmap Some (pad_list c0 m) | None => Ok None end) as [counts'|] eqn:EC'; cbn [rbind] in E; [|discriminate].
  destruct (match cols with Some cs => rmap Some (rmapM (fun c0 => pad_list c0 m) cs) | None => Ok None end) as [cols'|] eqn:ES'; cbn [rbind] in E; [|discriminate].
  (* facts on the padded candidates *)
  assert (PC : match counts, counts' with
               | Some cs, Some cs' => length cs' = m /\ (forall x, In x cs' <-> In x cs) /\ (length cs = m -> cs' = cs)
               | None, None => True
               | _, _ => False end).
  { destruct counts as [cs|].
    - destruct (pad_list cs m) as [cs'|] eqn:X; cbn [rmap] in EC'; [|discriminate]. apply Ok_inj in EC'. subst counts'.
      apply pad_list_spec; [exact X|]. unfold len1 in Hm1. exact Hm1.
    - apply Ok_inj in EC'. subst counts'. exact I. }
  assert (PS : match cols, cols' with
               | Some cs, Some cs' => Forall2 (fun c0 c1 => length c1 = m /\ (forall x, In x c1 <-> In x c0) /\ (length c0 = m -> c1 = c0)) cs cs'
               | None, None => True
               | _, _ => False end).
  { destruct cols as [cs|].
    - destruct (rmapM (fun c0 => pad_list c0 m) cs) as [cs'|] eqn:X; cbn [rmap] in ES'; [|discriminate]. apply Ok_inj in ES'. subst cols'.
      apply rmapM_Forall2 in X. assert (F := Hm2 cs eq_refl). clear -X F. induction X as [|c0 c1 cs cs' E X IH]; [constructor|].
      inversion F; subst. constructor; [apply pad_list_spec; assumption | apply IH; assumption].
    - apply Ok_inj in ES'. subst cols'. exact I. }
  clear EC EC' ES ES'.
  assert (OC : olength counts' m) by (destruct counts, counts'; cbn; tauto).
  assert (OS : ocols cols' m).
  { destruct cols as [cs|], cols' as [cs'|]; cbn; try tauto. split.
    - intro Z. subst cs'. inversion PS; subst. destruct (SN [] eq_refl) as (_ & X & _). congruence.
    - clear -PS. induction PS as [|c0 c1 cs cs' (A & _) F IH]; constructor; assumption. }
  assert (ON : forall cs', cols' = Some cs' -> length cs' = length (t_sum_bins t)).
  { intros cs' ->. destruct cols as [cs|]; [|contradiction]. rewrite <- (Forall2_len _ _ _ PS). apply (SN cs eq_refl). }
  set (len3 := match cols' with Some cs => Nat.max m (length cs) | None => m end) in *.
  change (make_config (build (length (t_sum_bins t)) l0 counts' cols' len3) = Ok (c, n)) in E.
  apply (build_sizes _ _ _ _ _ m) in E; [|exact NE0 | exact Pm | unfold len3; destruct cols'; lia | exact OC | exact OS | unfold len3; intros ->; reflexivity].
  destruct E as (-> & -> & ->).
  exists l0, (map (setting counts' cols') (seq 0 m)).
  split; [reflexivity|]. split; [exact N0|]. split; [|split; [|split; [|split; [|split; [|split; [|split; [|split]]]]]]].
  - apply settings_NoDup. destruct Hm3 as [X|(cs & X & Y)].
    + unfold len1 in X. destruct counts as [cs|]; [|left; exact X]. destruct counts' as [cs'|]; [|contradiction].
      destruct PC as (A & _ & B). right. left. exists cs'. split; [reflexivity|]. split; [exact A|]. rewrite (B (eq_sym X)). apply (CN cs eq_refl).
    + subst cols. destruct cols' as [cs'|]; [|contradiction]. right. right. exists cs'.
      destruct (SN cs eq_refl) as (_ & _ & F). clear -PS Y F.
      assert (G : exists j c0, nth_error cs' j = Some c0 /\ length c0 = m /\ NoDup c0).
      { induction PS as [|c0 c1 cs cs' (A & _ & B) P IH]; [inversion Y|].
        assert (Nd := proj1 (Forall_inv F)). assert (F' := Forall_inv_tail F).
        apply Exists_cons in Y. destruct Y as [L|Y'].
        - exists 0%nat, c1. cbn. split; [reflexivity|]. split; [exact A|]. rewrite (B L). exact Nd.
        - destruct (IH Y' F') as (j & c & J & K). exists (S j), c. split; [exact J | exact K]. }
      destruct G as (j & c0 & J & K). exists j, c0. split; [reflexivity|]. split; [exact J | exact K].
  - apply config_list; assumption.
  - rewrite map_length, seq_length. lia.
  - rewrite map_length, seq_length. reflexivity.
  - fold k in Mle. unfold k in Mle. lia.
  - intros T s I. apply in_map_iff in I. destruct I as (i & <- & _). cbn. destruct counts as [cs|]; [destruct FC; congruence|].
    destruct counts'; [contradiction | reflexivity].
  - intro T. destruct counts as [cs|]; [|congruence]. destruct counts' as [cs'|]; [|contradiction].
    exists cs. destruct FC as [_ FC]. rewrite Eml. split; [exact FC|]. destruct PC as (A & B & _). intro x. rewrite map_map.
    change (In x (map (fun i => nth_error cs' i) (seq 0 m)) <-> In x (map Some cs)). rewrite <- A, map_nth_error_seq.
    rewrite !in_map_iff. split; intros (y & <- & I); exists y; (split; [reflexivity|]); apply B; exact I.
  - intros T s I. apply in_map_iff in I. destruct I as (i & <- & _). cbn. destruct cols as [cs|]; [destruct FS; congruence|].
    destruct cols'; [contradiction | reflexivity].
  - intros T j maxs J. destruct cols as [cs|]; [|congruence]. destruct cols' as [cs'|]; [|contradiction]. destruct FS as [_ FS].
    assert (G : exists c0 c1, nth_error cs j = Some c0 /\ nth_error cs' j = Some c1 /\ bins_max_values_subsample maxs ml = Ok c0 /\
                length c1 = m /\ (forall x, In x c1 <-> In x c0)).
    { clear -J FS PS. revert j cs' PS J. induction FS as [|mx c0 bs cs E FS IH]; intros j cs' PS J; [destruct j; discriminate|].
      inversion PS as [|? c1 ? cs1 (A & B & _) PS']; subst. destruct j as [|j]; cbn in J.
      - injection J as ->. exists c0, c1. cbn. repeat split; auto; apply B.
      - destruct (IH j cs1 PS' J) as (a & b & X & Y & Z). exists a, b. repeat split; try assumption; apply Z. }
    destruct G as (c0 & c1 & J0 & J1 & EB & L1 & I1). exists c0. rewrite Eml. split; [exact EB|]. intro y. rewrite <- I1. split.
    + intro I. destruct (In_nth c1 y 0%Q I) as (i & Li & Ei).
      exists (setting counts' (Some cs') i), (map (fun c => (0%Q, nth i c 0%Q)) cs').
      split; [apply in_map, in_seq; lia|]. split; [reflexivity|]. split; [rewrite map_length; apply ON; reflexivity|].
      rewrite nth_error_map, J1. cbn. rewrite Ei. reflexivity.
    + intros (s & ps & Is & Es & _ & En). apply in_map_iff in Is. destruct Is as (i & <- & Ii). apply in_seq in Ii. cbn in Es. injection Es as <-.
      rewrite nth_error_map, J1 in En. cbn in En. injection En as <-. apply nth_In. lia.
Qed.

(** ** Success with at most one sum column *)
Lemma subsample_ok maxs k : maxs <> [] -> 1 <= k -> (2 <= length maxs)%nat \/ (0 < hd 0 maxs)%Q ->
  exists cs, bins_max_values_subsample maxs k = Ok cs /\ cs <> [].
Proof.
  intros N K H. unfold bins_max_values_subsample. destruct maxs as [|m0 rest]; [congruence|]. cbn [hd length] in *.
  set (from := if Qle_bool m0 0 then 1 else 0). set (n := Z.of_nat (S (length rest))).
  assert (P : 1 <= n - from).
  { unfold from, n. destruct (Qle_bool m0 0) eqn:E; [|lia]. destruct H as [H|H]; [lia|]. apply Qle_bool_iff in E. exfalso. exact (Qlt_not_le _ _ H E). }
  destruct (Z.ltb_spec (Z.min k (n - from)) 0); [lia|]. eexists. split; [reflexivity|].
  assert (Q : (1 <= Z.to_nat (Z.min k (n - from)))%nat) by lia.
  destruct (Z.to_nat (Z.min k (n - from))) as [|[|q]]; [lia | discriminate | discriminate].
Qed.

(** ** The best configuration *)
Lemma argmin_from_spec l : forall best_i best i, 
  let r := argmin_from best_i best i l in
  (r = best_i /\ (forall j, (j < length l)%nat -> (best <= nth j l 0)%Q)) \/
  (exists j, r = (i + j)%nat /\ (j < length l)%nat /\ (nth j l 0 < best)%Q /\
     (forall j', (j' < length l)%nat -> (nth j l 0 <= nth j' l 0)%Q) /\
     (forall j', (j' < j)%nat -> (nth j l 0 < nth j' l 0)%Q)).
Proof.
  induction l as [|x l IH]; intros best_i best i; cbn [argmin_from].
  - left. split; [reflexivity|]. intros j L. cbn in L. lia.
  - destruct (Qle_bool best x) eqn:E.
    + apply Qle_bool_iff in E. destruct (IH best_i best (S i)) as [[-> A]|(j & -> & L & B & C & D)].
      * left. split; [reflexivity|]. intros [|j] Lj; cbn in *; [exact E | apply A; lia].
      * right. exists (S j). split; [lia|]. split; [cbn; lia|]. cbn [nth]. split; [exact B|]. split.
        -- intros [|j'] L'; cbn in *; [apply Qlt_le_weak; eapply Qlt_le_trans; eassumption | apply C; lia].
        -- intros [|j'] L'; cbn in *; [eapply Qlt_le_trans; eassumption | apply D; lia].
    + apply Qle_bool_false in E. destruct (IH i x (S i)) as [[-> A]|(j & -> & L & B & C & D)].
      * right. exists 0%nat. split; [lia|]. split; [cbn; lia|]. cbn [nth]. split; [exact E|]. split; [|lia].
        intros [|j'] L'; cbn in *; [apply Qle_refl | apply A; lia].
      * right. exists (S j). split; [lia|]. split; [cbn; lia|]. cbn [nth]. split; [eapply Qlt_trans; eassumption|]. split.
        -- intros [|j'] L'; cbn in *; [apply Qlt_le_weak; exact B | apply C; lia].
        -- intros [|j'] L'; cbn in *; [exact B | apply D; lia].
Qed.

Lemma argmin_spec l r : argmin l = Ok r ->
  (r < length l)%nat /\ (forall j, (j < length l)%nat -> (nth r l 0 <= nth j l 0)%Q) /\
  (forall j, (j < r)%nat -> (nth r l 0 < nth j l 0)%Q).
Proof.
  destruct l as [|x l]; [discriminate|]. cbn [argmin]. intro E. apply Ok_inj in E. subst r.
  destruct (argmin_from_spec l 0 x 1) as [[-> A]|(j & -> & L & B & C & D)].
  - cbn [length nth]. split; [lia|]. split; [|lia]. intros [|j] Lj; [apply Qle_refl | apply A; lia].
  - cbn [length]. split; [lia|]. split; intros [|j'] Lj; cbn [Nat.add nth] in *; try lia.
    + apply Qlt_le_weak. exact B.
    + apply C. lia.
    + exact B.
    + apply D. lia.
Qed.

Lemma pad_list_ok {A} (a : list A) m : a <> [] -> exists b, pad_list a m = Ok b.
Proof.
  intro N. unfold pad_list. destruct (length a <? m)%nat; [|eexists; reflexivity]. destruct a; [congruence | eexists; reflexivity].
Qed.

Lemma forallb_all n l : Forall (fun x => x = n) l -> forallb (Nat.eqb n) l = true.
Proof. intro F. apply forallb_forall. rewrite Forall_forall in F. intros x I. rewrite (F x I). apply Nat.eqb_refl. Qed.

Lemma make_config_flat nbins l0 counts cols m : l0 <> [] -> (0 < m)%nat -> olength counts m ->
  (cols = None \/ exists c, cols = Some [c] /\ length c = m) ->
  exists c n, make_config (build nbins l0 counts cols m) = Ok (c, n).
Proof.
  intros N M C O. assert (Hl : (0 < length l0)%nat) by (destruct l0; [congruence | cbn; lia]).
  set (n := (length l0 * m)%nat). assert (Pn : (0 < n)%nat) by (unfold n; nia).
  unfold make_config.
  assert (Sz : exists sizes, config_sizes (build nbins l0 counts cols m) = n :: sizes /\ Forall (fun x => x = n) sizes).
  { unfold config_sizes, build. cbn [c_l0 c_linf c_min_sum c_max_sum olen]. rewrite duplicate_each_length. fold n.
    destruct (Nat.eqb_spec n 0); [lia|]. cbn [app]. eexists. split; [reflexivity|].
    apply Forall_app. split; [|apply Forall_app; split].
    - destruct counts as [c|]; [|constructor]. cbn in C. cbn [olen]. rewrite duplicate_list_length, C. fold n.
      destruct (Nat.eqb n 0); repeat constructor.
    - destruct O as [->|(c & -> & L)]; [constructor|]. cbn [olen sums_len]. rewrite duplicate_list_length, repeat_length, L. fold n.
      destruct (Nat.eqb n 0); repeat constructor.
    - destruct O as [->|(c & -> & L)]; [constructor|]. cbn [olen sums_len]. rewrite duplicate_list_length, L. fold n.
      destruct (Nat.eqb n 0); repeat constructor. }
  destruct Sz as (sizes & -> & F). rewrite forallb_all by exact F. cbn [negb].
  destruct O as [->|(c & -> & L)]; cbn [build c_min_sum c_max_sum Bool.eqb negb]; do 2 eexists; reflexivity.
Qed.

Lemma find_candidates_ok ceils0 ceils1 t :
  1 <= t_max_candidates t -> (t_l0 t = true -> 1 <= t_l0_max t) -> (t_count t = true -> 1 <= t_linf_max t) ->
  (t_sum t = true -> exists maxs, t_sum_bins t = [maxs] /\ maxs <> [] /\ ((2 <= length maxs)%nat \/ (0 < hd 0 maxs)%Q)) ->
  exists c n, find_candidates ceils0 ceils1 t = Ok (c, n).
Proof.
  intros M H0 HC HS. unfold find_candidates.
  assert (X0 : exists l0, l0_candidates ceils0 t = Ok l0).
  { unfold l0_candidates. destruct (t_l0 t); [|eexists; reflexivity].
    assert (SQ : 1 <= Z.sqrt (t_max_candidates t)) by (change 1 with (Z.sqrt 1); apply Z.sqrt_le_mono; lia).
    destruct (relative_step_ok ceils0 (t_l0_max t) (if t_count t || t_sum t then Z.sqrt (t_max_candidates t) else t_max_candidates t)) as (l0 & E & _);
      [auto | | exists l0; exact E].
    destruct (t_count t || t_sum t); assumption. }
  destruct X0 as (l0 & E0). rewrite E0. cbn [rbind].
  destruct (l0_candidates_spec _ _ _ E0 M) as (N0 & NE0 & LE0 & SQ0).
  set (k := Z.of_nat (length l0)) in *. assert (Pk : 1 <= k) by (unfold k; destruct l0; [congruence | cbn [length]; lia]).
  set (ml := t_max_candidates t / k) in *.
  assert (Pml : t_count t = true \/ t_sum t = true -> 1 <= ml).
  { intro H. apply SQ0 in H. unfold ml. apply Z.div_le_lower_bound; nia. }
  clearbody ml.
  assert (XC : exists counts, (if t_count t then rmap Some (constant_relative_step ceils1 (t_linf_max t) ml) else Ok None) = Ok counts /\
                              (forall cs, counts = Some cs -> cs <> [])).
  { destruct (t_count t); [|exists None; split; [reflexivity | discriminate]].
    destruct (relative_step_ok ceils1 (t_linf_max t) ml) as (cs & E & N); [auto | apply Pml; left; reflexivity |].
    rewrite E. exists (Some cs). split; [reflexivity|]. intros cs' X. injection X as <-. exact N. }
  destruct XC as (counts & -> & NC). cbn [rbind].
  assert (XS : exists cols, (if t_sum t then rmap Some (rmapM (fun maxs => bins_max_values_subsample maxs ml) (t_sum_bins t)) else Ok None) = Ok cols /\
                              (cols = None \/ exists c, cols = Some [c] /\ c <> [])).
  { destruct (t_sum t); [|exists None; split; [reflexivity | left; reflexivity]].
    destruct (HS eq_refl) as (maxs & -> & N & B). destruct (subsample_ok maxs ml N ltac:(apply Pml; right; reflexivity) B) as (cs & E & Nc).
    cbn [rmapM]. rewrite E. cbn. exists (Some [cs]). split; [reflexivity|]. right. exists cs. split; [reflexivity | exact Nc]. }
  destruct XS as (cols & -> & NS). cbn [rbind].
  set (len1 := match counts with Some c0 => length c0 | None => 1%nat end).
  assert (P1 : (1 <= len1)%nat).
  { unfold len1. destruct counts as [c|]; [|lia]. assert (X := NC c eq_refl). destruct c; [congruence | cbn; lia]. }
  set (m := match cols with Some cs => fold_left (fun n0 c0 => Nat.max n0 (length c0)) cs len1 | None => len1 end).
  assert (Pm : (len1 <= m)%nat) by (unfold m; destruct NS as [->|(c & -> & _)]; cbn; lia).
  assert (XC : exists counts', (match counts with Some c0 => rmap Some (pad_list c0 m) | None => Ok None end) = Ok counts' /\ olength counts' m).
  { destruct counts as [c|]; [|exists None; split; [reflexivity | exact I]].
    destruct (pad_list_ok c m (NC c eq_refl)) as (b & E). rewrite E. exists (Some b). split; [reflexivity|]. cbn.
    eapply pad_list_spec; [exact E | exact Pm]. }
  destruct XC as (counts' & -> & OC). cbn [rbind].
  assert (XS : exists cols', (match cols with Some cs => rmap Some (rmapM (fun c0 => pad_list c0 m) cs) | None => Ok None end) = Ok cols' /\
                             (cols' = None \/ exists c, cols' = Some [c] /\ length c = m)).
  { destruct NS as [Z|(c & Z & N)].
    - rewrite Z. exists None. split; [reflexivity | left; reflexivity].
    - assert (L : (length c <= m)%nat) by (unfold m; rewrite Z; cbn; lia).
      rewrite Z. destruct (pad_list_ok c m N) as (b & E). cbn [rmapM]. rewrite E. cbn. exists (Some [b]). split; [reflexivity|]. right. exists b.
      split; [reflexivity|]. eapply pad_list_spec; [exact E | exact L]. }
  destruct XS as (cols' & -> & OS). cbn [rbind].
  set (len3 := match cols' with Some cs => Nat.max m (length cs) | None => m end).
  assert (L3 : len3 = m) by (unfold len3; destruct OS as [->|(c & -> & _)]; cbn [length]; lia).
  change (exists c n, make_config (build (length (t_sum_bins t)) l0 counts' cols' len3) = Ok (c, n)).
  rewrite L3. apply make_config_flat; [exact NE0 | lia | exact OC | exact OS].
Qed.

(** Reports sorted by configuration index. *)
Lemma sorted_seq (l : list Z) n : forall s, StronglySorted Z.le l -> Permutation l (map Z.of_nat (seq s n)) -> l = map Z.of_nat (seq s n).
Proof.
  revert l. induction n as [|n IH]; intros l s Srt P.
  - apply Permutation_sym, Permutation_nil in P. exact P.
  - cbn [seq map] in *. destruct l as [|x l]; [apply Permutation_nil in P; discriminate|].
    inversion Srt as [|? ? S' F]; subst.
    assert (E : x = Z.of_nat s).
    { assert (I : In (Z.of_nat s) (x :: l)) by (apply (Permutation_in _ (Permutation_sym P)); left; reflexivity).
      assert (I' : In x (Z.of_nat s :: map Z.of_nat (seq (S s) n))) by (apply (Permutation_in _ P); left; reflexivity).
      assert (A : x <= Z.of_nat s) by (destruct I as [->|I]; [lia | rewrite Forall_forall in F; apply F; exact I]).
      destruct I' as [<-|I']; [reflexivity|]. apply in_map_iff in I'. destruct I' as (y & <- & I'). apply in_seq in I'. lia. }
    subst x. f_equal. apply IH; [exact S'|]. eapply Permutation_cons_inv. exact P.
Qed.
