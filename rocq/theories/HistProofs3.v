(** Proofs about quantiles and the ratio of dropped data. *)
From Coq Require Import List ZArith QArith Bool Sorted Permutation Lia Lqa.
From Verif Require Import Base BackendModel BackendSpec ListLemmas BackendProofs HistModel HistSpec HistProofs HistProofs2.
Import ListNotations.
Local Open Scope Z_scope.

(** ** Quantiles *)

(** The part of the data in the bins [pre]. *)
Definition part {V} (h pre : list (bin V)) : Q := (inject_Z (total_count pre) / inject_Z (total_count h))%Q.

Definition answer {V} (h : list (bin V)) (q : Q) (r : V) : Prop :=
  exists pre b post, h = pre ++ b :: post /\ r = b_lower b /\ (part h pre <= q)%Q /\
    forall pre' b' post', h = pre' ++ b' :: post' -> (length pre < length pre')%nat -> (q < part h pre')%Q.

Definition below {V} (h : list (bin V)) (n : nat) (q : Q) : Prop :=
  forall pre' b' post', h = pre' ++ b' :: post' -> (n <= length pre')%nat -> (q < part h pre')%Q.

Definition descending (qs : list Q) : Prop := StronglySorted (fun a b => (b <= a)%Q) qs.

Lemma take_quantiles_spec {V} (lower : V) ratio qs : forall acc,
  descending qs ->
  exists used rest, qs = used ++ rest /\
    take_quantiles lower ratio qs acc = (rest, repeat lower (length used) ++ acc) /\
    Forall (fun q => (ratio <= q)%Q) used /\ Forall (fun q => (q < ratio)%Q) rest.
Proof.
  induction qs as [|q qs IH]; intros acc D.
  - exists [], []. repeat split; constructor.
  - inversion D as [|? ? D' F]; subst. cbn [take_quantiles].
    destruct (Qle_bool ratio q) eqn:E.
    + destruct (IH (lower :: acc) D') as (used & rest & -> & T & Fu & Fr).
      exists (q :: used), rest. rewrite T. split; [reflexivity|].
      split; [|split; [constructor; [apply Qle_bool_iff; exact E | exact Fu] | exact Fr]].
      f_equal. cbn [length repeat].
      change (lower :: repeat lower (length used)) with ([lower] ++ repeat lower (length used)).
      replace ([lower] ++ repeat lower (length used)) with (repeat lower (length used) ++ [lower])
        by (symmetry; apply repeat_cons).
      rewrite <- app_assoc. reflexivity.
    + exists [], (q :: qs). repeat split; [constructor|].
      assert (q < ratio)%Q as L.
      { apply Qnot_le_lt. intros C. apply Qle_bool_iff in C. congruence. }
      constructor; [exact L|]. eapply Forall_impl; [|exact F]. cbn. intros a Ha. lra.
Qed.

Lemma descending_app a b : descending (a ++ b) -> descending b.
Proof.
  induction a as [|x a IH]; intros D; [exact D|]. inversion D; subst. auto.
Qed.

Lemma split_unique {A} (p p' q q' : list A) : p ++ q = p' ++ q' -> length p = length p' -> p = p'.
Proof.
  revert p'. induction p as [|x p IH]; intros [|y p'] E L; cbn in *; try lia; [reflexivity|].
  injection E as -> E. f_equal. apply IH; [exact E | lia].
Qed.

Lemma total_count_app {V} (a b : list (bin V)) : total_count (a ++ b) = total_count a + total_count b.
Proof. unfold total_count. rewrite map_app, sumZ_app. reflexivity. Qed.

Lemma quantiles_loop_spec {V} (h : list (bin V)) (rest : list (bin V)) : forall post qs acc,
  h = rev rest ++ post -> descending qs -> Forall (below h (length rest)) qs ->
  exists used left answers,
    qs = used ++ left /\
    quantiles_loop (total_count h) rest (total_count (rev rest)) qs acc = (left, rev answers ++ acc) /\
    Forall2 (answer h) used answers /\ Forall (below h 0) left.
Proof.
  induction rest as [|b rest IH]; intros post qs acc Eh D B.
  - exists [], qs, []. repeat split; [constructor | exact B].
  - cbn [rev] in Eh. rewrite <- app_assoc in Eh. cbn [app] in Eh.
    cbn [quantiles_loop rev]. rewrite total_count_app.
    replace (total_count (rev rest) + total_count [b] - b_count b) with (total_count (rev rest))
      by (unfold total_count; cbn; lia).
    destruct (take_quantiles_spec (b_lower b)
                (inject_Z (total_count (rev rest)) / inject_Z (total_count h)) qs acc D)
      as (used & left & -> & T & Fu & Fl).
    rewrite T.
    destruct (IH (b :: post) left (repeat (b_lower b) (length used) ++ acc) Eh (descending_app _ _ D))
      as (used' & left' & answers & -> & L & A & Fb).
    + apply Forall_forall. intros q Hq pre' b' post' E' Le.
      rewrite Forall_app in B. destruct B as [_ B]. rewrite Forall_forall in B, Fl.
      destruct (Nat.eq_dec (length rest) (length pre')) as [El | Nl].
      * assert (pre' = rev rest) as ->.
        { symmetry. apply (split_unique _ _ (b :: post) (b' :: post')); [congruence|].
          rewrite rev_length. exact El. }
        exact (Fl q Hq).
      * apply (B q Hq pre' b' post' E'). cbn [length]. lia.
    + exists (used ++ used'), left', (repeat (b_lower b) (length used) ++ answers).
      rewrite app_assoc. split; [reflexivity|]. rewrite L. split; [|split; [|exact Fb]].
      * f_equal. rewrite rev_app_distr, <- app_assoc. f_equal. f_equal.
        clear. induction (length used) as [|n IHn]; [reflexivity|]. cbn [repeat rev].
        rewrite <- IHn. apply repeat_cons.
      * apply Forall2_app; [|exact A].
        rewrite Forall_app in B. destruct B as [B _]. clear - Eh Fu B.
        induction used as [|q used IHu]; [constructor|].
        inversion Fu; inversion B; subst. cbn [length repeat]. constructor; [|auto].
        exists (rev rest), b, post. split; [reflexivity|]. split; [reflexivity|]. split; [assumption|].
        intros pre' b' post' E' Lt. apply (H5 pre' b' post' E'). rewrite rev_length in Lt. cbn [length]. lia.
Qed.

Lemma sortedQ_ascending q : sortedQ q = true -> StronglySorted Qle q.
Proof.
  intros S. apply Sorted_StronglySorted; [intros a b c; apply Qle_trans|].
  induction q as [|x q IH]; [constructor|]. destruct q as [|y q].
  - constructor; constructor.
  - cbn [sortedQ] in S. apply andb_true_iff in S. destruct S as [L S].
    constructor; [exact (IH S)|]. constructor. apply Qle_bool_iff. exact L.
Qed.

Lemma ascending_rev q : StronglySorted Qle q -> descending (rev q).
Proof.
  unfold descending. induction 1 as [|x q S IH F]; cbn [rev]; [constructor|].
  clear S. revert IH. assert (Forall (fun y => (x <= y)%Q) (rev q)) as F'.
  { apply Forall_rev. exact F. }
  revert F'. generalize (rev q) as l. induction l as [|y l IHl]; intros F' S; cbn [app].
  - constructor; constructor.
  - inversion S; subst. inversion F'; subst. constructor; [auto|].
    apply Forall_app. split; [assumption | constructor; [assumption | constructor]].
Qed.

Lemma sortedQ_of q : StronglySorted Qle q -> sortedQ q = true.
Proof.
  induction 1 as [|x q S IH F]; [reflexivity|]. destruct q as [|y q]; [reflexivity|].
  cbn [sortedQ]. inversion F; subst. apply andb_true_iff. split; [apply Qle_bool_iff; assumption | exact IH].
Qed.

Lemma Forall2_rev' {A B} (R : A -> B -> Prop) l l' : Forall2 R l l' -> Forall2 R (rev l) (rev l').
Proof.
  induction 1; cbn; [constructor|]. apply Forall2_app; [assumption | constructor; [assumption | constructor]].
Qed.

Lemma quantiles_run {V} (h : list (bin V)) q : StronglySorted Qle q -> total_count h <> 0 ->
  exists neg pos answers, q = neg ++ pos /\ Forall2 (answer h) pos answers /\ Forall (below h 0) neg /\
    quantiles h q = match neg with [] => Ok answers | _ => Err TypeError end.
Proof.
  intros S T. unfold quantiles. rewrite (sortedQ_of q S). cbn [negb].
  rewrite (proj2 (Z.eqb_neq _ _) T).
  destruct (quantiles_loop_spec h (rev h) [] (rev q) []) as (used & left & answers & E & L & A & B).
  - rewrite rev_involutive, app_nil_r. reflexivity.
  - apply ascending_rev. exact S.
  - apply Forall_forall. intros x _ pre' b' post' -> Le. rewrite rev_length, app_length in Le. cbn in Le. lia.
  - rewrite rev_involutive in L. rewrite app_nil_r in L. rewrite L.
    exists (rev left), (rev used), (rev answers).
    split; [rewrite <- rev_app_distr, <- E, rev_involutive; reflexivity|].
    split; [apply Forall2_rev'; exact A|]. split; [apply Forall_rev; exact B|].
    destruct left as [|x left]; [reflexivity|]. cbn [rev]. destruct (rev left); reflexivity.
Qed.

Lemma quantiles_nonneg {V} (h : list (bin V)) q :
  StronglySorted Qle q -> Forall (fun x => (0 <= x)%Q) q -> total_count h <> 0 ->
  exists answers, quantiles h q = Ok answers /\ Forall2 (answer h) q answers.
Proof.
  intros S F T. destruct (quantiles_run h q S T) as (neg & pos & answers & -> & A & B & ->).
  destruct neg as [|x neg]; [exists answers; auto|]. exfalso.
  inversion F as [|? ? Hx _]; subst. inversion B as [|? ? Bx _]; subst.
  destruct h as [|b h]; [apply T; reflexivity|].
  specialize (Bx [] b h eq_refl (Nat.le_refl 0)). unfold part in Bx.
  change (total_count (@nil (bin V))) with 0 in Bx. change (inject_Z 0) with 0%Q in Bx.
  unfold Qdiv in Bx. rewrite Qmult_0_l in Bx. lra.
Qed.

Lemma quantiles_negative {V} (h : list (bin V)) q x :
  StronglySorted Qle q -> In x q -> (x < 0)%Q -> Forall (fun b => 0 <= b_count b) h ->
  total_count h <> 0 -> quantiles h q = Err TypeError.
Proof.
  intros S I L C T. destruct (quantiles_run h q S T) as (neg & pos & answers & -> & A & B & ->).
  destruct neg as [|y neg]; [|reflexivity]. exfalso. cbn [app] in I.
  assert (0 <= total_count h) as Tp.
  { clear - C. unfold total_count. induction C; cbn; [lia|]. unfold sumZ in *. lia. }
  assert (exists r, answer h x r) as (r & pre & b & post & -> & _ & Le & _).
  { clear - A I. induction A; [destruct I | destruct I as [<- | I]; eauto]. }
  assert (0 <= total_count pre) as Pp.
  { rewrite Forall_app in C. destruct C as [C _]. clear - C.
    unfold total_count. induction C; cbn; [lia|]. unfold sumZ in *. lia. }
  assert (0 <= part (pre ++ b :: post) pre)%Q; [|lra].
  unfold part. apply Qle_shift_div_l.
  - change 0%Q with (inject_Z 0). rewrite <- Zlt_Qlt. lia.
  - rewrite Qmult_0_l. change 0%Q with (inject_Z 0). rewrite <- Zle_Qle. exact Pp.
Qed.

(** The data in the bins before [b]: the data smaller than its lower end. *)
Lemma prefix_count xs pre b post : histogram_of xs (pre ++ b :: post) ->
  total_count pre = Z.of_nat (length (filter (fun x => x <? b_lower b) xs)).
Proof.
  intros (S & F & Cov). unfold total_count.
  apply (sum_over_bins b_count pre b_lower b_upper (fun l => Z.of_nat (length l))
           (filter (fun x => x <? b_lower b) xs)); auto.
  - intros. rewrite app_length. lia.
  - intros a c P. rewrite (Permutation_length P). reflexivity.
  - clear F Cov. induction pre as [|a pre IH]; [constructor|]. inversion S as [|? ? S' F]; subst.
    constructor; [auto|]. apply Forall_app in F. apply F.
  - assert (forall a, In a pre -> b_upper a <= b_lower b) as U.
    { clear - S. induction pre as [|a pre IH]; [intros a []|]. inversion S as [|? ? S' F]; subst.
      apply Forall_app in F. destruct F as [_ F]. inversion F; subst.
      intros c [<- | Ic]; auto. }
    apply Forall_app in F. destruct F as [F _]. rewrite Forall_forall in F |- *.
    intros a Ia. destruct (F a Ia) as (B & C & _). pose proof (leading_bin_pos _ _ B).
    split; [lia|]. rewrite C. do 2 f_equal. unfold within. rewrite filter_filter.
    apply filter_ext_In. intros x _. specialize (U a Ia).
    destruct ((b_lower a <=? x) && (x <? b_upper a)) eqn:E; [|rewrite ?andb_false_r; reflexivity].
    apply andb_true_iff in E. rewrite Z.leb_le, Z.ltb_lt in E.
    rewrite ?andb_true_r. symmetry. apply Z.ltb_lt. lia.
  - intros x Hx. apply filter_In in Hx. destruct Hx as [Hx L]. apply Z.ltb_lt in L.
    destruct (Cov x Hx) as (a & Ia & R). exists a. split; [|exact R].
    apply in_app_or in Ia. destruct Ia as [Ia | [<- | Ia]]; [exact Ia | lia |]. exfalso.
    clear - S Ia R L F. induction pre as [|c pre IH]; cbn [app] in S.
    + inversion S as [|? ? _ Fb]; subst. rewrite Forall_forall in Fb. specialize (Fb a Ia). cbn in Fb.
      inversion F as [|? ? (B & _) _]; subst. pose proof (leading_bin_pos _ _ B). lia.
    + inversion S; subst. inversion F; subst. auto.
Qed.

(** ** The ratio of dropped data *)

(** What is dropped from the bins [h] at threshold [t]. *)
Definition over (t : Z) (h : list (bin Z)) : Z := sumZ (map (fun b => b_sum b - b_count b * t) h).

Fixpoint entries (total : Z) (h : list (bin Z)) : list (Z * Q) :=
  match h with
  | [] => []
  | b :: h' => (b_lower b, inject_Z (over (b_lower b) h) / inject_Z total)%Q :: entries total h'
  end.

Fixpoint entries_on (total : Z) (pre post : list (bin Z)) : list (Z * Q) :=
  match pre with
  | [] => []
  | b :: pre' => (b_lower b, inject_Z (over (b_lower b) (b :: pre' ++ post)) / inject_Z total)%Q
                 :: entries_on total pre' post
  end.

Lemma entries_on_nil total h : entries_on total h [] = entries total h.
Proof. induction h as [|b h IH]; [reflexivity|]. cbn. rewrite app_nil_r, IH. reflexivity. Qed.

Lemma entries_on_snoc total pre b post :
  entries_on total (pre ++ [b]) post
  = entries_on total pre (b :: post)
    ++ [(b_lower b, inject_Z (over (b_lower b) (b :: post)) / inject_Z total)%Q].
Proof.
  induction pre as [|a pre IH]; [reflexivity|]. cbn [app entries_on]. rewrite IH.
  rewrite <- app_assoc. reflexivity.
Qed.

Lemma over_shift t t' h : over t h = over t' h + total_count h * (t' - t).
Proof.
  unfold over, total_count. induction h as [|b h IH]; [cbn; lia|].
  cbn [map]. rewrite !sumZ_cons, IH. lia.
Qed.

Lemma ratio_loop_spec total rest : forall post previous acc,
  ratio_loop total rest (over previous post) (total_count post) previous acc
  = entries_on total (rev rest) post ++ acc.
Proof.
  induction rest as [|b rest IH]; intros post previous acc; [reflexivity|].
  cbn [ratio_loop rev]. rewrite entries_on_snoc, <- app_assoc. cbn [app].
  assert (E : over previous post
              + (total_count post * (previous - b_lower b) + (b_sum b - b_count b * b_lower b))
              = over (b_lower b) (b :: post)).
  { unfold over at 2. cbn [map]. rewrite sumZ_cons. fold (over (b_lower b) post).
    rewrite (over_shift (b_lower b) previous post). lia. }
  rewrite E.
  replace (total_count post + b_count b) with (total_count (b :: post))
    by (unfold total_count; cbn [map]; rewrite sumZ_cons; lia).
  apply IH.
Qed.

Lemma ratio_dropped_run h b l : rev h = b :: l -> total_sum h <> 0 ->
  compute_ratio_dropped h
  = Ok ((0, 1%Q) :: entries (total_sum h) h
        ++ (if negb (b_max b =? b_lower b) then [(b_max b, 0%Q)] else [])).
Proof.
  intros E T. unfold compute_ratio_dropped. rewrite E, (proj2 (Z.eqb_neq _ _) T).
  do 2 f_equal.
  change 0 with (over (b_lower b) []) at 1. change 0 with (total_count (@nil (bin Z))) at 1.
  rewrite <- E. rewrite ratio_loop_spec, rev_involutive, entries_on_nil. reflexivity.
Qed.

Lemma excess_filter t xs : excess t xs = sumZ (map (fun x => x - t) (filter (fun x => t <=? x) xs)).
Proof.
  unfold excess. induction xs as [|x xs IH]; [reflexivity|]. cbn [map filter].
  rewrite sumZ_cons, IH. destruct (Z.leb_spec t x).
  - cbn [map]. rewrite sumZ_cons. lia.
  - lia.
Qed.

Lemma sumZ_minus t xs : sumZ (map (fun x => x - t) xs) = sumZ xs - Z.of_nat (length xs) * t.
Proof.
  induction xs as [|x xs IH]; [cbn; lia|]. cbn [map length]. rewrite !sumZ_cons, IH. lia.
Qed.

Lemma suffix_over xs pre b post : histogram_of xs (pre ++ b :: post) ->
  over (b_lower b) (b :: post) = excess (b_lower b) xs.
Proof.
  intros (S & F & Cov). rewrite excess_filter. set (t := b_lower b).
  assert (U : forall a, In a (b :: post) -> t <= b_lower a).
  { intros a [<- | Ia]; [reflexivity|]. clear Cov. subst t. induction pre as [|c pre IH]; cbn [app] in S.
    - inversion S as [|? ? _ Fb]; subst. rewrite Forall_forall in Fb. specialize (Fb a Ia). cbn in Fb.
      inversion F as [|? ? (B & _) _]; subst. pose proof (leading_bin_pos _ _ B). lia.
    - inversion S; subst. inversion F; subst. auto. }
  apply (sum_over_bins (fun b => b_sum b - b_count b * t) (b :: post) b_lower b_upper
           (fun l => sumZ (map (fun x => x - t) l)) (filter (fun x => t <=? x) xs)).
  - reflexivity.
  - intros. rewrite map_app, sumZ_app. reflexivity.
  - intros a c P. apply sumZ_Permutation, Permutation_map, P.
  - clear - S. induction pre as [|a pre IH]; [exact S|]. inversion S; subst. auto.
  - apply Forall_app in F. destruct F as [_ F]. rewrite Forall_forall in F |- *.
    intros a Ia. destruct (F a Ia) as (B & C & Sm & _). pose proof (leading_bin_pos _ _ B).
    split; [lia|]. rewrite C, Sm, sumZ_minus.
    replace (within (b_lower a) (b_upper a) (filter (fun x => t <=? x) xs))
      with (within (b_lower a) (b_upper a) xs); [lia|].
    unfold within. rewrite filter_filter. apply filter_ext_In. intros x _. specialize (U a Ia).
    destruct ((b_lower a <=? x) && (x <? b_upper a)) eqn:E; [|rewrite ?andb_false_r; reflexivity].
    apply andb_true_iff in E. rewrite Z.leb_le, Z.ltb_lt in E.
    rewrite ?andb_true_r. symmetry. apply Z.leb_le. lia.
  - intros x Hx. apply filter_In in Hx. destruct Hx as [Hx L]. apply Z.leb_le in L.
    destruct (Cov x Hx) as (a & Ia & R). exists a. split; [|exact R].
    apply in_app_or in Ia. destruct Ia as [Ia | Ia]; [|exact Ia]. exfalso.
    assert (b_upper a <= t); [|lia]. subst t.
    clear - S Ia. induction pre as [|c pre IH]; [destruct Ia|]. inversion S as [|? ? S' Fc]; subst.
    destruct Ia as [<- | Ia]; [|auto]. apply Forall_app in Fc. destruct Fc as [_ Fc]. inversion Fc; subst. assumption.
Qed.

Lemma entries_exact xs h : histogram_of xs h ->
  map fst (entries (total_sum h) h) = map b_lower h /\
  Forall (fun tr => (snd tr == inject_Z (excess (fst tr) xs) / inject_Z (sumZ xs))%Q) (entries (total_sum h) h).
Proof.
  intros H. rewrite (histogram_total_sum xs h H).
  assert (G : forall pre post, h = pre ++ post ->
    map fst (entries (sumZ xs) post) = map b_lower post /\
    Forall (fun tr => (snd tr == inject_Z (excess (fst tr) xs) / inject_Z (sumZ xs))%Q) (entries (sumZ xs) post)).
  { intros pre post. revert pre. induction post as [|b post IH]; intros pre E; [repeat constructor|].
    destruct (IH (pre ++ [b])) as [I1 I2]; [rewrite <- app_assoc; exact E|].
    cbn [entries map]. split; [cbn [fst]; f_equal; exact I1|]. constructor; [|exact I2].
    cbn [fst snd]. subst h. rewrite (suffix_over xs pre b post H). reflexivity. }
  apply (G [] h eq_refl).
Qed.

Lemma excess_max m xs : maximum m xs -> excess m xs = 0.
Proof.
  intros [_ F]. unfold excess. induction F as [|x xs L F IH]; [reflexivity|].
  cbn [map]. rewrite sumZ_cons, IH. lia.
Qed.

Lemma excess_zero xs : Forall (fun x => 1 <= x) xs -> excess 0 xs = sumZ xs.
Proof.
  intros F. unfold excess. induction F as [|x xs L F IH]; [reflexivity|].
  cbn [map]. rewrite !sumZ_cons, IH. lia.
Qed.

Lemma excess_anti t t' xs : t <= t' -> excess t' xs <= excess t xs.
Proof.
  intros L. unfold excess. induction xs as [|x xs IH]; [reflexivity|].
  cbn [map]. rewrite !sumZ_cons. lia.
Qed.

Lemma excess_strict t t' m xs : t < t' -> t' <= m -> In m xs -> excess t' xs < excess t xs.
Proof.
  intros L Lm. unfold excess. induction xs as [|x xs IH]; intros I; [destruct I|].
  cbn [map]. rewrite !sumZ_cons. pose proof (excess_anti t t' xs ltac:(lia)) as A. unfold excess in A.
  destruct I as [-> | I]; [lia | specialize (IH I); lia].
Qed.

Lemma sumZ_positive xs : Forall (fun x => 1 <= x) xs -> xs <> [] -> 0 < sumZ xs.
Proof.
  intros F N. destruct F as [|x xs L F]; [congruence|]. rewrite sumZ_cons.
  assert (0 <= sumZ xs); [|lia]. clear - F. induction F as [|y ys L F IH]; [cbn; lia|]. rewrite sumZ_cons. lia.
Qed.
