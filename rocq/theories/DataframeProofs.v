(** Lemmas about DataFrame queries. *)
From Coq Require Import List ZArith QArith String Bool Lia Permutation.
From Verif Require Import Base ListLemmas ParamsModel DataframeModel.
Import ListNotations.
Local Open Scope string_scope.

Lemma dict_set_absent {A} (d : list (string * A)) k v : ~ In k (map fst d) -> dict_set d k v = (d ++ [(k, v)])%list.
Proof.
  induction d as [|[k' v'] d IH]; cbn; intro N; [reflexivity|].
  destruct (String.eqb_spec k' k); [tauto|]. rewrite IH by tauto. reflexivity.
Qed.

Lemma dict_of_app {A} (items : list (string * A)) : forall d, NoDup (map fst (d ++ items)) ->
  fold_left (fun d kv => dict_set d (fst kv) (snd kv)) items d = (d ++ items)%list.
Proof.
  induction items as [|[k v] items IH]; intros d N; cbn [fold_left fst snd]; [rewrite app_nil_r; reflexivity|].
  rewrite dict_set_absent.
  - rewrite IH; [rewrite <- app_assoc; reflexivity|]. rewrite <- app_assoc. exact N.
  - rewrite map_app in N. cbn in N. apply NoDup_remove_2 in N. rewrite in_app_iff in N. tauto.
Qed.

Lemma dict_of_nodup {A} (items : list (string * A)) : NoDup (map fst items) -> dict_of items = items.
Proof. intro N. unfold dict_of. apply (dict_of_app items []). exact N. Qed.

Lemma dict_get_in {A} (d : list (string * A)) k v : NoDup (map fst d) -> In (k, v) d -> dict_get d k = Some v.
Proof.
  induction d as [|[k' v'] d IH]; cbn; intros N I; [destruct I|]. inversion N as [|? ? X N']; subst.
  destruct I as [E|I].
  - injection E as -> ->. rewrite String.eqb_refl. reflexivity.
  - destruct (String.eqb_spec k' k) as [->|]; [|exact (IH N' I)].
    exfalso. apply X. apply in_map_iff. exists (k, v). auto.
Qed.

Lemma fields_of_spec {A} (d : list (string * A)) fields l : Forall2 (fun f a => dict_get d f = Some a) fields l -> fields_of d fields = Ok l.
Proof. induction 1 as [|f a fs l E F IH]; cbn; [reflexivity|]. rewrite E, IH. reflexivity. Qed.

Lemma mapM_ok {A B} (f : A -> result B) g l : (forall a, In a l -> f a = Ok (g a)) -> mapM f l = Ok (map g l).
Proof.
  induction l as [|a l IH]; cbn; intro H; [reflexivity|].
  rewrite (H a (or_introl eq_refl)). cbn [rbind]. rewrite IH by auto. reflexivity.
Qed.

Lemma mapM_Forall2 {A B} (f : A -> result B) l out : mapM f l = Ok out <-> Forall2 (fun a b => f a = Ok b) l out.
Proof.
  split.
  - revert out. induction l as [|a l IH]; cbn; intros out E; [injection E as <-; constructor|].
    destruct (f a) as [b|] eqn:Ea; [|discriminate]. cbn in E. destruct (mapM f l) as [bs|]; [|discriminate]. cbn in E.
    injection E as <-. constructor; auto.
  - induction 1 as [|a b l out E F IH]; cbn; [reflexivity|]. rewrite E. cbn. rewrite IH. reflexivity.
Qed.

Lemma mem_string_iff c cs : mem_string c cs = true <-> In c cs.
Proof.
  unfold mem_string. rewrite existsb_exists. split.
  - intros (x & I & E). apply String.eqb_eq in E. subst. exact I.
  - intro I. exists c. split; [exact I | apply String.eqb_refl].
Qed.

Lemma distinctb_iff {A} `{EqDec A} (l : list A) : distinctb l = true <-> NoDup l.
Proof.
  induction l as [|a l IH]; cbn; [split; [constructor | reflexivity]|].
  rewrite andb_true_iff, IH, negb_true_iff. split.
  - intros (E & N). constructor; [|exact N]. intro I.
    assert (X : existsb (eqb a) l = true) by (apply existsb_exists; exists a; split; [exact I | apply ListLemmas.eqb_refl]). congruence.
  - intro N. inversion N as [|? ? X N']; subst. split; [|exact N'].
    destruct (existsb (eqb a) l) eqn:E; [|reflexivity]. apply existsb_exists in E. destruct E as (x & I & E).
    apply ListLemmas.eqb_eq in E. subst. contradiction.
Qed.

Lemma agg_name_inj a b : agg_name a = agg_name b -> a = b.
Proof. destruct a, b; cbn; intro E; congruence. Qed.

Lemma NoDup_map_inj {A B} (f : A -> B) l : (forall x y, f x = f y -> x = y) -> NoDup l -> NoDup (map f l).
Proof.
  intros Inj N. induction N as [|a l X N IH]; cbn; [constructor|]. constructor; [|exact IH].
  intro I. apply in_map_iff in I. destruct I as (y & E & I). apply Inj in E. subst. contradiction.
Qed.

(** ** Rows in *)
Lemma cells_at_spec {C} columns (row : list C) names out : cells_at columns row names = Ok out ->
  Forall2 (fun n x => cell_at columns row n = Some x) names out.
Proof.
  revert out. induction names as [|n names IH]; cbn; intros out E; [injection E as <-; constructor|].
  destruct (cell_at columns row n) as [x|] eqn:En; [|discriminate].
  destruct (cells_at columns row names) as [l|]; [|discriminate]. cbn in E. injection E as <-. constructor; auto.
Qed.

Lemma cells_at_ok {C} columns (row : list C) names : List.length row = List.length columns -> incl names columns ->
  exists out, cells_at columns row names = Ok out.
Proof.
  intros L. induction names as [|n names IH]; intro I; [eexists; reflexivity|]. cbn.
  assert (X : exists x, cell_at columns row n = Some x).
  { assert (In n columns) by (apply I; left; reflexivity). clear -L H. revert row L. induction columns as [|c cs IH]; intros [|x row] L; cbn in *; try discriminate; [destruct H|].
    destruct (String.eqb_spec c n); [eexists; reflexivity|]. apply IH; [destruct H; [contradiction | assumption] | lia]. }
  destruct X as (x & ->). destruct IH as (out & ->); [intros y Iy; apply I; right; exact Iy|]. eexists; reflexivity.
Qed.

(** ** Rows out *)
Definition names_of_query {K} (q : query K) : list (string * string) :=
  map (fun m => (agg_name (fst m), output_column m)) (q_metrics q).

Lemma names_nodup {K} (q : query K) : NoDup (map fst (q_metrics q)) ->
  NoDup (map fst (names_of_query q)) /\ dict_of (names_of_query q) = names_of_query q.
Proof.
  intro N. assert (X : NoDup (map fst (names_of_query q))).
  { unfold names_of_query. rewrite map_map. cbn [fst]. rewrite <- (map_map fst agg_name). apply NoDup_map_inj; [exact agg_name_inj | exact N]. }
  split; [exact X|]. apply dict_of_nodup. exact X.
Qed.

Definition out_of (names : list (string * string)) (n : string) : string := match dict_get names n with Some o => o | None => "" end.

Lemma metric_items_ok {C V} names (ms : list (string * V)) : (forall n, In n (map fst ms) -> exists o, dict_get names n = Some o) ->
  metric_items (C := C) names ms = Ok (map (fun kv => (out_of names (fst kv), Val (snd kv))) ms).
Proof.
  intro H. unfold metric_items. apply mapM_ok. intros kv I. destruct (H (fst kv)) as (o & E); [apply in_map; exact I|].
  unfold out_of. rewrite E. reflexivity.
Qed.

Lemma in_names_of {K} (q : query K) m : In m (q_metrics q) -> In (agg_name (fst m), output_column m) (names_of_query q).
Proof. intro I. unfold names_of_query. apply in_map_iff. exists m. auto. Qed.

Lemma Forall2_in_l {A B} (R : A -> B -> Prop) l : (forall a, In a l -> exists b, R a b) -> exists l', Forall2 R l l'.
Proof.
  induction l as [|a l IH]; intro H; [exists []; constructor|].
  destruct (H a (or_introl eq_refl)) as (b & Hb). destruct IH as (l' & F); [intros; apply H; right; assumption|].
  exists (b :: l'). constructor; assumption.
Qed.

Lemma map_fst_combine {A B} (l : list A) (l' : list B) : List.length l = List.length l' -> map fst (combine l l') = l.
Proof. revert l'. induction l as [|a l IH]; intros [|b l'] L; cbn in *; try discriminate; [reflexivity|]. f_equal. apply IH. lia. Qed.

Lemma Forall2_map_l {A B C} (R : B -> C -> Prop) (f : A -> B) l l' : Forall2 (fun a c => R (f a) c) l l' -> Forall2 R (map f l) l'.
Proof. induction 1; cbn; constructor; assumption. Qed.
Lemma Forall2_imp {A B} (R R' : A -> B -> Prop) l l' : (forall a b, R a b -> R' a b) -> Forall2 R l l' -> Forall2 R' l l'.
Proof. intro H. induction 1; constructor; auto. Qed.

Definition key_cells {C} (b : by_arg) (k : pkey C) (cells : list (pkey C)) : Prop :=
  match b with
  | ByStr _ => cells = [k]
  | _ => exists l, k = Many l /\ List.length l = List.length (by_columns b) /\ cells = map One l
  end.

Lemma convert_spec {C V K} chars (q : query K) (k : pkey C) (ms : list (string * V)) cells :
  NoDup (map fst (q_metrics q)) ->
  NoDup (by_columns (q_by q) ++ map output_column (q_metrics q))%list ->
  key_cells (q_by q) k cells ->
  Permutation (map fst ms) (map (fun m => agg_name (fst m)) (q_metrics q)) ->
  exists vals, convert chars q (k, ms) = Ok (map Key cells ++ map Val vals)%list /\
    Forall2 (fun m v => In (agg_name (fst m), v) ms) (q_metrics q) vals.
Proof.
  intros ND NF KC P. destruct (names_nodup q ND) as (NN & EN).
  unfold convert. fold (names_of_query q). rewrite EN. cbn [fst snd].
  assert (KI : key_items (V := V) chars (q_by q) k = Ok (combine (by_columns (q_by q)) (map Key cells)) /\ List.length cells = List.length (by_columns (q_by q))).
  { unfold key_cells in KC. destruct (q_by q) as [c|cs|]; cbn [key_items by_columns].
    - subst cells. split; reflexivity.
    - destruct KC as (l & -> & L & ->). cbn [rmap by_columns]. split; [rewrite map_map; reflexivity | rewrite map_length; exact L].
    - destruct KC as (l & -> & L & ->). cbn [rmap by_columns]. split; [rewrite map_map; reflexivity | rewrite map_length; exact L]. }
  destruct KI as (-> & LC). cbn [rbind].
  assert (Find : forall n, In n (map fst ms) -> exists m, In m (q_metrics q) /\ n = agg_name (fst m) /\ dict_get (names_of_query q) n = Some (output_column m)).
  { intros n I. apply (Permutation_in _ P) in I. apply in_map_iff in I. destruct I as (m & <- & I). exists m.
    split; [exact I|]. split; [reflexivity|]. apply dict_get_in; [exact NN | apply in_names_of; exact I]. }
  rewrite metric_items_ok by (intros n I; destruct (Find n I) as (m & _ & _ & E); eauto). cbn [rbind].
  set (vs := map (fun kv : string * V => (out_of (names_of_query q) (fst kv), Val (snd kv))) ms).
  set (d := (combine (by_columns (q_by q)) (map Key cells) ++ vs)%list).
  assert (KV : Permutation (map fst vs) (map output_column (q_metrics q))).
  { unfold vs. rewrite map_map. cbn [fst]. rewrite <- (map_map fst (out_of (names_of_query q))).
    rewrite (Permutation_map (out_of (names_of_query q)) P). rewrite map_map.
    erewrite map_ext_in; [apply Permutation_refl|]. intros m I. cbn. unfold out_of.
    rewrite (dict_get_in _ _ _ NN (in_names_of q m I)). reflexivity. }
  assert (KD : Permutation (map fst d) (by_columns (q_by q) ++ map output_column (q_metrics q))).
  { unfold d. rewrite map_app. rewrite map_fst_combine by (rewrite map_length; symmetry; exact LC). apply Permutation_app_head. exact KV. }
  assert (NDd : NoDup (map fst d)) by (eapply Permutation_NoDup; [apply Permutation_sym; exact KD | exact NF]).
  rewrite dict_of_nodup by exact NDd.
  assert (SN : map snd (names_of_query q) = map output_column (q_metrics q)) by (unfold names_of_query; rewrite map_map; reflexivity).
  rewrite SN.
  destruct (Forall2_in_l (fun (m : agg * option string) v => In (agg_name (fst m), v) ms) (q_metrics q)) as (vals & F2).
  { intros m I. assert (J : In (agg_name (fst m)) (map fst ms)).
    { apply (Permutation_in _ (Permutation_sym P)). apply in_map_iff. exists m. auto. }
    apply in_map_iff in J. destruct J as ([n v] & E & J). cbn in E. subst n. exists v. exact J. }
  exists vals. split; [|exact F2].
  unfold make_tuple.
  assert (All : forallb (fun kv : string * out_cell C V => mem_string (fst kv) (by_columns (q_by q) ++ map output_column (q_metrics q))) d = true).
  { apply forallb_forall. intros kv I. apply mem_string_iff. apply (Permutation_in _ KD). apply in_map. exact I. }
  rewrite All. apply fields_of_spec. apply Forall2_app.
  - assert (G : forall (bs : list string) (cl : list (pkey C)), List.length cl = List.length bs ->
        Forall2 (fun b (c : out_cell C V) => In (b, c) (combine bs (map Key cl))) bs (map Key cl)).
    { induction bs as [|b bs IH]; intros [|c cl] L; cbn in *; try discriminate; constructor; [left; reflexivity|].
      eapply Forall2_imp; [|apply IH; lia]. cbn. auto. }
    eapply Forall2_imp; [|apply G; exact LC]. cbn. intros b c I. apply dict_get_in; [exact NDd|]. unfold d. apply in_app_iff. left. exact I.
  - apply Forall2_map_l.
    assert (G : forall l, incl l (q_metrics q) -> forall vals : list V, Forall2 (fun (m : agg * option string) v => In (agg_name (fst m), v) ms) l vals ->
       Forall2 (fun m (a : out_cell C V) => dict_get d (output_column m) = Some a) l (map Val vals)).
    { intros l. induction l as [|m l IH]; intros Inc vals' F; inversion F as [|? v ? vals0 Hm F']; subst; cbn; constructor.
      - apply dict_get_in; [exact NDd|]. unfold d. apply in_app_iff. right. unfold vs. apply in_map_iff.
        exists (agg_name (fst m), v). cbn [fst snd]. split; [|exact Hm].
        unfold out_of. rewrite (dict_get_in _ _ _ NN (in_names_of q m (Inc m (or_introl eq_refl)))). reflexivity.
      - apply IH; [intros x Ix; apply Inc; right; exact Ix | exact F']. }
    apply G; [intros x I; exact I | exact F2].
Qed.

(** ** Builder *)
Lemma build_query_spec {K} (b : builder K) q : build_query b = Ok q ->
  NoDup (map fst (q_metrics q)) /\ b_by b = Some (q_by q) /\
  q_metrics q = map (fun s => (a_metric s, a_output s)) (b_specs b) /\
  q_privacy q = b_privacy b /\ q_public q = b_public b /\ q_max_groups q = b_max_groups b /\
  q_max_contributions q = b_max_contributions b /\
  (forall s c, In s (b_specs b) -> a_input s = Some c -> q_value q = Some c) /\
  (forall s lo, In s (b_specs b) -> a_min s = Some lo -> (exists m, In m (map a_metric (b_specs b)) /\ m <> ACount) -> exists lo', q_min q = Some lo' /\ lo' == lo)%Q /\
  (forall s hi, In s (b_specs b) -> a_max s = Some hi -> (exists m, In m (map a_metric (b_specs b)) /\ m <> ACount) -> exists hi', q_max q = Some hi' /\ hi' == hi)%Q.
Proof.
  unfold build_query. destruct (b_by b) as [by_|]; [|discriminate].
  destruct (b_specs b) as [|s0 ss] eqn:Eb; [discriminate|]. rewrite <- Eb. clear Eb.
  destruct (distinctb (map a_metric (b_specs b))) eqn:D; [|discriminate].
  destruct (get_input_column (b_specs b)) as [input|] eqn:EI; [|discriminate]. cbn [rbind].
  destruct (get_value_caps (b_specs b)) as [[lo hi]|] eqn:EC; [|discriminate]. cbn [rbind]. intro E. injection E as <-.
  cbn [q_metrics q_by q_privacy q_public q_max_groups q_max_contributions q_value q_min q_max fst snd].
  apply distinctb_iff in D. rewrite map_map. cbn [fst]. split; [exact D|].
  assert (SI : forall A (l : list (option A)) a, In (Some a) l -> In a (somes l)).
  { intros A l a I. unfold somes. apply in_flat_map. exists (Some a). split; [exact I | left; reflexivity]. }
  assert (AE : forall x l y, all_equal (x :: l) = true -> In y (x :: l) -> (x == y)%Q).
  { intros x l y Ex [<-|I]; [reflexivity|]. cbn in Ex. rewrite forallb_forall in Ex. apply Qeq_bool_iff. apply Ex. exact I. }
  repeat (split; [reflexivity|]). split; [|split].
  - intros s c I Es. unfold get_input_column in EI.
    assert (J : In c (somes (map a_input (b_specs b)))) by (apply SI; rewrite <- Es; apply in_map; exact I).
    destruct (somes (map a_input (b_specs b))) as [|c0 cs]; [destruct J|]. destruct (forallb (String.eqb c0) cs) eqn:F; [|discriminate].
    injection EI as <-. destruct J as [<-|J]; [reflexivity|]. rewrite forallb_forall in F. apply F in J. apply String.eqb_eq in J. congruence.
  - intros s l I Es (m & Im & Nm). unfold get_value_caps in EC.
    destruct (forallb (fun s1 => eqb (a_metric s1) ACount) (b_specs b)) eqn:F.
    { apply in_map_iff in Im. destruct Im as (s1 & <- & I1). rewrite forallb_forall in F. apply F in I1. apply ListLemmas.eqb_eq in I1. contradiction. }
    assert (J : In l (somes (map a_min (b_specs b)))) by (apply SI; rewrite <- Es; apply in_map; exact I).
    destruct (somes (map a_min (b_specs b))) as [|lo0 los]; [discriminate|]. destruct (somes (map a_max (b_specs b))) as [|hi0 his]; [discriminate|].
    destruct (all_equal (lo0 :: los)) eqn:A1; [|discriminate]. destruct (all_equal (hi0 :: his)) eqn:A2; [|discriminate].
    cbn in EC. injection EC as <- <-. exists lo0. split; [reflexivity|]. eapply AE; eassumption.
  - intros s l I Es (m & Im & Nm). unfold get_value_caps in EC.
    destruct (forallb (fun s1 => eqb (a_metric s1) ACount) (b_specs b)) eqn:F.
    { apply in_map_iff in Im. destruct Im as (s1 & <- & I1). rewrite forallb_forall in F. apply F in I1. apply ListLemmas.eqb_eq in I1. contradiction. }
    assert (J : In l (somes (map a_max (b_specs b)))) by (apply SI; rewrite <- Es; apply in_map; exact I).
    destruct (somes (map a_min (b_specs b))) as [|lo0 los]; [discriminate|]. destruct (somes (map a_max (b_specs b))) as [|hi0 his]; [discriminate|].
    destruct (all_equal (lo0 :: los)) eqn:A1; [|discriminate]. destruct (all_equal (hi0 :: his)) eqn:A2; [|discriminate].
    cbn in EC. injection EC as <- <-. exists hi0. split; [reflexivity|]. eapply AE; eassumption.
Qed.

Lemma Forall2_length {A B} (R : A -> B -> Prop) l l' : Forall2 R l l' -> List.length l = List.length l'.
Proof. induction 1; cbn; congruence. Qed.
