(** Lemmas for C68: parameters and budgets of the combiner objects. *)
From Coq Require Import List ZArith QArith Bool PeanoNat Lia.
From Verif Require Import Base BackendModel ListLemmas ParamsModel BudgetModel EngineModel SelectModel CustomModel CustomSpec.
Import ListNotations.
Local Open Scope nat_scope.

Lemma skipn_twice {T} n m : forall l : list T, skipn n (skipn m l) = skipn (n + m) l.
Proof.
  induction m as [|m IH]; intros l; [rewrite Nat.add_0_r; reflexivity|]. rewrite Nat.add_succ_r. destruct l as [|x l]; [rewrite !skipn_nil; reflexivity|].
  cbn [skipn]. apply IH.
Qed.
Lemma map_nth_seq {T} (l : list T) d n : forall off, off + n <= length l ->
  map (fun i => nth i l d) (seq off n) = firstn n (skipn off l).
Proof.
  induction n as [|n IH]; intros off L; [reflexivity|]. cbn [seq map].
  destruct (skipn off l) as [|x r] eqn:E.
  { assert (X : length (skipn off l) = 0) by (rewrite E; reflexivity). rewrite skipn_length in X. lia. }
  cbn [firstn]. rewrite (IH (S off)) by lia.
  assert (X : nth off l d = x).
  { rewrite <- (firstn_skipn off l) at 1. rewrite app_nth2; rewrite firstn_length_le by lia; [|lia]. rewrite Nat.sub_diag, E. reflexivity. }
  assert (Y : skipn (S off) l = r).
  { change (S off) with (1 + off). rewrite <- skipn_twice, E. reflexivity. }
  rewrite X, Y. reflexivity.
Qed.
Lemma slices_length {T} sizes : forall l : list T, length (slices sizes l) = length sizes.
Proof. induction sizes as [|n s IH]; intro l; [reflexivity|]. cbn. rewrite IH. reflexivity. Qed.

Section Objects.
Context {U P V A O : Type} `{EqDec U} `{EqDec P} (cls : nat -> custom V A O).
Notation reqs p := (fun a => cu_requests (cls a) (without_custom p)).

Lemma fold_requests p objs : forall d, d_requests (fold_left (set_up cls p) objs d) = (d_requests d ++ flat_map (reqs p) objs)%list.
Proof.
  induction objs as [|a objs IH]; intro d; [symmetry; apply app_nil_r|]. cbn [fold_left flat_map]. rewrite IH. cbn [set_up d_requests].
  rewrite <- app_assoc. reflexivity.
Qed.
Lemma fold_untouched p objs a : ~ In a objs -> forall d, d_objects (fold_left (set_up cls p) objs d) a = d_objects d a.
Proof.
  induction objs as [|b objs IH]; intros N d; [reflexivity|]. cbn [fold_left]. rewrite IH by (intro; apply N; right; assumption).
  cbn [set_up d_objects]. unfold store. destruct (Nat.eqb_spec a b); [subst; exfalso; apply N; left; reflexivity | reflexivity].
Qed.

Lemma read_own p objs bs : forall d h, NoDup objs ->
  length (d_requests (fold_left (set_up cls p) objs d)) <= length bs ->
  (forall a, In a objs -> h a = d_objects (fold_left (set_up cls p) objs d) a) ->
  map_result (read_object cls h bs) objs =
  Ok (map (fun ab => make_ready (cls (fst ab)) (without_custom p) (snd ab))
          (combine objs (slices (map (fun a => length (cu_requests (cls a) (without_custom p))) objs) (skipn (length (d_requests d)) bs)))).
Proof.
  induction objs as [|a objs IH]; intros d h N L Hh; [reflexivity|]. inversion N as [|? ? Na Nr]; subst.
  cbn [fold_left] in L, Hh. cbn [map_result map slices combine fst snd].
  assert (Ea := Hh a (or_introl eq_refl)). rewrite (fold_untouched p objs a Na) in Ea. cbn [set_up d_objects] in Ea.
  unfold store in Ea. rewrite Nat.eqb_refl in Ea. unfold read_object at 1. rewrite Ea. cbn [f_params f_budgets rbind].
  rewrite (IH (set_up cls p d a) h Nr L) by (intros b Ib; apply Hh; right; exact Ib). cbn [rmap]. f_equal. f_equal.
  - f_equal. apply map_nth_seq. rewrite fold_requests in L. cbn [set_up d_requests] in L. rewrite !app_length in L. lia.
  - cbn [set_up d_requests]. rewrite app_length, skipn_twice. f_equal. f_equal. f_equal. f_equal. lia.
Qed.

Lemma build_requests d (q : query U P V) d1 n : build cls d q = (d1, n) ->
  d_requests d1 = (d_requests d ++ query_requests cls q)%list /\
  n = length (d_requests d) + length (flat_map (object_requests cls q) (q_objects q)) /\
  d_objects d1 = d_objects (fold_left (set_up cls (q_params q)) (q_objects q) d).
Proof.
  unfold build, create_compound_with_custom. intro E. injection E as <- <-. rewrite fold_requests, app_length.
  split; [|split; [reflexivity | destruct (selects_privately _ _); reflexivity]].
  unfold query_requests. destruct (selects_privately (q_params q) (q_public q)); cbn [d_requests];
    rewrite ?fold_requests, ?app_nil_r, <- ?app_assoc; reflexivity.
Qed.
Lemma build_all_requests (qs : list (query U P V)) : forall d d1 ns, build_all cls d qs = (d1, ns) ->
  d_requests d1 = (d_requests d ++ flat_map (query_requests cls) qs)%list /\ length ns = length qs.
Proof.
  induction qs as [|q qs IH]; intros d d1 ns E.
  - cbn in E. injection E as <- <-. split; [symmetry; apply app_nil_r | reflexivity].
  - cbn [build_all] in E. destruct (build cls d q) as [d2 n] eqn:B. destruct (build_all cls d2 qs) as [d3 ms] eqn:B2. injection E as <- <-.
    destruct (build_requests d q d2 n B) as [R _]. destruct (IH d2 d3 ms B2) as [R2 L]. split; [|cbn; lia].
    rewrite R2, R. cbn [flat_map]. rewrite app_assoc. reflexivity.
Qed.
Lemma build_all_untouched a (qs : list (query U P V)) : ~ In a (flat_map q_objects qs) -> forall d d1 ns, build_all cls d qs = (d1, ns) ->
  d_objects d1 a = d_objects d a.
Proof.
  induction qs as [|q qs IH]; intros N d d1 ns E.
  - cbn in E. injection E as <- <-. reflexivity.
  - cbn [build_all] in E. destruct (build cls d q) as [d2 n] eqn:B. destruct (build_all cls d2 qs) as [d3 ms] eqn:B2. injection E as <- <-.
    cbn [flat_map] in N. rewrite (IH (fun i => N (in_or_app _ _ _ (or_intror i))) d2 d3 ms B2).
    destruct (build_requests d q d2 n B) as [_ [_ ->]]. apply fold_untouched. intro I. apply N. apply in_or_app. left. exact I.
Qed.

Lemma all_own bs (qs : list (query U P V)) : forall d d1 ns, build_all cls d qs = (d1, ns) -> NoDup (flat_map q_objects qs) ->
  length (d_requests d1) <= length bs ->
  Forall2 (fun qn b => execute cls (d_objects d1) bs (fst qn) =
                         custom_result (custom_expects cls (q_objects (fst qn))) (own_combiners cls (fst qn) b) (fst qn) /\
                       (selects_privately (q_params (fst qn)) (q_public (fst qn)) = true -> nth (snd qn) bs (0, 0)%Q = own_selection cls (fst qn) b))
    (combine qs ns) (per_query cls qs (skipn (length (d_requests d)) bs)).
Proof.
  induction qs as [|q qs IH]; intros d d1 ns E N L.
  - cbn in E. injection E as <- <-. constructor.
  - cbn [build_all] in E. destruct (build cls d q) as [d2 n] eqn:B. destruct (build_all cls d2 qs) as [d3 ms] eqn:B2. injection E as <- <-.
    destruct (build_requests d q d2 n B) as [R [En Ob]]. destruct (build_all_requests qs d2 d3 ms B2) as [R2 _].
    cbn [flat_map] in N. destruct (proj1 (NoDup_app_iff _ _) N) as [Nq [Nr Nd]].
    assert (Lb : length (d_requests d) + length (query_requests cls q) + length (flat_map (query_requests cls) qs) <= length bs).
    { rewrite R2, R, !app_length in L. lia. }
    cbn [combine]. unfold per_query. cbn [map slices]. constructor.
    + cbn [fst snd]. split.
      * unfold execute. rewrite (read_own (q_params q) (q_objects q) bs d (d_objects d3) Nq).
        -- cbn [rbind]. f_equal. unfold own_combiners. f_equal. f_equal.
           unfold query_requests in *. rewrite !app_length in *. clear -Lb. set (l := skipn (length (d_requests d)) bs).
           assert (Ll : length (flat_map (object_requests cls q) (q_objects q)) <= length l).
           { unfold l. rewrite skipn_length. lia. }
           assert (G : forall objs (l : list (Q * Q)) extra, length (flat_map (object_requests cls q) objs) <= length l ->
              slices (map (fun a => length (cu_requests (cls a) (own_params (q_params q)))) objs) l =
              slices (map (fun a => length (object_requests cls q a)) objs) (firstn (length (flat_map (object_requests cls q) objs) + extra) l)).
           { clear. induction objs as [|a objs IH]; intros l extra Ll; [reflexivity|]. cbn [map slices flat_map] in *. rewrite app_length in *.
             change (cu_requests (cls a) (own_params (q_params q))) with (object_requests cls q a).
             rewrite firstn_firstn, Nat.min_l by lia. f_equal.
             rewrite (IH (skipn (length (object_requests cls q a)) l) extra) by (rewrite skipn_length; lia). f_equal.
             rewrite skipn_firstn_comm. f_equal. lia. }
           apply G. exact Ll.
        -- rewrite fold_requests. unfold query_requests in Lb. rewrite !app_length in *. unfold object_requests in Lb. change without_custom with own_params in *. lia.
        -- intros a Ia. rewrite (build_all_untouched a qs) with (d := d2) (ns := ms); [rewrite Ob; reflexivity | | exact B2].
           exact (Nd a Ia).
      * intro Sp. unfold own_selection. rewrite En. unfold query_requests in *. rewrite Sp in *. rewrite !app_length in *. cbn [length] in *.
        set (m := length (flat_map (object_requests cls q) (q_objects q))) in *.
        rewrite <- (firstn_skipn (length (d_requests d)) bs) at 1. rewrite app_nth2; rewrite firstn_length_le by lia; [|lia].
        replace (length (d_requests d) + m - length (d_requests d)) with m by lia.
        set (l := skipn (length (d_requests d)) bs). assert (Ll : m + 1 <= length l) by (unfold l; rewrite skipn_length; lia).
        rewrite <- (firstn_skipn (m + 1) l) at 1. rewrite app_nth1; [reflexivity|]. rewrite firstn_length_le by lia. lia.
    + specialize (IH d2 d3 ms B2 Nr L). unfold per_query in IH. rewrite R, app_length in IH. rewrite skipn_twice.
      rewrite Nat.add_comm in IH. exact IH.
Qed.
End Objects.
