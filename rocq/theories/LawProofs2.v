(** Lemmas for C73: the distribution of a metric. *)
From Coq Require Import List ZArith QArith Qreals Reals Bool Permutation Lia Lqa Lra.
From Verif Require Import Base BaseLemmas BackendModel ListLemmas BackendSpec BackendProofs BounderSpec ParamsModel SensModel CombinerModel CombinerSpec
  CombinerProofs3 EngineModel EngineSpec
  EngineProofs EngineProofs2 EngineProofs3 EngineProofs4 EngineProofs5 EngineProps EngineProps2 BudgetModel VectorModel LaplaceModel LaplaceSpec LaplaceProofs
  SelectModel SelectSpec SelectProofs3 EnforcedSpec EnforcedProofs EnforcedProofs2 EnforcedProps QuantileModel QuantileProps DistSpec DistProofs DpModel DpSpec
  DpProofs DpProofs2 DpProofs3 LawSpec LawProofs.
Import ListNotations.
Local Open Scope R_scope.
Local Close Scope Q_scope.

Section Random.
Context {A B : Type} `{EqDec A}.
Lemma random_one (f : A -> dist B) b q xs F : In q xs -> (forall x, In x xs -> is_dist (f x)) ->
  mixture (random_function f b xs) (fun g => F (g q)) = mixture (f q) F.
Proof.
  intros I D. assert (R := random_values f b [q] xs (fun ys => F (nth 0 ys b))). cbn [map nth] in R. rewrite R.
  - rewrite mixture_independent_cons. apply mixture_ext. intro y. cbn [independent]. rewrite mixture_ret. reflexivity.
  - repeat constructor. intros [].
  - intros x [<-|[]]. exact I.
  - exact D.
Qed.
Lemma random_three (f : A -> dist B) b q1 q2 q3 xs F : NoDup [q1; q2; q3] -> In q1 xs -> In q2 xs -> In q3 xs -> (forall x, In x xs -> is_dist (f x)) ->
  mixture (random_function f b xs) (fun g => F (g q1) (g q2) (g q3)) =
  mixture (f q1) (fun x => mixture (f q2) (fun y => mixture (f q3) (fun z => F x y z))).
Proof.
  intros N I1 I2 I3 D. assert (R := random_values f b [q1; q2; q3] xs (fun ys => F (nth 0 ys b) (nth 1 ys b) (nth 2 ys b))). cbn [map nth] in R. rewrite R.
  - rewrite mixture_independent_cons. apply mixture_ext. intro x. rewrite mixture_independent_cons. apply mixture_ext. intro y.
    rewrite mixture_independent_cons. apply mixture_ext. intro z. cbn [independent]. rewrite mixture_ret. reflexivity.
  - exact N.
  - intros x [<-|[<-|[<-|[]]]]; assumption.
  - exact D.
Qed.
End Random.

Section Law.
Context {U P : Type} `{EqDec U} `{EqDec P} (py : pydp).

(** Whether partition [k] is in the result, with the noised count of thresholding. *)
Definition presence (c : call U P) (b : budgets) (col : list (P * cacc)) (k : P) : dist (option Q) :=
  if selects_privately (c_params c) (c_public c)
  then dbind (should_keep py c b (estimate (c_params c) k col)) (fun y => dret (as_option y))
  else if post_aggregation_thresholding (c_params c) then threshold py c b (thresh_index (c_combiners c)) (thresh_count c col k)
  else dret (Some 0%Q).

Lemma presence_values (c : call U P) b col N X T k G : call_facts c col -> fair py c b -> large_enough N X T c -> In k (c_keys c) ->
  mixture (random_function (fun kn : P * Z => should_keep py c b (snd kn)) false
           (if selects_privately (c_params c) (c_public c) then list_prod (c_keys c) (counts N) else [])) (fun keep =>
  mixture (random_function (thresh_law py c b) None
           (list_prod (list_prod (seq 0 (length (c_combiners c))) (c_keys c)) (counts N))) (fun noised =>
  G (if mem k (map fst col) then chosen c col keep noised k else None))) =
  mixture (presence c b col k) G.
Proof.
  intros Fc Fb Le Ik. assert (E := f_raw _ _ Fc).
  unfold presence, chosen. destruct (selects_privately (c_params c) (c_public c)) eqn:Sp.
  - rewrite mixture_bind.
    transitivity (mixture (random_function (fun kn : P * Z => should_keep py c b (snd kn)) false (list_prod (c_keys c) (counts N)))
      (fun keep => (fun y => G (if mem k (map fst col) then as_option y else None)) (keep (k, estimate (c_params c) k col)))).
    { apply mixture_ext. intro keep. rewrite mixture_const.
      - unfold as_option. reflexivity.
      - apply is_dist_random_function. intros s _. apply thresh_law_dist. exact Fb. }
    rewrite (random_one (fun kn : P * Z => should_keep py c b (snd kn)) false (k, estimate (c_params c) k col) _
               (fun y => G (if mem k (map fst col) then as_option y else None))).
    2: { apply in_prod; [exact Ik|]. apply counts_in. destruct (Le col E k Ik) as [B _]. destruct (estimate_facts c col k Fc Sp) as [B0 _]. lia. }
    2: { intros q _. apply should_keep_dist; assumption. }
    cbn [snd]. apply mixture_ext_in. intros w y Iy. rewrite mixture_ret.
    destruct (mem k (map fst col)) eqn:M; [right; reflexivity|]. apply mem_false_iff in M.
    destruct (estimate_facts c col k Fc Sp) as [_ R0]. rewrite (R0 M) in Iy.
    destruct (fair_keep _ _ _ Fb Sp) as [_ Z0]. unfold should_keep in Iy. rewrite (Z0 0%Z) in Iy by lia.
    destruct Iy as [Iy|[Iy|[]]]; inversion Iy; subst; [left; reflexivity | right; reflexivity].
  - cbn [random_function]. rewrite mixture_ret. destruct (post_aggregation_thresholding (c_params c)) eqn:Tp.
    + destruct (f_thresh _ _ Fc Tp) as [j [Ej Un]]. assert (Ji := thresh_index_spec _ j Ej Un).
      destruct (thresh_raw _ _ _ _ _ _ j k E Ej) as [z [A1 [A3 A4]]].
      assert (A2 : thresh_count c col k = z) by (unfold thresh_count; rewrite Ji, A3; reflexivity).
      rewrite (random_one (thresh_law py c b) None (thresh_index (c_combiners c), k, thresh_count c col k) _
                 (fun o => G (if mem k (map fst col) then o else None))).
      2: { apply in_prod; [apply in_prod|].
           - apply in_seq. rewrite Ji. assert (Nn : nth_error (c_combiners c) j <> None) by congruence. apply nth_error_Some in Nn. lia.
           - exact Ik.
           - apply counts_in. destruct (Le col E k Ik) as [_ B]. destruct (B j) as [B1 _].
             rewrite A3 in B1. rewrite A2. split; [exact A1|]. rewrite Zle_Qle. exact B1. }
      2: { intros q _. apply thresh_law_dist. exact Fb. }
      cbn [thresh_law]. apply mixture_ext_in. intros w y Iy. destruct (mem k (map fst col)) eqn:M; [right; reflexivity|].
      apply mem_false_iff in M. rewrite A2, (A4 M) in Iy.
      destruct (fair_thresh _ _ _ Fb Tp 0%Z w y) as [D2|D2]; [lia | exact Iy | left; exact D2 | right; rewrite D2; reflexivity].
    + rewrite mixture_const by (apply is_dist_random_function; intros s _; apply thresh_law_dist; exact Fb).
      rewrite mixture_ret. assert (M : mem k (map fst col) = true) by (apply mem_true_iff; apply (f_public _ _ Fc Sp Tp); exact Ik).
      rewrite M. reflexivity.
Qed.

Lemma metric_law (c : call U P) b col N X T k i cb n F : call_facts c col -> fair py c b -> large_enough N X T c -> In k (c_keys c) ->
  nth_error (c_combiners c) i = Some cb -> countable cb -> In n (names_of cb) ->
  mixture (run_call py N X T c b) (fun o => F (metric (c_keys c) k n o)) =
  mixture (presence c b col k) (fun t =>
    match t with
    | Some th =>
        mixture (add_noise py c b i QCount (raw_value count_of i k col)) (fun x =>
        mixture (add_noise py c b i QSum (raw_value sum_of i k col)) (fun y =>
        mixture (add_noise py c b i QSquares (raw_value squares_of i k col)) (fun z =>
        F (of_noised cb n th x y z))))
    | None => F None
    end).
Proof.
  intros Fc Fb Le Ik Ei Cc In_n. assert (E := f_raw _ _ Fc). unfold run_call.
  set (qc := (i, QCount, k, raw_value count_of i k col)). set (qs := (i, QSum, k, raw_value sum_of i k col)).
  set (qq := (i, QSquares, k, raw_value squares_of i k col)).
  set (L := list_prod (list_prod (list_prod (seq 0 (length (c_combiners c))) [QCount; QSum; QSquares]) (c_keys c)) X).
  set (RN := random_function (thresh_law py c b) None (list_prod (list_prod (seq 0 (length (c_combiners c))) (c_keys c)) (counts N))).
  set (G := fun t => match t with
    | Some th => mixture (noise_law py c b qc) (fun x => mixture (noise_law py c b qs) (fun y => mixture (noise_law py c b qq) (fun z => F (of_noised cb n th x y z))))
    | None => F None end).
  transitivity (mixture (random_function (fun kn : P * Z => should_keep py c b (snd kn)) false
           (if selects_privately (c_params c) (c_public c) then list_prod (c_keys c) (counts N) else [])) (fun keep =>
           mixture RN (fun noised => G (if mem k (map fst col) then chosen c col keep noised k else None)))).
  2: { apply presence_values with (N := N) (X := X) (T := T); assumption. }
  rewrite mixture_bind. apply mixture_ext. intro keep. rewrite mixture_bind.
  transitivity (mixture (random_function (noise_law py c b) 0%Q L) (fun noise => mixture RN (fun noised =>
     match (if mem k (map fst col) then chosen c col keep noised k else None) with
     | Some th => F (of_noised cb n th (noise qc) (noise qs) (noise qq)) | None => F None end))).
  - apply mixture_ext. intro noise. rewrite mixture_bind. apply mixture_ext. intro noised. rewrite mixture_bind.
    rewrite (mixture_ext _ _ (fun _ => match (if mem k (map fst col) then chosen c col keep noised k else None) with
     | Some th => F (of_noised cb n th (noise qc) (noise qs) (noise qq)) | None => F None end)).
    + apply mixture_const. apply is_dist_random_function. intros s _. apply (tree_law_dist py c b s Fb).
    + intro answers. rewrite mixture_ret.
      rewrite (metric_value c col keep noise noised answers k i cb n Fc Ik Ei Cc In_n).
      destruct (if mem k (map fst col) then chosen c col keep noised k else None); reflexivity.
  - rewrite mixture_swap. apply mixture_ext. intro noised. unfold G.
    destruct (if mem k (map fst col) then chosen c col keep noised k else None) as [th|].
    + rewrite (random_three (noise_law py c b) 0%Q qc qs qq L (fun x y z => F (of_noised cb n th x y z))); [reflexivity| | | | |].
      * unfold qc, qs, qq. repeat constructor; cbn; intuition congruence.
      * apply in_prod; [apply in_prod; [apply in_prod|]|]; [apply in_seq; assert (Nn : nth_error (c_combiners c) i <> None) by congruence; apply nth_error_Some in Nn; lia
          | cbn; tauto | exact Ik | destruct (Le col E k Ik) as [_ B]; apply (proj1 (proj2 (B i)) QCount)].
      * apply in_prod; [apply in_prod; [apply in_prod|]|]; [apply in_seq; assert (Nn : nth_error (c_combiners c) i <> None) by congruence; apply nth_error_Some in Nn; lia
          | cbn; tauto | exact Ik | destruct (Le col E k Ik) as [_ B]; apply (proj1 (proj2 (B i)) QSum)].
      * apply in_prod; [apply in_prod; [apply in_prod|]|]; [apply in_seq; assert (Nn : nth_error (c_combiners c) i <> None) by congruence; apply nth_error_Some in Nn; lia
          | cbn; tauto | exact Ik | destruct (Le col E k Ik) as [_ B]; apply (proj1 (proj2 (B i)) QSquares)].
      * intros s _. apply noise_law_dist. exact Fb.
    + apply mixture_const. apply is_dist_random_function. intros s _. apply noise_law_dist. exact Fb.
Qed.
End Law.
