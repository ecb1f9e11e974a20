(** Lemmas for C73: the value of a metric as a function of PyDP's answers. *)
From Coq Require Import List ZArith QArith Qminmax Bool Permutation Lia Lqa.
From Verif Require Import Base BaseLemmas BackendModel ListLemmas BackendSpec BackendProofs BounderSpec ParamsModel SensModel CombinerModel CombinerSpec
  CombinerProofs3 EngineModel EngineSpec
  EngineProofs EngineProofs2 EngineProofs3 EngineProofs4 EngineProofs5 EngineProps EngineProps2 VectorModel LaplaceModel LaplaceSpec LaplaceProofs
  SelectSpec SelectProofs3 EnforcedSpec EnforcedProofs EnforcedProofs2 EnforcedProps QuantileModel QuantileProps VectorSpec DistSpec DpSpec DpProofs DpProofs2 LawSpec.
Import ListNotations.
Local Close Scope Q_scope.

Definition countable (c : combiner) : Prop := match c with CQuantile _ | CVector _ => False | _ => True end.

Lemma metric_of_combiner T th A c a n d : countable c -> kind_ok c a -> well_named c -> In n (names_of c) ->
  compute_metrics (constant_noises T (Some th) A) c a = Ok d ->
  exists q, find (fun e => eqb (fst e) n) d = Some (n, RNum q) /\ of_noised c n th (T QCount) (T QSum) (T QSquares) = Some q.
Proof.
  intros Cc K W In_n E. destruct c as [| | |b lo hi|lo hi names|lo hi names|ps|m]; try (exfalso; exact Cc); destruct a; try (cbn in K; contradiction).
  - destruct In_n as [<-|[]]. inversion E; subst d. cbn. eexists. split; reflexivity.
  - destruct In_n as [<-|[]]. inversion E; subst d. cbn. eexists. split; reflexivity.
  - destruct In_n as [<-|[]]. inversion E; subst d. cbn. eexists. split; reflexivity.
  - destruct In_n as [<-|[]]. inversion E; subst d. cbn. eexists. split; reflexivity.
  - destruct W as [b1 [b2 ->]]. cbn [names_of] in In_n. cbn [compute_metrics] in E. unfold compute_mean in E. inversion E; subst d. clear E.
    destruct b1, b2; cbn in In_n; repeat (destruct In_n as [<-|In_n]); try contradiction; eexists; (split; [reflexivity|]); reflexivity.
  - destruct W as [b0 [b1 [b2 ->]]]. cbn [names_of] in In_n. cbn [compute_metrics] in E. unfold compute_dp_var in E. cbv zeta in E. inversion E; subst d. clear E.
    unfold mean_for_normalized_sum.
    destruct b0, b1, b2; cbn in In_n; repeat (destruct In_n as [<-|In_n]); try contradiction; eexists; (split; [reflexivity|]);
      cbn [of_noised constant_noises n_count n_sum n_squares]; unfold of_noised;
      destruct (squares_interval lo hi); cbn [fst snd]; destruct (Qeq_bool lo hi); reflexivity.
Qed.

(** ** The dictionary of a partition *)
Lemma metrics_prefix nzs cs : forall i accs sofar m, combine_metrics nzs i cs accs sofar = Ok m -> exists rest, m = sofar ++ rest.
Proof.
  induction cs as [|c cs IH]; intros i accs sofar m E.
  - cbn in E. inversion E; subst. exists []. rewrite app_nil_r. reflexivity.
  - destruct accs as [|a accs]; cbn [combine_metrics] in E; [inversion E; subst; exists []; rewrite app_nil_r; reflexivity|].
    destruct (compute_metrics (nzs i) c a) as [d|]; cbn [rbind] in E; [|discriminate].
    destruct (existsb _ d); [discriminate|]. apply IH in E. destruct E as [rest ->]. exists (d ++ rest). rewrite app_assoc. reflexivity.
Qed.

Lemma find_app_l {A} (f : A -> bool) l l' x : find f l = Some x -> find f (l ++ l') = Some x.
Proof. induction l as [|a l IH]; cbn; [discriminate|]. destruct (f a); auto. Qed.
Lemma find_app_r {A} (f : A -> bool) l l' : (forall a, In a l -> f a = false) -> find f (l ++ l') = find f l'.
Proof. induction l as [|a l IH]; intro N; [reflexivity|]. cbn. rewrite (N a (or_introl eq_refl)). apply IH. intros; apply N; right; assumption. Qed.

Lemma metrics_lookup nzs n e cs : forall i accs sofar m j c a d,
  combine_metrics nzs i cs accs sofar = Ok m -> nth_error cs j = Some c -> nth_error accs j = Some a ->
  compute_metrics (nzs (i + j)) c a = Ok d -> find (fun e => eqb (fst e) n) d = Some e ->
  find (fun e => eqb (fst e) n) m = Some e.
Proof.
  induction cs as [|c0 cs IH]; intros i accs sofar m j c a d E Ej Ea Ed Fd; [destruct j; discriminate|].
  destruct accs as [|a0 accs]; [destruct j; discriminate|]. cbn [combine_metrics] in E.
  destruct (compute_metrics (nzs i) c0 a0) as [d0|] eqn:E0; cbn [rbind] in E; [|discriminate].
  destruct (existsb _ d0) eqn:X; [discriminate|]. destruct j as [|j].
  - cbn in Ej, Ea. inversion Ej; inversion Ea; subst c0 a0. rewrite Nat.add_0_r in Ed. rewrite E0 in Ed. inversion Ed; subst d0.
    destruct (metrics_prefix _ _ _ _ _ _ E) as [rest ->]. rewrite <- app_assoc. rewrite find_app_r.
    + apply find_app_l. exact Fd.
    + intros s Is. apply not_true_is_false. intro B. apply eqb_eq in B. apply find_some in Fd. destruct Fd as [Ie Be]. apply eqb_eq in Be.
      assert (Y : existsb (fun kv : mname * released => existsb (eqb (fst kv)) (map fst sofar)) d = true); [|congruence].
      apply existsb_exists. exists e. split; [exact Ie|]. apply existsb_exists. exists (fst s). split; [apply in_map; exact Is|].
      rewrite Be, <- B. apply ListLemmas.eqb_refl.
  - apply (IH (S i) accs (sofar ++ d0) m j c a d); try assumption. replace (S i + j) with (i + S j) by lia. exact Ed.
Qed.

Lemma render_lookup p cs T th A i c n : create_compound_combiner p = Ok cs ->
  nth_error cs i = Some c -> countable c -> In n (names_of c) ->
  exists q, find (fun e => eqb (fst e) n) (render cs T (fun _ => Some th) A) = Some (n, RNum q) /\
            of_noised c n th (T i QCount) (T i QSum) (T i QSquares) = Some q.
Proof.
  intros Hcs Ei Cc In_n. assert (E := render_ok p cs T (fun _ => Some th) A Hcs). unfold compound_metrics in E. cbn [compound_create snd] in E.
  assert (W : well_named c).
  { assert (Hc := Hcs). unfold create_compound_combiner, compound_init in Hc. destruct (create_combiners p) as [cs'|] eqn:Ec; cbn [rbind] in Hc; [|discriminate].
    apply raise_if_ok in Hc. destruct Hc as [_ Hc]. inversion Hc; subst cs'.
    destruct (create_combiners_names p cs Ec) as [W _]. rewrite Forall_forall in W. apply W. apply nth_error_In in Ei. exact Ei. }
  assert (Bc : blank c = create c []) by (destruct c; try reflexivity; destruct Cc).
  assert (P1 : usable c (create c [])) by (split; [apply create_kind|]; intros m ->; destruct Cc).
  destruct (compute_total (constant_noises (T i) (Some th) (A i)) c (create c []) P1 W) as [d [Ed _]].
  destruct (metric_of_combiner (T i) th (A i) c (create c []) n d Cc (create_kind c []) W In_n Ed) as [q [Fq Oq]].
  exists q. split; [|exact Oq]. eapply (metrics_lookup _ n (n, RNum q) cs 0); try eassumption.
  rewrite nth_error_map, Ei, <- Bc. reflexivity.
Qed.

Lemma find_combine_map {P A} `{EqDec P} (f : P -> A) k keys : In k keys ->
  find (fun e => eqb (fst e) k) (combine keys (map f keys)) = Some (k, f k).
Proof.
  induction keys as [|x keys IH]; intro I; [destruct I|]. cbn [map combine find fst].
  destruct (eqb x k) eqn:B; [apply eqb_eq in B; subst; reflexivity|]. apply IH. destruct I as [->|I]; [|exact I].
  rewrite ListLemmas.eqb_refl in B. discriminate.
Qed.

(** ** One execution *)
Section Execution.
Context {U P : Type} `{EqDec U} `{EqDec P}.
Lemma metric_value (c : call U P) col keep noise noised answers k i cb n :
  call_facts c col -> In k (c_keys c) -> nth_error (c_combiners c) i = Some cb -> countable cb -> In n (names_of cb) ->
  metric (c_keys c) k n
    (rmap (seen (c_keys c))
      (aggregate (c_params c) (c_sampling c) (fun k n => keep (k, n))
         (fun k i => Noises (fun x => noise (i, QCount, k, x)) (fun x => noise (i, QSum, k, x)) (fun x => noise (i, QSquares, k, x))
                            (fun n => noised (i, k, n)) (fun l qs => answers (i, k, (l, qs))) (fun v => answers (i, k, (v, []))))
         (c_public c) (c_rows c))) =
  match (if mem k (map fst col) then chosen c col keep noised k else None) with
  | Some th => of_noised cb n th (noise (i, QCount, k, raw_value count_of i k col)) (noise (i, QSum, k, raw_value sum_of i k col))
                 (noise (i, QSquares, k, raw_value squares_of i k col))
  | None => None
  end.
Proof.
  intros F Ik Ei Cc In_n. assert (Ha := f_accepted _ _ F). assert (Hcs := f_combiners _ _ F). assert (E := f_raw _ _ F).
  set (nz := fun (k : P) i => Noises (fun x => noise (i, QCount, k, x)) (fun x => noise (i, QSum, k, x)) (fun x => noise (i, QSquares, k, x))
                          (fun n => noised (i, k, n)) (fun l qs => answers (i, k, (l, qs))) (fun v => answers (i, k, (v, [])))).
  destruct (aggregate_total (c_params c) (c_combiners c) (c_sampling c) (fun k n => keep (k, n)) nz (c_public c) (c_rows c) col Ha Hcs
              E (f_usable _ _ F)) as [out Eo].
  rewrite Eo. cbn [rmap]. unfold metric, seen. rewrite (find_combine_map (fun k => option_map snd (find (fun e => eqb (fst e) k) out))) by exact Ik.
  set (T := fun i qt => noise_at (nz k i) qt (raw_value (quantity_of qt) i k col)).
  set (A := fun i => match nth_error (c_combiners c) i with
                     | Some (CQuantile ps) => n_quantiles (nz k i) (raw_tree i k col) (map (fun x => x / 100)%Q ps)
                     | Some (CVector _) => n_vector (nz k i) (raw_vector i k col) | _ => [] end).
  pose (o := fun _ : nat => if post_aggregation_thresholding (c_params c) then noised (thresh_index (c_combiners c), k, thresh_count c col k) else Some 0%Q).
  destruct (found_in_result (c_params c) (c_combiners c) (c_sampling c) (fun k n => keep (k, n)) nz (c_public c) (c_rows c) col out
      T o A k (f_usable _ _ F) Hcs E Eo) as [R _].
  { reflexivity. }
  { intros j Ej. unfold o. destruct (post_aggregation_thresholding (c_params c)) eqn:Tp.
    - destruct (f_thresh _ _ F Tp) as [t [Et Un]]. rewrite (Un j Ej). unfold thresh_count. rewrite (thresh_index_spec _ t Et Un). reflexivity.
    - exfalso. exact (f_no_thresh _ _ F Tp j Ej). }
  { intros j ps Ej. unfold A. rewrite Ej. reflexivity. }
  { intros j m Ej. unfold A. rewrite Ej. reflexivity. }
  assert (L : forall th, (forall j, o j = Some th) ->
    match find (fun e => eqb (fst e) n) (render (c_combiners c) T o A) with Some (_, RNum q) => Some q | _ => None end =
    of_noised cb n th (noise (i, QCount, k, raw_value count_of i k col)) (noise (i, QSum, k, raw_value sum_of i k col))
                 (noise (i, QSquares, k, raw_value squares_of i k col))).
  { intros th Eth. destruct (render_lookup (c_params c) (c_combiners c) T th A i cb n Hcs Ei Cc In_n) as [q [Fq Oq]].
    assert (Er : render (c_combiners c) T o A = render (c_combiners c) T (fun _ => Some th) A).
    { assert (Eoj : o 0 = Some th) by apply Eth. unfold render. unfold o in *. rewrite Eoj. reflexivity. }
    rewrite Er, Fq, <- Oq. reflexivity. }
  rewrite R. destruct (mem k (map fst col)); [|reflexivity]. cbn [andb]. unfold chosen.
  destruct (estimate_known (c_params c) k col Ha) as [m [Em Es]]. rewrite Em, Es.
  destruct (selects_privately (c_params c) (c_public c)) eqn:Sp.
  - destruct (f_private _ _ F Sp) as [_ [Tp _]]. rewrite Tp, andb_true_r.
    destruct (keep (k, estimate (c_params c) k col)); [|reflexivity]. apply L. intro j. unfold o. rewrite Tp. reflexivity.
  - cbn [andb]. destruct (post_aggregation_thresholding (c_params c)) eqn:Tp; [|apply L; intro j; unfold o; reflexivity].
    destruct (f_thresh _ _ F Tp) as [t [Et Un]].
    rewrite (above_render (c_params c) (c_combiners c) T o A t Hcs Et Un).
    unfold o at 1. destruct (noised _) as [th|] eqn:En; [|reflexivity]. cbn [is_some]. apply L. intro j. reflexivity.
Qed.
End Execution.
