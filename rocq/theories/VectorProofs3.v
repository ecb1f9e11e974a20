(** Lemmas for C61: the accumulators of VECTOR_SUM. *)
From Coq Require Import List ZArith QArith Bool Lia.
From Verif Require Import Base BaseLemmas BackendModel ListLemmas BackendSpec BackendProofs
  ParamsModel SensModel CombinerModel EngineModel EngineSpec EngineProofs EngineProofs2 EngineProofs3 EngineProofs4 VectorModel VectorSpec VectorProofs VectorProofs2.
Import ListNotations.
Local Close Scope Q_scope.

(** With private partitions and vectors of the declared size every accumulator of
    VECTOR_SUM is a vector of that size. *)
Lemma vector_accs {U P} `{EqDec U} `{EqDec P} p cs (sm : sampling U P) rows keys col i n linf :
  standard_run p cs sm None rows keys col -> max_contributions p = None -> max_contributions_per_partition p = Some linf -> (0 < linf)%Z ->
  nth_error cs i = Some (CVector n) -> vectors n (map snd rows) ->
  forall k a, In (k, a) col -> exists l, nth_error (snd a) i = Some (AVec l) /\ Z.of_nat (length l) = n.
Proof.
  intros Run Hm Hl Pl Hi Hvec k a Ia. destruct Run as [Ha [Hcs [Hb [Hv [Hp [Nk E]]]]]].
  destruct (raw_accumulators_pairs _ _ _ _ _ _ Hb E) as [kept [Ek ->]].
  assert (Xs : compound_expects_sampling cs = true).
  { unfold compound_expects_sampling. apply existsb_exists. exists (CVector n). split; [eapply nth_error_In; exact Hi | reflexivity]. }
  rewrite Xs in Ek. change (to_bound p None rows) with rows in Ek.
  assert (G := kept_groups p sm rows kept linf Hm Hl Pl Hv Ek).
  assert (Gg : Forall (good_group n) (values_of k (pairs_of kept (@None (list P))))).
  { apply Forall_forall. intros g Ig. unfold values_of in Ig. apply in_map_iff in Ig. destruct Ig as [x [<- Ix]]. apply filter_In in Ix.
    destruct Ix as [Ix _]. unfold pairs_of in Ix. apply in_app_or in Ix. destruct Ix as [Ix|[]]. apply in_map_iff in Ix. destruct Ix as [e [<- Ie]].
    cbn [snd]. destruct (G e Ie) as [Ne [_ Iv]]. split; [exact Ne|]. intros v Hin. apply Hvec. apply Iv. exact Hin. }
  apply (proj1 (in_combine_per_key _ _ _ _)) in Ia. unfold with_accs in Ia. rewrite values_of_map_values in Ia.
  destruct (values_of k (pairs_of kept (@None (list P)))) as [|g gs]; cbn in Ia; [discriminate|]. inversion Ia; subst a. clear Ia.
  change (compound_create cs g) with (1%Z, map (fun c => create c g) cs). rewrite compound_fold. cbn [snd].
  rewrite nth_error_map, Hi. cbn [option_map]. inversion Gg as [|? ? Hg F']; subst. destruct (create_vec n g Hg) as [C1 _].
  destruct (fold_vec n gs _ C1 F') as [[l [El Ll]] _]. exists l. rewrite El. auto.
Qed.
