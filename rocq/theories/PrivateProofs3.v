(** Lemmas for C60: budgets of the calls, and the mixture over random draws. *)
From Coq Require Import List ZArith QArith Qreals Reals Lia Lqa Lra.
From Verif Require Import Base BaseLemmas BackendModel ParamsModel CombinerModel EngineModel EngineSpec
  BudgetModel BudgetSpec BudgetProofs VectorModel ExpMechProofs LaplaceModel LaplaceSpec LaplaceProofs
  SelectModel SelectSpec SelectProofs PrivateSpec PrivateProofs PrivateProofs2.
Import ListNotations.
Local Open Scope R_scope.

Lemma read_delta_fun s ds ds' : read_delta s ds -> read_delta s ds' -> ds = ds'.
Proof.
  unfold read_delta. generalize (mechs s) as ms. intros ms A. revert ds'.
  induction A as [|m e ms es Em A IH]; intros es' B; inversion B; subst; [reflexivity|].
  f_equal; [congruence | apply IH; assumption].
Qed.

Lemma sumQ_app_R a b : Q2R (sumQ (a ++ b)) = Q2R (sumQ a) + Q2R (sumQ b).
Proof.
  induction a as [|x a IH]; [change (sumQ ([] ++ b)) with (sumQ b); change (sumQ []) with 0%Q; rewrite Q2R_zero; lra|].
  change (sumQ ((x :: a) ++ b)) with (x + sumQ (a ++ b))%Q. change (sumQ (x :: a)) with (x + sumQ a)%Q.
  rewrite !Q2R_plus, IH. lra.
Qed.
Lemma sumQ_nonneg_R l : Forall (fun x => (0 <= x)%Q) l -> 0 <= Q2R (sumQ l).
Proof.
  induction 1 as [|x l Hx F IH]; [change (sumQ []) with 0%Q; rewrite Q2R_zero; lra|].
  change (sumQ (x :: l)) with (x + sumQ l)%Q. rewrite Q2R_plus. apply Qle_Rle in Hx. rewrite Q2R_zero in Hx. lra.
Qed.

Lemma private_requests_length {U P} (q : pquery U P) :
  length (private_requests q) = S (list_sum (map requests (pq_combiners q))).
Proof. unfold private_requests. rewrite app_length, repeat_length. cbn. lia. Qed.

Lemma split_at (n : nat) (l : list Q) : (n < length l)%nat -> l = (firstn n l ++ nth n l 0%Q :: skipn (S n) l)%list.
Proof.
  revert l. induction n as [|n IH]; intros [|x l] L; cbn in L; try lia; [reflexivity|].
  cbn [firstn nth skipn app]. f_equal. apply IH. lia.
Qed.

(** The budgets divided among the calls are good, and add up. *)
Lemma grants_good {U P} `{EqDec U} `{EqDec P} (qs : list (pquery U P)) : forall es ds,
  Forall private_query qs ->
  length es = length (flat_map private_requests qs) -> length ds = length (flat_map private_requests qs) ->
  Forall (fun x => (0 < x)%Q) es -> Forall (fun x => (0 <= x < 1)%Q) ds ->
  Forall2 good_grant qs (grants qs es ds) /\
  Q2R (noise_total (grants qs es ds)) + sumR (map (fun g => Q2R (g_eps g)) (grants qs es ds)) = Q2R (sumQ es) /\
  sumR (map (fun g => Q2R (g_delta g)) (grants qs es ds)) <= Q2R (sumQ ds).
Proof.
  induction qs as [|q qs IH]; intros es ds Hq Le Ld Fe Fd.
  - destruct es; [|discriminate]. destruct ds; [|discriminate]. split; [constructor|].
    unfold noise_total. cbn. rewrite Q2R_zero. lra.
  - inversion Hq as [|? ? Hq1 Hq2]; subst. cbn [flat_map] in Le, Ld. rewrite app_length, private_requests_length in Le, Ld.
    set (n := list_sum (map requests (pq_combiners q))) in *.
    assert (Se := split_at n es ltac:(lia)). assert (Sd := split_at n ds ltac:(lia)).
    assert (Fe' := Fe). rewrite Se in Fe'. apply Forall_app in Fe'. destruct Fe' as [Fe1 Fe2]. inversion Fe2 as [|? ? Fe3 Fe4]; subst.
    assert (Fd' := Fd). rewrite Sd in Fd'. apply Forall_app in Fd'. destruct Fd' as [Fd1 Fd2]. inversion Fd2 as [|? ? Fd3 Fd4]; subst.
    destruct (IH (skipn (S n) es) (skipn (S n) ds) Hq2) as [G [T1 T2]]; try assumption.
    { rewrite skipn_length. lia. } { rewrite skipn_length. lia. }
    cbn [grants]. fold n. split; [|split].
    + constructor; [|exact G]. split; [exact Hq1|]. cbn [g_noise g_eps g_delta].
      split; [rewrite firstn_length; lia|]. split; [exact Fe1|]. split; [exact Fe3 | exact Fd3].
    + unfold noise_total in *. cbn [map g_noise g_eps]. rewrite sumR_cons.
      assert (T0 : Q2R (sumQ es) = Q2R (sumQ (firstn n es)) + (Q2R (nth n es 0%Q) + Q2R (sumQ (skipn (S n) es)))).
      { rewrite Se at 1. rewrite sumQ_app_R.
        change (sumQ (nth n es 0%Q :: skipn (S n) es)) with (nth n es 0%Q + sumQ (skipn (S n) es))%Q. rewrite Q2R_plus. reflexivity. }
      rewrite T0, <- T1. set (gs := grants qs (skipn (S n) es) (skipn (S n) ds)).
      change (sumQ (sumQ (firstn n es) :: map (fun g => sumQ (g_noise g)) gs))
        with (sumQ (firstn n es) + sumQ (map (fun g => sumQ (g_noise g)) gs))%Q. rewrite Q2R_plus. lra.
    + cbn [map g_delta]. rewrite sumR_cons. 
      assert (T0 : Q2R (sumQ ds) = Q2R (sumQ (firstn n ds)) + (Q2R (nth n ds 0%Q) + Q2R (sumQ (skipn (S n) ds)))).
      { rewrite Sd at 1. rewrite sumQ_app_R.
        change (sumQ (nth n ds 0%Q :: skipn (S n) ds)) with (nth n ds 0%Q + sumQ (skipn (S n) ds))%Q. rewrite Q2R_plus. reflexivity. }
      assert (0 <= Q2R (sumQ (firstn n ds))) by (apply sumQ_nonneg_R; eapply Forall_impl; [|exact Fd1]; cbn; intros a [X _]; exact X).
      lra.
Qed.

Lemma presample_remove {U P} `{EqDec U} (u : U) (qs : list (pquery U P)) sms :
  presample (map (premove_id u) qs) sms = map (premove_id u) (presample qs sms).
Proof.
  unfold presample. revert sms. induction qs as [|q qs IH]; intros [|sm sms]; try reflexivity. cbn. f_equal. apply IH.
Qed.
Lemma presample_requests {U P} (qs : list (pquery U P)) sms : length sms = length qs ->
  flat_map private_requests (presample qs sms) = flat_map private_requests qs.
Proof.
  unfold presample. revert sms. induction qs as [|q qs IH]; intros [|sm sms] L; try discriminate; [reflexivity|].
  cbn [combine map flat_map]. rewrite IH by (cbn in L; lia). reflexivity.
Qed.
Lemma presample_grants {U P} (qs : list (pquery U P)) sms es ds : length sms = length qs ->
  grants (presample qs sms) es ds = grants qs es ds.
Proof.
  unfold presample. revert sms es ds. induction qs as [|q qs IH]; intros [|sm sms] es ds L; try discriminate; [reflexivity|].
  cbn [combine map grants fst snd pwith_sampling pq_combiners]. rewrite IH by (cbn in L; lia). reflexivity.
Qed.

Lemma indistinguishable_weaken e d d' a b : d <= d' -> indistinguishable e d a b -> indistinguishable e d' a b.
Proof. unfold indistinguishable. intros; lra. Qed.
