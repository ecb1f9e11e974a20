(** C68: custom combiners. *)
From Coq Require Import List ZArith QArith Qreals Reals Bool PeanoNat Permutation Lia Lra.
From Verif Require Import Base BackendModel BackendSpec BackendProofs ListLemmas BounderModel BounderSpec ParamsModel SensModel BudgetModel BudgetSpec CombinerModel
  EngineModel EngineSpec EngineProofs3 EngineProps SelectModel SelectSpec SelectProps PrivateProofs3
  VectorModel ExpMechProofs LaplaceModel LaplaceSpec LaplaceProofs WrapperModel DistSpec DistProofs DpModel DpSpec DpProofs DpProofs2 DpProofs3 DpProofs4 DpProofs5
  CustomModel CustomSpec CustomProofs CustomProofs2 CustomProofs3 CustomProofs4 CustomProofs5 CustomProofs6.
Import ListNotations.
Local Open Scope R_scope.
Local Close Scope Q_scope.

(** ** Parameters and budgets *)

(** Several aggregations with custom combiners are built on one engine, and no combiner
    object is used twice.  The engine requests the budgets of the combiners and one for
    each private partition selection, in this order.  When the aggregations are executed,
    each combiner has the parameters of its own aggregation and the budgets granted for
    its own requests, and so has partition selection. *)
Theorem C68_own_parameters_and_budgets {U P V A O} `{EqDec U} `{EqDec P} (cls : nat -> custom V A O)
    (qs : list (query U P V)) (bs : list (Q * Q)) d ns :
  build_all cls (Driver (fun _ => None) []) qs = (d, ns) ->
  NoDup (flat_map q_objects qs) ->
  length bs = length (d_requests d) ->
  d_requests d = flat_map (query_requests cls) qs /\
  Forall2 (fun qn b =>
      let q := fst qn in
      execute cls (d_objects d) bs q = custom_result (custom_expects cls (q_objects q)) (own_combiners cls q b) q /\
      (selects_privately (q_params q) (q_public q) = true -> nth (snd qn) bs (0, 0)%Q = own_selection cls q b))
    (combine qs ns) (per_query cls qs bs).
Proof.
  intros Eb N L. destruct (build_all_requests cls _ _ _ _ Eb) as [R _]. cbn [d_requests app] in R. split; [exact R|].
  apply (all_own cls bs _ _ _ _ Eb N). lia.
Qed.
Print Assumptions C68_own_parameters_and_budgets.

(** ** The result *)

(** The values of the privacy units are bounded as the parameters say.  There is a row
    for exactly the partitions with values of some privacy unit or an empty public
    partition.  Each combiner gets, for each partition, the values of each privacy unit
    kept there as one group, and an empty group for a public partition. *)
Theorem C68_result {U P V A O} `{EqDec U} `{EqDec P} (ex : bool) (cs : list (ready V A O)) (q : query U P V) (keys : list P) :
  valid_query keys q ->
  exists kept rows,
    NoDup (map fst kept) /\
    (forall e, In e kept -> submset (snd e) (values_of (fst e) (taking_part q))) /\
    (forall u, unit_bounded (q_params q) ex (map snd (kept_of u kept))) /\
    custom_result ex cs q = Ok rows /\
    NoDup (map fst rows) /\
    (forall k, In k (map fst rows) <-> groups (q_public q) kept k <> []) /\
    forall k n os, In (k, (n, os)) rows ->
      n = (if selects_privately (q_params q) (q_public q) then Some (Z.of_nat (length (groups (q_public q) kept k))) else None) /\
      Forall2 (fun c o => exists a, merged c (groups (q_public q) kept k) = Some a /\ o = r_compute c a) cs os.
Proof.
  intro Vq. assert (V0 := Vq). destruct Vq as [_ [Ha [_ [_ [Hb _]]]]].
  destruct (custom_result_rows ex cs q Ha Hb) as [kept [rows [Ek [Er [Nr [Kr Rr]]]]]]. exists kept, rows.
  destruct (kept_unit_bounded q keys ex kept V0 Ek) as [Nk Ub]. split; [exact Nk|].
  split; [intros e Ie; apply (kept_from_rows q keys ex kept e V0 Ek Ie)|]. auto 10.
Qed.
Print Assumptions C68_result.

(** ** Differential privacy *)

(** Every combiner is differentially private with the budgets that it is granted, for
    data bounded as the aggregation parameters say.  Then all the results of the engine
    together are differentially private with the budgets granted to all requests. *)
Theorem C68_composition {U P V A B} `{EqDec U} `{EqDec P} `{EqDec B}
    (keep : selector -> Z -> R) (cls : nat -> custom V A (dist B)) (qks : list (query U P V * list P)) (bs : list (Q * Q)) (u : U) :
  pydp_contract keep ->
  NoDup (flat_map q_objects (map fst qks)) ->
  (forall q keys, In (q, keys) qks -> valid_query keys q) ->
  (forall q keys a b, In (q, keys) qks -> In a (q_objects q) -> Forall2 granted_ok (object_requests cls q a) b ->
     keeps_promise (cls a) (own_params (q_params q)) b) ->
  Forall2 granted_ok (flat_map (query_requests cls) (map fst qks)) bs ->
  forall E, indistinguishable (Q2R (sumQ (map fst bs))) (Q2R (sumQ (map snd bs)))
    (prob (run_queries keep cls bs qks) E)
    (prob (run_queries keep cls bs (map (fun qk => (drop_unit u (fst qk), snd qk)) qks)) E).
Proof.
  intros Kp N Vq Pm G E. destruct (queries_both keep cls u bs qks Kp N) as [B1 B2].
  - apply Forall_forall. intros [q keys] I. split; [apply Vq; exact I|]. intros a Ia b. apply (Pm q keys a b I Ia).
  - exact G.
  - split; apply below_prob; assumption.
Qed.
Print Assumptions C68_composition.

(** The same with the budgets that the accountant computes: with the total budget. *)
Theorem C68_total_budget_differential_privacy {U P V A B} `{EqDec U} `{EqDec P} `{EqDec B}
    (e d : Q) num ws s0 ops s2 es ds
    (keep : selector -> Z -> R) (cls : nat -> custom V A (dist B)) (qks : list (query U P V * list P)) (u : U) :
  new_accountant e d num ws = Ok s0 ->
  Forall op_pos ops ->
  granted ops (outs s0 ops) = flat_map (query_requests cls) (map fst qks) ->
  granted ops (outs s0 ops) <> [] ->
  (forall q keys a, In (q, keys) qks -> In a (q_objects q) -> Forall (fun r => req_count r = 1%Z) (object_requests cls q a)) ->
  step (run s0 ops) Compute = (s2, Ok OutUnit) ->
  read_eps s2 es -> read_delta s2 ds ->
  pydp_contract keep ->
  NoDup (flat_map q_objects (map fst qks)) ->
  (forall q keys, In (q, keys) qks -> valid_query keys q) ->
  (forall q keys a b, In (q, keys) qks -> In a (q_objects q) -> Forall2 granted_ok (object_requests cls q a) b ->
     keeps_promise (cls a) (own_params (q_params q)) b) ->
  forall E, indistinguishable (Q2R e) (Q2R d)
    (prob (run_queries keep cls (combine es ds) qks) E)
    (prob (run_queries keep cls (combine es ds) (map (fun qk => (drop_unit u (fst qk), snd qk)) qks)) E).
Proof.
  intros Hnew Hpos Hg Hne Hone Hc Hes Hds Kp N Vq Pm E.
  assert (One : Forall (fun r => req_count r = 1%Z) (granted ops (outs s0 ops))).
  { rewrite Hg. apply Forall_flat_map. apply Forall_forall. intros q Iq. apply in_map_iff in Iq. destruct Iq as [[q' keys] [<- Iq]]. cbn [fst].
    unfold query_requests. apply Forall_app. split.
    - apply Forall_flat_map. apply Forall_forall. intros a Ia. apply (Hone q' keys a Iq Ia).
    - destruct (selects_privately _ _); repeat constructor. }
  destruct (accountant_grants e d num ws s0 ops s2 es ds Hnew Hpos Hne One Hc Hes Hds) as [G [Te Td]]. rewrite Hg in G.
  assert (Bo : both (Q2R (sumQ (map fst (combine es ds)))) (Q2R (sumQ (map snd (combine es ds))))
             (run_queries keep cls (combine es ds) qks) (run_queries keep cls (combine es ds) (map (drop_in u) qks))).
  { apply queries_both; try assumption. apply Forall_forall. intros [q keys] I. split; [apply Vq; exact I|]. intros a Ia b. apply (Pm q keys a b I Ia). }
  rewrite Te in Bo. apply (both_weaken _ _ _ _ _ Td) in Bo. destruct Bo as [B1 B2]. split; apply below_prob; assumption.
Qed.
Print Assumptions C68_total_budget_differential_privacy.

(** The same when the choices of contribution bounding are random. *)
Theorem C68_random_contribution_bounding {U P V A B} `{EqDec U} `{EqDec P} `{EqDec B}
    (keep : selector -> Z -> R) (cls : nat -> custom V A (dist B)) (qks : list (query U P V * list P)) (bs : list (Q * Q)) (u : U)
    (choices : dist (list (sampling U P))) :
  pydp_contract keep ->
  NoDup (flat_map q_objects (map fst qks)) ->
  is_dist choices ->
  (forall w sms, In (w, sms) choices -> length sms = length qks /\
     forall q keys sm, In (q, keys, sm) (combine qks sms) -> valid_query keys (resample q sm)) ->
  (forall q keys a b, In (q, keys) qks -> In a (q_objects q) -> Forall2 granted_ok (object_requests cls q a) b ->
     keeps_promise (cls a) (own_params (q_params q)) b) ->
  Forall2 granted_ok (flat_map (query_requests cls) (map fst qks)) bs ->
  let execution qks := dbind choices (fun sms =>
    run_queries keep cls bs (map (fun t => (resample (fst (fst t)) (snd t), snd (fst t))) (combine qks sms))) in
  forall E, indistinguishable (Q2R (sumQ (map fst bs))) (Q2R (sumQ (map snd bs)))
    (prob (execution qks) E) (prob (execution (map (fun qk => (drop_unit u (fst qk), snd qk)) qks)) E).
Proof.
  intros Kp N Dc Hs Pm G execution E.
  assert (Bo : both (Q2R (sumQ (map fst bs))) (Q2R (sumQ (map snd bs))) (execution qks) (execution (map (drop_in u) qks))).
  { apply both_random; [exact Dc|]. intros w sms I. destruct (Hs w sms I) as [L Vs].
    set (redo := fun qks : list (query U P V * list P) => map (fun t => (resample (fst (fst t)) (snd t), snd (fst t))) (combine qks sms)).
    change (both (Q2R (sumQ (map fst bs))) (Q2R (sumQ (map snd bs))) (run_queries keep cls bs (redo qks)) (run_queries keep cls bs (redo (map (drop_in u) qks)))).
    assert (Ed : redo (map (drop_in u) qks) = map (drop_in u) (redo qks)).
    { unfold redo. rewrite map_map. clear. revert sms. induction qks as [|qk qks IH]; intros [|sm sms]; try reflexivity. cbn [map combine]. f_equal. apply IH. }
    assert (Same : forall X (f : query U P V -> list X), (forall q sm, f (resample q sm) = f q) -> flat_map f (map fst (redo qks)) = flat_map f (map fst qks)).
    { intros X f Hf. unfold redo. clear -Hf L. revert sms L. induction qks as [|qk qks IH]; intros [|sm sms] L; try discriminate; [reflexivity|].
      cbn [map combine flat_map fst snd]. rewrite Hf, IH by (cbn in L; lia). reflexivity. }
    rewrite Ed. apply queries_both; [exact Kp | | |].
    - rewrite Same by reflexivity. exact N.
    - apply Forall_forall. intros [q keys] Iq. unfold redo in Iq. apply in_map_iff in Iq. destruct Iq as [[[q0 k0] sm] [X Iq]]. cbn [fst snd] in X. injection X as <- <-.
      cbn [fst snd]. split; [apply (Vs q0 k0 sm Iq)|]. intros a Ia b. apply in_combine_l in Iq. apply (Pm q0 k0 a b Iq Ia).
    - rewrite Same by reflexivity. exact G. }
  destruct Bo as [B1 B2]. split; apply below_prob; assumption.
Qed.
Print Assumptions C68_random_contribution_bounding.

(** ** A combiner that keeps its promise *)

(** Randomized response: has this partition values of any privacy unit?  The budget is
    divided by the number of partitions of a privacy unit. *)
Definition partitions_bound (p : params) : Z :=
  match max_contributions p, max_partitions_contributed p with Some m, _ => m | None, Some l0 => l0 | None, None => 1%Z end.
Definition respond (eps : R) (bit : bool) : dist bool := [(exp eps / (1 + exp eps), bit); (1 / (1 + exp eps), negb bit)].
Definition any_values : custom Z bool (dist bool) :=
  Custom false (fun p => [(LAPLACE, budget_weight p, 1%Z)])
    (fun _ vs => match vs with [] => false | _ => true end) (fun _ => orb)
    (fun p bs a => respond (Q2R (sumQ (map fst bs)) / IZR (partitions_bound p)) a).

Lemma respond_dist eps b : is_dist (respond eps b).
Proof.
  assert (P0 := exp_pos eps). assert (P1 : 0 < / (1 + exp eps)) by (apply Rinv_0_lt_compat; lra). split.
  - constructor; [|constructor; [|constructor]]; cbn [fst]; unfold Rdiv; [apply Rmult_le_pos; lra | lra].
  - cbn. field. lra.
Qed.
Lemma prob_nonneg {T} (d : dist T) E : is_dist d -> 0 <= prob d E.
Proof.
  intros [F _]. unfold prob. induction F as [|[w t] d W F IH]; [rewrite mixture_nil; lra|]. rewrite mixture_cons. cbn [fst] in W.
  assert (0 <= indicator (E t)) by (unfold indicator; destruct (E t); lra). assert (0 <= w * indicator (E t)) by (apply Rmult_le_pos; assumption). lra.
Qed.
Lemma respond_both eps b b' : 0 <= eps -> both eps 0 (respond eps b) (respond eps b').
Proof.
  intro Pe. assert (P0 : 1 <= exp eps). { destruct (Rle_lt_or_eq_dec _ _ Pe) as [L| <-]; [left; rewrite <- exp_0; apply exp_increasing; exact L | rewrite exp_0; lra]. }
  set (i := / (1 + exp eps)). assert (P1 : 0 < i) by (apply Rinv_0_lt_compat; lra).
  assert (G : forall b b', below eps 0 (respond eps b) (respond eps b')).
  { intros c c' F HF. unfold respond. rewrite !mixture_cons, !mixture_nil. unfold Rdiv. fold i. rewrite Rmult_1_l.
    set (x := exp eps) in *. pose proof (HF true) as H1. pose proof (HF false) as H2.
    assert (K : forall f, 0 <= f -> 0 <= i * f /\ i * f <= x * i * f /\ x * i * f <= x * (x * i * f)).
    { intros f Hf. assert (0 <= i * f) by (apply Rmult_le_pos; lra). assert (0 <= (x - 1) * (i * f)) by (apply Rmult_le_pos; lra).
      assert (0 <= x * ((x - 1) * (i * f))) by (apply Rmult_le_pos; lra). split; [lra|]. split; lra. }
    destruct (K (F true)) as [K1 [K2 K3]]; [apply H1|]. destruct (K (F false)) as [K4 [K5 K6]]; [apply H2|].
    destruct c, c'; cbn [negb]; lra. }
  split; apply G.
Qed.
Lemma both_each {X B} (f g : X -> dist B) (eps : X -> R) xs : (forall x, In x xs -> is_dist (f x)) -> (forall x, In x xs -> is_dist (g x)) ->
  (forall x, In x xs -> both (eps x) 0 (f x) (g x)) -> both (sumR (map eps xs)) 0 (independent f xs) (independent g xs).
Proof.
  intros Df Dg Bo. induction xs as [|x xs IH]; [apply both_same|]. cbn [map independent]. rewrite sumR_cons. replace 0 with (0 + 0) by lra. apply both_bind.
  - lra.
  - apply Df. left. reflexivity.
  - apply Dg. left. reflexivity.
  - intro y. apply is_dist_bind; [|intro; apply is_dist_ret]. apply independent_dist. intros; apply Df; right; assumption.
  - intro y. apply is_dist_bind; [|intro; apply is_dist_ret]. apply independent_dist. intros; apply Dg; right; assumption.
  - apply Bo. left. reflexivity.
  - intro y. apply both_post. apply IH; intros; [apply Df | apply Dg | apply Bo]; right; assumption.
Qed.

Lemma any_values_promise (p : params) bs : accepted p -> (0 <= sumQ (map fst bs))%Q -> (0 <= sumQ (map snd bs))%Q ->
  keeps_promise any_values (own_params p) bs.
Proof.
  intros Ha Pe Pd. split; [intro a; apply respond_dist|]. intros gss gss' [ds [L1 [L2 [F [Ub [Ne Ne']]]]]] E.
  change (unit_bounded p false (flat_map (fun d => match d with Some g => [g] | None => [] end) ds)) in Ub.
  apply Qle_Rle in Pe, Pd. rewrite RMicromega.Q2R_0 in Pe, Pd. set (e := Q2R (sumQ (map fst bs))) in *.
  assert (Lp : (0 < partitions_bound p)%Z /\ (Z.of_nat (length (flat_map (fun d : option (list Z) => match d with Some g => [g] | None => [] end) ds)) <= partitions_bound p)%Z).
  { unfold unit_bounded, partitions_bound in *. destruct (accepted_facts _ Ha) as [_ [_ [_ Hf]]]. destruct (max_contributions p) as [m|].
    - destruct Hf as [Pm _]. destruct Ub as [U1 U2]. split; [exact Pm|]. set (gs := flat_map _ ds) in *. clearbody gs.
      assert (length gs <= length (concat gs))%nat; [|lia]. clear -U2. induction U2 as [|g gs X _ IH]; [cbn; lia|]. cbn [concat length]. rewrite app_length.
      destruct g; [contradiction|]. cbn [length]. lia.
    - destruct Hf as [l0 [linf [E0 [_ [P0 _]]]]]. rewrite E0 in *. split; [exact P0|]. apply Ub. reflexivity. }
  destruct Lp as [Lp Ln]. set (l := partitions_bound p) in *.
  assert (Lr : 0 < IZR l) by (apply IZR_lt; exact Lp).
  set (ch := fun d : option (list Z) => match d with Some _ => e / IZR l | None => 0 end).
  assert (Nonneg : 0 <= e / IZR l) by (apply Rmult_le_pos; [exact Pe | left; apply Rinv_0_lt_compat; exact Lr]).
  pose (T := combine ds (combine gss gss')).
  assert (M1 : map (fun t => fst (snd t)) T = gss).
  { unfold T. clear -L1 L2. revert gss gss' L1 L2. induction ds as [|d ds IH]; intros [|g gss] [|g' gss'] L1 L2; try discriminate; [reflexivity|].
    cbn in *. f_equal. apply IH; lia. }
  assert (M2 : map (fun t => snd (snd t)) T = gss').
  { unfold T. clear -L1 L2. revert gss gss' L1 L2. induction ds as [|d ds IH]; intros [|g gss] [|g' gss'] L1 L2; try discriminate; [reflexivity|].
    cbn in *. f_equal. apply IH; lia. }
  assert (M3 : map fst T = ds).
  { unfold T. clear -L1 L2. revert gss gss' L1 L2. induction ds as [|d ds IH]; intros [|g gss] [|g' gss'] L1 L2; try discriminate; [reflexivity|].
    cbn in *. f_equal. apply IH; lia. }
  set (an := answer any_values (own_params p) bs).
  assert (Ad : forall gs, gs <> [] -> exists b, an gs = respond (e / IZR l) b).
  { intros gs Hne. unfold an, answer, merged. destruct gs as [|g gs]; [contradiction|]. cbn [map]. eexists. reflexivity. }
  rewrite Forall_forall in Ne, Ne', F.
  assert (Bo : both (sumR (map (fun t => ch (fst t)) T)) 0 (independent (fun t => an (fst (snd t))) T) (independent (fun t => an (snd (snd t))) T)).
  { apply both_each.
    - intros t It. destruct (Ad (fst (snd t))) as [b ->]; [|apply respond_dist]. apply Ne. rewrite <- M1. apply in_map_iff. exists t. auto.
    - intros t It. destruct (Ad (snd (snd t))) as [b ->]; [|apply respond_dist]. apply Ne'. rewrite <- M2. apply in_map_iff. exists t. auto.
    - intros t It. assert (O := F t It). unfold one_less in O. destruct t as [d [g g']]. cbn [fst snd] in *. destruct d as [x|]; cbn [ch].
      + destruct (Ad g) as [b ->]; [apply Ne; rewrite <- M1; apply in_map_iff; exists (Some x, (g, g')); auto|].
        destruct (Ad g') as [b' ->]; [apply Ne'; rewrite <- M2; apply in_map_iff; exists (Some x, (g, g')); auto|]. apply respond_both. exact Nonneg.
      + rewrite O. apply both_same. }
  assert (Sm : sumR (map (fun t => ch (fst t)) T) <= e).
  { rewrite <- (map_map fst ch), M3.
    assert (Eq : sumR (map ch ds) = INR (length (flat_map (fun d : option (list Z) => match d with Some g => [g] | None => [] end) ds)) * (e / IZR l)).
    { clear. induction ds as [|d ds IH]; [cbn; lra|]. cbn [map flat_map]. rewrite sumR_cons, IH. destruct d; cbn [ch app]; [|lra].
      cbn [length]. rewrite S_INR. lra. }
    rewrite Eq, INR_IZR_INZ. apply IZR_le in Ln. apply (Rmult_le_compat_r (e / IZR l)) in Ln; [|exact Nonneg].
    replace (IZR l * (e / IZR l)) with e in Ln by (field; lra). exact Ln. }
  assert (Pr : prob (independent an gss) E = prob (independent (fun t => an (fst (snd t))) T) E /\
               prob (independent an gss') E = prob (independent (fun t => an (snd (snd t))) T) E).
  { split; [rewrite <- M1 | rewrite <- M2]; unfold prob; rewrite mixture_independent_map; reflexivity. }
  destruct Pr as [-> ->].
  assert (D1 : forall t, In t T -> is_dist (an (fst (snd t)))).
  { intros t It. destruct (Ad (fst (snd t))) as [b ->]; [|apply respond_dist]. apply Ne. rewrite <- M1. apply in_map_iff. exists t. auto. }
  assert (D2 : forall t, In t T -> is_dist (an (snd (snd t)))).
  { intros t It. destruct (Ad (snd (snd t))) as [b ->]; [|apply respond_dist]. apply Ne'. rewrite <- M2. apply in_map_iff. exists t. auto. }
  assert (Mono : exp (sumR (map (fun t => ch (fst t)) T)) <= exp e).
  { destruct (Rle_lt_or_eq_dec _ _ Sm) as [X|X]; [left; apply exp_increasing; exact X | rewrite X; lra]. }
  destruct Bo as [B1 B2]. apply (below_prob _ _ _ _ E) in B1, B2.
  assert (Q1 : 0 <= prob (independent (fun t => an (fst (snd t))) T) E) by (apply prob_nonneg; apply independent_dist; exact D1).
  assert (Q2 : 0 <= prob (independent (fun t => an (snd (snd t))) T) E) by (apply prob_nonneg; apply independent_dist; exact D2).
  apply (Rmult_le_compat_r _ _ _ Q1) in Mono as Z1. apply (Rmult_le_compat_r _ _ _ Q2) in Mono as Z2.
  split; lra.
Qed.

(** ** Examples *)
Definition rr_params (l0 : Z) : params :=
  Params [] LaplaceNoise (Some l0) (Some 1%Z) None 1 None None None None true None None None
         false false TruncatedGeometric None false true.
Definition rr_sampling (l0 : nat) : sampling Z Z := first_sampling l0 1.
Definition rr_queries : list (query Z Z Z * list Z) :=
  [(Query (rr_params 2) [0%nat] (rr_sampling 2) None [(1, 10, 5); (1, 20, 6); (2, 10, 7); (1, 30, 8)]%Z, [10; 20; 30]%Z);
   (Query (rr_params 1) [1%nat; 2%nat] (rr_sampling 1) (Some [10; 40]%Z) [(1, 10, 5); (2, 10, 7)]%Z, [10; 40]%Z)].
Definition rr_class (_ : nat) : custom Z bool (dist bool) := any_values.

Lemma rr_valid l0 objs pub rows keys : (0 < l0)%Z -> objs <> [] ->
  NoDup keys -> match pub with None => incl (map (fun r : Z * Z * Z => snd (fst r)) rows) keys | Some pub => forall k, In k keys <-> In k pub end ->
  valid_query keys (Query (rr_params l0) objs (rr_sampling (Z.to_nat l0)) pub rows).
Proof.
  intros P0 No Nk Hk. unfold valid_query. cbv zeta. cbn [q_objects q_params q_sampling q_public q_rows]. split; [exact No|]. split.
  { exists (raw_of (rr_params l0)). unfold raw_of. cbn. destruct l0; try lia. reflexivity. }
  split; [split; reflexivity|]. split; [reflexivity|]. split; [reflexivity|]. split.
  { unfold valid_sampling. cbn -[Z.to_nat]. split; intros x Ex; inversion Ex; subst; apply first_n_valid. }
  split; [discriminate|]. split; [exact Nk|]. destruct pub; [split; [exact Hk | discriminate]|]. split; [reflexivity|]. split; [reflexivity | exact Hk].
Qed.
Lemma rr_queries_valid q keys : In (q, keys) rr_queries -> valid_query keys q.
Proof.
  intros [E|[E|[]]]; injection E as <- <-.
  - apply (rr_valid 2); [lia | discriminate | repeat constructor; cbn; intuition lia | intros x Ix; cbn in *; intuition].
  - apply (rr_valid 1); [lia | discriminate | repeat constructor; cbn; intuition lia | intro k; reflexivity].
Qed.
Lemma granted_sums rs (bs : list (Q * Q)) : Forall2 granted_ok rs bs -> (0 <= sumQ (map fst bs))%Q /\ (0 <= sumQ (map snd bs))%Q.
Proof.
  induction 1 as [|r b rs bs [X0 [[X _] _]] F [I1 I2]]; [split; apply Qle_refl|]. cbn [map].
  change (sumQ (snd b :: map snd bs)) with (snd b + sumQ (map snd bs))%Q. change (sumQ (fst b :: map fst bs)) with (fst b + sumQ (map fst bs))%Q.
  split; rewrite <- (Qplus_0_l 0); apply Qplus_le_compat; try assumption. apply Qlt_le_weak. exact X0.
Qed.

Definition rr_ops : list op :=
  flat_map (fun q => agg_ops (1%Q, map (fun r => IMech (req_type r) (req_weight r)) (query_requests rr_class q))) (map fst rr_queries).

Example C68_hypotheses_met :
  exists s0 s2 es ds,
    new_accountant 1 (1 # 10) None None = Ok s0 /\ Forall op_pos rr_ops /\
    granted rr_ops (outs s0 rr_ops) = flat_map (query_requests rr_class) (map fst rr_queries) /\
    map req_type (granted rr_ops (outs s0 rr_ops)) = [LAPLACE; GENERIC; LAPLACE; LAPLACE] /\
    (forall q keys a, In (q, keys) rr_queries -> In a (q_objects q) -> Forall (fun r => req_count r = 1%Z) (object_requests rr_class q a)) /\
    step (run s0 rr_ops) Compute = (s2, Ok OutUnit) /\
    read_eps s2 es /\ read_delta s2 ds /\
    pydp_contract demo_pydp /\ NoDup (flat_map q_objects (map fst rr_queries)) /\
    (forall q keys, In (q, keys) rr_queries -> valid_query keys q) /\
    (forall q keys a b, In (q, keys) rr_queries -> In a (q_objects q) -> Forall2 granted_ok (object_requests rr_class q a) b ->
       keeps_promise (rr_class a) (own_params (q_params q)) b) /\
    Forall2 granted_ok (flat_map (query_requests rr_class) (map fst rr_queries)) (combine es ds).
Proof.
  pose (s0 := Acct 1 (1 # 10) None None [] [] [] false).
  pose (s2 := fst (step (run s0 rr_ops) Compute)).
  pose (es := map (fun m => match get_eps m with Ok x => x | Err _ => 0%Q end) (mechs s2)).
  pose (ds := map (fun m => match get_delta m with Ok x => x | Err _ => 0%Q end) (mechs s2)).
  exists s0, s2, es, ds.
  split; [reflexivity|]. split; [repeat constructor; vm_compute; reflexivity|].
  split; [vm_compute; reflexivity|]. split; [vm_compute; reflexivity|].
  split; [intros q keys a _ _; repeat constructor|]. split; [vm_compute; reflexivity|].
  split; [vm_compute; repeat constructor|]. split; [vm_compute; repeat constructor|].
  split; [exact demo_pydp_contract|]. split; [cbn; repeat constructor; cbn; intuition lia|].
  split; [exact rr_queries_valid|]. split.
  - intros q keys a b I _ G. destruct (granted_sums _ _ G) as [G1 G2]. apply any_values_promise; try assumption. apply (rr_queries_valid q keys I).
  - vm_compute. repeat constructor; try discriminate.
Qed.

(** What the combiners of the first call see: privacy id 1 keeps two of its partitions. *)
Example C68_example_result :
  match custom_result false [Ready (fun vs : list Z => vs) (@app Z) (fun a => a)] (fst (hd (Query (rr_params 1) [] (rr_sampling 1) None [], []) rr_queries)) with
  | Ok rows => rows | Err _ => [] end =
  [(10, (Some 2, [[5; 7]])); (20, (Some 1, [[6]]))]%Z.
Proof. vm_compute. reflexivity. Qed.

(** ** One object in two aggregations *)

(** When the same combiner object is given to two aggregations, the first aggregation is
    executed with the parameters and the budgets of the second one. *)
Theorem C68_last_parameters_win {U P V A O} `{EqDec U} `{EqDec P} (cls : nat -> custom V A O)
    (q1 q2 : query U P V) (a : nat) (bs : list (Q * Q)) d ns :
  q_objects q1 = [a] -> q_objects q2 = [a] ->
  build_all cls (Driver (fun _ => None) []) [q1; q2] = (d, ns) ->
  length bs = length (d_requests d) ->
  let second := nth 1 (per_query cls [q1; q2] bs) [] in
  execute cls (d_objects d) bs q1 =
  custom_result (custom_expects cls [a])
    [make_ready (cls a) (own_params (q_params q2)) (firstn (length (object_requests cls q2 a)) second)] q1.
Proof.
  intros O1 O2 Eb L second. cbn [build_all] in Eb. unfold build, create_compound_with_custom in Eb. rewrite O1, O2 in Eb. cbn [fold_left] in Eb.
  assert (R1 : length (query_requests cls q1) = (length (object_requests cls q1 a) + (if selects_privately (q_params q1) (q_public q1) then 1 else 0))%nat).
  { unfold query_requests. rewrite O1. cbn [flat_map]. rewrite !app_length. cbn [length]. destruct (selects_privately (q_params q1) (q_public q1)); cbn; lia. }
  assert (R2 : length (query_requests cls q2) = (length (object_requests cls q2 a) + (if selects_privately (q_params q2) (q_public q2) then 1 else 0))%nat).
  { unfold query_requests. rewrite O2. cbn [flat_map]. rewrite !app_length. cbn [length]. destruct (selects_privately (q_params q2) (q_public q2)); cbn; lia. }
  assert (Ho : d_objects d a = Some (Fields (own_params (q_params q2)) (seq (length (query_requests cls q1)) (length (object_requests cls q2 a)))) /\
               length (d_requests d) = (length (query_requests cls q1) + length (query_requests cls q2))%nat).
  { rewrite R2. injection Eb as <- _. unfold set_up. rewrite R1. unfold object_requests. change without_custom with own_params in *.
    destruct (selects_privately (q_params q1) (q_public q1)), (selects_privately (q_params q2) (q_public q2)); cbn [d_objects d_requests]; unfold store;
      rewrite Nat.eqb_refl, ?app_length; cbn [length]; (split; [f_equal; f_equal; f_equal; lia | lia]). }
  destruct Ho as [Ho Lr]. unfold execute. rewrite O1. cbn [map_result]. unfold read_object. rewrite Ho. cbn [f_params f_budgets].
  assert (Es : map (fun i => nth i bs (0, 0)%Q) (seq (length (query_requests cls q1)) (length (object_requests cls q2 a))) =
               firstn (length (object_requests cls q2 a)) second).
  { unfold second, per_query. cbn [map slices nth]. rewrite firstn_firstn, Nat.min_l by lia.
    assert (Lb : (length (query_requests cls q1) + length (object_requests cls q2 a) <= length bs)%nat) by lia.
    clear -Lb. revert Lb. generalize (length (query_requests cls q1)) as n, (length (object_requests cls q2 a)) as m. intros n m Lb.
    assert (G : forall m n, (n + m <= length bs)%nat -> map (fun i => nth i bs (0, 0)%Q) (seq n m) = firstn m (skipn n bs)); [|apply G; exact Lb].
    clear. induction m as [|m IH]; intros n Lb; [reflexivity|]. cbn [seq map]. rewrite IH by lia.
    assert (Sk : forall (l : list (Q * Q)) n, (n < length l)%nat -> skipn n l = nth n l (0, 0)%Q :: skipn (S n) l).
    { clear. induction l as [|x l IH]; intros n Ln; [cbn in Ln; lia|]. destruct n; [reflexivity|]. cbn [skipn nth]. apply IH. cbn in Ln. lia. }
    rewrite (Sk bs n) by lia. reflexivity. }
  rewrite Es. reflexivity.
Qed.
Print Assumptions C68_last_parameters_win.

(** Then the results need not be differentially private with the granted budgets, although
    all other conditions of C68_composition hold. *)
Definition shared_queries : list (query Z Z Z * list Z) :=
  [(Query (rr_params 2) [0%nat] (rr_sampling 2) (Some [10; 20]%Z) [(1, 10, 5); (1, 20, 6)]%Z, [10; 20]%Z);
   (Query (rr_params 1) [0%nat] (rr_sampling 1) (Some [10]%Z) [(1, 10, 5)]%Z, [10]%Z)].
Definition all_yes (os : list (seen_outcome Z bool)) : bool :=
  match os with
  | [Ok ([Some [true]; Some [true]], []); Ok ([Some [true]], [])] => true
  | _ => false
  end.

Definition shared_with (present : bool) : list (query Z Z Z * list Z) :=
  if present then shared_queries else map (fun qk => (drop_unit 1%Z (fst qk), snd qk)) shared_queries.
Lemma mixture_one {T} (a : T) F : mixture (dret a) F = F a.
Proof. apply mixture_ret. Qed.
Lemma shared_law (present : bool) :
  prob (run_queries demo_pydp rr_class [(1, 0); (1, 0)]%Q (shared_with present)) all_yes =
  let w := if present then exp 1 / (1 + exp 1) else 1 / (1 + exp 1) in w * w * w.
Proof.
  set (bs := [(1, 0); (1, 0)]%Q). set (h := d_objects (fst (build_all rr_class (Driver (fun _ => None) []) (map fst (shared_with true))))).
  set (r := Q2R (sumQ [1%Q]) / IZR 1). assert (Er : r = 1) by (unfold r, Q2R; cbn; lra).
  pose (q1 := nth 0 (map fst (shared_with present)) (Query (rr_params 1) [] (rr_sampling 1) None [])).
  pose (q2 := nth 1 (map fst (shared_with present)) (Query (rr_params 1) [] (rr_sampling 1) None [])).
  assert (E1 : execute rr_class h bs q1 = Ok [(10%Z, (None, [respond r present])); (20%Z, (None, [respond r present]))]) by (destruct present; reflexivity).
  assert (E2 : execute rr_class h bs q2 = Ok [(10%Z, (None, [respond r present]))]) by (destruct present; reflexivity).
  assert (Er' : run_queries demo_pydp rr_class bs (shared_with present) = draw_all demo_pydp rr_class h bs [(q1, [10; 20]%Z, 1%nat); (q2, [10]%Z, 2%nat)]) by (destruct present; reflexivity).
  rewrite Er'. cbn [draw_all]. rewrite E1, E2, Er. unfold prob, draw.
  clear. unfold respond. set (x := exp 1 / (1 + exp 1)). set (y := 1 / (1 + exp 1)). clearbody x y. cbv zeta.
  destruct present; cbn; ring.
Qed.

Theorem C68_shared_object_refuted :
  exists (keep : selector -> Z -> R) (cls : nat -> custom Z bool (dist bool)) (qks : list (query Z Z Z * list Z)) (bs : list (Q * Q)) (u : Z) E,
    pydp_contract keep /\
    Forall (fun qk => NoDup (q_objects (fst qk))) qks /\
    (forall q keys, In (q, keys) qks -> valid_query keys q) /\
    (forall q keys a b, In (q, keys) qks -> In a (q_objects q) -> Forall2 granted_ok (object_requests cls q a) b ->
       keeps_promise (cls a) (own_params (q_params q)) b) /\
    Forall2 granted_ok (flat_map (query_requests cls) (map fst qks)) bs /\
    ~ indistinguishable (Q2R (sumQ (map fst bs))) (Q2R (sumQ (map snd bs)))
        (prob (run_queries keep cls bs qks) E)
        (prob (run_queries keep cls bs (map (fun qk => (drop_unit u (fst qk), snd qk)) qks)) E).
Proof.
  exists demo_pydp, rr_class, shared_queries, [(1, 0); (1, 0)]%Q, 1%Z, all_yes.
  assert (Va : forall q keys, In (q, keys) shared_queries -> valid_query keys q).
  { intros q keys [E|[E|[]]]; injection E as <- <-.
    - apply (rr_valid 2); [lia | discriminate | repeat constructor; cbn; intuition lia | intro k; reflexivity].
    - apply (rr_valid 1); [lia | discriminate | repeat constructor; cbn; intuition lia | intro k; reflexivity]. }
  split; [exact demo_pydp_contract|]. split; [repeat constructor; cbn; intuition|]. split; [exact Va|]. split.
  { intros q keys a b I _ G. destruct (granted_sums _ _ G) as [G1 G2]. apply any_values_promise; try assumption. apply (Va q keys I). }
  split; [vm_compute; repeat constructor; discriminate|].
  assert (Y := shared_law true). assert (W := shared_law false). cbv beta iota in Y, W.
  change (map (fun qk : query Z Z Z * list Z => (drop_unit 1%Z (fst qk), snd qk)) shared_queries) with (shared_with false).
  change shared_queries with (shared_with true). rewrite Y, W. intros [B _].
  replace (Q2R (sumQ (map fst [(1, 0); (1, 0)]%Q))) with 2 in B by (unfold Q2R; cbn; lra).
  replace (Q2R (sumQ (map snd [(1, 0); (1, 0)]%Q))) with 0 in B by (unfold Q2R; cbn; lra).
  replace 2 with (1 + 1) in B by lra. rewrite exp_plus in B. unfold Rdiv in B. set (i := / (1 + exp 1)) in B.
  assert (P0 := exp_ineq1 1 ltac:(lra)). assert (Pi : 0 < i) by (apply Rinv_0_lt_compat; lra). set (x := exp 1) in *.
  assert (Pc : 0 < i * i * i) by (repeat apply Rmult_lt_0_compat; assumption).
  assert (Px : 0 < x * x) by (apply Rmult_lt_0_compat; lra).
  assert (0 < (x * x) * ((x - 1) * (i * i * i))) by (apply Rmult_lt_0_compat; [exact Px | apply Rmult_lt_0_compat; lra]). lra.
Qed.
Print Assumptions C68_shared_object_refuted.
