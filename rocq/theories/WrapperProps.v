(** C47: the Beam and Spark wrappers run the aggregation that was asked for.
    C54: transformations of a private collection track the privacy ids. *)
From Coq Require Import List ZArith QArith Bool Lia Permutation.
From Verif Require Import Base ListLemmas BackendModel BackendSpec BounderModel ParamsModel SensModel CombinerModel
  CombinerSpec EngineModel EngineSpec EngineProofs3 EngineProofs4 EngineProofs5 EngineProps2 BudgetModel
  WrapperModel WrapperSpec WrapperProofs.
Import ListNotations.

(** ** C47 *)

(** Beam: every request is run as asked, except that budget_weight is taken to be
    1 and contribution_bounds_already_enforced to be False. *)
Theorem C47_beam_runs_request {U E P} `{EqDec U} `{EqDec P} (w : world (option U) P) (c : request E P) public
    (pcol : list (U * E)) :
  beam_run w c public pcol = asked_run w (with_fields 1 false (pre_of c) c) public pcol.
Proof.
  unfold beam_run, asked_run. rewrite beam_params_asked, field_with. f_equal.
  apply map_ext. intro x. apply beam_row_asked.
Qed.

Theorem C47_beam_runs_what_is_asked {U E P} `{EqDec U} `{EqDec P} (w : world (option U) P) (c : request E P) public
    (pcol : list (U * E)) :
  weight_of c = 1%Q -> enforced_of c = false ->
  beam_run w c public pcol = asked_run w c public pcol.
Proof.
  intros Hw He. rewrite C47_beam_runs_request. rewrite <- Hw, <- He, with_fields_same. reflexivity.
Qed.

(** Spark: every request is run as asked, except that pre_threshold is taken to
    be None and the budget_weight of privacy_id_count to be 1. *)
Theorem C47_spark_runs_request {U E P} `{EqDec U} `{EqDec P} (w : world (option U) P) (c : request E P) public
    (rdd : list (U * E)) :
  spark_run w c public rdd =
  asked_run w (with_fields (if is_pid_count c then 1%Q else weight_of c) (enforced_of c) None c) public rdd.
Proof.
  unfold spark_run, asked_run. rewrite spark_params_asked, field_with. f_equal.
  apply map_ext. intro x. apply spark_row_asked.
Qed.

Theorem C47_spark_runs_what_is_asked {U E P} `{EqDec U} `{EqDec P} (w : world (option U) P) (c : request E P) public
    (rdd : list (U * E)) :
  pre_of c = None -> (is_pid_count c = true -> weight_of c = 1%Q) ->
  spark_run w c public rdd = asked_run w c public rdd.
Proof.
  intros Hp Hw. rewrite C47_spark_runs_request.
  replace (if is_pid_count c then 1%Q else weight_of c) with (weight_of c)
    by (destruct (is_pid_count c); auto).
  rewrite <- Hp, with_fields_same. reflexivity.
Qed.

(** The asked run gives every partition of the engine's result exactly the one
    number computed for it (attribute access cannot fail). *)
Theorem C47_one_number_per_partition {U E P} `{EqDec U} `{EqDec P} (w : world (option U) P) (c : request E P) public
    (col : list (U * E)) ops o :
  (forall k i l qs, length (n_quantiles (w_noise w k i) l qs) = length qs) ->
  run_engine w (asked c) public (map (asked_row c) col) = Ok (ops, o) ->
  exists out vals, o = Ok out /\ asked_run w c public col = Ok (ops, Ok vals) /\
    Forall2 (fun kd kv => fst kd = fst kv /\ snd kd = [(field c, snd kv)]) out vals.
Proof.
  intros Hq E0. destruct (run_engine_inv _ _ _ _ _ _ E0) as [p [cs [Hp [Hcs [_ Ho]]]]].
  destruct (post_init_fields _ _ Hp) as [Hm [_ [_ [_ [_ [_ _]]]]]].
  destruct (asked_metrics c) as [m [Em [Ef [Nv _]]]].
  assert (Hv : has VECTOR_SUM (metrics p) = false).
  { rewrite Hm, Em. destruct m; try reflexivity. congruence. }
  destruct (aggregate_succeeds p cs (w_sampling w)
     (w_keep w (partition_selection_strategy p) (max_partitions_contributed p) (pre_threshold p))
     (w_noise w) public (map (asked_row c) col) (ex_intro _ _ Hp) Hcs Hv Hq) as [out [Ea F]].
  destruct (extract_field_ok (field c) out) as [vals [Ev G]].
  { intros k d Hin. destruct (F k d Hin) as [N I]. rewrite Hm, Em in I. cbn [map] in I. rewrite Ef in I.
    apply singleton_dict; assumption. }
  exists out, vals. rewrite Ea in Ho. split; [exact Ho|]. split; [|exact G].
  unfold asked_run, run_wrapper. rewrite E0. cbn [rmap fst snd]. rewrite Ho. cbn [rbind]. rewrite Ev. reflexivity.
Qed.

(** What the partition selection of PyDP promises about pre_threshold. *)
Definition honest_pre_threshold {U P} (w : world U P) : Prop :=
  forall s l0 t k n, w_keep w s l0 (Some t) k n = true -> (t <= n)%Z.

Lemma all_some {A} (l : list (option A)) :
  (forall o, In o l -> exists a, o = Some a) -> exists as_, l = map Some as_.
Proof.
  induction l as [|o l IH]; intro F; [exists []; reflexivity|].
  destruct (F o (or_introl eq_refl)) as [a ->]. destruct IH as [as_ ->]; [intros; apply F; right; assumption|].
  exists (a :: as_). reflexivity.
Qed.

(** Beam honours pre_threshold: a released partition has at least that many
    distinct privacy ids. *)
Theorem C47_beam_pre_threshold {U E P} `{EqDec U} `{EqDec P} (w : world (option U) P) (c : request E P)
    (pcol : list (U * E)) ops vals t k :
  honest_pre_threshold w ->
  (forall p, post_init (beam_params c) = Ok p -> valid_sampling p (w_sampling w)) ->
  pre_of c = Some (PInt t) ->
  beam_run w c None pcol = Ok (ops, Ok vals) -> In k (map fst vals) ->
  exists us, NoDup us /\ (t <= Z.of_nat (length us))%Z /\
    forall u, In u us -> exists x, In (u, x) pcol /\ extract_partition c x = k.
Proof.
  intros Hh Hs Ht E0 Hk. unfold beam_run, run_wrapper in E0.
  destruct (run_engine w (beam_params c) None (map (beam_row c) pcol)) as [[ops' o]|] eqn:Er; cbn [rmap fst snd] in E0; [|discriminate].
  inversion E0 as [[X1 X2]]. subst ops'. clear E0.
  destruct (run_engine_inv _ _ _ _ _ _ Er) as [p [cs [Hp [Hcs [_ Ho]]]]].
  destruct o as [out|]; cbn [rbind] in X2; [|discriminate].
  rewrite <- (extract_field_keys (field c) out vals) in Hk || rewrite (extract_field_keys (field c) out vals X2) in Hk.
  specialize (Hs p Hp). assert (Hp' := Hp). rewrite beam_params_asked in Hp'.
  destruct (asked_defaults (with_fields 1 false (pre_of c) c)) as [D1 [D2 [D3 [_ D5]]]].
  destruct (post_init_fields _ _ Hp') as [_ [_ [_ [B [F1 [F2 [B5 _]]]]]]].
  rewrite D3 in B. rewrite D1 in F1. rewrite D2 in F2. rewrite D5 in B5.
  assert (B' : contribution_bounds_already_enforced p = false) by (rewrite B; destruct c; reflexivity).
  assert (B5' : pre_threshold p = Some t).
  { rewrite B5. replace (pre_of (with_fields 1 false (pre_of c) c)) with (pre_of c) by (destruct c; reflexivity).
    rewrite Ht. reflexivity. }
  destruct (C26_private_selection p cs (w_sampling w) (map (beam_row c) pcol) (ex_intro _ _ Hp) Hcs F2 F1 B' Hs) as [n [Hn R]].
  destruct (R _ _ _ (eq_sym Ho)) as [_ [K _]]. apply K in Hk. destruct Hk as [_ Hk]. rewrite B5' in Hk. apply Hh in Hk.
  destruct (all_some (ids_of k (map (beam_row c) pcol))) as [us Hus].
  { intros o Hin. unfold ids_of in Hin. apply (proj1 (in_distinct _ _)) in Hin. apply in_map_iff in Hin.
    destruct Hin as [r [<- Hr]]. apply filter_In in Hr. destruct Hr as [Hr _]. apply in_map_iff in Hr.
    destruct Hr as [x [<- _]]. eexists. reflexivity. }
  exists us. split; [|split].
  - apply (NoDup_map_inv Some). rewrite <- Hus. apply NoDup_distinct.
  - specialize (Hn k). rewrite Hus, map_length in Hn. lia.
  - intros u Hu. assert (Hin : In (Some u) (ids_of k (map (beam_row c) pcol))) by (rewrite Hus; apply in_map; exact Hu).
    unfold ids_of in Hin. apply (proj1 (in_distinct _ _)) in Hin. apply in_map_iff in Hin.
    destruct Hin as [r [Er' Hr]]. apply filter_In in Hr. destruct Hr as [Hr Ek]. apply in_map_iff in Hr.
    destruct Hr as [[u' x] [<- Hx]]. cbn in Er', Ek. inversion Er'; subst u'. apply eqb_eq in Ek. exists x. auto.
Qed.

(** *** What is not honoured *)

(** The accountant calls of a run, and the epsilon of every mechanism when two
    such runs share an accountant with total (epsilon, 0). *)
Definition ops_of {A} (r : result (list op * A)) : list op :=
  match r with Ok o => fst o | Err _ => [] end.
Definition shares (eps : Q) (ops1 ops2 : list op) : list (option Q) :=
  map (fun m => option_map Qred (m_eps m))
      (mechs (run (Acct eps 0 None None [] [] [] false) (ops1 ++ ops2 ++ [Compute]))).

Definition no_noise : noises :=
  Noises (fun q => q) (fun q => q) (fun q => q) (fun z => Some (inject_Z z)) (fun _ qs => qs) (fun l => l).
(** Draws the first elements; selection keeps a partition exactly when it has
    pre_threshold privacy ids (or one). *)
Definition demo_world (U P : Type) : world U P :=
  World U P (Sampling U P (fun _ _ => [0%nat]) (fun _ _ => [0%nat]))
        (fun _ _ pre _ n => match pre with Some t => (t <=? n)%Z | None => (1 <=? n)%Z end)
        (fun _ _ => no_noise).
Lemma demo_honest U P : honest_pre_threshold (demo_world U P).
Proof. intros s l0 t k n E. cbn in E. lia. Qed.

Definition demo_count (w : Q) (enforced : bool) (pre : option pyint) : request Z Z :=
  RCount (CountParams Z Z LaplaceNoise (Some (PInt 1)) (Some (PInt 1)) (fun x => x) w enforced pre).
Definition demo_pids (w : Q) (pre : option pyint) : request Z Z :=
  RPidCount (PidParams Z Z LaplaceNoise (Some (PInt 1)) (fun x => x) w false pre).

(** Two Beam counts of weights 1 and 3 over public partitions get equal shares
    of the budget, not 1/4 and 3/4. *)
Theorem C47_beam_budget_weight_refuted :
  exists (c1 c2 : request Z Z) (public : option (list Z)) (pcol : list (Z * Z)),
    let w := demo_world (option Z) Z in
    weight_of c1 = 1%Q /\ weight_of c2 = 3%Q /\
    shares 4 (ops_of (asked_run w c1 public pcol)) (ops_of (asked_run w c2 public pcol)) = [Some 1%Q; Some 3%Q] /\
    shares 4 (ops_of (beam_run w c1 public pcol)) (ops_of (beam_run w c2 public pcol)) = [Some 2%Q; Some 2%Q].
Proof.
  exists (demo_count 1 false None), (demo_count 3 false None), (Some [5%Z]), [(1, 5)]%Z.
  vm_compute. repeat split.
Qed.

(** The promise that bounds are enforced is ignored by Beam: rows are sampled
    down although the caller's data has (as promised) no usable privacy ids. *)
Theorem C47_beam_already_enforced_refuted :
  exists (c : request Z Z) (public : option (list Z)) (pcol : list (Z * Z)),
    let w := demo_world (option Z) Z in
    enforced_of c = true /\
    rmap snd (asked_run w c public pcol) = Ok (Ok [(5%Z, RNum 3)]) /\
    rmap snd (beam_run w c public pcol) = Ok (Ok [(5%Z, RNum 1)]).
Proof.
  exists (demo_count 1 true None), (Some [5%Z]), [(0, 5); (0, 5); (0, 5)]%Z.
  vm_compute. repeat split.
Qed.

(** Spark releases a partition with fewer privacy ids than pre_threshold. *)
Theorem C47_spark_pre_threshold_refuted :
  exists (w : world (option Z) Z) (c : request Z Z) (rdd : list (Z * Z)),
    honest_pre_threshold w /\ pre_of c = Some (PInt 10) /\ length rdd = 1%nat /\
    rmap snd (asked_run w c None rdd) = Ok (Ok []) /\
    rmap snd (spark_run w c None rdd) = Ok (Ok [(5%Z, RNum 1)]).
Proof.
  exists (demo_world (option Z) Z), (demo_count 1 false (Some (PInt 10))), [(1, 5)]%Z.
  split; [apply demo_honest|]. vm_compute. repeat split.
Qed.

(** The weight of Spark's privacy_id_count is ignored. *)
Theorem C47_spark_privacy_id_count_weight_refuted :
  exists (c1 c2 : request Z Z) (public : option (list Z)) (rdd : list (Z * Z)),
    let w := demo_world (option Z) Z in
    weight_of c1 = 1%Q /\ weight_of c2 = 3%Q /\
    shares 4 (ops_of (asked_run w c1 public rdd)) (ops_of (asked_run w c2 public rdd)) = [Some 1%Q; Some 3%Q] /\
    shares 4 (ops_of (spark_run w c1 public rdd)) (ops_of (spark_run w c2 public rdd)) = [Some 2%Q; Some 2%Q].
Proof.
  exists (demo_count 1 false None), (demo_pids 3 None), (Some [5%Z]), [(1, 5)]%Z.
  vm_compute. repeat split.
Qed.

(** privacy_id_count with the promise cannot be run on Spark at all (the engine
    needs privacy ids), for any parameters; Beam runs it without the promise. *)
Theorem C47_spark_enforced_privacy_id_count {U E P} `{EqDec U} `{EqDec P} (w : world (option U) P)
    (i : pid_params E P) public (rdd : list (U * E)) :
  i_already_enforced i = true -> exists e, spark_run w (RPidCount i) public rdd = Err e.
Proof.
  intro He. unfold spark_run, run_wrapper, run_engine.
  destruct (post_init (spark_params (RPidCount i))) as [p|e] eqn:Ep; [|exists e; reflexivity].
  exfalso. unfold post_init in Ep. cbn in Ep. rewrite He in Ep. cbn in Ep. discriminate.
Qed.

(** *** select_partitions *)

(** Beam passes the caller's object on; in particular pre_threshold, weight and
    strategy are the caller's. *)
Theorem C47_beam_select {U E P} `{EqDec U} `{EqDec P} (w : world U P) r (ext : E -> P) (pcol : list (U * E)) ops keys :
  honest_pre_threshold w ->
  (forall l0, rs_max_partitions_contributed r = Some (PInt l0) -> valid_source (Z.to_nat l0) (ch_pid (w_sampling w))) ->
  beam_select w r ext pcol = Ok (ops, keys) ->
  In (Enter (rs_budget_weight r)) ops /\
  (exists l0, (0 < l0)%Z /\ rs_max_partitions_contributed r = Some (PInt l0) /\
     forall k, In k keys -> exists n, (1 <= n)%Z /\ w_keep w (rs_strategy r) (Some l0) (int_of (rs_pre_threshold r)) k n = true) /\
  forall t k, rs_pre_threshold r = Some (PInt t) -> In k keys ->
    exists us, NoDup us /\ (t <= Z.of_nat (length us))%Z /\
      forall u, In u us -> exists x, In (u, x) pcol /\ ext x = k.
Proof.
  intros Hh Hs. unfold beam_select, run_select. destruct (check_select_params true true r) eqn:Ec; cbn [rbind]; [|discriminate].
  destruct (int_of (rs_max_partitions_contributed r)) as [l0|] eqn:El; [|discriminate]. intro X.
  inversion X as [[X1 X2]]. subst ops.
  assert (El' : rs_max_partitions_contributed r = Some (PInt l0)).
  { unfold int_of in El. destruct (rs_max_partitions_contributed r) as [[z|]|]; inversion El; reflexivity. }
  assert (Pl : (0 < l0)%Z).
  { unfold check_select_params in Ec. apply raise_if_ok in Ec. destruct Ec as [_ Ec]. apply raise_if_ok in Ec. destruct Ec as [_ Ec].
    apply raise_if_ok in Ec. destruct Ec as [Ec _]. rewrite El' in Ec. cbn in Ec. lia. }
  split; [left; reflexivity|].
  set (rows := map (fun x : U * E => (fst x, ext (snd x))) pcol) in *.
  assert (Sel : forall u : option U, exists n : P -> Z,
      (forall k, (n k <= Z.of_nat (length (pairs_ids k rows)))%Z) /\
      forall k, In k keys -> (0 < n k)%Z /\
        w_keep w (rs_strategy r) (Some l0) (int_of (rs_pre_threshold r)) k (n k) = true).
  { intros _. destruct rows as [|[u0 k0] rest] eqn:Er.
    - exists (fun _ => 0%Z). split; [intro k; cbn; lia|]. intros k Hk. subst keys. cbn in Hk. contradiction.
    - destruct (C27_select_partitions (Z.to_nat l0) (ch_pid (w_sampling w)) ((u0, k0) :: rest) u0 (Hs l0 El')) as [n [n' [S [_ [B _]]]]].
      exists n. split; [intro k; apply B|]. intros k Hk. rewrite <- X2 in Hk.
      destruct (S (w_keep w (rs_strategy r) (Some l0) (int_of (rs_pre_threshold r)))) as [_ [_ K]]. apply K. exact Hk. }
  rewrite X2. destruct (Sel None) as [n [Hn K]]. split.
  - exists l0. split; [exact Pl|]. split; [exact El'|]. intros k Hk. apply K in Hk. exists (n k). split; [lia|tauto].
  - intros t k Ht Hk. apply K in Hk. destruct Hk as [_ Hk]. rewrite Ht in Hk. cbn in Hk. apply Hh in Hk.
    exists (pairs_ids k rows). split; [apply NoDup_distinct|]. split; [specialize (Hn k); lia|].
    intros u Hu. unfold pairs_ids in Hu. apply (proj1 (in_distinct _ _)) in Hu. apply in_map_iff in Hu.
    destruct Hu as [[a1 b] [Ea Hr]]. cbn in Ea. subst a1. apply filter_In in Hr. destruct Hr as [Hr Ek]. cbn in Ek. apply eqb_eq in Ek.
    subst rows. apply in_map_iff in Hr. destruct Hr as [[u' x] [Ex Hx]]. cbn in Ex. inversion Ex; subst. exists x. auto.
Qed.

(** Spark does so when the other fields have their default values. *)
Theorem C47_spark_select {U E P} `{EqDec U} `{EqDec P} (w : world U P) r (ext : E -> P) (rdd : list (U * E)) :
  rs_budget_weight r = 1%Q -> rs_strategy r = TruncatedGeometric -> rs_pre_threshold r = None ->
  spark_select w r ext rdd = beam_select w r ext rdd.
Proof. intros E1 E2 E3. unfold spark_select, beam_select, spark_select_params. destruct r; cbn in *. subst. reflexivity. Qed.

Theorem C47_spark_select_refuted :
  exists (w : world Z Z) (r : raw_select_params) (rdd : list (Z * Z)),
    honest_pre_threshold w /\ rs_pre_threshold r = Some (PInt 10) /\
    rmap snd (run_select w r rdd) = Ok [] /\
    rmap snd (spark_select w r (fun x => x) rdd) = Ok [5%Z].
Proof.
  exists (demo_world Z Z), (RawSelect (Some (PInt 1)) 1 TruncatedGeometric (Some (PInt 10))), [(1, 5)]%Z.
  split; [apply demo_honest|]. vm_compute. repeat split.
Qed.

Theorem C47_spark_select_strategy_refuted :
  exists (w : world Z Z) (r : raw_select_params) (rdd : list (Z * Z)),
    rs_strategy r = GaussianThresholding /\
    rmap snd (run_select w r rdd) = Ok [] /\
    rmap snd (spark_select w r (fun x => x) rdd) = Ok [5%Z].
Proof.
  exists (World Z Z (w_sampling (demo_world Z Z))
            (fun s _ _ _ n => match s with GaussianThresholding => (20 <=? n)%Z | _ => (1 <=? n)%Z end)
            (fun _ _ => no_noise)),
    (RawSelect (Some (PInt 1)) 1 GaussianThresholding None), [(1, 5)]%Z.
  vm_compute. repeat split.
Qed.

(** *** CombinePerKey *)

Theorem C47_beam_combine {U P V A O} `{EqDec U} `{EqDec P} (w : world U P) (f : combine_fn V A O) k
    (pcol : list (U * (P * V))) :
  k_budget_weight k = 1%Q -> k_public_partitions k = None ->
  beam_combine w f k pcol = asked_combine w f k pcol.
Proof. intros E1 E2. unfold asked_combine. rewrite E1, E2. reflexivity. Qed.

Definition demo_fn : combine_fn Z Z Z :=
  CombineFn Z Z Z 0%Z Z.add (fun l => fold_left Z.add l 0%Z) (fun a => a) [Request LAPLACE 1 1 None].

(** The public partitions given to CombinePerKey are ignored: a public partition
    without data is missing and a non-public one is there. *)
Theorem C47_beam_combine_public_partitions_refuted :
  exists (k : combine_params Z) (pcol : list (Z * (Z * Z))),
    let w := demo_world Z Z in
    k_public_partitions k = Some [7%Z] /\
    rmap snd (asked_combine w demo_fn k pcol) = Ok (Ok [(7%Z, 0%Z)]) /\
    rmap snd (beam_combine w demo_fn k pcol) = Ok (Ok [(5%Z, 3%Z)]).
Proof.
  exists (CombineParams Z (Some (PInt 1)) (Some (PInt 1)) 1 (Some [7%Z])), [(1, (5, 3))]%Z.
  vm_compute. repeat split.
Qed.

Theorem C47_beam_combine_budget_weight_refuted :
  exists (k1 k2 : combine_params Z) (pcol : list (Z * (Z * Z))) (f : combine_fn Z Z Z),
    let w := demo_world Z Z in
    k_budget_weight k1 = 1%Q /\ k_budget_weight k2 = 3%Q /\
    shares 4 (ops_of (asked_combine w f k1 pcol)) (ops_of (asked_combine w f k2 pcol))
      <> shares 4 (ops_of (beam_combine w f k1 pcol)) (ops_of (beam_combine w f k2 pcol)).
Proof.
  exists (CombineParams Z (Some (PInt 1)) (Some (PInt 1)) 1 None),
         (CombineParams Z (Some (PInt 1)) (Some (PInt 1)) 3 None), [(1, (5, 3))]%Z, demo_fn.
  vm_compute. repeat split. discriminate.
Qed.

(** The hypotheses are met: Beam runs a MEAN request of weight 1. *)
Example C47_beam_example :
  let c := RMean (ValueParams Z Z (Some (PInt 1)) (Some (PInt 1)) (Some (Fin 0)) (Some (Fin 4)) (fun x => x mod 2)%Z
                   (fun x => inject_Z x) 1 GaussianNoise false (Some (PInt 2))) in
  let w := demo_world (option Z) Z in
  let pcol := [(1, 3); (2, 1); (3, 2); (1, 2)]%Z in
  weight_of c = 1%Q /\ enforced_of c = false /\
  honest_pre_threshold w /\
  (forall p, post_init (beam_params c) = Ok p -> valid_sampling p (w_sampling w)) /\
  (forall k i l qs, length (n_quantiles (w_noise w k i) l qs) = length qs) /\
  exists ops q, beam_run w c None pcol = Ok (ops, Ok [(1%Z, RNum q)]) /\ Qred q = 2%Q.
Proof.
  split; [reflexivity|]. split; [reflexivity|]. split; [apply demo_honest|]. split; [|split; [reflexivity|]].
  - intros p Hp. vm_compute in Hp. inversion Hp; subst p. unfold valid_sampling. cbn.
    assert (G : forall T, valid_source 1 (fun (_ : T) (_ : nat) => [0%nat])).
    { intros T g n Hn. unfold valid_draw. split; [repeat constructor; intros []|]. split; [reflexivity|].
      constructor; [lia|constructor]. }
    split; intros x Hx; inversion Hx; subst; apply G.
  - eexists. eexists. split; vm_compute; reflexivity.
Qed.

(** ** C54 *)

(** After any sequence of private transformations, the rows of one privacy id
    are what the same transformations make of its own input elements, and
    likewise for the rows of all the others. *)
Theorem C54_rows_tracked {U X O} `{EqDec U} (extractor : X -> U) (ts : list (transform U X O)) (u : U)
    (data : list X) col :
  pipes (make_private extractor data) ts = Ok (Some (Private col)) ->
  pipes (make_private extractor (filter (fun x => eqb (extractor x) u) data)) ts
    = Ok (Some (Private (rows_of u col))) /\
  pipes (make_private extractor (filter (fun x => negb (eqb (extractor x) u)) data)) ts
    = Ok (Some (Private (rows_without u col))).
Proof.
  intro E0. destruct (pipes_private _ _ _ E0) as [F ->]. unfold rows_of, rows_without.
  rewrite (apply_all_filter ts (fun v => eqb v u)), (make_private_filter extractor (fun v => eqb v u)).
  rewrite (apply_all_filter ts (fun v => negb (eqb v u))), (make_private_filter extractor (fun v => negb (eqb v u))).
  split; apply pipes_apply; exact F.
Qed.

(** No element is lost, added, reordered or given to another privacy id: the
    private collection holds what every element becomes, with the privacy id of the
    element it comes from. *)
Theorem C54_every_element_kept {U X O} (extractor : X -> U) (ts : list (transform U X O)) (data : list X) col :
  pipes (make_private extractor data) ts = Ok (Some (Private col)) ->
  exists yss,
    Forall2 (becomes ts) data yss /\
    col = concat (map (fun '(x, ys) => map (fun y => (extractor x, y)) ys) (combine data yss)).
Proof.
  intro E0. destruct (pipes_private _ _ _ E0) as [F ->]. exact (apply_all_becomes extractor ts data F).
Qed.

(** Two inputs that differ in the elements of one privacy id only stay so. *)
Theorem C54_neighbours_stay_neighbours {U X O} `{EqDec U} (extractor : X -> U) (ts : list (transform U X O)) (u : U)
    (data data' : list X) col col' :
  filter (fun x => negb (eqb (extractor x) u)) data = filter (fun x => negb (eqb (extractor x) u)) data' ->
  pipes (make_private extractor data) ts = Ok (Some (Private col)) ->
  pipes (make_private extractor data') ts = Ok (Some (Private col')) ->
  rows_without u col = rows_without u col'.
Proof.
  intros D E1 E2. apply (C54_rows_tracked extractor ts u) in E1. apply (C54_rows_tracked extractor ts u) in E2.
  destruct E1 as [_ E1], E2 as [_ E2]. rewrite D in E1. rewrite E1 in E2. congruence.
Qed.

(** Whatever leaves a private collection was computed by an anonymising transform
    from a private collection with tracked rows: removing a privacy id from the
    input removes exactly its rows from what the aggregation sees. *)
Theorem C54_only_anonymised_output {U X O} `{EqDec U} (extractor : X -> U) (ts : list (transform U X O))
    (data : list X) o :
  pipes (make_private extractor data) ts = Ok (Some (Anonymous o)) ->
  exists ts' agg col,
    ts = ts' ++ [TAnonymise agg] /\ Forall stays_private ts' /\ o = agg col /\
    pipes (make_private extractor data) ts' = Ok (Some (Private col)) /\
    forall u, pipes (make_private extractor (filter (fun x => negb (eqb (extractor x) u)) data)) ts
              = Ok (Some (Anonymous (agg (rows_without u col)))).
Proof.
  intro E0. destruct (pipes_anonymous _ _ _ E0) as [ts' [agg [-> [F ->]]]].
  exists ts', agg, (apply_all ts' (make_private extractor data)). split; [reflexivity|]. split; [exact F|].
  split; [reflexivity|]. split; [apply pipes_apply; exact F|]. intro u.
  assert (G : forall c, pipes c (ts' ++ [TAnonymise agg]) = Ok (Some (Anonymous (agg (apply_all ts' c))))).
  { clear -F. induction F as [|t ts' Ht F IH]; intro c; [reflexivity|].
    destruct t; cbn in Ht; try contradiction; cbn [app pipes pipe rbind apply_all apply_one]; apply IH. }
  rewrite G. unfold rows_without.
  rewrite (apply_all_filter ts' (fun v => negb (eqb v u))), (make_private_filter extractor (fun v => negb (eqb v u))).
  reflexivity.
Qed.

(** Anything that is not a private transform is rejected. *)
Theorem C54_other_objects_rejected {U X O} (ts ts' : list (transform U X O)) col c :
  pipes col ts = Ok (Some (Private c)) -> pipes col (ts ++ TOther :: ts') = Err TypeError.
Proof.
  revert col. induction ts as [|t ts IH]; intro col; cbn [pipes app].
  - intros _. reflexivity.
  - destruct t as [f|f|a|]; cbn [pipe rbind]; intro E0; try (apply IH; exact E0); destruct ts; discriminate.
Qed.

Example C54_example :
  let ts := [TMap (fun x => x + 1)%Z; TFlatMap (fun x => [x; x * 10]%Z)] in
  pipes (make_private (fun x => x mod 2)%Z [1; 2; 3]%Z) (ts ++ [TAnonymise (fun col : list (Z * Z) => length col)])
    = Ok (Some (Anonymous 6%nat)) /\
  pipes (O := unit) (make_private (fun x => x mod 2)%Z [1; 2; 3]%Z) [TMap (fun x => x + 1)%Z; TFlatMap (fun x => [x; x * 10]%Z)]
    = Ok (Some (Private [(1, 2); (1, 20); (0, 3); (0, 30); (1, 4); (1, 40)]%Z)).
Proof. vm_compute. split; reflexivity. Qed.

Print Assumptions C47_beam_runs_what_is_asked.
Print Assumptions C47_spark_runs_what_is_asked.
Print Assumptions C47_one_number_per_partition.
Print Assumptions C47_beam_pre_threshold.
Print Assumptions C47_spark_pre_threshold_refuted.
Print Assumptions C54_rows_tracked.
Print Assumptions C54_every_element_kept.
Print Assumptions C54_only_anonymised_output.
