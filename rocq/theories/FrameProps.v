(** C78: a query on a data frame releases no more about a privacy unit than its budget allows,
    and neither do sessions of queries chosen one after the other; the queries that the
    documentation allows run and return one row per group. *)
From Coq Require Import String List ZArith QArith Qreals Reals Bool Permutation Lia Lqa Lra.
From Verif Require Import Base BaseLemmas ListLemmas BackendModel BackendSpec BounderSpec ParamsModel SensModel CombinerModel CombinerSpec EngineModel EngineSpec EngineProps
  BudgetModel BudgetSpec LaplaceSpec SelectModel SelectSpec WrapperModel DistSpec DistProofs DpModel DpSpec DpProofs4 DpProps PipelineSpec DataframeModel DataframeProofs DataframeProps
  FrameModel FrameSpec FrameProofs FrameProofs2.
Import ListNotations.
Local Open Scope R_scope.
Local Open Scope list_scope.

(** One query: whatever is looked at in the returned frame, apart from the order of the rows. *)
Theorem C78_query_is_private {C} `{EqDec C} (py : pydp) (zero : C) chars number columns privacy rows u (j : job C) :
  pydp_keeps_promises py -> fit number zero columns privacy rows u j ->
  forall E, order_blind E ->
  indistinguishable (Q2R (j_epsilon j)) (Q2R (j_delta j))
    (prob (run_job py zero chars number columns rows j) E)
    (prob (run_job py zero chars number columns (rows_without columns privacy u rows) j) E).
Proof.
  intros Hpy Hf E HE.
  assert (M : forall f f' : result (frame C), same_frame f f' -> indicator (E f) = indicator (E f')) by (intros f f' S; rewrite (HE f f' S); reflexivity).
  destruct (run_fit_job py zero chars number columns privacy rows u j Hf _ M) as [M1 M2].
  destruct (job_both py zero chars number columns privacy rows u j Hf Hpy) as [_ [_ [B1 B2]]].
  unfold indistinguishable, prob. rewrite M1, M2. split; [apply (below_prob _ _ _ _ E B1) | apply (below_prob _ _ _ _ E B2)].
Qed.
Print Assumptions C78_query_is_private.

(** Any session: the budgets add up. *)
Theorem C78_session_is_private {C} `{EqDec C} (py : pydp) (zero : C) chars number columns privacy rows u (s : session C) e d :
  pydp_keeps_promises py -> within number zero columns privacy rows u s e d ->
  forall E, orders_blind E ->
  indistinguishable (Q2R e) (Q2R d)
    (prob (run_session py zero chars number columns rows s) E)
    (prob (run_session py zero chars number columns (rows_without columns privacy u rows) s) E).
Proof.
  intros Hpy Hw E HE.
  assert (M : forall f f' : list (result (frame C)), Forall2 same_frame f f' -> indicator (E f) = indicator (E f')) by (intros f f' S; rewrite (HE f f' S); reflexivity).
  destruct (run_session_is py zero chars number columns privacy rows u s e d Hw _ M) as [M1 M2].
  destruct (session_both py zero chars number columns privacy rows u s e d Hw Hpy) as [_ [_ [_ [B1 B2]]]].
  unfold indistinguishable, prob. rewrite M1, M2. split; [apply (below_prob _ _ _ _ E B1) | apply (below_prob _ _ _ _ E B2)].
Qed.
Print Assumptions C78_session_is_private.

(** The frame that a query returns, whatever is drawn: its columns, and one row per group. *)
Theorem C78_frame {C} `{EqDec C} (zero : C) chars number columns privacy (calls : list (bcall (pkey C))) b0 b q by_ g n public (rows : list (list C)) nk (w : world C (pkey C)) :
  new_builder columns privacy = Ok b0 -> brun b0 calls = Ok b -> build_query b = Ok q ->
  In (GroupBy by_ g n public) calls -> (forall c, by_ <> ByList [c]) ->
  (0 < g)%Z -> (0 < n)%Z -> good_range (map fst (DataframeProps.requested calls)) (q_min q) (q_max q) ->
  Forall (fun row => List.length row = List.length columns) rows ->
  (forall c, q_value q = Some c -> In c columns) ->
  let fields := (group_columns by_ ++ map column_name (DataframeProps.requested calls))%list in
  NoDup fields -> Forall (fun f => valid_field f = true) fields ->
  (forall keys k, public = Some keys -> In k keys -> shaped by_ k) ->
  valid_source (Z.to_nat g) (ch_pid (w_sampling w)) -> valid_source (Z.to_nat n) (ch_pid_pk (w_sampling w)) ->
  exists elements (res : list (pkey C * list (string * released))) out,
    Forall2 (element_of zero columns privacy by_ (q_value q)) rows elements /\
    query_frame zero chars number nk q columns rows w = Ok (fields, out) /\
    Forall2 (row_of by_ (DataframeProps.requested calls)) res out /\ NoDup (map fst res) /\
    (forall k, In k (map fst res) -> match public with Some keys => In k keys | None => In k (map (fun e => snd (fst e)) elements) end) /\
    (forall keys, public = Some keys -> forall k, In k keys -> In k (map fst res)).
Proof.
  intros EN ER EB IG NL Pg Pn Hr LR IV fields NF VF SP V1 V2.
  assert (EN0 := EN). unfold new_builder in EN. destruct (mem_string privacy columns) eqn:MP; [|discriminate]. injection EN as <-.
  destruct (brun_spec calls _ _ ER) as (RS & _ & _ & _ & RG). cbn [b_specs map app] in RS.
  destruct (RG _ _ _ _ IG) as (_ & GP & GG & GN & _).
  destruct (build_query_spec b q EB) as (ND & _ & QM & _ & QU & QG & QN & _). rewrite RS in QM. rewrite <- QM in Hr.
  rewrite GG in QG. rewrite GN in QN. rewrite GP in QU.
  destruct (query_accepted q nk g n QG QN Pg Pn Hr) as [p Hp].
  destruct (query_has_combiners q nk g n QG QN Pg Pn Hr p Hp) as [cs [Hc _]].
  assert (Hv : valid_sampling p (w_sampling w)).
  { destruct (query_params_fields q nk p Hp) as [_ [_ [_ [Mc [_ [_ [_ [_ [_ [El [Ec _]]]]]]]]]]]. unfold valid_sampling. rewrite Mc, El, Ec, QG, QN.
    split; intros z X; injection X as <-; assumption. }
  assert (Ret := fun els => engine_returns number nk w q p els Hp (ex_intro _ cs Hc) Hv ND).
  destruct (C46_query (V := released) zero chars (query_engine number nk w) columns privacy calls _ b q by_ g n public rows EN0 ER EB IG NL LR IV NF VF SP) as [els [res [out [Fe [Er [Eq Fo]]]]]].
  { intro els. destruct (Ret els) as [res [E [_ [_ F]]]]. exists res. split; [exact E|]. rewrite <- QM, <- QU. exact F. }
  exists els, res, out. split; [exact Fe|]. split; [exact Eq|]. split; [exact Fo|].
  destruct (Ret els) as [res' [E [Nr [Kp F]]]]. rewrite Er in E. injection E as <-. split; [exact Nr|]. rewrite QU in Kp, F. split.
  - intros k I. destruct public as [keys|]; [apply (Kp keys eq_refl); exact I|]. apply in_map_iff in I. destruct I as [pm [<- I]].
    rewrite Forall_forall in F. destruct (F pm I) as [[X|[keys [X _]]] _]; [exact X | discriminate].
  - intros keys Ek k I. apply (Kp keys Ek). exact I.
Qed.
Print Assumptions C78_frame.

(** Such a query never raises: not when the engine is built, nor when the budget is asked for,
    nor when the rows are made. *)
Theorem C78_query_never_raises {C} `{EqDec C} (py : pydp) (zero : C) chars number columns privacy (calls : list (bcall (pkey C))) b0 b by_ g n public (rows : list (list C)) u (j : job C) :
  pydp_keeps_promises py -> fit number zero columns privacy rows u j ->
  new_builder columns privacy = Ok b0 -> brun b0 calls = Ok b -> build_query b = Ok (j_query j) ->
  In (GroupBy by_ g n public) calls -> (forall c, by_ <> ByList [c]) ->
  (0 < g)%Z -> (0 < n)%Z -> good_range (map fst (DataframeProps.requested calls)) (q_min (j_query j)) (q_max (j_query j)) ->
  (j_noise j = GaussianNoise -> 0 < j_delta j)%Q ->
  Forall (fun row => List.length row = List.length columns) rows ->
  (forall c, q_value (j_query j) = Some c -> In c columns) ->
  let fields := (group_columns by_ ++ map column_name (DataframeProps.requested calls))%list in
  NoDup fields -> Forall (fun f => valid_field f = true) fields ->
  (forall keys k, public = Some keys -> In k keys -> shaped by_ k) ->
  prob (run_job py zero chars number columns rows j) (fun f => match f with Ok (fields', _) => strings_eqb fields' fields | Err _ => false end) = 1.
Proof.
  intros Hpy Hf EN ER EB IG NL Pg Pn Hr Hd LR IV fields NF VF SP.
  destruct (run_fit_job py zero chars number columns privacy rows u j Hf (fun _ => 1) (fun _ _ _ => eq_refl)) as [M1 _].
  destruct (job_both py zero chars number columns privacy rows u j Hf Hpy) as [D1 _].
  assert (One : mixture (run_job py zero chars number columns rows j) (fun _ => 1) = 1) by (rewrite M1; apply mixture_const; exact D1).
  assert (Hf0 := Hf). destruct Hf0 as [_ [Hbud [Vg [Vn [_ [els [Et _]]]]]]].
  destruct (brun_spec calls _ _ ER) as (RS & _ & _ & _ & RG). cbn [b_specs map app] in RS.
  destruct (RG _ _ _ _ IG) as (_ & GP & GG & GN & _).
  destruct (build_query_spec b _ EB) as (ND & _ & QM & _ & QU & QG & QN & _).
  rewrite GG in QG. rewrite GN in QN.
  assert (Hr' : good_range (map fst (q_metrics (j_query j))) (q_min (j_query j)) (q_max (j_query j))).
  { unfold new_builder in EN. destruct (mem_string privacy columns); [|discriminate]. injection EN as <-. cbn in RS. rewrite QM, RS. exact Hr. }
  destruct (query_accepted (j_query j) (j_noise j) g n QG QN Pg Pn Hr') as [p Hp].
  destruct (query_has_combiners (j_query j) (j_noise j) g n QG QN Pg Pn Hr' p Hp) as [cs [Hc Nt]].
  destruct (query_params_fields _ _ _ Hp) as [_ [Pk [Pw _]]].
  destruct (query_granted p (q_public (j_query j)) cs (j_epsilon j) (j_delta j) Pw Hbud ltac:(rewrite Pk; exact Hd) Nt) as [bs Hbs].
  transitivity (mixture (run_job py zero chars number columns rows j) (fun _ => 1)); [|exact One]. clear One M1. unfold prob, run_job. rewrite Et. cbn [rbind]. unfold job_call. rewrite Hp. cbn [rbind]. rewrite Hc. cbn [rmap rbind c_params c_public c_combiners].
  rewrite Hbs. cbn [rmap]. destruct (t_limits (j_setting j)) as [[N X] T]. cbv zeta. unfold random_world. cbn [c_combiners c_keys c_params c_public c_sampling c_rows].
  rewrite !mixture_bind. apply mixture_ext. intro keep. rewrite !mixture_bind. apply mixture_ext. intro noise. rewrite !mixture_bind.
  apply mixture_ext. intro noised. rewrite !mixture_bind. apply mixture_ext. intro answers. rewrite !mixture_ret.
  match goal with |- context [query_frame _ _ _ _ _ _ _ ?w] =>
    destruct (C78_frame zero chars number columns privacy calls b0 b _ by_ g n public rows (j_noise j) w EN ER EB IG NL Pg Pn Hr LR IV NF VF SP (Vg g QG) (Vn n QN)) as [? [? [? [_ [E _]]]]] end.
  fold fields in E. rewrite E. unfold strings_eqb. destruct (list_eq_dec string_dec fields fields) as [_|N0]; [reflexivity | congruence].
Qed.
Print Assumptions C78_query_never_raises.

(** ** A case *)
Local Open Scope string_scope.
Definition demo_columns : list string := ["user"; "city"; "day"; "spent"].
Definition demo_cells : list (list Z) := [[1; 10; 1; 4]; [1; 20; 1; 6]; [1; 10; 2; 1]; [2; 10; 1; 8]; [3; 20; 2; 12]]%Z.
Definition visits_calls : list (bcall (pkey Z)) := [GroupBy (ByStr "city") 2 1 None; Count (Some "visits"); Sum "spent" (Some 0%Q) (Some 10%Q) None].
Definition mean_calls : list (bcall (pkey Z)) :=
  [GroupBy (ByList ["city"; "day"]) 2 2 (Some [Many [10; 1]; Many [20; 1]]%Z); Mean "spent" (Some 0%Q) (Some 10%Q) (Some "average")].
Definition visits_query : query (pkey Z) := Query "user" (ByStr "city") (Some "spent") [(ACount, Some "visits"); (ASum, None)] (Some 2%Z) (Some 1%Z) (Some 0%Q) (Some 10%Q) None.
Definition mean_query : query (pkey Z) :=
  Query "user" (ByList ["city"; "day"]) (Some "spent") [(AMean, Some "average")] (Some 2%Z) (Some 2%Z) (Some 0%Q) (Some 10%Q) (Some [Many [10; 1]; Many [20; 1]]%Z).
Definition visits_job limits : job Z :=
  Job visits_query 1 (1 # 10) LaplaceNoise (Setting (Sampling Z (pkey Z) (fun _ => first_n 1) (fun _ => first_n 2)) [One 10; One 20]%Z limits).
Definition mean_job limits : job Z :=
  Job mean_query (1 # 2) (1 # 100) GaussianNoise (Setting (Sampling Z (pkey Z) (fun _ => first_n 2) (fun _ => first_n 2)) [Many [10; 1]; Many [20; 1]]%Z limits).
(** The second query is asked only if the first one returned some city. *)
Definition demo_session limits : session Z :=
  Ask (visits_job limits) (fun f => match f with Ok (_, _ :: _) => Ask (mean_job limits) (fun _ => Stop) | _ => Stop end).

Example C78_hypotheses_met : exists limits,
  within inject_Z 0%Z demo_columns "user" demo_cells 1%Z (demo_session limits) (3 # 2) (11 # 100) /\
  pydp_keeps_promises toy_pydp /\
  rows_without demo_columns "user" 1%Z demo_cells = [[2; 10; 1; 8]; [3; 20; 2; 12]]%Z /\
  (exists b0 b, new_builder demo_columns "user" = Ok b0 /\ brun b0 visits_calls = Ok b /\ build_query b = Ok visits_query) /\
  (exists b0 b, new_builder demo_columns "user" = Ok b0 /\ brun b0 mean_calls = Ok b /\ build_query b = Ok mean_query) /\
  good_range (map fst (DataframeProps.requested visits_calls)) (q_min visits_query) (q_max visits_query) /\
  good_range (map fst (DataframeProps.requested mean_calls)) (q_min mean_query) (q_max mean_query) /\
  (let fields := (group_columns (ByStr "city") ++ map column_name (DataframeProps.requested visits_calls))%list in
   fields = ["city"; "visits"; "sum"] /\ NoDup fields /\ Forall (fun f => valid_field f = true) fields) /\
  (let fields := (group_columns (ByList ["city"; "day"]) ++ map column_name (DataframeProps.requested mean_calls))%list in
   fields = ["city"; "day"; "average"] /\ NoDup fields /\ Forall (fun f => valid_field f = true) fields).
Proof.
  pose (els := fun q : query (pkey Z) => match to_collection 0%Z q demo_columns demo_cells with Ok e => e | Err _ => [] end).
  pose (cl := fun j => match job_call inject_Z j (els (j_query j)) with Ok c => [c] | Err _ => [] end).
  destruct (C61_large_enough_exists (cl (visits_job (0%nat, [], [])) ++ cl (mean_job (0%nat, [], [])))%list 1%Z) as [N [X [T L]]].
  apply Forall_app in L. destruct L as [L1 L2]. exists (N, X, T).
  assert (B1 : exists b0 b, new_builder demo_columns "user" = Ok b0 /\ brun b0 visits_calls = Ok b /\ build_query b = Ok visits_query)
    by (do 2 eexists; split; [reflexivity|]; split; reflexivity).
  assert (B2 : exists b0 b, new_builder demo_columns "user" = Ok b0 /\ brun b0 mean_calls = Ok b /\ build_query b = Ok mean_query)
    by (do 2 eexists; split; [reflexivity|]; split; reflexivity).
  split; [|split; [exact toy_pydp_keeps_promises|]; split; [vm_compute; reflexivity|]; split; [exact B1|]; split; [exact B2|]].
  2: { cbn. repeat split; try discriminate; try (intros _ [_ Y]; discriminate); try reflexivity; try (intros [Y|[Y|[]]]; discriminate);
       try (apply (distinctb_iff (A := string)); reflexivity); repeat constructor. }
  assert (F1 : fit inject_Z 0%Z demo_columns "user" demo_cells 1%Z (visits_job (N, X, T))).
  { split; [destruct B1 as [b0 [b [E1 [E2 E3]]]]; exists b0, visits_calls, b; auto|]. split; [reflexivity|].
    split; [intros l E; injection E as <-; apply first_n_valid|]. split; [intros l E; injection E as <-; apply first_n_valid|].
    split; [repeat constructor; cbn; intuition discriminate|]. exists (els visits_query). split; [reflexivity|].
    split; [vm_compute; tauto|]. cbn [t_limits j_setting visits_job]. intros c Ec.
    unfold cl in L1. change (job_call inject_Z (visits_job (0%nat, [], [])) (els (j_query (visits_job (0%nat, [], []))))) with (job_call inject_Z (visits_job (N, X, T)) (els visits_query)) in L1.
    rewrite Ec in L1. inversion L1. assumption. }
  assert (F2 : fit inject_Z 0%Z demo_columns "user" demo_cells 1%Z (mean_job (N, X, T))).
  { split; [destruct B2 as [b0 [b [E1 [E2 E3]]]]; exists b0, mean_calls, b; auto|]. split; [reflexivity|].
    split; [intros l E; injection E as <-; apply first_n_valid|]. split; [intros l E; injection E as <-; apply first_n_valid|].
    split; [repeat constructor; cbn; intuition discriminate|]. exists (els mean_query). split; [reflexivity|].
    split; [cbn; tauto|]. cbn [t_limits j_setting mean_job]. intros c Ec.
    unfold cl in L2. change (job_call inject_Z (mean_job (0%nat, [], [])) (els (j_query (mean_job (0%nat, [], []))))) with (job_call inject_Z (mean_job (N, X, T)) (els mean_query)) in L2.
    rewrite Ec in L2. inversion L2. assumption. }
  apply (within_ask _ _ _ _ _ _ _ _ _ _ (1 # 2) (1 # 100)); [exact F1| | |cbn; discriminate|cbn; discriminate].
  - intros [[fs [|o os]]|] [[fs' [|o' os']]|] S; cbn in S; try contradiction; try reflexivity.
    + destruct S as [_ S]. apply Permutation_nil_cons in S. contradiction.
    + destruct S as [_ S]. apply Permutation_sym, Permutation_nil_cons in S. contradiction.
  - intros [[fs [|o os]]|]; [constructor; discriminate| |constructor; discriminate].
    apply (within_ask _ _ _ _ _ _ _ _ _ _ 0 0); [exact F2 | reflexivity | intro; constructor; discriminate | cbn; discriminate | cbn; discriminate].
Qed.
