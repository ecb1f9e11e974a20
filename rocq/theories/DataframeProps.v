(** C46: DataFrame queries. *)
From Coq Require Import List ZArith QArith String Ascii Bool Lia Permutation.
From Verif Require Import Base ListLemmas ParamsModel DataframeModel DataframeProofs.
Import ListNotations.
Local Open Scope string_scope.

(** What the calls of the builder ask for: the metrics with the names of their output columns (None: the
    name of the metric), in the order of the calls. *)
Definition requested {K} (calls : list (bcall K)) : list (agg * option string) :=
  flat_map (fun c => match c with
                     | GroupBy _ _ _ _ => []
                     | Count n => [(ACount, n)]
                     | Sum _ _ _ n => [(ASum, n)]
                     | Mean _ _ _ n => [(AMean, n)]
                     end) calls.
Definition column_name (m : agg * option string) : string :=
  match m with
  | (_, Some n) => n
  | (ACount, None) => "count"
  | (ASum, None) => "sum"
  | (AMean, None) => "mean"
  end.
Definition metric_name (a : agg) : string := match a with ACount => "count" | ASum => "sum" | AMean => "mean" end.
Definition group_columns (b : by_arg) : list string := match b with ByStr c => [c] | ByList cs => cs | ByOther => [] end.

Lemma column_name_eq m : output_column m = column_name m.
Proof. destruct m as [[| |] [n|]]; reflexivity. Qed.
Lemma metric_name_eq a : agg_name a = metric_name a.
Proof. destruct a; reflexivity. Qed.

(** The builder after any successful calls. *)
Lemma brun_spec {K} (calls : list (bcall K)) : forall b b', brun b calls = Ok b' ->
  map (fun s => (a_metric s, a_output s)) (b_specs b') = (map (fun s => (a_metric s, a_output s)) (b_specs b) ++ requested calls)%list /\
  b_columns b' = b_columns b /\ b_privacy b' = b_privacy b /\
  (b_by b <> None -> b_by b' = b_by b /\ b_public b' = b_public b /\ b_max_groups b' = b_max_groups b /\ b_max_contributions b' = b_max_contributions b) /\
  (forall by_ g n p, In (GroupBy by_ g n p) calls ->
     b_by b' = Some by_ /\ b_public b' = p /\ b_max_groups b' = Some g /\ b_max_contributions b' = Some n /\
     by_ <> ByOther /\ incl (by_columns by_) (b_columns b)).
Proof.
  induction calls as [|c calls IH]; intros b b' E; cbn [brun] in E.
  - injection E as <-. rewrite app_nil_r. repeat split; auto; destruct H.
  - destruct (bstep b c) as [b1|] eqn:E1; [|discriminate]. cbn [rbind] in E. destruct (IH _ _ E) as (S1 & C1 & P1 & K1 & G1). clear IH.
    assert (AA : forall s, add_aggregation b s = Ok b1 -> requested [c] = [(a_metric s, a_output s)] -> (forall by_ g n p, c <> GroupBy by_ g n p) ->
       map (fun s => (a_metric s, a_output s)) (b_specs b') = (map (fun s => (a_metric s, a_output s)) (b_specs b) ++ requested (c :: calls))%list /\
       b_columns b' = b_columns b /\ b_privacy b' = b_privacy b /\
       (b_by b <> None -> b_by b' = b_by b /\ b_public b' = b_public b /\ b_max_groups b' = b_max_groups b /\ b_max_contributions b' = b_max_contributions b) /\
       (forall by_ g n p, In (GroupBy by_ g n p) (c :: calls) ->
          b_by b' = Some by_ /\ b_public b' = p /\ b_max_groups b' = Some g /\ b_max_contributions b' = Some n /\
          by_ <> ByOther /\ incl (by_columns by_) (b_columns b))).
    { intros s X R NG. unfold add_aggregation in X. destruct (b_by b) as [by0|] eqn:Eby; [|discriminate]. cbn [is_some] in X. injection X as <-.
      cbn [b_specs b_columns b_privacy b_by b_public b_max_groups b_max_contributions] in *.
      split; [|split; [exact C1|split; [exact P1|split]]].
      - rewrite S1, map_app. unfold requested in *. cbn [flat_map map] in *. rewrite app_nil_r in R. rewrite R, <- app_assoc. reflexivity.
      - intros _. apply K1. discriminate.
      - intros by_ g n p [X|I]; [exfalso; exact (NG _ _ _ _ X) | exact (G1 _ _ _ _ I)]. }
    destruct c as [by0 g0 n0 p0|nm|col lo hi nm|col lo hi nm]; cbn [bstep] in E1.
    + unfold groupby in E1. destruct (b_by b) as [|] eqn:Eby; [discriminate|]. cbn [is_some] in E1.
      destruct (match by0 with ByStr c => mem_string c (b_columns b) | ByList cs => forallb (fun c => mem_string c (b_columns b)) cs | ByOther => false end) eqn:Kn; [|discriminate].
      injection E1 as <-. cbn [b_specs b_columns b_privacy b_by b_public b_max_groups b_max_contributions] in *.
      split; [exact S1|]. split; [exact C1|]. split; [exact P1|]. split; [congruence|].
      destruct K1 as (K1 & K2 & K3 & K4); [discriminate|].
      intros by_ g n p [X|I].
      * injection X as <- <- <- <-. repeat (split; [assumption|]). split; [destruct by0; congruence|].
        destruct by0 as [c|cs|]; cbn [by_columns]; [| |discriminate].
        -- intros x [<-|[]]. apply mem_string_iff. exact Kn.
        -- intros x I. rewrite forallb_forall in Kn. apply mem_string_iff. apply Kn. exact I.
      * exact (G1 _ _ _ _ I).
    + apply (AA _ E1); [reflexivity | discriminate].
    + apply (AA _ E1); [reflexivity | discriminate].
    + apply (AA _ E1); [reflexivity | discriminate].
Qed.

(** The element made of a row: the cells of the privacy column, of the group-by column or columns, and
    of the value column. *)
Definition element_of {C} (zero : C) (columns : list string) (privacy : string) (b : by_arg) (value : option string) (row : list C) (e : C * pkey C * C) : Prop :=
  let '(u, k, v) := e in
  cell_at columns row privacy = Some u /\
  match b with
  | ByStr c => exists x, k = One x /\ cell_at columns row c = Some x
  | ByList cs => exists xs, k = Many xs /\ Forall2 (fun c x => cell_at columns row c = Some x) cs xs
  | ByOther => False
  end /\
  match value with None => v = zero | Some c => cell_at columns row c = Some v end.

(** A row of the result for a partition: first the group-by values, then the requested metrics. *)
Definition row_of {C V} (b : by_arg) (metrics : list (agg * option string)) (pm : pkey C * list (string * V)) (row : list (out_cell C V)) : Prop :=
  exists keys vals, row = (map Key keys ++ map Val vals)%list /\
    match b with
    | ByStr _ => keys = [fst pm]
    | _ => exists cs, fst pm = Many cs /\ keys = map One cs /\ List.length cs = List.length (group_columns b)
    end /\
    Forall2 (fun m v => In (metric_name (fst m), v) (snd pm)) metrics vals.

(** A key of the shape that the group-by columns have. *)
Definition shaped {C} (b : by_arg) (k : pkey C) : Prop :=
  match b with
  | ByStr _ => True
  | _ => exists cs, k = Many cs /\ List.length cs = List.length (group_columns b)
  end.

Lemma somes_1 {A} (o : option A) : somes [o] = match o with Some a => [a] | None => [] end.
Proof. destruct o; reflexivity. Qed.

Lemma element_spec {C K} (zero : C) (q : query K) columns row :
  q_by q <> ByOther -> (forall c, q_by q <> ByList [c]) ->
  List.length row = List.length columns -> In (q_privacy q) columns -> incl (by_columns (q_by q)) columns ->
  (forall c, q_value q = Some c -> In c columns) ->
  exists e, row_to_element zero q columns row = Ok e /\ element_of zero columns (q_privacy q) (q_by q) (q_value q) row e.
Proof.
  intros NO NL L IP IB IV. unfold row_to_element.
  destruct (cells_at_ok columns row (q_privacy q :: by_columns (q_by q) ++ somes [q_value q])%list L) as (out & E).
  { intros x [<-|I]; [exact IP|]. apply in_app_iff in I. destruct I as [I|I]; [exact (IB x I)|].
    rewrite somes_1 in I. destruct (q_value q) as [c|] eqn:Ev; [|destruct I]. destruct I as [<-|[]]. apply IV. reflexivity. }
  rewrite E. cbn [rbind]. apply cells_at_spec in E. rewrite somes_1 in E.
  inversion E as [|? u ? rest Eu Er]; subst. clear E. cbn [extractor].
  apply Forall2_app_inv_l in Er. destruct Er as (ks & vs & Fk & Fv & ->).
  assert (Lk : List.length ks = List.length (by_columns (q_by q))) by (symmetry; eapply Forall2_length; exact Fk).
  assert (KO : exists k, (if Nat.eqb (List.length (by_columns (q_by q))) 1
                          then match (ks ++ vs)%list with k :: _ => Ok (One k) | [] => Err IndexError end
                          else Ok (Many (firstn (List.length (by_columns (q_by q))) (ks ++ vs)))) = Ok k /\
                         match q_by q with
                         | ByStr c => exists x, k = One x /\ cell_at columns row c = Some x
                         | ByList cs => exists xs, k = Many xs /\ Forall2 (fun c x => cell_at columns row c = Some x) cs xs
                         | ByOther => False
                         end).
  { destruct (q_by q) as [c|cs|] eqn:Eb; [| |congruence]; cbn [by_columns List.length] in *.
    - inversion Fk as [|? x ? ? Ex Fk']; subst. cbn. exists (One x). split; [reflexivity|]. exists x. auto.
    - destruct (Nat.eqb_spec (List.length cs) 1) as [E1|N1].
      + exfalso. destruct cs as [|c [|c' cs]]; cbn in E1; try discriminate. exact (NL c eq_refl).
      + exists (Many (firstn (List.length cs) (ks ++ vs))). split; [reflexivity|].
        exists ks. split; [|exact Fk]. f_equal. rewrite <- Lk. rewrite firstn_app, firstn_all, Nat.sub_diag. cbn. apply app_nil_r. }
  destruct KO as (k & -> & HK). cbn [rbind].
  destruct (q_value q) as [c|] eqn:Ev; cbn [is_some].
  - inversion Fv as [|? v ? ? Evc Fv']; subst. inversion Fv'; subst.
    rewrite nth_error_app2 by lia. rewrite <- Lk, Nat.sub_diag. cbn. exists (u, k, v). split; [reflexivity|]. cbn. auto.
  - exists (u, k, zero). split; [reflexivity|]. cbn. auto.
Qed.

(** The whole query: for every builder, data frame and behaviour of the engine (which returns partitions
    with the requested metrics, whose keys are keys of the data or public keys), the schema is the group-by
    columns followed by the requested names, the engine is given the right cells, and the rows are those of
    the engine's partitions. *)
Theorem C46_query {C V} (zero : C) chars engine columns privacy (calls : list (bcall (pkey C))) b0 b q by_ g n public (rows : list (list C)) :
  new_builder columns privacy = Ok b0 -> brun b0 calls = Ok b -> build_query b = Ok q ->
  In (GroupBy by_ g n public) calls -> (forall c, by_ <> ByList [c]) ->
  Forall (fun row => List.length row = List.length columns) rows ->
  (forall c, q_value q = Some c -> In c columns) ->
  let fields := (group_columns by_ ++ map column_name (requested calls))%list in
  NoDup fields -> Forall (fun f => valid_field f = true) fields ->
  (forall keys k, public = Some keys -> In k keys -> shaped by_ k) ->
  (forall elements, exists res, engine q elements = Ok res /\
     Forall (fun pm => (In (fst pm) (map (fun e => snd (fst e)) elements) \/ exists keys, public = Some keys /\ In (fst pm) keys) /\
                       Permutation (map fst (snd pm)) (map (fun m => metric_name (fst m)) (requested calls))) res) ->
  exists elements (res : list (pkey C * list (string * V))) out,
    Forall2 (element_of zero columns privacy by_ (q_value q)) rows elements /\
    engine q elements = Ok res /\
    run_query zero chars engine q columns rows = Ok (fields, out) /\
    Forall2 (row_of by_ (requested calls)) res out.
Proof.
  intros EN ER EB IG NL LR IV fields NF VF SP EE.
  unfold new_builder in EN. destruct (mem_string privacy columns) eqn:MP; [|discriminate]. injection EN as <-.
  destruct (brun_spec calls _ _ ER) as (RS & RC & RP & _ & RG). cbn [b_specs b_columns b_privacy map app] in *.
  destruct (RG _ _ _ _ IG) as (GB & GP & GG & GN & GO & GI). apply mem_string_iff in MP.
  destruct (build_query_spec b q EB) as (ND & QB & QM & QP & QU & _).
  rewrite RS in QM. rewrite GB in QB. injection QB as QB. rewrite RP in QP.
  assert (EL : exists elements, to_collection zero q columns rows = Ok elements /\ Forall2 (element_of zero columns privacy by_ (q_value q)) rows elements).
  { unfold to_collection. clear -LR QB GO NL QP MP GI IV. induction LR as [|row rows L LR (els & E & F)].
    - exists []. split; [reflexivity | constructor].
    - destruct (element_spec zero q columns row) as (e & Ee & He); try assumption; rewrite <- ?QB; try assumption.
      + rewrite QP. exact MP.
      + exists (e :: els). split; [cbn [mapM]; rewrite Ee; cbn [rbind]; rewrite E; reflexivity|].
        constructor; [|exact F]. rewrite QP, <- QB in He. exact He. }
  destruct EL as (elements & ET & FE). destruct (EE elements) as (res & ERs & FR).
  exists elements, res. unfold run_query. rewrite ET. cbn [rbind]. rewrite ERs. cbn [rbind].
  fold (names_of_query q). destruct (names_nodup q ND) as (_ & EN). rewrite EN.
  assert (SN : map snd (names_of_query q) = map column_name (requested calls)).
  { unfold names_of_query. rewrite map_map. cbn [snd]. rewrite QM. apply map_ext. exact column_name_eq. }
  rewrite SN, <- QB.
  assert (GC : by_columns by_ = group_columns by_) by (destruct by_; reflexivity). rewrite GC. fold fields.
  assert (OK : namedtuple_ok fields = true).
  { unfold namedtuple_ok. apply andb_true_iff. split; [apply forallb_forall; rewrite Forall_forall in VF; exact VF | apply distinctb_iff; exact NF]. }
  rewrite OK.
  assert (CV : exists out, mapM (convert chars q) res = Ok out /\ Forall2 (row_of by_ (requested calls)) res out).
  { assert (Sh : Forall (fun pm => shaped by_ (fst pm) /\ Permutation (map fst (snd pm)) (map (fun m => metric_name (fst m)) (requested calls))) res).
    { eapply Forall_impl; [|exact FR]. cbn. intros pm ([I|(keys & EK & I)] & P); (split; [|exact P]).
      - apply in_map_iff in I. destruct I as ([[u k] v] & Ek & I). cbn in Ek. rewrite <- Ek.
        assert (X : exists row, element_of zero columns privacy by_ (q_value q) row (u, k, v)).
        { clear -FE I. induction FE as [|row e rows els H F IH]; [destruct I|]. destruct I as [->|I]; [exists row; exact H | exact (IH I)]. }
        destruct X as (row & _ & X & _). destruct by_ as [c|cs|]; cbn; [exact Logic.I | | destruct X].
        destruct X as (xs & -> & F). exists xs. split; [reflexivity|]. symmetry. eapply Forall2_length. exact F.
      - eapply SP; eassumption. }
    clear -Sh ND QM QB NF. induction Sh as [|[k ms] res (S1 & P1) Sh (out & E & F)]; [exists []; split; [reflexivity | constructor]|].
    cbn [fst snd] in *.
    assert (KC : exists cells, key_cells (q_by q) k cells).
    { rewrite <- QB. destruct by_ as [c|cs|]; cbn in *; [eexists; reflexivity| |]; destruct S1 as (l & -> & L); exists (map One l); exists l; auto. }
    destruct KC as (cells & KC).
    destruct (convert_spec chars q k ms cells ND) as (vals & Ec & Fv); try assumption.
    { rewrite <- QB, QM. replace (by_columns by_) with (group_columns by_) by (destruct by_; reflexivity).
      erewrite map_ext; [exact NF | exact column_name_eq]. }
    { rewrite QM. erewrite (map_ext (fun m => agg_name (fst m))); [exact P1|]. intro m. apply metric_name_eq. }
    exists ((map Key cells ++ map Val vals)%list :: out). split.
    - cbn [mapM]. rewrite Ec. cbn [rbind]. rewrite E. reflexivity.
    - constructor; [|exact F]. exists cells, vals. split; [reflexivity|]. cbn [fst snd]. split.
      + rewrite <- QB in KC. unfold key_cells in KC. destruct by_ as [c|cs|]; [exact KC| |]; destruct KC as (l & El & L & Ec'); exists l; auto.
      + rewrite <- QM. eapply Forall2_imp; [|exact Fv]. cbn. intros m v I. rewrite <- metric_name_eq. exact I. }
  destruct CV as (out & -> & FO). exists out. cbn [rmap]. auto.
Qed.

(** The bounds and the public keys of the aggregation are those given to the builder: one value column, and one
    pair of caps however often they are given. *)
Theorem C46_bounds {K} columns privacy (calls : list (bcall K)) b0 b q by_ g n public :
  new_builder columns privacy = Ok b0 -> brun b0 calls = Ok b -> build_query b = Ok q ->
  In (GroupBy by_ g n public) calls ->
  q_privacy q = privacy /\ q_by q = by_ /\ q_max_groups q = Some g /\ q_max_contributions q = Some n /\ q_public q = public /\
  q_metrics q = requested calls /\
  (forall c lo hi name, In (Sum c lo hi name) calls \/ In (Mean c lo hi name) calls ->
     q_value q = Some c /\
     (forall x, lo = Some x -> exists y, q_min q = Some y /\ (y == x)%Q) /\
     (forall x, hi = Some x -> exists y, q_max q = Some y /\ (y == x)%Q)).
Proof.
  intros EN ER EB IG. unfold new_builder in EN. destruct (mem_string privacy columns) eqn:MP; [|discriminate]. injection EN as <-.
  destruct (brun_spec calls _ _ ER) as (RS & RC & RP & _ & RG). cbn [b_specs b_columns b_privacy map app] in *.
  destruct (RG _ _ _ _ IG) as (GB & GP & GG & GN & GO & GI).
  destruct (build_query_spec b q EB) as (ND & QB & QM & QP & QU & Q1 & Q2 & Q3 & Q4 & Q5).
  rewrite QP, Q1, Q2, QU, QM. repeat (split; [congruence|]).
  assert (SP : forall c lo hi name, In (Sum c lo hi name) calls \/ In (Mean c lo hi name) calls ->
     exists a, a <> ACount /\ In (AggSpec a (Some c) name lo hi) (b_specs b)).
  { clear -ER. intros c lo hi name H.
    assert (Mono : forall l (b1 b2 : builder K) s, brun b1 l = Ok b2 -> In s (b_specs b1) -> In s (b_specs b2)).
    { induction l as [|c0 l IH]; cbn; intros b1 b2 s E I; [injection E as <-; exact I|].
      destruct (bstep b1 c0) as [b3|] eqn:E3; [|discriminate]. cbn in E. apply (IH _ _ _ E).
      destruct c0; cbn in E3; unfold groupby, add_aggregation in E3; destruct (is_some (b_by b1)); try discriminate;
        try (injection E3 as <-; cbn; apply in_app_iff; left; exact I).
      destruct (match by_ with ByStr c => mem_string c (b_columns b1) | ByList cs => forallb (fun c => mem_string c (b_columns b1)) cs | ByOther => false end); [|discriminate].
      injection E3 as <-. exact I. }
    revert ER H. generalize (Builder (K := K) columns privacy None None [] None None). induction calls as [|c0 l IH]; intros b1 E H; [destruct H as [[]|[]]|].
    cbn in E. destruct (bstep b1 c0) as [b3|] eqn:E3; [|discriminate]. cbn in E.
    destruct H as [[->|I]|[->|I]].
    - exists ASum. split; [discriminate|]. apply (Mono _ _ _ _ E). cbn in E3. unfold add_aggregation in E3.
      destruct (is_some (b_by b1)); [|discriminate]. injection E3 as <-. cbn. apply in_app_iff. right. left. reflexivity.
    - apply (IH _ E). left. exact I.
    - exists AMean. split; [discriminate|]. apply (Mono _ _ _ _ E). cbn in E3. unfold add_aggregation in E3.
      destruct (is_some (b_by b1)); [|discriminate]. injection E3 as <-. cbn. apply in_app_iff. right. left. reflexivity.
    - apply (IH _ E). right. exact I. }
  intros c lo hi name H. destruct (SP c lo hi name H) as (a & Na & Is).
  assert (NC : exists m, In m (map a_metric (b_specs b)) /\ m <> ACount).
  { exists a. split; [|exact Na]. apply in_map_iff. exists (AggSpec a (Some c) name lo hi). auto. }
  split; [exact (Q3 _ c Is eq_refl)|]. split; intros x ->.
  - destruct (Q4 _ x Is eq_refl NC) as (y & E & X). exists y. auto.
  - destruct (Q5 _ x Is eq_refl NC) as (y & E & X). exists y. auto.
Qed.

(** ** Cases *)
Definition chars_of_string (s : string) : result (list string) :=
  Ok ((fix go (s : string) := match s with EmptyString => [] | String a s' => String a EmptyString :: go s' end) s).
(** An engine that returns the group sizes as "count" (without noise). *)
Definition count_engine {K} (q : query K) (els : list (string * pkey string * string)) : result (list (pkey string * list (string * Z))) :=
  Ok (map (fun e => (snd (fst e), [("count", 1%Z)])) els).

Definition two_column_calls : list (bcall (pkey string)) := [GroupBy (ByList ["day"; "shop"]) 3 1 None; Count (Some "visits")].
Example C46_query_case :
  exists b q, brun (Builder ["user"; "day"; "shop"] "user" None None [] None None) two_column_calls = Ok b /\ build_query b = Ok q /\
    new_builder ["user"; "day"; "shop"] "user" = Ok (Builder (K := pkey string) ["user"; "day"; "shop"] "user" None None [] None None) /\
    NoDup ["day"; "shop"; "visits"] /\ Forall (fun f => valid_field f = true) ["day"; "shop"; "visits"] /\
    run_query "" chars_of_string count_engine q ["user"; "day"; "shop"] [["u"; "Monday"; "A"]; ["v"; "Friday"; "B"]]
    = Ok (["day"; "shop"; "visits"],
          [[Key (One "Monday"); Key (One "A"); Val 1%Z]; [Key (One "Friday"); Key (One "B"); Val 1%Z]]).
Proof.
  do 2 eexists. split; [reflexivity|]. split; [reflexivity|]. split; [reflexivity|].
  split; [apply (distinctb_iff (A := string)); reflexivity|]. split; [repeat constructor | vm_compute; reflexivity].
Qed.

(** ** Group-by columns given as a list of one column *)

(** A group-by value that cannot be iterated over (a number) makes the query fail. *)
Theorem C46_one_column_list {C V K} (chars : C -> result (list C)) (q : query K) c x (ms : list (string * V)) e :
  q_by q = ByList [c] -> chars x = Err e -> convert chars q (One x, ms) = Err e.
Proof. intros E X. unfold convert. rewrite E. cbn [key_items fst rbind]. rewrite X. reflexivity. Qed.

(** A string is replaced by its first character. *)
Theorem C46_one_column_list_refuted : exists columns (calls : list (bcall (pkey string))) b q rows,
  brun (Builder columns "user" None None [] None None) calls = Ok b /\ build_query b = Ok q /\
  In (GroupBy (ByList ["day"]) 3 1 None) calls /\ rows = [["u"; "Monday"]; ["v"; "Mars"]] /\
  run_query "" chars_of_string count_engine q columns rows = Ok (["day"; "count"], [[Key (One "M"); Val 1%Z]; [Key (One "M"); Val 1%Z]]).
Proof.
  exists ["user"; "day"], [GroupBy (ByList ["day"]) 3 1 None; Count None]. do 3 eexists.
  split; [reflexivity|]. split; [reflexivity|]. split; [left; reflexivity|]. split; [reflexivity | vm_compute; reflexivity].
Qed.

(** ** Column names that are not identifiers: ValueError after the budget has been spent on the aggregation. *)
Theorem C46_column_name_refuted : exists columns (calls : list (bcall (pkey string))) b q rows,
  brun (Builder columns "user" None None [] None None) calls = Ok b /\ build_query b = Ok q /\
  In (GroupBy (ByStr "day of week") 3 1 None) calls /\
  run_query "" chars_of_string count_engine q columns rows = Err ValueError.
Proof.
  exists ["user"; "day of week"], [GroupBy (ByStr "day of week") 3 1 None; Count None]. do 2 eexists. exists [["u"; "Monday"]].
  split; [reflexivity|]. split; [reflexivity|]. split; [left; reflexivity | vm_compute; reflexivity].
Qed.

(** Two output columns, or an output column and a group-by column, with one name: ValueError. *)
Theorem C46_name_clash {C V} (zero : C) chars engine (q : query (pkey C)) columns rows els (res : list (pkey C * list (string * V))) :
  to_collection zero q columns rows = Ok els -> engine q els = Ok res ->
  NoDup (map fst (q_metrics q)) -> ~ NoDup (by_columns (q_by q) ++ map column_name (q_metrics q)) ->
  run_query zero chars engine q columns rows = Err ValueError.
Proof.
  intros E1 E2 ND NN. unfold run_query. rewrite E1. cbn [rbind]. rewrite E2. cbn [rbind].
  fold (names_of_query q). destruct (names_nodup q ND) as (_ & ->).
  assert (SN : map snd (names_of_query q) = map column_name (q_metrics q)).
  { unfold names_of_query. rewrite map_map. apply map_ext. exact column_name_eq. }
  rewrite SN. unfold namedtuple_ok. destruct (distinctb (by_columns (q_by q) ++ map column_name (q_metrics q))%list) eqn:D.
  - apply distinctb_iff in D. contradiction.
  - rewrite andb_false_r. reflexivity.
Qed.

(** The builder refuses what it cannot do. *)
Theorem C46_builder_checks {K} (b : builder K) :
  (forall c, ~ In c (b_columns b) -> forall g n p, bstep b (GroupBy (ByStr c) g n p) = Err ValueError) /\
  (forall cs, ~ incl cs (b_columns b) -> forall g n p, bstep b (GroupBy (ByList cs) g n p) = Err ValueError) /\
  (b_by b <> None -> forall by_ g n p, bstep b (GroupBy by_ g n p) = Err ValueError) /\
  (b_by b = None -> build_query b = Err NotImplementedError /\ forall name, bstep b (Count name) = Err NotImplementedError) /\
  (b_by b <> None -> b_specs b = [] -> build_query b = Err ValueError) /\
  (b_by b <> None -> ~ NoDup (map a_metric (b_specs b)) -> build_query b = Err ValueError).
Proof.
  split; [|split; [|split; [|split; [|split]]]].
  - intros c N g n p. cbn. unfold groupby. destruct (is_some (b_by b)); [reflexivity|].
    destruct (mem_string c (b_columns b)) eqn:E; [apply mem_string_iff in E; contradiction | reflexivity].
  - intros cs N g n p. cbn. unfold groupby. destruct (is_some (b_by b)); [reflexivity|].
    destruct (forallb (fun c => mem_string c (b_columns b)) cs) eqn:E; [|reflexivity].
    exfalso. apply N. intros x I. rewrite forallb_forall in E. apply mem_string_iff, E, I.
  - intros N by_ g n p. cbn. unfold groupby. destruct (b_by b); [reflexivity | congruence].
  - intro E. unfold build_query. cbn. unfold add_aggregation. rewrite E. split; reflexivity.
  - intros N E. unfold build_query. destruct (b_by b); [rewrite E; reflexivity | congruence].
  - intros N D. unfold build_query. destruct (b_by b); [|congruence]. destruct (b_specs b) as [|s l] eqn:E; [reflexivity|].
    destruct (distinctb (map a_metric (s :: l))) eqn:X; [apply distinctb_iff in X; contradiction | reflexivity].
Qed.

Print Assumptions C46_query.
Print Assumptions C46_bounds.
Print Assumptions C46_one_column_list.
Print Assumptions C46_one_column_list_refuted.
Print Assumptions C46_name_clash.
Print Assumptions C46_builder_checks.
