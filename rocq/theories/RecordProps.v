(** C75: the released records: names of the fields, their values, and serialisation. *)
From Coq Require Import String Ascii List ZArith QArith Bool Lia Permutation.
From Verif Require Import Base BaseLemmas ListLemmas BackendModel BackendSpec ParamsModel SensModel CombinerModel CombinerSpec CombinerProofs3 CombinerProps
  EngineModel RecordModel RecordSpec RecordProofs RecordProofs2 RecordProofs3.
Import ListNotations.

(** Two percentiles get the same field name if and only if they are the same number,
    whether they are given as int or float. *)
Theorem C75_names_identify_percentiles (p q : number) :
  canonical p -> canonical q ->
  (format_metric_name p = format_metric_name q <-> (value_of p == value_of q)%Q).
Proof. exact (names_iff p q). Qed.
Print Assumptions C75_names_identify_percentiles.

(** The name of a percentile is accepted as the name of a field if and only if it is not
    negative, and an integer or at least 0.0001. *)
Theorem C75_which_percentile_names_are_accepted (p : number) :
  canonical p ->
  exists name, format_metric_name p = Ok name /\
    (namedtuple_accepts "MetricsTuple" [name] = true <->
     (0 <= value_of p)%Q /\ (is_integer (value_of p) \/ (1 # 10000 <= value_of p)%Q)).
Proof.
  intro C. exists ("percentile_" ++ suffix p)%string. split; [apply format_suffix; exact C|].
  assert (F : Forall canonical [p]) by (constructor; [exact C | constructor]).
  assert (K : Forall (known [p]) [NPercentile (Qred (value_of p))]) by (constructor; [exists p; split; [left; reflexivity | reflexivity] | constructor]).
  pose proof (accepts_rename [p] [NPercentile (Qred (value_of p))] F K) as A. cbn [map] in A. rewrite (rename_percentile [p] p F (or_introl eq_refl)) in A.
  rewrite A. split.
  - intros [_ G]. apply G; left; reflexivity.
  - intro G. split; [constructor; [intros [] | constructor]|]. intros p' [<- | []] _. exact G.
Qed.
Print Assumptions C75_which_percentile_names_are_accepted.

Lemma known_all p cs nums : create_combiners p = Ok cs -> percentiles (metrics p) = map value_of nums -> Forall (known nums) (flat_map names_of cs).
Proof.
  intros E P. destruct (names_split p cs E) as [pre [-> [_ Np]]]. apply Forall_app. split.
  - apply Forall_forall. intros n I. rewrite Forall_forall in Np. specialize (Np n I). destruct n; try exact Logic.I. contradiction.
  - rewrite P, map_map. apply Forall_forall. intros n I. apply in_map_iff in I. destruct I as [q [<- I]]. exists q. auto.
Qed.
Lemma all_names p cs nums q : create_combiners p = Ok cs -> percentiles (metrics p) = map value_of nums -> In q nums -> In (NPercentile (Qred (value_of q))) (flat_map names_of cs).
Proof.
  intros E P I. destruct (names_split p cs E) as [pre [-> _]]. apply in_or_app. right. rewrite P, map_map. apply (in_map (fun x => NPercentile (Qred (value_of x)))). exact I.
Qed.
Lemma compound_texts nums cs : Forall canonical nums -> Forall (fits_numbers nums) cs ->
  exists l, map_result (texts_of nums) cs = Ok l /\ concat l = map (rename nums) (flat_map names_of cs).
Proof.
  intros F Fc. exists (map (fun c => map (rename nums) (names_of c)) cs). split.
  - apply map_result_all. intros c I. rewrite Forall_forall in Fc. apply texts_rename; auto.
  - induction cs as [|c cs IH]; [reflexivity|]. cbn [map concat flat_map]. rewrite map_app. inversion Fc; subst. rewrite IH by assumption. reflexivity.
Qed.
Lemma pairs_NoDup nums : ForallOrdPairs (fun p q => ~ (value_of p == value_of q)%Q) nums <-> NoDup (map Qred (map value_of nums)).
Proof.
  induction nums as [|p nums IH]; cbn [map]; [split; constructor|]. split.
  - intro Fp. inversion Fp as [|? ? Fh Ft]; subst. constructor; [|apply IH; exact Ft]. intro I. apply in_map_iff in I. destruct I as [q [E I]].
    apply in_map_iff in I. destruct I as [r [<- I]]. rewrite Forall_forall in Fh. apply (Fh r I). rewrite <- (Qred_correct (value_of p)), <- E. apply Qred_correct.
  - intro N. inversion N as [|? ? Ni N']; subst. constructor; [|apply IH; exact N']. apply Forall_forall. intros r I E. apply Ni.
    rewrite (Qred_complete _ _ E). apply in_map, in_map. exact I.
Qed.

(** CompoundCombiner(combiners, return_named_tuple=True) for the requested metrics, in any
    process: it is made if and only if the percentiles are different numbers whose names
    are accepted; otherwise it raises ValueError. *)
Theorem C75_when_the_combiner_is_made (p : params) (asks : list asked) (cs : list combiner) (s : process) :
  create_combiners p = Ok cs ->
  metrics p = map metric_of asks -> Forall proper asks ->
  some_process s ->
  if_then_else (ForallOrdPairs (fun a b => ~ (value_of a == value_of b)%Q) (numbers asks) /\
               Forall (fun a => (0 <= value_of a)%Q /\ (is_integer (value_of a) \/ (1 # 10000 <= value_of a)%Q)) (numbers asks))
    (exists s', named_init (numbers asks) cs s = Ok (cs, s') /\ later s s')
    (named_init (numbers asks) cs s = Err ValueError).
Proof.
  intros E M Pr Ps. set (nums := numbers asks) in *. pose proof (numbers_canonical asks Pr) as F. fold nums in F.
  assert (P : percentiles (metrics p) = map value_of nums) by (rewrite M; apply percentiles_asked; exact Pr).
  pose proof (fits_created p cs nums E P) as Fc. destruct (compound_texts nums cs F Fc) as [l [El Ec]].
  pose proof (known_all p cs nums E P) as K. pose proof (good_process s Ps) as G.
  pose proof (accepts_rename nums _ F K) as A. pose proof (names_nodup p cs E) as N. rewrite P, <- pairs_NoDup in N.
  unfold named_init. rewrite El. cbn [rbind]. rewrite Ec. unfold raise_if.
  pose proof (no_duplicates_NoDup (map (rename nums) (flat_map names_of cs))) as D. rewrite (NoDup_rename nums _ F K), N in D.
  split.
  - intros [Hd Hg]. apply D in Hd as Hd'. rewrite Hd'. destruct (get_or_create "MetricsTuple" (map (rename nums) (flat_map names_of cs)) s) as [[i s']|] eqn:Eg.
    + exists s'. split; [reflexivity|]. eapply later_step; [apply later_refl | exact Eg].
    + rewrite (get_or_create_ok _ _ s G) in Eg. assert (A1 : namedtuple_accepts "MetricsTuple" (map (rename nums) (flat_map names_of cs)) = true).
      { apply A. split; [apply N; exact Hd|]. intros q Iq _. rewrite Forall_forall in Hg. apply Hg. exact Iq. }
      rewrite A1 in Eg. discriminate.
  - intro Hn. destruct (has_duplicates (map (rename nums) (flat_map names_of cs))) eqn:Hd; [reflexivity|]. pose proof (proj1 D eq_refl) as Hd'.
    rewrite (get_or_create_ok _ _ s G). destruct (namedtuple_accepts _ _) eqn:Ha; [|reflexivity]. exfalso. apply Hn. split; [exact Hd'|].
    destruct (proj1 A eq_refl) as [_ Hg]. apply Forall_forall. intros q Iq. apply Hg; [exact Iq | apply (all_names p cs nums); assumption].
Qed.
Print Assumptions C75_when_the_combiner_is_made.

Lemma lookup_in d : NoDup (map fst d) -> forall f (v : released), In (f, v) d -> lookup f (map fst d) (map snd d) = Ok v.
Proof.
  induction d as [|[g w] d IH]; intros N f v I; [destruct I|]. cbn [map fst snd lookup]. inversion N as [|? ? Ni N']; subst.
  destruct (String.eqb_spec f g) as [->|Ne].
  - destruct I as [I|I]; [congruence|]. exfalso. apply Ni. change g with (fst (g, v)). apply in_map. exact I.
  - destruct I as [I|I]; [congruence | apply IH; assumption].
Qed.
Lemma field_rename asks a : Forall proper asks -> In a asks -> field_of a = Ok (rename (numbers asks) (name_of (metric_of a))).
Proof.
  intros F I. pose proof (numbers_canonical asks F) as Fc. rewrite Forall_forall in F. specialize (F a I). destruct a as [m|q].
  - destruct m; try reflexivity. contradiction.
  - cbn [field_of metric_of name_of]. rewrite rename_percentile; [apply format_suffix; exact F | exact Fc|]. unfold numbers. apply in_flat_map. exists (Percentile q). split; [exact I | left; reflexivity].
Qed.

(** The record of a partition, in any process (with any contents of the cache of classes):
    it has exactly the documented fields of the requested metrics, and the field of each
    has the value of the metric, where [d] are the metrics of C23. *)
Theorem C75_released_record (p : params) (asks : list asked) (cs cs' : list combiner) (gs : list (list value)) (t : tree cacc)
    (nzs : nat -> noises) (s0 s1 s : process) :
  create_combiners p = Ok cs ->
  metrics p = map metric_of asks -> Forall proper asks ->
  some_process s0 -> named_init (numbers asks) cs s0 = Ok (cs', s1) ->
  Permutation (leaves t) (map (compound_create cs) gs) -> gs <> [] ->
  (forall c, In c cs -> Forall (fits c) gs) ->
  (forall i l qs, length (n_quantiles (nzs i) l qs) = length qs) ->
  some_process s ->
  exists d x s', compound_metrics nzs cs (reduce_tree (compound_merge cs) t) = Ok d /\
    named_metrics nzs (numbers asks) cs (reduce_tree (compound_merge cs) t) s = Ok (x, s') /\
    later s s' /\ made_in s' x /\
    NoDup (fields_of s' x) /\
    (forall f, In f (fields_of s' x) <-> exists a, In a asks /\ field_of a = Ok f) /\
    (forall a, In a asks -> exists f v, field_of a = Ok f /\ In (name_of (metric_of a), v) d /\ getattr s' x f = Ok v).
Proof.
  intros E M Pr P0 E0 Pt Ng Hf Hq Ps. pose proof (C75_when_the_combiner_is_made p asks cs s0 E M Pr P0) as [_ W].
  set (nums := numbers asks) in *. pose proof (numbers_canonical asks Pr) as F. fold nums in F.
  assert (P : percentiles (metrics p) = map value_of nums) by (rewrite M; apply percentiles_asked; exact Pr).
  pose proof (fits_created p cs nums E P) as Fc. destruct (compound_texts nums cs F Fc) as [l [El Ec]]. pose proof (known_all p cs nums E P) as K.
  assert (Acc : namedtuple_accepts "MetricsTuple" (map (rename nums) (flat_map names_of cs)) = true).
  { unfold named_init in E0. rewrite El in E0. cbn [rbind] in E0. rewrite Ec in E0. unfold raise_if in E0. destruct (has_duplicates _); [discriminate|].
    rewrite (get_or_create_ok _ _ s0 (good_process s0 P0)) in E0. destruct (namedtuple_accepts _ _); [reflexivity | discriminate]. }
  apply (accepts_rename nums _ F K) in Acc. destruct Acc as [Nd Hg].
  assert (Ecc : create_compound_combiner p = Ok cs).
  { unfold create_compound_combiner, compound_init, raise_if. rewrite E. cbn [rbind]. rewrite (proj2 (no_duplicates_NoDup _) Nd). reflexivity. }
  destruct (C23_requested_metrics_released p cs gs t nzs Ecc Pt Ng Hf Hq) as [d [Ed [N [Hn _]]]].
  pose proof (combine_rename nzs nums cs F Fc 0 (snd (reduce_tree (compound_merge cs) t)) [] (Forall_nil _)) as Er. cbn [renamed map] in Er.
  fold (compound_metrics nzs cs (reduce_tree (compound_merge cs) t)) in Er. rewrite Ed in Er. cbn [rmap] in Er.
  assert (Fs : map fst (renamed nums d) = map (rename nums) (map fst d)) by (unfold renamed; rewrite !map_map; reflexivity).
  assert (Vs : map snd (renamed nums d) = map snd d) by (unfold renamed; rewrite map_map; reflexivity).
  assert (Kd : Forall (known nums) (map fst d)).
  { apply Forall_forall. intros n I. apply Hn in I. rewrite M, map_map in I. apply in_map_iff in I. destruct I as [a [<- I]]. rewrite Forall_forall in Pr. specialize (Pr a I).
    destruct a as [m|q]; [destruct m; try exact Logic.I; contradiction|]. cbn. exists q. split; [|reflexivity]. unfold nums, numbers. apply in_flat_map. exists (Percentile q). split; [exact I | left; reflexivity]. }
  assert (Acc : namedtuple_accepts "MetricsTuple" (map (rename nums) (map fst d)) = true).
  { apply (accepts_rename nums _ F Kd). split; [exact N|]. intros q Iq _. apply Hg; [exact Iq | apply (all_names p cs nums); assumption]. }
  destruct (create_ok "MetricsTuple" (map fst (renamed nums d)) (map snd (renamed nums d)) s (good_process s Ps)) as [x [s' [Ex [Vx [Nx Lx]]]]].
  { rewrite Fs. exact Acc. }
  { rewrite !map_length. reflexivity. }
  assert (Fx : fields_of s' x = map (rename nums) (map fst d)) by (unfold fields_of; rewrite Nx; exact Fs).
  assert (Nf : NoDup (fields_of s' x)) by (rewrite Fx; apply NoDup_rename; assumption).
  exists d, x, s'. split; [exact Ed|]. split; [|split; [exact Lx|split; [|split; [exact Nf|split]]]].
  - unfold named_metrics. rewrite Er. exact Ex.
  - exists s, s', "MetricsTuple"%string, (map fst (renamed nums d)), (map snd (renamed nums d)). split; [exact Ps|]. split; [exact Ex | apply later_refl].
  - intro f. rewrite Fx, in_map_iff. split.
    + intros [n [<- I]]. apply Hn in I. rewrite M, map_map in I. apply in_map_iff in I. destruct I as [a [<- I]]. exists a. split; [exact I|]. apply field_rename; assumption.
    + intros [a [I Ef]]. rewrite (field_rename asks a Pr I) in Ef. injection Ef as <-. exists (name_of (metric_of a)). split; [reflexivity|].
      apply Hn. rewrite M. apply in_map, in_map. exact I.
  - intros a I. assert (In0 : In (name_of (metric_of a)) (map fst d)) by (apply Hn; rewrite M; apply in_map, in_map; exact I).
    apply in_map_iff in In0. destruct In0 as [[n v] [En Iv]]. cbn [fst] in En. subst n. exists (rename nums (name_of (metric_of a))), v.
    split; [apply field_rename; assumption|]. split; [exact Iv|]. unfold getattr, fields_of. rewrite Nx, Vx. apply lookup_in.
    + rewrite Fs. apply NoDup_rename; assumption.
    + unfold renamed. apply in_map_iff. exists (name_of (metric_of a), v). split; [reflexivity | exact Iv].
Qed.
Print Assumptions C75_released_record.

(** A record that is sent to any other process arrives with the same fields and values;
    in its own process it comes back as an object of its own class. *)
Theorem C75_records_survive_pickling (s s2 : process) (x : instance) :
  made_in s x -> some_process s2 ->
  exists data y s2', dumps s x = Ok data /\ loads data s2 = Ok (y, s2') /\
    made_in s2' y /\ fields_of s2' y = fields_of s x /\ i_values y = i_values x /\
    (forall f, getattr s2' y f = getattr s x f) /\
    (later s s2 -> y = x /\ s2' = s2).
Proof.
  intros Mx P2. destruct (made_class s x Mx) as [G [t [f [N [L A]]]]]. exists (t, f, i_values x).
  destruct (create_ok t f (i_values x) s2 (good_process s2 P2) A L) as [y [s2' [Ey [Vy [Ny Ly]]]]]. exists y, s2'.
  assert (Fy : fields_of s2' y = fields_of s x) by (unfold fields_of; rewrite Ny, N; reflexivity).
  split; [unfold dumps; rewrite N; reflexivity|]. split; [exact Ey|]. split; [|split; [exact Fy|split; [exact Vy|split]]].
  - exists s2, s2', t, f, (i_values x). split; [exact P2|]. split; [exact Ey | apply later_refl].
  - intro g. unfold getattr. rewrite Fy, Vy. reflexivity.
  - intro Ls. destruct (good_later _ _ Ls G) as [G2 M]. destruct (create_inv t f (i_values x) s2 y s2' G2 Ey) as [_ [_ [_ [_ [_ Eg]]]]].
    rewrite (get_or_create_ok t f s2 G2), A in Eg. rewrite (proj1 (proj1 G2 (t, f) (i_class x)) (M _ _ N)) in Eg. injection Eg as Ec <-.
    split; [|reflexivity]. destruct x as [cx vx], y as [cy vy]. cbn [i_class i_values] in *. congruence.
Qed.
Print Assumptions C75_records_survive_pickling.

(** All records with the same fields that a process makes have one class. *)
Theorem C75_one_class_per_fields (s1 s1' s2 s2' : process) type_name fields vs ws (x y : instance) :
  some_process s1 -> create_instance type_name fields vs s1 = Ok (x, s1') ->
  later s1' s2 -> create_instance type_name fields ws s2 = Ok (y, s2') ->
  i_class y = i_class x /\ s2' = s2.
Proof.
  intros P E L E2. pose proof (good_process s1 P) as G. destruct (create_inv _ _ _ _ _ _ G E) as [_ [_ [N [L1 [A _]]]]].
  destruct (good_later _ _ L1 G) as [G1 _]. destruct (good_later _ _ L G1) as [G2 M]. destruct (create_inv _ _ _ _ _ _ G2 E2) as [_ [_ [_ [_ [_ Eg]]]]].
  rewrite (get_or_create_ok _ _ s2 G2), A, (proj1 (proj1 G2 _ _) (M _ _ N)) in Eg. injection Eg as <- <-. split; reflexivity.
Qed.
Print Assumptions C75_one_class_per_fields.

Ltac show_proper := repeat (apply Forall_cons; [try exact I; try (split; [repeat (apply Forall_cons; [lia|]); apply Forall_nil|]; split; [cbn; lia|]; try (left; split; reflexivity); right; repeat split; discriminate)|]); apply Forall_nil.

Definition record_params (ms : list metric) : params := example_params ms.

(** The percentile 0.00001 is accepted by AggregateParams, and by all checks of DPEngine
    that are modelled, but the combiner cannot be made: its field would be
    "percentile_1e-05".  Negative percentiles likewise. *)
Theorem C75_every_percentile_is_accepted_refuted :
  exists asks cs, Forall proper asks /\ numbers asks = [PyFloat false [1%nat] (-4)] /\
    (value_of (PyFloat false [1%nat] (-4)) == 1 # 100000)%Q /\
    check_aggregate_params true true (record_params (map metric_of asks)) = Ok tt /\
    create_combiners (record_params (map metric_of asks)) = Ok cs /\
    map_result format_metric_name (numbers asks) = Ok ["percentile_1e-05"%string] /\
    named_init (numbers asks) cs fresh_process = Err ValueError.
Proof.
  exists [Plain COUNT; Percentile (PyFloat false [1%nat] (-4))], [CCount; CQuantile [value_of (PyFloat false [1%nat] (-4))]].
  split; [show_proper|].
  repeat split; vm_compute; reflexivity.
Qed.
Print Assumptions C75_every_percentile_is_accepted_refuted.

(** The order of the fields is not that of CompoundCombiner.metrics_names(): the class
    that __init__ makes is not the class of the records. *)
Theorem C75_order_of_metrics_names_refuted :
  exists asks cs nzs gs x s1 s2,
    create_combiners (record_params (map metric_of asks)) = Ok cs /\
    named_init (numbers asks) cs fresh_process = Ok (cs, s1) /\
    compound_names (numbers asks) cs = Ok ["variance"; "mean"; "count"; "sum"]%string /\
    named_metrics nzs (numbers asks) cs (compound_create cs gs) s1 = Ok (x, s2) /\
    fields_of s2 x = ["variance"; "count"; "sum"; "mean"]%string /\
    length (classes s1) = 1%nat /\ i_class x = 1%nat.
Proof.
  exists [Plain VARIANCE; Plain MEAN; Plain COUNT; Plain SUM], [CVariance 0 5 [NVariance; NMean; NCount; NSum]].
  exists (fun _ => Noises (fun q => q) (fun q => q) (fun q => q) (fun z => Some (inject_Z z)) (fun _ q => q) (fun l => l)), [Num 3].
  do 3 eexists. split; [vm_compute; reflexivity|]. split; [vm_compute; reflexivity|]. split; [vm_compute; reflexivity|].
  split; [vm_compute; reflexivity|]. repeat split; vm_compute; reflexivity.
Qed.
Print Assumptions C75_order_of_metrics_names_refuted.

(** Count, and the percentiles 50 (an int), 99.5 and 0.0 in a process that has made other
    classes before. *)
Example C75_hypotheses_met :
  let asks := [Plain COUNT; Percentile (PyInt 50); Percentile (PyFloat false [9; 9; 5] 2); Percentile (PyFloat true [0] 1)]%nat in
  let nz := Noises (fun q => q) (fun q => q) (fun q => q) (fun z => Some (inject_Z z)) (fun _ qs => qs) (fun l => l) in
  let gs := [[Num 3; Num 1]; [Num 2]] in
  exists cs s1 s2 x s3,
    create_combiners (record_params (map metric_of asks)) = Ok cs /\ Forall proper asks /\
    named_init (numbers asks) cs fresh_process = Ok (cs, s1) /\
    some_process s2 /\ classes s2 = [("MetricsTuple", ["sum"]); ("MetricsTuple", ["count"])]%string /\
    Forall (fun c => Forall (fits c) gs) cs /\
    named_metrics (fun _ => nz) (numbers asks) cs (compound_merge cs (compound_create cs [Num 3; Num 1]) (compound_create cs [Num 2])) s2 = Ok (x, s3) /\
    fields_of s3 x = ["count"; "percentile_50"; "percentile_99_5"; "percentile_0"]%string /\
    match getattr s3 x "percentile_99_5" with Ok (RNum q) => (q == 199 # 200)%Q | _ => False end /\
    (ForallOrdPairs (fun a b => ~ (value_of a == value_of b)%Q) (numbers asks) /\
     Forall (fun a => (0 <= value_of a)%Q /\ (is_integer (value_of a) \/ (1 # 10000 <= value_of a)%Q)) (numbers asks)) /\
    made_in s3 x /\ some_process s1.
Proof.
  cbv zeta.
  set (asks := [Plain COUNT; Percentile (PyInt 50); Percentile (PyFloat false [9; 9; 5]%nat 2); Percentile (PyFloat true [0]%nat 1)]).
  set (s2 := Process [("MetricsTuple", ["sum"]); ("MetricsTuple", ["count"])]%string [(("MetricsTuple", ["count"]), 1%nat); (("MetricsTuple", ["sum"]), 0%nat)]%string).
  assert (P2 : some_process s2).
  { apply (later_step _ (Process [("MetricsTuple", ["sum"])]%string [(("MetricsTuple", ["sum"]), 0%nat)]%string) "MetricsTuple" ["count"%string] 1%nat s2); [|vm_compute; reflexivity].
    apply (later_step _ fresh_process "MetricsTuple" ["sum"%string] 0%nat); [apply later_refl | vm_compute; reflexivity]. }
  destruct (create_combiners (record_params (map metric_of asks))) as [cs|] eqn:Ec; [|vm_compute in Ec; discriminate].
  destruct (named_init (numbers asks) cs fresh_process) as [[cs' s1]|] eqn:Ei; [|vm_compute in Ec; injection Ec as <-; vm_compute in Ei; discriminate].
  assert (Ecs : cs = [CCount; CQuantile (map value_of (numbers asks))]) by (vm_compute in Ec; injection Ec as <-; reflexivity).
  destruct (named_metrics (fun _ => Noises (fun q => q) (fun q => q) (fun q => q) (fun z => Some (inject_Z z)) (fun _ qs => qs) (fun l => l)) (numbers asks) cs
              (compound_merge cs (compound_create cs [Num 3; Num 1]) (compound_create cs [Num 2])) s2) as [[x s3]|] eqn:Ex;
    [|subst cs; vm_compute in Ex; discriminate].
  exists cs, s1, s2, x, s3. split; [reflexivity|]. split.
  { show_proper. }
  split. { subst cs. vm_compute in Ei. injection Ei as <- <-. vm_compute. reflexivity. }
  split; [exact P2|]. split; [reflexivity|]. split.
  { subst cs. repeat constructor. }
  split; [exact Ex|].
  assert (Mk : made_in s3 x).
  { unfold named_metrics in Ex. destruct (combine_named _ _ _ _ _ _) as [d|] eqn:Ed; [|discriminate]. cbn [rbind] in Ex.
    exists s2, s3, "MetricsTuple"%string, (map fst d), (map snd d). split; [exact P2|]. split; [exact Ex | apply later_refl]. }
  subst cs. vm_compute in Ex. injection Ex as <- <-. split; [vm_compute; reflexivity|]. split; [vm_compute; reflexivity|].
  split; [split|split; [exact Mk|]].
  - repeat constructor; intro Hq; vm_compute in Hq; discriminate.
  - apply Forall_cons; [|apply Forall_cons; [|apply Forall_cons; [|apply Forall_nil]]].
    + split; [vm_compute; discriminate | left; exists 50%Z; vm_compute; reflexivity].
    + split; [vm_compute; discriminate | right; vm_compute; discriminate].
    + split; [vm_compute; discriminate | left; exists 0%Z; vm_compute; reflexivity].
  - unfold named_init in Ei. destruct (map_result _ _); [|discriminate]. cbn [rbind] in Ei. unfold raise_if in Ei. destruct (has_duplicates _); [discriminate|].
    destruct (get_or_create _ _ _) as [[i s']|] eqn:Eg; [|discriminate]. injection Ei as <- <-. eapply later_step; [apply later_refl | exact Eg].
Qed.
