(** Model of /repo/pipeline_dp/dp_engine.py: the computational graphs of
    aggregate, select_partitions and add_dp_noise on the local backend.

    Rows are already extracted: (privacy_id, partition_key, value)
    (_extract_columns, dp_engine.py:404-417).  The random choices of contribution
    bounding, the noise and the answers of the partition selection strategy are
    arguments.  Budget requests, annotations and report stages are not modelled
    in this file (BudgetModel, ReportModel). *)
From Coq Require Import List ZArith QArith Bool.
From Verif Require Import Base BackendModel BounderModel ParamsModel SensModel CombinerModel.
Import ListNotations.

(** The random choices of contribution bounding. *)
Record sampling (U P : Type) := Sampling {
  ch_pid_pk : source (U * P);
  ch_pid : source U }.
Arguments ch_pid_pk {U P} s.
Arguments ch_pid {U P} s.

(** _create_contribution_bounder (dp_engine.py:382-402) followed by
    bound_contributions.  A bound that is None raises TypeError when compared
    with a length. *)
Definition bound_contributions {U P V A} `{EqDec U} `{EqDec P}
    (p : params) (expects_sampling : bool) (sm : sampling U P) (agg : list V -> A)
    (rows : list (U * P * V)) : result (list ((U * P) * A)) :=
  match max_contributions p with
  | Some m => if (m =? 0)%Z then Err TypeError
              else Ok (bound_per_privacy_id (ch_pid sm) (Z.to_nat m) agg rows)
  | None =>
    if perform_cross_partition_contribution_bounding p then
      if expects_sampling then
        match max_partitions_contributed p, max_contributions_per_partition p with
        | Some l0, Some linf =>
            Ok (bound_cross_and_per (ch_pid_pk sm) (ch_pid sm) (Z.to_nat l0) (Z.to_nat linf) agg rows)
        | _, _ => Err TypeError
        end
      else match max_partitions_contributed p with
           | Some l0 => Ok (bound_cross_partition (ch_pid sm) (Z.to_nat l0) agg rows)
           | None => Err TypeError
           end
    else if expects_sampling then
      match max_contributions_per_partition p with
      | Some linf => Ok (bound_linf (ch_pid_pk sm) (Z.to_nat linf) agg rows)
      | None => Err TypeError
      end
    else Ok (bound_noop agg rows)
  end.

(** _drop_partitions: dp_engine.py:292-298 (key_by, filter_by_key, values). *)
Definition drop_partitions {U P V} `{EqDec P} (public : list P) (rows : list (U * P * V))
  : list (U * P * V) :=
  map snd (filter_by_key (map (fun r => (snd (fst r), r)) rows) public).

(** _add_empty_public_partitions: dp_engine.py:300-315; flatten appends. *)
Definition add_empty_public_partitions {P A} (col : list (P * A)) (public : list P) (empty : A)
  : list (P * A) :=
  col ++ map (fun k => (k, empty)) public.

(** The collection of (partition_key, accumulator), one per (privacy id,
    partition) or per row: dp_engine.py:125-155. *)
Definition contributions {U P} `{EqDec U} `{EqDec P}
    (p : params) (cs : list combiner) (sm : sampling U P) (public : option (list P))
    (rows : list (U * P * value)) : result (list (P * cacc)) :=
  let rows1 := match public with
               | Some pub => if public_partitions_already_filtered p then rows
                             else drop_partitions pub rows
               | None => rows
               end in
  if contribution_bounds_already_enforced p
  then Ok (map (fun r => (snd (fst r), compound_create cs [snd r])) rows1)
  else rmap (map (fun e => (snd (fst e), snd e)))
            (bound_contributions p (compound_expects_sampling cs) sm (compound_create cs) rows1).

(** One raw accumulator per partition: dp_engine.py:157-165.  [if
    public_partitions:] is false for an empty list. *)
Definition raw_accumulators {U P} `{EqDec U} `{EqDec P}
    (p : params) (cs : list combiner) (sm : sampling U P) (public : option (list P))
    (rows : list (U * P * value)) : result (list (P * cacc)) :=
  rmap (fun col =>
          let col1 := match public with
                      | Some (k :: ks) => add_empty_public_partitions col (k :: ks) (compound_create cs [])
                      | _ => col
                      end in
          combine_per_key (compound_merge cs) col1)
       (contributions p cs sm public rows).

(** divide_and_round_up: dp_engine.py:350-351.  Python's [//] is the floor
    division, [Z.div]. *)
Definition divide_and_round_up (a b : Z) : Z := ((a + b - 1) / b)%Z.

(** _select_private_partitions_internal: dp_engine.py:317-373.  [should_keep k n]
    is the answer of selector.should_keep(n) for partition [k]. *)
Definition select_private_partitions {P A} (max_rows_per_privacy_id : Z)
    (should_keep : P -> Z -> bool) (col : list (P * (Z * A))) : list (P * (Z * A)) :=
  filter (fun row => should_keep (fst row)
            (divide_and_round_up (fst (snd row)) max_rows_per_privacy_id)) col.

(** dp_engine.py:169-181: [max_contributions or max_contributions_per_partition]. *)
Definition max_rows_per_privacy_id (p : params) : option Z :=
  if contribution_bounds_already_enforced p then
    match max_contributions p with
    | Some m => if (m =? 0)%Z then max_contributions_per_partition p else Some m
    | None => max_contributions_per_partition p
    end
  else Some 1%Z.

(** dp_engine.py:167-184: is private partition selection performed. *)
Definition selects_privately {P} (p : params) (public : option (list P)) : bool :=
  negb (is_some public) && negb (post_aggregation_thresholding p)
  && negb (public_partitions_already_filtered p).

(** The partitions and accumulators whose metrics are computed:
    dp_engine.py:125-184. *)
Definition selected_accumulators {U P} `{EqDec U} `{EqDec P}
    (p : params) (cs : list combiner) (sm : sampling U P) (should_keep : P -> Z -> bool)
    (public : option (list P)) (rows : list (U * P * value)) : result (list (P * cacc)) :=
  rbind (raw_accumulators p cs sm public rows) (fun col =>
    if selects_privately p public then
      match max_rows_per_privacy_id p with
      | Some m => Ok (select_private_partitions m should_keep col)
      | None => Err TypeError
      end
    else Ok col).

(** map_values with a function that may raise. *)
Fixpoint map_result {A B} (f : A -> result B) (l : list A) : result (list B) :=
  match l with
  | [] => Ok []
  | x :: l' => rbind (f x) (fun y => rmap (cons y) (map_result f l'))
  end.

(** _drop_partitions_under_threshold: dp_engine.py:546-551
    ([row[1].privacy_id_count != None]; the field exists because
    PRIVACY_ID_COUNT is requested). *)
Definition above_threshold (m : list (mname * released)) : bool :=
  negb (existsb (fun kv => match kv with (NPidCount, RNone) => true | _ => false end) m).

(** DPEngine._aggregate with the standard combiners: dp_engine.py:109-189.
    [nz k i] is the randomness of combiner [i] in partition [k]. *)
Definition aggregate {U P} `{EqDec U} `{EqDec P}
    (p : params) (sm : sampling U P) (should_keep : P -> Z -> bool) (nz : P -> nat -> noises)
    (public : option (list P)) (rows : list (U * P * value))
  : result (list (P * list (mname * released))) :=
  rbind (create_compound_combiner p) (fun cs =>
  rbind (selected_accumulators p cs sm should_keep public rows) (fun col =>
  rmap (fun out => if post_aggregation_thresholding p
                   then filter (fun row => above_threshold (snd row)) out else out)
       (map_result (fun row => rmap (pair (fst row))
                                    (compound_metrics (nz (fst row)) cs (snd row))) col))).

(** The first part of DPEngine._select_partitions, dp_engine.py:236-277: one
    (row_count, ()) accumulator per partition.  [list(set(pks))] is [distinct];
    [ch u n] are the indices drawn for privacy id [u] with [n] distinct
    partitions; the compound combiner has no inner combiners. *)
Definition partition_counts {U P} `{EqDec U} `{EqDec P}
    (l0 : nat) (ch : source U) (rows : list (U * P)) : list (P * cacc) :=
  let grouped := group_by_key rows in
  let sampled := flat_map (fun x =>
        let unique := distinct (snd x) in
        map (fun k => (fst x, k)) (choose (ch (fst x) (length unique)) l0 unique)) grouped in
  let accs := map (fun x => (snd x, compound_create [] [])) sampled in
  combine_per_key (compound_merge []) accs.

(** DPEngine._select_partitions: dp_engine.py:236-290. *)
Definition select_partitions {U P} `{EqDec U} `{EqDec P}
    (l0 : nat) (ch : source U) (should_keep : P -> Z -> bool)
    (rows : list (U * P)) : list P :=
  map fst (select_private_partitions 1 should_keep (partition_counts l0 ch rows)).

(** DPEngine.add_dp_noise: dp_engine.py:553-609; the mechanism is created anew
    for every element, [nz m k x] is what the mechanism [m] makes of the value [x] of
    key [k]: a number, or the distribution of a number. *)
Definition add_dp_noise {P B} (sp : mspec) (l0 : Z) (linf : Q) (nz : mechanism -> P -> Q -> B)
    (col : list (P * Q)) : result (list (P * B)) :=
  rbind (mk_sens (Some l0) (Some linf) None None) (fun s =>
  map_result (fun kv => rmap (fun m => (fst kv, nz m (fst kv) (snd kv)))
                             (create_additive_mechanism sp s)) col).
