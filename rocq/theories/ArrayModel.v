(** Model of VECTOR_SUM aggregation over numpy arrays as objects in memory:
    VectorSumCombiner.create_accumulator (combiners.py:812-827) keeps the first
    array it meets ([array_sum = val]) and adds the others to it in place
    ([array_sum += val]).

    CombinerModel treats vectors as values.  Here an array is an address into a
    memory, so that the rows of a dataset can share arrays, and an aggregation
    can change the arrays of its input.  Element types are not modelled (all
    entries are numbers; an in-place addition of floats to an integer array
    raises in numpy), neither are views of arrays that share part of a buffer. *)
From Coq Require Import List ZArith QArith Bool.
From Verif Require Import Base BackendModel BounderModel ParamsModel CombinerModel EngineModel.
Import ListNotations.

(** The arrays that exist, by address. *)
Definition memory := list (list Q).

(** A value of a row: a reference to an array, or a Python number, list or
    tuple, which [np.array] copies. *)
Inductive aval := Arr (a : nat) | Lit (v : value).

(** What the value of a row is at the moment. *)
Definition content (m : memory) (v : aval) : value :=
  match v with Arr a => Vec (nth a m []) | Lit v => v end.
Definition content_rows {U P} (m : memory) (rows : list (U * P * aval)) : list (U * P * value) :=
  map (fun r => (fst r, content m (snd r))) rows.

(** In-place assignment of all the entries of array [a]. *)
Fixpoint write (m : memory) (a : nat) (l : list Q) : memory :=
  match m, a with
  | [], _ => []
  | _ :: m', O => l :: m'
  | x :: m', S a' => x :: write m' a' l
  end.

(** The variable [array_sum]: None, an array, or an exception was raised. *)
Inductive vsum := VNone | VArr (a : nat) | VErr.

(** [if not isinstance(val, np.ndarray): val = np.array(val)]:
    combiners.py:816-817.  A number becomes an array of shape (), here [None]. *)
Definition to_array (m : memory) (v : aval) : memory * option nat :=
  match v with
  | Arr a => (m, Some a)
  | Lit (Vec l) => (m ++ [l], Some (length m))
  | Lit (Num _) => (m, None)
  end.

(** One round of the loop: combiners.py:815-826. *)
Definition vector_step_in (size : Z) (st : memory * vsum) (v : aval) : memory * vsum :=
  match snd st with
  | VErr => st
  | s =>
    let '(m, oa) := to_array (fst st) v in
    match oa with
    | None => (m, VErr)
    | Some a =>
      if (Z.of_nat (length (nth a m [])) =? size)%Z
      then match s with
           | VArr b => match vadd (nth b m []) (nth a m []) with
                       | Some l => (write m b l, VArr b)
                       | None => (m, VErr)
                       end
           | _ => (m, VArr a)
           end
      else (m, VErr)
    end
  end.

(** VectorSumCombiner.create_accumulator: combiners.py:812-827. *)
Definition create_vector (size : Z) (m : memory) (vs : list aval) : memory * vsum :=
  fold_left (vector_step_in size) vs (m, VNone).

(** An inner accumulator of the compound combiner: of VectorSumCombiner a
    reference, of the other combiners a value. *)
Inductive slot := Plain (a : acc) | Vector (s : vsum).
Definition read_slot (m : memory) (s : slot) : acc :=
  match s with
  | Plain a => a
  | Vector VNone => ANone
  | Vector (VArr a) => AVec (nth a m [])
  | Vector VErr => AErr
  end.

(** X.create_accumulator of any combiner: combiners.py:255, 298, 347, 407-412,
    476-483, 546-556, 612-616, 812-827. *)
Definition create_in (m : memory) (c : combiner) (vs : list aval) : memory * slot :=
  match c with
  | CVector size => let '(m', s) := create_vector size m vs in (m', Vector s)
  | _ => (m, Plain (create c (map (content m) vs)))
  end.

(** CompoundCombiner.create_accumulator: combiners.py:750-754. *)
Fixpoint compound_create_in (m : memory) (cs : list combiner) (vs : list aval) : memory * list slot :=
  match cs with
  | [] => (m, [])
  | c :: cs' =>
      let '(m1, s) := create_in m c vs in
      let '(m2, ss) := compound_create_in m1 cs' vs in
      (m2, s :: ss)
  end.

(** backend.map_values(col, combiner.create_accumulator): the groups one after
    the other. *)
Fixpoint create_groups {K} (m : memory) (cs : list combiner) (groups : list (K * list aval))
  : memory * list (K * list slot) :=
  match groups with
  | [] => (m, [])
  | (k, vs) :: groups' =>
      let '(m1, ss) := compound_create_in m cs vs in
      let '(m2, out) := create_groups m1 cs groups' in
      (m2, (k, ss) :: out)
  end.

(** Reading the accumulators of all groups. *)
Definition read_all {K} (m : memory) (col : list (K * list slot)) : list (K * cacc) :=
  map_values (fun ss => (1%Z, map (read_slot m) ss)) col.

(** The contribution bounders with the accumulators created in memory:
    contribution_bounders.py:72-111 creates an accumulator for every (privacy
    id, partition) before the partitions are sampled; 122-156, 168-201, 212-230
    and 236-246 create them last.  The result refers to the memory in which all
    accumulators have been created: the local backend groups all accumulators
    by partition before the first merge (pipeline_backend.py:503-511, 555-563),
    and merging allocates ([array_sum1 + array_sum2], combiners.py:829-831). *)
Definition bound_contributions_in {U P} `{EqDec U} `{EqDec P}
    (p : params) (cs : list combiner) (sm : sampling U P) (m : memory) (rows : list (U * P * aval))
  : memory * result (list ((U * P) * cacc)) :=
  let last (groups : list ((U * P) * list aval)) :=
      let '(m', out) := create_groups m cs groups in (m', Ok (read_all m' out)) in
  match max_contributions p with
  | Some n => if (n =? 0)%Z then (m, Err TypeError)
              else last (bound_per_privacy_id (ch_pid sm) (Z.to_nat n) (fun vs => vs) rows)
  | None =>
    if perform_cross_partition_contribution_bounding p then
      if compound_expects_sampling cs then
        match max_partitions_contributed p, max_contributions_per_partition p with
        | Some l0, Some linf =>
            let c1 := sample_fixed_per_key (ch_pid_pk sm) (Z.to_nat linf) (key_by_pid_pk rows) in
            let '(m', c2) := create_groups m cs c1 in
            let c3 := map (fun x => (fst (fst x), (snd (fst x), snd x))) (read_all m' c2) in
            let c4 := sample_fixed_per_key (ch_pid sm) (Z.to_nat l0) c3 in
            (m', Ok (unnest c4))
        | _, _ => (m, Err TypeError)
        end
      else match max_partitions_contributed p with
           | Some l0 => last (bound_cross_partition (ch_pid sm) (Z.to_nat l0) (fun vs => vs) rows)
           | None => (m, Err TypeError)
           end
    else if compound_expects_sampling cs then
      match max_contributions_per_partition p with
      | Some linf => last (bound_linf (ch_pid_pk sm) (Z.to_nat linf) (fun vs => vs) rows)
      | None => (m, Err TypeError)
      end
    else last (bound_noop (fun vs => vs) rows)
  end.

(** dp_engine.py:125-155. *)
Definition contributions_in {U P} `{EqDec U} `{EqDec P}
    (p : params) (cs : list combiner) (sm : sampling U P) (public : option (list P))
    (m : memory) (rows : list (U * P * aval)) : memory * result (list (P * cacc)) :=
  let rows1 := match public with
               | Some pub => if public_partitions_already_filtered p then rows
                             else drop_partitions pub rows
               | None => rows
               end in
  if contribution_bounds_already_enforced p
  then let '(m', out) := create_groups m cs (map (fun r => (snd (fst r), [snd r])) rows1) in
       (m', Ok (read_all m' out))
  else let '(m', out) := bound_contributions_in p cs sm m rows1 in
       (m', rmap (map (fun e => (snd (fst e), snd e))) out).

(** What _aggregate does with the accumulators of the contributions: merging,
    partition selection, metrics (dp_engine.py:157-189, as in EngineModel). *)
Definition release {P} `{EqDec P}
    (p : params) (cs : list combiner) (should_keep : P -> Z -> bool) (nz : P -> nat -> noises)
    (public : option (list P)) (contribs : result (list (P * cacc)))
  : result (list (P * list (mname * released))) :=
  rbind (rbind
    (rmap (fun col =>
            let col1 := match public with
                        | Some (k :: ks) => add_empty_public_partitions col (k :: ks) (compound_create cs [])
                        | _ => col
                        end in
            combine_per_key (compound_merge cs) col1) contribs)
    (fun col =>
      if selects_privately p public then
        match max_rows_per_privacy_id p with
        | Some m => Ok (select_private_partitions m should_keep col)
        | None => Err TypeError
        end
      else Ok col))
    (fun col =>
      rmap (fun out => if post_aggregation_thresholding p
                       then filter (fun row => above_threshold (snd row)) out else out)
           (map_result (fun row => rmap (pair (fst row))
                                        (compound_metrics (nz (fst row)) cs (snd row))) col)).

(** DPEngine._aggregate on rows whose values may be arrays: dp_engine.py:109-189.
    Returns the memory afterwards and the result. *)
Definition aggregate_in {U P} `{EqDec U} `{EqDec P}
    (p : params) (sm : sampling U P) (should_keep : P -> Z -> bool) (nz : P -> nat -> noises)
    (public : option (list P)) (m : memory) (rows : list (U * P * aval))
  : memory * result (list (P * list (mname * released))) :=
  match create_compound_combiner p with
  | Err e => (m, Err e)
  | Ok cs =>
      let '(m', contribs) := contributions_in p cs sm public m rows in
      (m', release p cs should_keep nz public contribs)
  end.
