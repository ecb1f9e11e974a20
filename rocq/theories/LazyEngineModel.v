(** Model of the pipelines of /repo/pipeline_dp/dp_engine.py and
    contribution_bounders.py as they are built and read on LocalBackend: every operation
    creates an iterator (LazyModel).  The functions applied to the elements, the random
    choices and the noise are those of EngineModel and BounderModel; here is what is
    created when, and what reads what. *)
From Coq Require Import List ZArith QArith Reals Bool.
From Verif Require Import Base BackendModel BounderModel ParamsModel SensModel CombinerModel EngineModel HistModel ExpMechModel LazyModel.
Import ListNotations.

(** A histogram with its name, for _list_to_contribution_histograms
    (dataset_histograms/computing_histograms.py:24-65). *)
Inductive named_histogram :=
| HL0 (h : result (list (bin Z))) | HL1 (h : result (list (bin Z))) | HLinf (h : result (list (bin Z)))
| HLinfSum (h : result (option (list (bin Q)))) | HCount (h : result (list (bin Z))) | HPid (h : result (list (bin Z)))
| HSum (h : result (option (list (bin Q)))).
(** The entries of PrivateL0Calculator.Inputs (private_contribution_bounds.py:44-47). *)
Inductive input := IHistogram (h : result (list (bin Z))) | INumber (n : Z).

(** The types of elements. *)
Inductive ty := TU | TP | TV | TQ | TZ | TAcc | TMet | TNamed | THists | TL0 | TInput | TBound | TPair (a b : ty) | TList (a : ty).
#[global] Instance ty_dec : EqDec ty.
Proof. intros x y. decide equality. Defined.

Section Engine.
Context {U P : Type} `{EqDec U} `{EqDec P}.
Fixpoint interp (t : ty) : Type :=
  match t with
  | TU => U | TP => P | TV => value | TQ => Q | TZ => Z | TAcc => cacc
  | TMet => result (list (mname * released))
  | TNamed => named_histogram | THists => dataset_histograms | TL0 => result (list (bin Z)) | TInput => input
  | TBound => result (list (Z * R))
  | TPair a b => interp a * interp b
  | TList a => list (interp a)
  end.
Notation M := (M interp).
Notation "x <- e ;; k" := (bind interp e (fun x => k)) (at level 61, e at next level, right associativity).
Definition row (v : ty) : ty := TPair (TPair TU TP) v.
Definition dec_U : EqDec (interp TU) := (_ : EqDec U).
Definition dec_P : EqDec (interp TP) := (_ : EqDec P).
Definition dec_UP : EqDec (interp (TPair TU TP)) := (_ : EqDec (U * P)).

(** An exception while the pipeline is built or read. *)
Definition fail {A} : M A := fun _ _ => None.

(** ** Operations written with those of LazyModel *)

(** pipeline_backend.py:500-511, 525-546. *)
Definition b_group_by_key {k v} (dec : EqDec (interp k)) (c : col (TPair k v)) : M (col (TPair k (TList v))) :=
  b_later interp (s := TPair k v) (t := TPair k (TList v)) (@group_by_key _ _ dec) c.
Definition b_sample_fixed_per_key {k v} (dec : EqDec (interp k)) (ch : source (interp k)) (n : nat) (c : col (TPair k v))
  : M (col (TPair k (TList v))) :=
  b_later interp (s := TPair k v) (t := TPair k (TList v)) (@sample_fixed_per_key _ _ dec ch n) c.
Definition b_map_values {k v w} (f : interp v -> interp w) (c : col (TPair k v)) : M (col (TPair k w)) :=
  b_map interp (s := TPair k v) (t := TPair k w) (fun kv => (fst kv, f (snd kv))) c.
(** combine_accumulators_per_key: 555-565.  Groups are never empty, functools.reduce does
    not raise. *)
Definition b_combine_per_key {k a} (dec : EqDec (interp k)) (merge : interp a -> interp a -> interp a) (c : col (TPair k a))
  : M (col (TPair k a)) :=
  g <- b_group_by_key dec c ;;
  b_flat_map interp (s := TPair k (TList a)) (t := TPair k a)
    (fun kvs => match snd kvs with [] => [] | x :: rest => [(fst kvs, fold_left merge rest x)] end) g.
(** [if col:], false for an empty list only. *)
Definition truthy {t} (c : col t) : M bool := fun _ h =>
  match lookup interp h c t with
  | None => None
  | Some g => Some (match as_list interp g with Some [] => false | _ => true end, h)
  end.

(** ** Contribution bounders *)

(** contribution_bounders.py:72-111. *)
Definition lazy_cross_and_per {v a} (ch1 : source (U * P)) (ch2 : source U) (l0 linf : nat) (agg : list (interp v) -> interp a)
    (c : col (row v)) : M (col (row a)) :=
  c1 <- b_map interp (s := row v) (t := row v) (fun r => ((fst (fst r), snd (fst r)), snd r)) c ;;
  c2 <- b_sample_fixed_per_key (k := TPair TU TP) dec_UP ch1 linf c1 ;;
  c3 <- b_map_values (k := TPair TU TP) (v := TList v) (w := a) agg c2 ;;
  c4 <- b_map interp (s := row a) (t := TPair TU (TPair TP a)) (fun x => (fst (fst x), (snd (fst x), snd x))) c3 ;;
  c5 <- b_sample_fixed_per_key (k := TU) dec_U ch2 l0 c4 ;;
  b_flat_map interp (s := TPair TU (TList (TPair TP a))) (t := row a) (fun x => map (fun pv => ((fst x, fst pv), snd pv)) (snd x)) c5.
(** contribution_bounders.py:122-156, 249-276. *)
Definition lazy_per_privacy_id {v a} (ch : source U) (m : nat) (agg : list (interp v) -> interp a) (c : col (row v)) : M (col (row a)) :=
  c1 <- b_map interp (s := row v) (t := TPair TU (TPair TP v)) (fun r => (fst (fst r), (snd (fst r), snd r))) c ;;
  c2 <- b_sample_fixed_per_key (k := TU) dec_U ch m c1 ;;
  c3 <- b_map_values (k := TU) (v := TList (TPair TP v)) (w := TList (TPair TP (TList v))) (@group_by_key _ _ dec_P) c2 ;;
  c4 <- b_flat_map interp (s := TPair TU (TList (TPair TP (TList v)))) (t := row (TList v))
          (fun x => map (fun pv => ((fst x, fst pv), snd pv)) (snd x)) c3 ;;
  b_map_values (k := TPair TU TP) (v := TList v) (w := a) agg c4.
(** contribution_bounders.py:168-201. *)
Definition lazy_cross_partition {v a} (ch : source U) (l0 : nat) (agg : list (interp v) -> interp a) (c : col (row v)) : M (col (row a)) :=
  c1 <- b_map interp (s := row v) (t := TPair TU (TPair TP v)) (fun r => (fst (fst r), (snd (fst r), snd r))) c ;;
  c2 <- b_group_by_key (k := TU) dec_U c1 ;;
  c3 <- b_map_values (k := TU) (v := TList (TPair TP v)) (w := TList (TPair TP (TList v))) (@group_by_key _ _ dec_P) c2 ;;
  c4 <- b_map interp (s := TPair TU (TList (TPair TP (TList v)))) (t := TPair TU (TList (TPair TP (TList v))))
          (fun x => (fst x, choose (ch (fst x) (length (snd x))) l0 (snd x))) c3 ;;
  c5 <- b_flat_map interp (s := TPair TU (TList (TPair TP (TList v)))) (t := row (TList v))
          (fun x => map (fun pv => ((fst x, fst pv), snd pv)) (snd x)) c4 ;;
  b_map_values (k := TPair TU TP) (v := TList v) (w := a) agg c5.
(** contribution_bounders.py:212-230. *)
Definition lazy_linf {v a} (ch : source (U * P)) (linf : nat) (agg : list (interp v) -> interp a) (c : col (row v)) : M (col (row a)) :=
  c1 <- b_map interp (s := row v) (t := row v) (fun r => ((fst (fst r), snd (fst r)), snd r)) c ;;
  c2 <- b_sample_fixed_per_key (k := TPair TU TP) dec_UP ch linf c1 ;;
  b_map_values (k := TPair TU TP) (v := TList v) (w := a) agg c2.
(** contribution_bounders.py:236-246. *)
Definition lazy_noop {v a} (agg : list (interp v) -> interp a) (c : col (row v)) : M (col (row a)) :=
  c1 <- b_map interp (s := row v) (t := row v) (fun r => ((fst (fst r), snd (fst r)), snd r)) c ;;
  c2 <- b_group_by_key (k := TPair TU TP) dec_UP c1 ;;
  b_map_values (k := TPair TU TP) (v := TList v) (w := a) agg c2.

(** _create_contribution_bounder (dp_engine.py:382-402) and bound_contributions. *)
Definition lazy_bound_contributions {v a} (p : params) (expects_sampling : bool) (sm : sampling U P) (agg : list (interp v) -> interp a)
    (c : col (row v)) : M (col (row a)) :=
  match max_contributions p with
  | Some m => if (m =? 0)%Z then fail else lazy_per_privacy_id (ch_pid sm) (Z.to_nat m) agg c
  | None =>
    if perform_cross_partition_contribution_bounding p then
      if expects_sampling then
        match max_partitions_contributed p, max_contributions_per_partition p with
        | Some l0, Some linf => lazy_cross_and_per (ch_pid_pk sm) (ch_pid sm) (Z.to_nat l0) (Z.to_nat linf) agg c
        | _, _ => fail
        end
      else match max_partitions_contributed p with
           | Some l0 => lazy_cross_partition (ch_pid sm) (Z.to_nat l0) agg c
           | None => fail
           end
    else if expects_sampling then
      match max_contributions_per_partition p with
      | Some linf => lazy_linf (ch_pid_pk sm) (Z.to_nat linf) agg c
      | None => fail
      end
    else lazy_noop agg c
  end.

(** ** DPEngine *)

(** _drop_partitions: dp_engine.py:292-298. *)
Definition lazy_drop_partitions {v} (c : col (row v)) (partitions : col TP) : M (col (row v)) :=
  c1 <- b_map interp (s := row v) (t := TPair TP (row v)) (fun r => (snd (fst r), r)) c ;;
  c2 <- b_filter_by_key interp (t := TPair TP (row v)) (k := TP) dec_P fst c1 partitions ;;
  b_map interp (s := TPair TP (row v)) (t := row v) snd c2.
(** _add_empty_public_partitions: dp_engine.py:300-315; LocalBackend.to_collection
    returns its argument (pipeline_backend.py:41-58). *)
Definition lazy_add_empty {a} (c : col (TPair TP a)) (public : col TP) (empty : interp a) : M (col (TPair TP a)) :=
  e <- b_map interp (s := TP) (t := TPair TP a) (fun k => (k, empty)) public ;;
  b_flatten interp (t := TPair TP a) [c; e].

(** _aggregate: dp_engine.py:109-189, on rows that are already extracted. *)
Definition lazy_aggregate (p : params) (sm : sampling U P) (should_keep : P -> Z -> bool) (nz : P -> nat -> noises)
    (public : option (col TP)) (c : col (row TV)) : M (col (TPair TP TMet)) :=
  match create_compound_combiner p with
  | Err _ => fail
  | Ok cs =>
    c1 <- match public with
          | Some pub => if public_partitions_already_filtered p then ret interp c else lazy_drop_partitions c pub
          | None => ret interp c
          end ;;
    c2 <- (if contribution_bounds_already_enforced p
           then b_map interp (s := row TV) (t := TPair TP TAcc) (fun r => (snd (fst r), compound_create cs [snd r])) c1
           else b <- lazy_bound_contributions (v := TV) (a := TAcc) p (compound_expects_sampling cs) sm (compound_create cs) c1 ;;
                b_map interp (s := row TAcc) (t := TPair TP TAcc) (fun e => (snd (fst e), snd e)) b) ;;
    c3 <- match public with
          | Some pub => t <- truthy pub ;; if (t : bool) then lazy_add_empty (a := TAcc) c2 pub (compound_create cs []) else ret interp c2
          | None => ret interp c2
          end ;;
    c4 <- b_combine_per_key (k := TP) (a := TAcc) dec_P (compound_merge cs) c3 ;;
    c5 <- (if negb (is_some public) && negb (post_aggregation_thresholding p) && negb (public_partitions_already_filtered p) then
             match max_rows_per_privacy_id p with
             | Some m => b_filter interp (t := TPair TP TAcc) (fun r => should_keep (fst r) (divide_and_round_up (fst (snd r)) m)) c4
             | None => fail
             end
           else ret interp c4) ;;
    c6 <- b_map interp (s := TPair TP TAcc) (t := TPair TP TMet) (fun r => (fst r, compound_metrics (nz (fst r)) cs (snd r))) c5 ;;
    if post_aggregation_thresholding p
    then b_filter interp (t := TPair TP TMet) (fun r => match snd r with Ok m => above_threshold m | Err _ => true end) c6
    else ret interp c6
  end.
(** Reading the result: an exception of compute_metrics is raised. *)
Definition read_metrics (c : col (TPair TP TMet)) : M (result (list (P * list (mname * released)))) :=
  out <- force interp c ;;
  ret interp (map_result (fun r : P * result (list (mname * released)) => rmap (pair (fst r)) (snd r)) out).

(** _select_partitions: dp_engine.py:236-290, on extracted (privacy_id, partition_key). *)
Definition lazy_select_partitions (l0 : nat) (ch : source U) (should_keep : P -> Z -> bool) (c : col (TPair TU TP)) : M (col TP) :=
  c1 <- b_group_by_key (k := TU) dec_U c ;;
  c2 <- b_flat_map interp (s := TPair TU (TList TP)) (t := TPair TU TP)
          (fun x => let unique := @distinct _ dec_P (snd x) in map (fun k => (fst x, k)) (choose (ch (fst x) (length unique)) l0 unique)) c1 ;;
  c3 <- b_map interp (s := TPair TU TP) (t := TPair TP TAcc) (fun x => (snd x, compound_create [] [])) c2 ;;
  c4 <- b_combine_per_key (k := TP) (a := TAcc) dec_P (compound_merge []) c3 ;;
  c5 <- b_filter interp (t := TPair TP TAcc) (fun r => should_keep (fst r) (divide_and_round_up (fst (snd r)) 1)) c4 ;;
  b_map interp (s := TPair TP TAcc) (t := TP) fst c5.

(** ** calculate_private_contribution_bounds *)

(** A collection with one element, computed from the whole of another. *)
Definition b_summary {s t} (f : list (interp s) -> interp t) (c : col s) : M (col t) :=
  b_later interp (fun l => [f l]) c.
(** to_list: pipeline_backend.py:582-583. *)
Definition b_to_list {t} (c : col t) : M (col (TList t)) := b_summary (t := TList t) (fun l => l) c.

(** _list_to_contribution_histograms; a histogram that is missing is None, reading it
    raises AttributeError. *)
Definition pack_histograms (l : list named_histogram) : dataset_histograms :=
  {| h_l0 := fold_left (fun a x => match x with HL0 h => h | _ => a end) l (Err AttributeError);
     h_l1 := fold_left (fun a x => match x with HL1 h => h | _ => a end) l (Err AttributeError);
     h_linf := fold_left (fun a x => match x with HLinf h => h | _ => a end) l (Err AttributeError);
     h_linf_sum := fold_left (fun a x => match x with HLinfSum h => h | _ => a end) l (Err AttributeError);
     h_count_per_partition := fold_left (fun a x => match x with HCount h => h | _ => a end) l (Err AttributeError);
     h_privacy_id_per_partition := fold_left (fun a x => match x with HPid h => h | _ => a end) l (Err AttributeError);
     h_sum_per_partition := fold_left (fun a x => match x with HSum h => h | _ => a end) l (Err AttributeError) |}.

(** compute_dataset_histograms: computing_histograms.py:81-139, 68-78.  The graph of one
    histogram is a generator that reads its argument (what it computes is HistModel's). *)
Definition lazy_dataset_histograms (num_buckets : Z) (c : col (row TQ)) : M (col THists) :=
  c1 <- b_map interp (s := row TQ) (t := row TQ) (fun r => ((fst (fst r), snd (fst r)), snd r)) c ;;
  with_values <- b_to_multi interp c1 ;;
  c2 <- b_map interp (s := row TQ) (t := TPair TU TP) fst with_values ;;
  pairs <- b_to_multi interp c2 ;;
  c3 <- b_later interp (s := TPair TU TP) (t := TPair TU TP) (@distinct _ dec_UP) pairs ;;
  distinct_pairs <- b_to_multi interp c3 ;;
  h1 <- b_summary (s := TPair TU TP) (t := TNamed) (fun l => HL0 (per_privacy_id_histogram l)) distinct_pairs ;;
  h2 <- b_summary (s := TPair TU TP) (t := TNamed) (fun l => HL1 (per_privacy_id_histogram l)) pairs ;;
  h3 <- b_summary (s := TPair TU TP) (t := TNamed) (fun l => HLinf (linf_histogram l)) pairs ;;
  h4 <- b_summary (s := row TQ) (t := TNamed) (fun l => HLinfSum (linf_sum_histogram num_buckets l)) with_values ;;
  h5 <- b_summary (s := TPair TU TP) (t := TNamed) (fun l => HCount (per_partition_histogram l)) pairs ;;
  h6 <- b_summary (s := TPair TU TP) (t := TNamed) (fun l => HPid (per_partition_histogram l)) distinct_pairs ;;
  h7 <- b_summary (s := row TQ) (t := TNamed) (fun l => HSum (partition_sum_histogram num_buckets l)) with_values ;;
  all <- b_flatten interp (t := TNamed) [h1; h2; h3; h4; h5; h6; h7] ;;
  one <- b_to_list all ;;
  b_map interp (s := TList TNamed) (t := THists) pack_histograms one.

(** The function applied to the collected inputs: dict, PrivateL0Calculator.Inputs and
    _calculate_l0 (pipeline_functions.py:43-96, private_contribution_bounds.py:44-81).
    An input that is missing raises TypeError. *)
Definition bound_of_inputs (sigma : Q -> Q -> R -> R) (bp : bounds_params) (l : list input) : result (list (Z * R)) :=
  match fold_left (fun a x => match x with IHistogram h => Some h | _ => a end) l None,
        fold_left (fun a x => match x with INumber n => Some n | _ => a end) l None with
  | Some h, Some n => rbind h (fun l0_histogram => calculate_l0 sigma bp l0_histogram n)
  | Some (Err e), None => Err e
  | _, _ => Err TypeError
  end.

(** DPEngine.calculate_private_contribution_bounds (dp_engine.py:452-504) with
    PrivateL0Calculator.calculate (private_contribution_bounds.py:51-70, 83-87).  The last
    container (PrivateContributionBounds) of the one element is left out. *)
Definition lazy_l0_inputs (num_buckets : Z) (already_filtered : bool) (c : col (row TQ)) (partitions : col TP) : M (col (TList TInput)) :=
  c1 <- (if negb already_filtered then lazy_drop_partitions c partitions else ret interp c) ;;
  hs <- lazy_dataset_histograms num_buckets c1 ;;
  c2 <- b_map interp (s := THists) (t := TL0) h_l0 hs ;;
  l0_histogram <- b_to_multi interp c2 ;;
  c3 <- b_later interp (s := TP) (t := TP) (@distinct _ dec_P) partitions ;;
  number <- b_later interp (s := TP) (t := TZ) size_col c3 ;;
  i1 <- b_map interp (s := TL0) (t := TInput) IHistogram l0_histogram ;;
  i2 <- b_map interp (s := TZ) (t := TInput) INumber number ;;
  all <- b_flatten interp (t := TInput) [i1; i2] ;;
  b_to_list all.
Definition lazy_contribution_bounds (sigma : Q -> Q -> R -> R) (bp : bounds_params) (already_filtered : bool) (c : col (row TQ))
    (partitions : col TP) : M (col TBound) :=
  i <- lazy_l0_inputs number_of_buckets already_filtered c partitions ;;
  b_map interp (s := TList TInput) (t := TBound) (bound_of_inputs sigma bp) i.
End Engine.
