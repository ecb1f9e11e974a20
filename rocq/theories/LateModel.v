(** Model of the late binding of budgets: combiners of
    /repo/pipeline_dp/combiners.py hold references to MechanismSpec objects, which get
    their budget only when compute_budgets of /repo/pipeline_dp/budget_accounting.py is
    called; combiners are serialized and sent to workers, and they create their noise
    mechanisms on demand. *)
From Coq Require Import List ZArith QArith Bool.
From Verif Require Import Base ParamsModel SensModel BudgetModel CombinerModel SelectModel DpModel.
Import ListNotations.

(** A reference held by a combiner to a MechanismSpec (combiners.py:155, 250, 292, 341,
    396, 468-469): [Shared i], the object number i of the driver's accountant itself;
    [Own m], a copy of it that came with the serialized combiner.  set_eps_delta is
    called only on objects of the accountant (budget_accounting.py:408), so a copy never
    changes. *)
Inductive spec_ref := Shared (i : nat) | Own (m : mech).

(** What a combiner keeps of its parameters: the sensitivities, computed by the
    constructor (combiners.py:250-252, 292-294, 336-345, 396-405, 468-476), or
    CombinerParams with a copy of the parameters (combiners.py:153-156; VarianceCombiner,
    QuantileCombiner, VectorSumCombiner). *)
Inductive body :=
| Additive (s : sens)
| Thresholding (s : sens) (pre : option Z)
| Mean (lo hi : Q) (count_sens sum_sens : sens)
| WithParams (p : params).

(** What get_mechanism returns; for the combiners with CombinerParams: the budget and
    parameters with which they compute (combiners.py:158-191, 562-564, 624-629, 829-834). *)
Inductive built :=
| BAdditive (m : mechanism)
| BThresholding (s : selector)
| BMean (range_middle : Q) (count_mechanism sum_mechanism : mechanism)
| BParams (eps delta : Q) (p : params).

(** A combiner object; [o_mech]: the attribute _mechanism, if it is set
    (combiners.py:209-213). *)
Record obj := Obj { o_body : body; o_specs : list spec_ref; o_mech : option built }.

(** Which class: CountCombiner, PrivacyIdCountCombiner, SumCombiner,
    PostAggregationThresholdingCombiner, MeanCombiner, one of those with CombinerParams. *)
Inductive class := KCount | KPidCount | KSum | KThresh | KMean | KWithParams.

(** The part of the constructors that reads the parameters: combiners.py:153-156, 247-252,
    289-294, 336-345, 393-405, 449-476. *)
Definition construct (c : class) (p : params) : result body :=
  match c with
  | KCount => rmap Additive (sens_count p)
  | KPidCount => rmap Additive (sens_privacy_id_count p)
  | KSum => rmap Additive (sens_sum p)
  | KThresh => rmap (fun s => Thresholding s (pre_threshold p)) (sens_privacy_id_count p)
  | KMean =>
      match min_value p, max_value p with
      | Some lo, Some hi =>
          rbind (sens_count p) (fun sc =>
          rmap (fun ss => Mean lo hi sc ss) (sens_normalized_sum p))
      | _, _ => Err TypeError
      end
  | KWithParams => Ok (WithParams p)
  end.

(** The number of budgets the combiner is given. *)
Definition specs_needed (c : class) : nat := match c with KMean => 2 | _ => 1 end.

(** MechanismType.to_noise_kind: aggregate_params.py:99-109. *)
Definition to_noise_kind (t : mech_type) : result noise :=
  match t with
  | LAPLACE | LAPLACE_THRESHOLDING => Ok LaplaceNoise
  | GAUSSIAN | GAUSSIAN_THRESHOLDING => Ok GaussianNoise
  | GENERIC => Err ValueError
  end.

(** create_additive_mechanism reading a MechanismSpec: dp_computations.py:621-646.  The
    noise standard deviation is not set (NaiveBudgetAccountant); eps and delta are
    read after the sensitivities were checked, delta only for Gaussian noise. *)
Definition create_additive (m : mech) (s : sens) : result mechanism :=
  rbind (to_noise_kind (m_type m)) (fun k =>
    match k with
    | LaplaceNoise =>
        match s_l1 s with
        | None => Err ValueError
        | Some l1 => rbind (get_eps m) (fun e => create_additive_mechanism (MSpec k None e 0) s)
        end
    | GaussianNoise =>
        match s_l2sq s with
        | None => Err ValueError
        | Some l2 => rbind (get_eps m) (fun e => rbind (get_delta m) (fun d =>
                     create_additive_mechanism (MSpec k None e d) s))
        end
    end).

(** create_mechanism: combiners.py:224-226, 380-382, 505-512 with create_mean_mechanism,
    dp_computations.py:649-659, and create_thresholding_mechanism, 828-838; properties of
    CombinerParams: combiners.py:158-164. *)
Definition create_mechanism (b : body) (ms : list mech) : result built :=
  match b, ms with
  | Additive s, [m] => rmap BAdditive (create_additive m s)
  | Thresholding s pre, [m] =>
      rbind (to_partition_selection_strategy (m_type m)) (fun _ =>
      rbind (get_eps m) (fun e => rbind (get_delta m) (fun d =>
        rmap BThresholding (create_thresholding_mechanism (m_type m) e d s pre))))
  | Mean lo hi sc ss, [mc; ms] =>
      rbind (create_additive mc sc) (fun c =>
      rmap (BMean (middle lo hi) c) (create_additive ms ss))
  | WithParams p, [m] =>
      rbind (get_eps m) (fun e => rmap (fun d => BParams e d p) (get_delta m))
  | _, _ => Err TypeError
  end.

(** Following a reference. *)
Definition deref (a : acct) (r : spec_ref) : option mech :=
  match r with Shared i => nth_error (mechs a) i | Own m => Some m end.
Fixpoint derefs (a : acct) (l : list spec_ref) : list mech :=
  match l with
  | [] => []
  | r :: l' => match deref a r with Some m => m :: derefs a l' | None => derefs a l' end
  end.

(** get_mechanism: combiners.py:209-213.  An exception of create_mechanism leaves the
    object unchanged.  The combiners with CombinerParams have no such attribute: they
    read the budget each time.  The boolean: create_mechanism was called. *)
Definition get_mechanism (a : acct) (o : obj) : obj * (bool * result built) :=
  match o_mech o with
  | Some b => (o, (false, Ok b))
  | None =>
      match create_mechanism (o_body o) (derefs a (o_specs o)) with
      | Ok b => (match o_body o with
                 | WithParams _ => o
                 | _ => Obj (o_body o) (o_specs o) (Some b)
                 end, (true, Ok b))
      | Err e => (o, (true, Err e))
      end
  end.

(** __getstate__ and unpickling in another process: combiners.py:199-207.  The
    _mechanism attribute is dropped, everything else is copied, the MechanismSpec
    objects as they are now. *)
Definition transfer (a : acct) (o : obj) : obj :=
  Obj (o_body o) (map Own (derefs a (o_specs o))) None.

(** All processes together: the accountant and the AggregateParams object of the driver,
    and all combiner objects that were ever created, by construction or unpickling. *)
Record world := World { w_acct : acct; w_params : params; w_objs : list obj }.

Inductive event :=
| Account (o : op)                         (* the driver calls the accountant *)
| Edit (p : params)                        (* the driver assigns to fields of its AggregateParams object *)
| Construct (c : class) (specs : list nat) (* the driver constructs a combiner from specs of the accountant *)
| Transfer (j : nat)                       (* any process serializes a combiner, another one unpickles it *)
| GetMechanism (j : nat).                  (* any process: get_mechanism, by compute_metrics or explain_computation *)

Inductive outcome :=
| OAcct (r : result out)
| ODone
| OObject (j : nat)
| OMech (created : bool) (r : result built)
| OFailed (e : exn).

Fixpoint set_nth {A} (n : nat) (x : A) (l : list A) : list A :=
  match l, n with
  | [], _ => []
  | _ :: l', O => x :: l'
  | y :: l', S n' => y :: set_nth n' x l'
  end.

(** One event.  Events naming objects or specs that do not exist do nothing. *)
Definition wstep (w : world) (e : event) : world * outcome :=
  match e with
  | Account o => (World (fst (step (w_acct w) o)) (w_params w) (w_objs w), OAcct (snd (step (w_acct w) o)))
  | Edit p => (World (w_acct w) p (w_objs w), ODone)
  | Construct c is =>
      if forallb (fun i => Nat.ltb i (length (mechs (w_acct w)))) is && Nat.eqb (length is) (specs_needed c)
      then match construct c (w_params w) with
           | Ok b => (World (w_acct w) (w_params w) (w_objs w ++ [Obj b (map Shared is) None]),
                      OObject (length (w_objs w)))
           | Err x => (w, OFailed x)
           end
      else (w, OFailed TypeError)
  | Transfer j =>
      match nth_error (w_objs w) j with
      | Some o => (World (w_acct w) (w_params w) (w_objs w ++ [transfer (w_acct w) o]),
                   OObject (length (w_objs w)))
      | None => (w, OFailed TypeError)
      end
  | GetMechanism j =>
      match nth_error (w_objs w) j with
      | Some o => (World (w_acct w) (w_params w) (set_nth j (fst (get_mechanism (w_acct w) o)) (w_objs w)),
                   OMech (fst (snd (get_mechanism (w_acct w) o))) (snd (snd (get_mechanism (w_acct w) o))))
      | None => (w, OFailed TypeError)
      end
  end.

(** A history, and the trace of it: every event with its outcome. *)
Definition wrun (w : world) (h : list event) : world := fold_left (fun w e => fst (wstep w e)) h w.
Fixpoint trace (w : world) (h : list event) : list (event * outcome) :=
  match h with
  | [] => []
  | e :: h' => (e, snd (wstep w e)) :: trace (fst (wstep w e)) h'
  end.
