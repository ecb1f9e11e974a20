(** Model of the released records: the names of the metrics, the named tuple types with
    their cache and serialisation, and CompoundCombiner's use of them
    (/repo/pipeline_dp/combiners.py:634-695, 733-791).

    Simplifications: strings are ASCII; of collections.namedtuple (Python's library) the
    checks of the names, the constructor, the field access and the pickle protocol are
    modelled; a class is the number of its creation in its process; what
    namedtuple raises for its field names is always ValueError. *)
From Coq Require Import String Ascii List ZArith QArith Qabs Bool.
From Verif Require Import Base BackendModel ParamsModel CombinerModel EngineModel HistModel.
Import ListNotations.
Local Open Scope Z_scope.

(** ** Numbers and their texts *)

(** A parameter of Metrics.PERCENTILE (aggregate_params.py:70-72, not validated).  A float
    is given by what Python's repr computes first: the sign, the shortest digits that
    identify it, and the position of the decimal point: 0.d1 d2 d3 ... * 10^point.  Floats
    are equal or ordered as these decimals are; the decimal of a float below 2^53 is an
    integer if and only if the float is one. *)
Inductive number :=
| PyInt (z : Z)
| PyFloat (negative : bool) (digits : list nat) (point : Z)
| PyNan
| PyInf.

(** 0.d1 d2 d3 ... *)
Definition fraction (ds : list nat) : Q :=
  fold_right (fun d x => (inject_Z (Z.of_nat d) + x) / 10)%Q 0%Q ds.
(** The number of a finite value. *)
Definition value_of (p : number) : Q :=
  match p with
  | PyInt z => inject_Z z
  | PyFloat negative ds point => (if negative then - 1 else 1) * (fraction ds * Qpower 10 point)
  | PyNan | PyInf => 0
  end%Q.

Definition digit (d : nat) : ascii := ascii_of_nat (48 + d).
Fixpoint string_of (ds : list nat) : string :=
  match ds with [] => EmptyString | d :: ds' => String (digit d) (string_of ds') end.

(** str(int) of Python for z >= 0, and in general; log2 bounds the number of digits. *)
Fixpoint digits_of (fuel : nat) (z : Z) : list nat :=
  match fuel with
  | O => []
  | S f => if z <? 10 then [Z.to_nat z] else digits_of f (z / 10) ++ [Z.to_nat (z mod 10)]
  end.
Definition str_nat (z : Z) : string := string_of (digits_of (S (Z.to_nat (Z.log2 z))) z).
Definition str_int (z : Z) : string :=
  if z <? 0 then String "-" (str_nat (- z)) else str_nat z.

(** str(float) of Python: the exponent form if point <= -4 or point > 16, with at least
    two digits of the exponent. *)
Definition zeros (n : Z) : list nat := repeat 0%nat (Z.to_nat n).
Definition exponent_text (e : Z) : string :=
  (if e <? 0 then "-" else "+") ++ (if Z.abs e <? 10 then "0" else "") ++ str_nat (Z.abs e).
Definition str_digits (ds : list nat) (point : Z) : string :=
  let n := Z.of_nat (length ds) in
  if (-4 <? point) && (point <=? 16) then
    if point <=? 0 then "0." ++ string_of (zeros (- point) ++ ds)
    else if n <=? point then string_of (ds ++ zeros (point - n)) ++ ".0"
    else string_of (firstn (Z.to_nat point) ds) ++ "." ++ string_of (skipn (Z.to_nat point) ds)
  else
    string_of (firstn 1 ds) ++ (if n <=? 1 then "" else "." ++ string_of (skipn 1 ds))
    ++ "e" ++ exponent_text (point - 1).
Definition str_float (negative : bool) (ds : list nat) (point : Z) : string :=
  (if negative then "-" else "") ++ str_digits ds point.

(** str.replace of one character by another. *)
Fixpoint replace (a b : ascii) (s : string) : string :=
  match s with
  | EmptyString => EmptyString
  | String c s' => String (if Ascii.eqb c a then b else c) (replace a b s')
  end.

(** format_metric_name: combiners.py:636-643.  int(round(x)) raises ValueError for NaN and
    OverflowError (here GenericException) for infinite values. *)
Definition format_metric_name (p : number) : result string :=
  match p with
  | PyInt z => Ok ("percentile_" ++ str_int z)%string
  | PyFloat negative ds point =>
      let int_p := py_round (value_of p) in
      if Qeq_bool (inject_Z int_p) (value_of p) then Ok ("percentile_" ++ str_int int_p)%string
      else Ok ("percentile_" ++ replace "." "_" (str_float negative ds point))%string
  | PyNan => Err ValueError
  | PyInf => Err GenericException
  end.

(** The names of the other metrics: combiners.py:263, 266, 306, 309, 356, 361, 418, 421,
    493-499, 566-574, 837, 841, 862-867, 876-880. *)
Definition text (n : mname) : string :=
  match n with
  | NCount => "count" | NPidCount => "privacy_id_count" | NSum => "sum" | NMean => "mean"
  | NVariance => "variance" | NVectorSum => "vector_sum" | NPercentile _ => ""
  end.

(** X.metrics_names with texts: [CombinerModel.names_of]; [nums] are the
    percentiles_to_compute as the caller gave them: combiners.py:602-605, 634-645. *)
Definition texts_of (nums : list number) (c : combiner) : result (list string) :=
  match c with
  | CQuantile _ => map_result format_metric_name nums
  | _ => Ok (map text (names_of c))
  end.

(** ** collections.namedtuple *)

Definition is_letter (c : ascii) : bool :=
  let n := nat_of_ascii c in
  ((65 <=? n) && (n <=? 90) || (97 <=? n) && (n <=? 122) || (n =? 95))%nat.
Definition is_digit (c : ascii) : bool :=
  let n := nat_of_ascii c in ((48 <=? n) && (n <=? 57))%nat.
Fixpoint all_chars (f : ascii -> bool) (s : string) : bool :=
  match s with EmptyString => true | String c s' => f c && all_chars f s' end.
(** str.isidentifier for ASCII strings. *)
Definition is_identifier (s : string) : bool :=
  match s with
  | EmptyString => false
  | String c s' => is_letter c && all_chars (fun c => is_letter c || is_digit c) s'
  end.
(** keyword.kwlist of Python 3.7 and later. *)
Definition keywords : list string :=
  ["False"; "None"; "True"; "and"; "as"; "assert"; "async"; "await"; "break"; "class"; "continue"; "def"; "del";
   "elif"; "else"; "except"; "finally"; "for"; "from"; "global"; "if"; "import"; "in"; "is"; "lambda"; "nonlocal";
   "not"; "or"; "pass"; "raise"; "return"; "try"; "while"; "with"; "yield"]%string.
Definition starts_with_underscore (s : string) : bool :=
  match s with String c _ => Ascii.eqb c "_" | EmptyString => false end.
(** The checks of collections.namedtuple(type_name, field_names). *)
Definition valid_name (s : string) : bool := is_identifier s && negb (mem s keywords).
Definition namedtuple_accepts (type_name : string) (fields : list string) : bool :=
  valid_name type_name && forallb valid_name fields
  && forallb (fun f => negb (starts_with_underscore f)) fields && negb (has_duplicates fields).

(** A Python process: the classes made by namedtuple so far, and _named_tuple_cache
    (combiners.py:674). *)
Definition class_def := (string * list string)%type.
Record process := Process { classes : list class_def; cache : list (class_def * nat) }.
Definition fresh_process : process := Process [] [].

Fixpoint cache_get (c : list (class_def * nat)) (k : class_def) : option nat :=
  match c with
  | [] => None
  | (k', i) :: c' => if eqb k k' then Some i else cache_get c' k
  end.

(** _get_or_create_named_tuple: combiners.py:677-691. *)
Definition get_or_create (type_name : string) (fields : list string) (s : process) : result (nat * process) :=
  let key := (type_name, fields) in
  match cache_get (cache s) key with
  | Some i => Ok (i, s)
  | None =>
      if namedtuple_accepts type_name fields then
        let i := length (classes s) in
        Ok (i, Process (classes s ++ [key]) ((key, i) :: cache s))
      else Err ValueError
  end.

(** An object: its class and values.  The constructor raises TypeError for a wrong number
    of values. *)
Record instance := Instance { i_class : nat; i_values : list released }.
Definition construct (s : process) (i : nat) (vs : list released) : result instance :=
  match nth_error (classes s) i with
  | Some (_, fields) => raise_if (negb (length vs =? length fields)%nat) TypeError (Ok (Instance i vs))
  | None => Err GenericException
  end.

(** _create_named_tuple_instance: combiners.py:694-695. *)
Definition create_instance (type_name : string) (fields : list string) (vs : list released) (s : process)
  : result (instance * process) :=
  rbind (get_or_create type_name fields s) (fun cs =>
    rmap (fun x => (x, snd cs)) (construct (snd cs) (fst cs) vs)).

(** The fields of an object; getattr (AttributeError for other names). *)
Definition fields_of (s : process) (x : instance) : list string :=
  match nth_error (classes s) (i_class x) with Some (_, fields) => fields | None => [] end.
Fixpoint lookup (f : string) (fields : list string) (vs : list released) : result released :=
  match fields, vs with
  | g :: fields', v :: vs' => if String.eqb f g then Ok v else lookup f fields' vs'
  | _, _ => Err AttributeError
  end.
Definition getattr (s : process) (x : instance) (f : string) : result released := lookup f (fields_of s x) (i_values x).

(** __reduce__ (combiners.py:687-689): the arguments of _create_named_tuple_instance, from
    the closure that made the class; loads calls it in the other process. *)
Definition pickled := (string * list string * list released)%type.
Definition dumps (s : process) (x : instance) : result pickled :=
  match nth_error (classes s) (i_class x) with
  | Some (type_name, fields) => Ok (type_name, fields, i_values x)
  | None => Err GenericException
  end.
Definition loads (d : pickled) (s : process) : result (instance * process) :=
  create_instance (fst (fst d)) (snd (fst d)) (snd d) s.

(** ** CompoundCombiner with return_named_tuple = True *)

(** __init__: combiners.py:733-747 (the class that it makes is not used again). *)
Definition named_init (nums : list number) (cs : list combiner) (s : process) : result (list combiner * process) :=
  rbind (map_result (texts_of nums) cs) (fun names =>
    raise_if (has_duplicates (concat names)) ValueError
      (rmap (fun x => (cs, snd x)) (get_or_create "MetricsTuple" (concat names) s))).

(** metrics_names: combiners.py:790-791. *)
Definition compound_names (nums : list number) (cs : list combiner) : result (list string) :=
  rmap (@concat string) (map_result (texts_of nums) cs).

(** X.compute_metrics with texts: QuantileCombiner zips its names with the quantiles
    (combiners.py:631-632; the names are distinct after __init__), the others have fixed
    keys. *)
Definition compute_named (nz : noises) (nums : list number) (c : combiner) (a : acc) : result (list (string * released)) :=
  match c with
  | CQuantile _ =>
      rbind (map_result format_metric_name nums) (fun names =>
        rmap (fun d => combine names (map snd d)) (compute_metrics nz c a))
  | _ => rmap (map (fun nv => (text (fst nv), snd nv))) (compute_metrics nz c a)
  end.

(** compute_metrics: combiners.py:766-788. *)
Fixpoint combine_named (nzs : nat -> noises) (nums : list number) (i : nat) (cs : list combiner) (accs : list acc)
    (sofar : list (string * released)) : result (list (string * released)) :=
  match cs, accs with
  | c :: cs', a :: accs' =>
      rbind (compute_named (nzs i) nums c a) (fun d =>
        if existsb (fun kv => mem (fst kv) (map fst sofar)) d then Err GenericException
        else combine_named nzs nums (S i) cs' accs' (sofar ++ d))
  | _, _ => Ok sofar
  end.
Definition named_metrics (nzs : nat -> noises) (nums : list number) (cs : list combiner) (a : cacc) (s : process)
  : result (instance * process) :=
  rbind (combine_named nzs nums 0 cs (snd a) []) (fun d =>
    create_instance "MetricsTuple" (map fst d) (map snd d) s).
