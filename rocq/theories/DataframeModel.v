(** Model of /repo/pipeline_dp/dataframes.py: QueryBuilder and Query on Spark data
    frames.  [C] is the type of the cells of the data frame; column types and
    nullability are not modelled. *)
From Coq Require Import List ZArith QArith String Ascii Bool.
From Verif Require Import Base ParamsModel.
Import ListNotations.
Local Open Scope string_scope.

(** Metrics of the builder: count, sum, mean; metric.name.lower(). *)
Inductive agg := ACount | ASum | AMean.
#[export] Instance EqDec_agg : EqDec agg.
Proof. intros x y. decide equality. Defined.
Definition agg_name (a : agg) : string :=
  match a with ACount => "count" | ASum => "sum" | AMean => "mean" end.
Definition agg_metric (a : agg) : metric :=
  match a with ACount => COUNT | ASum => SUM | AMean => MEAN end.

(** _AggregationSpec: dataframes.py:247-262. *)
Record aggspec := AggSpec {
  a_metric : agg;
  a_input : option string;
  a_output : option string;
  a_min : option Q;
  a_max : option Q
}.

(** The argument [by]: a string, a list of strings, something else (e.g. a tuple). *)
Inductive by_arg := ByStr (c : string) | ByList (cs : list string) | ByOther.

(** QueryBuilder: dataframes.py:264-302.  [K] is the type of the public keys. *)
Record builder (K : Type) := Builder {
  b_columns : list string;
  b_privacy : string;
  b_by : option by_arg;
  b_public : option (list K);
  b_specs : list aggspec;
  b_max_groups : option Z;
  b_max_contributions : option Z
}.
Arguments Builder {K}.
Arguments b_columns {K} _.
Arguments b_privacy {K} _.
Arguments b_by {K} _.
Arguments b_public {K} _.
Arguments b_specs {K} _.
Arguments b_max_groups {K} _.
Arguments b_max_contributions {K} _.

Definition mem_string (c : string) (cs : list string) : bool := existsb (String.eqb c) cs.

Definition new_builder {K} (columns : list string) (privacy : string) : result (builder K) :=
  if mem_string privacy columns then Ok (Builder columns privacy None None [] None None)
  else Err ValueError.

(** The calls of the builder's methods. *)
Inductive bcall (K : Type) :=
| GroupBy (by_ : by_arg) (groups contributions : Z) (public : option (list K))
| Count (name : option string)
| Sum (column : string) (lo hi : option Q) (name : option string)
| Mean (column : string) (lo hi : option Q) (name : option string).
Arguments GroupBy {K}.
Arguments Count {K}.
Arguments Sum {K}.
Arguments Mean {K}.

(** groupby: dataframes.py:304-360 (argument [column] left out). *)
Definition groupby {K} (b : builder K) (by_ : by_arg) (groups contributions : Z) (public : option (list K)) : result (builder K) :=
  if is_some (b_by b) then Err ValueError
  else let known := match by_ with
                    | ByStr c => mem_string c (b_columns b)
                    | ByList cs => forallb (fun c => mem_string c (b_columns b)) cs
                    | ByOther => false
                    end in
       if known then Ok (Builder (b_columns b) (b_privacy b) (Some by_) public (b_specs b) (Some groups) (Some contributions))
       else Err ValueError.

(** _add_aggregation, _check_by: dataframes.py:441-450. *)
Definition add_aggregation {K} (b : builder K) (s : aggspec) : result (builder K) :=
  if is_some (b_by b)
  then Ok (Builder (b_columns b) (b_privacy b) (b_by b) (b_public b) (b_specs b ++ [s])%list (b_max_groups b) (b_max_contributions b))
  else Err NotImplementedError.

(** count, sum, mean: dataframes.py:362-415. *)
Definition bstep {K} (b : builder K) (c : bcall K) : result (builder K) :=
  match c with
  | GroupBy by_ g n p => groupby b by_ g n p
  | Count name => add_aggregation b (AggSpec ACount None name None None)
  | Sum col lo hi name => add_aggregation b (AggSpec ASum (Some col) name lo hi)
  | Mean col lo hi name => add_aggregation b (AggSpec AMean (Some col) name lo hi)
  end.
Fixpoint brun {K} (b : builder K) (l : list (bcall K)) : result (builder K) :=
  match l with
  | [] => Ok b
  | c :: l' => rbind (bstep b c) (fun b' => brun b' l')
  end.

(** Query: dataframes.py:139-165. *)
Record query (K : Type) := Query {
  q_privacy : string;
  q_by : by_arg;
  q_value : option string;
  q_metrics : list (agg * option string);
  q_max_groups : option Z;
  q_max_contributions : option Z;
  q_min : option Q;
  q_max : option Q;
  q_public : option (list K)
}.
Arguments Query {K}.
Arguments q_privacy {K} _.
Arguments q_by {K} _.
Arguments q_value {K} _.
Arguments q_metrics {K} _.
Arguments q_max_groups {K} _.
Arguments q_max_contributions {K} _.
Arguments q_min {K} _.
Arguments q_max {K} _.
Arguments q_public {K} _.

Definition somes {A} (l : list (option A)) : list A := flat_map (fun o => match o with Some a => [a] | None => [] end) l.

(** len(set(l)) != len(l). *)
Fixpoint distinctb {A} `{EqDec A} (l : list A) : bool :=
  match l with
  | [] => true
  | a :: l' => negb (existsb (eqb a) l') && distinctb l'
  end.

(** _get_input_column: dataframes.py:457-467. *)
Definition get_input_column (specs : list aggspec) : result (option string) :=
  match somes (map a_input specs) with
  | [] => Ok None
  | c :: cs => if forallb (String.eqb c) cs then Ok (Some c) else Err NotImplementedError
  end.

(** _get_value_caps: dataframes.py:475-500. *)
Definition all_equal (l : list Q) : bool :=
  match l with [] => true | a :: l' => forallb (Qeq_bool a) l' end.
Definition get_value_caps (specs : list aggspec) : result (option Q * option Q) :=
  if forallb (fun s => eqb (a_metric s) ACount) specs then Ok (None, None)
  else match somes (map a_min specs), somes (map a_max specs) with
       | lo :: los, hi :: his =>
           if all_equal (lo :: los) && all_equal (hi :: his) then Ok (Some lo, Some hi) else Err ValueError
       | _, _ => Err ValueError
       end.

(** build_query: dataframes.py:417-439. *)
Definition build_query {K} (b : builder K) : result (query K) :=
  match b_by b with
  | None => Err NotImplementedError
  | Some by_ =>
      match b_specs b with
      | [] => Err ValueError
      | _ =>
          if distinctb (map a_metric (b_specs b))
          then rbind (get_input_column (b_specs b)) (fun input =>
               rbind (get_value_caps (b_specs b)) (fun caps =>
               Ok (Query (b_privacy b) by_ input (map (fun s => (a_metric s, a_output s)) (b_specs b))
                         (b_max_groups b) (b_max_contributions b) (fst caps) (snd caps) (b_public b))))
          else Err ValueError
      end
  end.

(** ** Data frame to collection: dataframes.py:72-96 *)

(** A group-by key: the cell of one column, or the tuple of the cells of several. *)
Inductive pkey (C : Type) := One (c : C) | Many (cs : list C).
Arguments One {C} c.
Arguments Many {C} cs.

(** The cell of a named column in a row; the column names are distinct. *)
Fixpoint cell_at {C} (columns : list string) (row : list C) (name : string) : option C :=
  match columns, row with
  | c :: columns', x :: row' => if String.eqb c name then Some x else cell_at columns' row' name
  | _, _ => None
  end.

(** df[columns_to_keep]; a missing column raises an AnalysisException ([GenericException]). *)
Fixpoint cells_at {C} (columns : list string) (row : list C) (names : list string) : result (list C) :=
  match names with
  | [] => Ok []
  | n :: names' => match cell_at columns row n with
                   | Some x => rmap (cons x) (cells_at columns row names')
                   | None => Err GenericException
                   end
  end.

Definition by_columns (b : by_arg) : list string :=
  match b with ByStr c => [c] | ByList cs => cs | ByOther => [] end.

(** The extractor: [zero] is the 0 used without a value column. *)
Definition extractor {C} (zero : C) (n_keys : nat) (value_present : bool) (row : list C) : result (C * pkey C * C) :=
  match row with
  | [] => Err IndexError
  | u :: rest =>
      rbind (if Nat.eqb n_keys 1 then match rest with k :: _ => Ok (One k) | [] => Err IndexError end
             else Ok (Many (firstn n_keys rest))) (fun k =>
      rbind (if value_present then match nth_error rest n_keys with Some v => Ok v | None => Err IndexError end
             else Ok zero) (fun v => Ok (u, k, v)))
  end.
Definition row_to_element {C K} (zero : C) (q : query K) (columns : list string) (row : list C) : result (C * pkey C * C) :=
  rbind (cells_at columns row (q_privacy q :: by_columns (q_by q) ++ somes [q_value q])%list)
        (extractor zero (List.length (by_columns (q_by q))) (is_some (q_value q))).
Fixpoint mapM {A B} (f : A -> result B) (l : list A) : result (list B) :=
  match l with
  | [] => Ok []
  | a :: l' => rbind (f a) (fun b => rmap (cons b) (mapM f l'))
  end.
Definition to_collection {C K} (zero : C) (q : query K) (columns : list string) (rows : list (list C)) : result (list (C * pkey C * C)) :=
  mapM (row_to_element zero q columns) rows.

(** ** Result: dataframes.py:207-244 *)

(** Field names that collections.namedtuple accepts: identifiers (here ASCII), no keyword, no
    leading underscore, no duplicates. *)
Definition is_letter (a : ascii) : bool :=
  let n := nat_of_ascii a in ((65 <=? n) && (n <=? 90) || (97 <=? n) && (n <=? 122))%nat%bool.
Definition is_digit (a : ascii) : bool := let n := nat_of_ascii a in ((48 <=? n) && (n <=? 57))%nat%bool.
Definition is_underscore (a : ascii) : bool := Nat.eqb (nat_of_ascii a) 95.
Fixpoint all_chars (f : ascii -> bool) (s : string) : bool :=
  match s with EmptyString => true | String a s' => f a && all_chars f s' end.
Definition keywords : list string :=
  ["False"; "None"; "True"; "and"; "as"; "assert"; "async"; "await"; "break"; "class"; "continue"; "def"; "del"; "elif";
   "else"; "except"; "finally"; "for"; "from"; "global"; "if"; "import"; "in"; "is"; "lambda"; "nonlocal"; "not"; "or";
   "pass"; "raise"; "return"; "try"; "while"; "with"; "yield"].
Definition valid_field (s : string) : bool :=
  match s with
  | EmptyString => false
  | String a s' => is_letter a && all_chars (fun c => is_letter c || is_digit c || is_underscore c)%bool s' && negb (mem_string s keywords)
  end.
Definition namedtuple_ok (fields : list string) : bool := forallb valid_field fields && distinctb fields.

Definition output_column (m : agg * option string) : string :=
  match snd m with Some name => name | None => agg_name (fst m) end.

(** A cell of the result: of the key or of a metric. *)
Inductive out_cell (C V : Type) := Key (k : pkey C) | Val (v : V).
Arguments Key {C V} k.
Arguments Val {C V} v.

Fixpoint dict_set {A} (d : list (string * A)) (k : string) (v : A) : list (string * A) :=
  match d with
  | [] => [(k, v)]
  | (k', v') :: d' => if String.eqb k' k then (k', v) :: d' else (k', v') :: dict_set d' k v
  end.
Fixpoint dict_get {A} (d : list (string * A)) (k : string) : option A :=
  match d with
  | [] => None
  | (k', v) :: d' => if String.eqb k' k then Some v else dict_get d' k
  end.
Definition dict_of {A} (items : list (string * A)) : list (string * A) :=
  fold_left (fun d kv => dict_set d (fst kv) (snd kv)) items [].

(** PartitionMetricsTuple called with the dict as keyword arguments. *)
Fixpoint fields_of {A} (d : list (string * A)) (fields : list string) : result (list A) :=
  match fields with
  | [] => Ok []
  | f :: fields' => match dict_get d f with
                    | Some a => rmap (cons a) (fields_of d fields')
                    | None => Err TypeError
                    end
  end.
Definition make_tuple {A} (fields : list string) (d : list (string * A)) : result (list A) :=
  if forallb (fun kv => mem_string (fst kv) fields) d then fields_of d fields else Err TypeError.

(** zip of the columns with the key: dataframes.py:226-231; [chars c] is what iterating over a single
    cell gives (its characters if it is a string, TypeError if it is a number). *)
Definition key_items {C V} (chars : C -> result (list C)) (b : by_arg) (k : pkey C) : result (list (string * out_cell C V)) :=
  match b with
  | ByStr c => Ok [(c, Key k)]
  | _ => rmap (fun cells => combine (by_columns b) (map (fun x => Key (One x)) cells))
              (match k with Many cs => Ok cs | One c => chars c end)
  end.

(** convert_to_partition_metrics_tuple: dataframes.py:223-237.  A partition's metrics are the fields
    of the named tuple in order. *)
Definition metric_items {C V} (names : list (string * string)) (ms : list (string * V)) : result (list (string * out_cell C V)) :=
  mapM (fun kv => match dict_get names (fst kv) with
                  | Some out => Ok (out, Val (snd kv))
                  | None => Err KeyError
                  end) ms.
Definition convert {C V K} (chars : C -> result (list C)) (q : query K) (pm : pkey C * list (string * V)) : result (list (out_cell C V)) :=
  let names := dict_of (map (fun m => (agg_name (fst m), output_column m)) (q_metrics q)) in
  rbind (key_items chars (q_by q) (fst pm)) (fun ks =>
  rbind (metric_items names (snd pm)) (fun vs =>
  make_tuple (by_columns (q_by q) ++ map snd names)%list (dict_of (ks ++ vs)%list))).

(** run_query: dataframes.py:167-244.  [engine q elements] is the result of DPEngine.aggregate for the
    query's metrics, bounds and public keys.  The result is the schema (column names) and the rows
    (createDataFrame takes the cells by position).  ByOther is not reachable through QueryBuilder. *)
Definition run_query {C V} (zero : C) (chars : C -> result (list C))
    (engine : query (pkey C) -> list (C * pkey C * C) -> result (list (pkey C * list (string * V))))
    (q : query (pkey C)) (columns : list string) (rows : list (list C)) : result (list string * list (list (out_cell C V))) :=
  rbind (to_collection zero q columns rows) (fun col =>
  rbind (engine q col) (fun res =>
  let names := dict_of (map (fun m => (agg_name (fst m), output_column m)) (q_metrics q)) in
  let fields := (by_columns (q_by q) ++ map snd names)%list in
  if namedtuple_ok fields
  then rmap (fun out => (fields, out)) (mapM (convert chars q) res)
  else Err ValueError)).
