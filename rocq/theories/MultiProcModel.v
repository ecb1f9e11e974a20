(** Model of /repo/pipeline_dp/pipeline_backend.py:584-823: MultiProcLocalBackend.

    Worker processes run concurrently and share a dictionary held by a manager
    process; every access to the dictionary or to a list in it is one message to
    the manager, hence atomic, and the accesses of different workers interleave
    arbitrarily.  An execution is given by the rows handed to each worker and by
    a schedule (which worker acts next).  Pickling, process start-up and crashes
    are not modelled. *)
From Coq Require Import List ZArith Bool.
From Verif Require Import Base BackendModel.
Import ListNotations.

(** ** Collections *)

(** What a backend operation may be given: an object that can be iterated over
    again (list, _LazyMultiProcIterator), or a generator. *)
Inductive coll (A : Type) := Reiterable (l : list A) | Generator (l : list A).
Arguments Reiterable {A} l.
Arguments Generator {A} l.
Definition content {A} (c : coll A) : list A := match c with Reiterable l | Generator l => l end.
(** Iterating to the end: the elements, and what the object yields afterwards. *)
Definition consume {A} (c : coll A) : list A * coll A :=
  match c with
  | Reiterable l => (l, Reiterable l)
  | Generator l => (l, Generator [])
  end.

(** ** Workers *)

(** A worker: rows still to be processed, and what it has fetched and not yet
    written back for the row in progress. *)
Record worker (K R X : Type) := Worker { todo : list R; pending : option (K * X) }.
Arguments todo {K R X} w.
Arguments pending {K R X} w.
Arguments Worker {K R X} todo pending.

(** The shared dictionary, the workers, and the exception that a worker raised. *)
Record pool (K R X C : Type) := Pool {
  dict : list (K * C);
  workers : list (worker K R X);
  failed : option exn }.
Arguments dict {K R X C} p.
Arguments workers {K R X C} p.
Arguments failed {K R X C} p.
Arguments Pool {K R X C} dict workers failed.

Fixpoint lookup {K C} `{EqDec K} (d : list (K * C)) (k : K) : option C :=
  match d with
  | [] => None
  | (k', c) :: d' => if eqb k' k then Some c else lookup d' k
  end.
Fixpoint update {K C} `{EqDec K} (d : list (K * C)) (k : K) (g : C -> C) : list (K * C) :=
  match d with
  | [] => []
  | (k', c) :: d' => if eqb k' k then (k', g c) :: d' else (k', c) :: update d' k g
  end.
Fixpoint set_nth {A} (i : nat) (a : A) (l : list A) : list A :=
  match l, i with
  | [], _ => []
  | _ :: l', O => a :: l'
  | x :: l', S i' => x :: set_nth i' a l'
  end.

(** One access of worker [i].  [fetch c r]: what is kept locally after reading
    the cell of row [r]; [store x c]: the cell after the write. *)
Definition pstep {K R X C} `{EqDec K} (key : R -> K) (fetch : C -> R -> X) (store : X -> C -> C)
    (s : pool K R X C) (i : nat) : pool K R X C :=
  match nth_error (workers s) i with
  | None => s
  | Some w =>
    match pending w with
    | Some (k, x) => Pool (update (dict s) k (store x)) (set_nth i (Worker (todo w) None) (workers s)) (failed s)
    | None =>
      match todo w with
      | [] => s
      | r :: rest =>
        match lookup (dict s) (key r) with
        | None => Pool (dict s) (workers s) (Some KeyError)
        | Some c => Pool (dict s) (set_nth i (Worker rest (Some (key r, fetch c r))) (workers s)) (failed s)
        end
      end
    end
  end.
Definition prun {K R X C} `{EqDec K} (key : R -> K) (fetch : C -> R -> X) (store : X -> C -> C)
    (s : pool K R X C) (schedule : list nat) : pool K R X C :=
  fold_left (pstep key fetch store) schedule s.

(** Pool.map returns when every row has been processed. *)
Definition idle {K R X} (w : worker K R X) : bool :=
  match todo w, pending w with [], None => true | _, _ => false end.
Definition finished {K R X C} (s : pool K R X C) : bool := forallb idle (workers s).

(** The initial state: one cell per key, one list of rows per worker.  Python
    iterates over a set of keys in an unspecified order; the model lists the keys
    in order of first occurrence. *)
Definition start {K R X C} `{EqDec K} (keys : list K) (init : C) (split : list (list R)) : pool K R X C :=
  Pool (map (fun k => (k, init)) (distinct keys)) (map (fun l => Worker l None) split) None.

(** ** group_by_key: _LazyMultiProcGroupByIterator, 644-677 *)

(** insert_row: [results_dict_[key]] fetches the proxy of the managed list,
    [.append(val)] appends to it. *)
Definition gfetch {K V} (_ : list V) (r : K * V) : V := snd r.
Definition gstore {V} (v : V) (c : list V) : list V := c ++ [v].

(** _trigger_iterations: the keys are collected by iterating over the input,
    then the pool iterates over the input; [split] is how Pool.map hands the rows
    it got to the workers. *)
Definition mp_group_by_key {K V} `{EqDec K} (col : coll (K * V))
    (split : list (K * V) -> list (list (K * V))) (schedule : list nat) : result (list (K * list V)) :=
  let (first, rest) := consume col in
  let (rows, _) := consume rest in
  let s := prun fst gfetch gstore (start (map fst first) [] (split rows)) schedule in
  match failed s with Some e => Err e | None => Ok (dict s) end.
Definition mp_group_finished {K V} `{EqDec K} (col : coll (K * V))
    (split : list (K * V) -> list (list (K * V))) (schedule : list nat) : bool :=
  let (first, rest) := consume col in
  let (rows, _) := consume rest in
  finished (prun fst gfetch gstore (start (map fst first) [] (split rows)) schedule).

(** ** count_per_element: _LazyMultiProcCountIterator, 680-709 *)

(** [results_dict_[key] += 1]: read, add locally, write. *)
Definition cfetch {A} (c : Z) (_ : A) : Z := (c + 1)%Z.
Definition cstore (x : Z) (_ : Z) : Z := x.
Definition mp_count_per_element {A} `{EqDec A} (col : coll A)
    (split : list A -> list (list A)) (schedule : list nat) : result (list (A * Z)) :=
  let (first, rest) := consume col in
  let (rows, _) := consume rest in
  let s := prun (fun a => a) cfetch cstore (start first 0%Z (split rows)) schedule in
  match failed s with Some e => Err e | None => Ok (dict s) end.
Definition mp_count_finished {A} `{EqDec A} (col : coll A)
    (split : list A -> list (list A)) (schedule : list nat) : bool :=
  let (first, rest) := consume col in
  let (rows, _) := consume rest in
  finished (prun (fun a => a) cfetch cstore (start first 0%Z (split rows)) schedule).

(** ** The other operations: 712-823 *)

(** map: Pool.map keeps the order of its input; the result can be iterated over
    again (the outputs are stored, 627-637). *)
Definition mp_map {A B} (f : A -> B) (col : coll A) : coll B := Reiterable (map f (content col)).
(** flat_map 742-743: a generator. *)
Definition mp_flat_map {A B} (f : A -> list B) (col : coll A) : coll B :=
  Generator (flat_map (fun l => l) (content (mp_map f col))).
Definition mp_map_values {K V W} (f : V -> W) (col : coll (K * V)) : coll (K * W) :=
  mp_map (fun x => (fst x, f (snd x))) col.
(** filter 755-757: zip takes a row from the collection before the pool iterates
    over the collection, so with a generator the pool sees the rows after the
    first one, and then the generator is exhausted. *)
Definition mp_filter {A} (f : A -> bool) (col : coll A) : coll A :=
  Generator
    match col with
    | Reiterable l => map fst (filter snd (combine l (map f l)))
    | Generator [] => []
    | Generator (x :: rest) => map fst (filter snd (combine [x] (map f rest)))
    end.
(** filter_by_key 759-770. *)
Definition mp_filter_by_key {K V} `{EqDec K} (col : coll (K * V)) (keys : list K) : coll (K * V) :=
  Generator (map fst (filter snd (content (mp_map (fun kv => (kv, mem (fst kv) keys)) col)))).
(** sample_fixed_per_key 780-795 on the groups. *)
Definition mp_sample_groups {K V} (ch : source K) (n : nat) (groups : list (K * list V)) : list (K * list V) :=
  map (fun row => (fst row, choose (ch (fst row) (length (snd row))) n (snd row))) groups.

(** flatten 810-811 has the signature flatten(col1, col2, stage_name) while every
    caller passes (cols, stage_name) (dp_engine.py:313, pipeline_functions.py:92,
    analysis/dataset_summary.py:66): it chains the collection of collections with
    the characters of the stage name. *)
Inductive item (A C : Type) := ARow (a : A) | ACollection (l : list A) | AChar (c : C).
Arguments ARow {A C} a.
Arguments ACollection {A C} l.
Arguments AChar {A C} c.
Definition mp_flatten {A C} (cols : list (list A)) (stage_name : list C) : list (item A C) :=
  map ACollection cols ++ map AChar stage_name.
