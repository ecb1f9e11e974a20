(** Property C37: stage labels are unique and generation terminates. *)
From Coq Require Import List String Lia.
From Verif Require Import Base LabelModel LabelProofs.
Import ListNotations.
Local Open Scope string_scope.

(** The requested stage name, with the default for missing or empty names. *)
Definition requested (n : option string) : string :=
  match n with None | Some "" => "UNDEFINED_STAGE_NAME" | Some s => s end.

Lemma requested_stage n : requested n = stage_name n.
Proof. destruct n as [[|c s]|]; reflexivity. Qed.

(** A call returns after at most one round per label issued before, with a label
    never issued before.  It is the name and the suffix if these are free, else
    the first free numbered one. *)
Theorem C37_unique_call : forall g n fuel, List.length (g_labels g) < fuel ->
  exists l, unique fuel n g = Some (l, mkGen (l :: g_labels g) (g_suffix g)) /\
    ~ In l (g_labels g) /\
    (exists i, l = requested n ++ i ++ g_suffix g) /\
    (~ In (requested n ++ g_suffix g) (g_labels g) -> l = requested n ++ g_suffix g).
Proof.
  intros g n fuel F. rewrite requested_stage.
  destruct (unique_result fuel n g F) as (l & E & N & S). exists l. split; [exact E|]. split; [exact N|]. split.
  - destruct S as [-> | (_ & i & _ & -> & _)]; [exists ""; reflexivity|].
    exists ("_" ++ decimal i). unfold candidate. rewrite !append_assoc. reflexivity.
  - intros H. destruct S as [S | (I & _)]; [exact S | contradiction].
Qed.

(** Whole histories: every call returns, all labels are distinct, each starts
    with the requested name and ends with the generator's suffix. *)
Theorem C37_all_labels_unique : forall suffix names fuel, List.length names < fuel ->
  exists ls g, unique_all fuel names (new_generator suffix) = Some (ls, g) /\
    NoDup ls /\
    Forall2 (fun n l => exists i, l = requested n ++ i ++ g_suffix (new_generator suffix)) names ls.
Proof.
  intros suffix names fuel F.
  destruct (unique_all_result names fuel (new_generator suffix)) as (ls & g & E & _ & L & D & F2).
  - constructor.
  - cbn [new_generator g_labels List.length]. lia.
  - exists ls, g. split; [exact E|]. split.
    + cbn [new_generator g_labels] in L. rewrite app_nil_r in L. rewrite L in D.
      apply NoDup_rev in D. rewrite rev_involutive in D. exact D.
    + clear - F2. induction F2 as [|n l names ls S _ IH]; constructor; [|exact IH]. rewrite requested_stage.
      destruct S as [-> | (i & _ & ->)]; [exists ""; reflexivity|].
      exists ("_" ++ decimal i). unfold candidate. rewrite !append_assoc. reflexivity.
Qed.

(** More fuel does not change anything: the cut-off is never reached. *)
Theorem C37_fuel_irrelevant : forall g n fuel fuel',
  List.length (g_labels g) < fuel -> List.length (g_labels g) < fuel' -> unique fuel n g = unique fuel' n g.
Proof.
  intros g n fuel fuel' F F'. unfold unique. fold (stage_name n).
  destruct (add_if_unique g (stage_name n ++ g_suffix g)) as [[|] g1]; [reflexivity|].
  destruct (free_candidate (stage_name n) (g_suffix g) (g_labels g)) as (j & Hj & N & B).
  rewrite (count_loop_first (stage_name n) g j fuel 1), (count_loop_first (stage_name n) g j fuel' 1);
    auto; lia.
Qed.

(** Names that look like generated ones. *)
Example C37_example :
  option_map fst (unique_all 100 [Some "a"; Some "a_1"; Some "a"; Some "a"; None; Some ""; Some "a_2"]
                    (new_generator None))
  = Some ["a"; "a_1"; "a_2"; "a_3"; "UNDEFINED_STAGE_NAME"; "UNDEFINED_STAGE_NAME_1"; "a_2_1"].
Proof. vm_compute. reflexivity. Qed.

Example C37_suffix :
  option_map fst (unique_all 100 [Some "a"; Some "a"; Some "a_1"] (new_generator (Some "x")))
  = Some ["a_x"; "a_1_x"; "a_1_1_x"].
Proof. vm_compute. reflexivity. Qed.

Print Assumptions C37_unique_call.
Print Assumptions C37_all_labels_unique.
Print Assumptions C37_fuel_irrelevant.
