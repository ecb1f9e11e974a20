(** Lemmas on the label generator. *)
From Coq Require Import List String Decimal DecimalString DecimalNat Lia.
From Verif Require Import Base LabelModel.
Import ListNotations.
Local Open Scope string_scope.

Lemma decimal_inj i j : decimal i = decimal j -> i = j.
Proof.
  intros E. unfold decimal in E.
  assert (Some (Nat.to_uint i) = Some (Nat.to_uint j)) as E'.
  { rewrite <- (NilZero.usu (Nat.to_uint i)), <- (NilZero.usu (Nat.to_uint j)), E; [reflexivity| |].
    - intros H. pose proof (Unsigned.of_to j) as U. rewrite H in U. cbn in U.
      subst j. discriminate H.
    - intros H. pose proof (Unsigned.of_to i) as U. rewrite H in U. cbn in U.
      subst i. discriminate H. }
  injection E' as E'. apply (f_equal Nat.of_uint) in E'. rewrite !Unsigned.of_to in E'. exact E'.
Qed.

Lemma append_length a b : String.length (a ++ b) = String.length a + String.length b.
Proof. induction a as [|c a IH]; [reflexivity|]. cbn. rewrite IH. reflexivity. Qed.

Lemma append_cancel_l a b c : a ++ b = a ++ c -> b = c.
Proof. induction a as [|x a IH]; [auto|]. cbn. intros E. injection E as E. auto. Qed.

Lemma append_cancel_r a b : forall c, a ++ c = b ++ c -> a = b.
Proof.
  revert b. induction a as [|x a IH]; intros [|y b] c E.
  - reflexivity.
  - exfalso. apply (f_equal String.length) in E. cbn in E. rewrite append_length in E. lia.
  - exfalso. apply (f_equal String.length) in E. cbn in E. rewrite append_length in E. lia.
  - cbn in E. injection E as -> E. f_equal. exact (IH b c E).
Qed.

Lemma append_assoc a b c : (a ++ b) ++ c = a ++ (b ++ c).
Proof. induction a as [|x a IH]; [reflexivity|]. cbn. rewrite IH. reflexivity. Qed.

Definition candidate (label suffix : string) (i : nat) : string := label ++ "_" ++ decimal i ++ suffix.

Lemma candidate_inj label suffix i j : candidate label suffix i = candidate label suffix j -> i = j.
Proof.
  unfold candidate. intros E. apply append_cancel_l in E. cbn in E. injection E as E.
  apply append_cancel_r in E. exact (decimal_inj i j E).
Qed.

Lemma mem_label_iff l ls : mem_label l ls = true <-> In l ls.
Proof.
  unfold mem_label. rewrite existsb_exists. split.
  - intros (x & I & E). apply String.eqb_eq in E. subst. exact I.
  - intros I. exists l. split; [exact I | apply String.eqb_refl].
Qed.

(** The loop returns the first free candidate. *)
Lemma count_loop_first label g j : forall fuel i, i <= j < i + fuel ->
  ~ In (candidate label (g_suffix g) j) (g_labels g) ->
  (forall k, i <= k < j -> In (candidate label (g_suffix g) k) (g_labels g)) ->
  count_loop fuel i label g
  = Some (candidate label (g_suffix g) j, mkGen (candidate label (g_suffix g) j :: g_labels g) (g_suffix g)).
Proof.
  induction fuel as [|fuel IH]; intros i R N B; [lia|]. cbn [count_loop]. unfold add_if_unique.
  fold (candidate label (g_suffix g) i).
  destruct (mem_label (candidate label (g_suffix g) i) (g_labels g)) eqn:M.
  - apply mem_label_iff in M. apply IH.
    + destruct (PeanoNat.Nat.eq_dec i j) as [->|]; [contradiction | lia].
    + exact N.
    + intros k Hk. apply B. lia.
  - destruct (PeanoNat.Nat.eq_dec i j) as [->|D]; [reflexivity|].
    exfalso. assert (In (candidate label (g_suffix g) i) (g_labels g)) as I by (apply B; lia).
    apply mem_label_iff in I. congruence.
Qed.

(** Pigeonhole: some candidate among the first [List.length labels + 1] is free. *)
Lemma free_candidate label suffix (labels : list string) : exists j,
  1 <= j <= S (List.length labels) /\ ~ In (candidate label suffix j) labels /\
  (forall k, 1 <= k < j -> In (candidate label suffix k) labels).
Proof.
  assert (G : forall n, (exists j, 1 <= j <= n /\ ~ In (candidate label suffix j) labels /\
                (forall k, 1 <= k < j -> In (candidate label suffix k) labels))
              \/ (forall k, 1 <= k <= n -> In (candidate label suffix k) labels)).
  { induction n as [|n [(j & Hj & N & B) | A]].
    - right. intros k Hk. lia.
    - left. exists j. split; [lia|]. auto.
    - destruct (mem_label (candidate label suffix (S n)) labels) eqn:M.
      + right. intros k Hk. destruct (PeanoNat.Nat.eq_dec k (S n)) as [->|]; [apply mem_label_iff; exact M | apply A; lia].
      + left. exists (S n). split; [lia|]. split.
        * intros I. apply mem_label_iff in I. congruence.
        * intros k Hk. apply A. lia. }
  destruct (G (S (List.length labels))) as [H | A]; [exact H|]. exfalso.
  assert (List.length (map (candidate label suffix) (seq 1 (S (List.length labels)))) <= List.length labels) as L.
  { apply NoDup_incl_length.
    - apply FinFun.Injective_map_NoDup; [|apply seq_NoDup]. intros i j. apply candidate_inj.
    - intros x I. apply in_map_iff in I. destruct I as (k & <- & Ik). apply in_seq in Ik. apply A. lia. }
  rewrite map_length, seq_length in L. lia.
Qed.

Definition stage_name (n : option string) : string :=
  match n with
  | None => "UNDEFINED_STAGE_NAME"
  | Some s => if String.eqb s "" then "UNDEFINED_STAGE_NAME" else s
  end.

Lemma unique_result fuel n g : List.length (g_labels g) < fuel ->
  exists l, unique fuel n g = Some (l, mkGen (l :: g_labels g) (g_suffix g)) /\
    ~ In l (g_labels g) /\
    (l = stage_name n ++ g_suffix g \/
     In (stage_name n ++ g_suffix g) (g_labels g) /\
     exists i, 1 <= i /\ l = candidate (stage_name n) (g_suffix g) i /\
       forall k, 1 <= k < i -> In (candidate (stage_name n) (g_suffix g) k) (g_labels g)).
Proof.
  intros F. unfold unique. fold (stage_name n). unfold add_if_unique.
  destruct (mem_label (stage_name n ++ g_suffix g) (g_labels g)) eqn:M.
  - destruct (free_candidate (stage_name n) (g_suffix g) (g_labels g)) as (j & Hj & N & B).
    exists (candidate (stage_name n) (g_suffix g) j). split; [|split; [exact N|]].
    + apply count_loop_first; [lia | exact N | exact B].
    + right. apply mem_label_iff in M. split; [exact M|]. exists j. split; [lia | auto].
  - eexists. split; [reflexivity|]. split; [|left; reflexivity].
    intros I. apply mem_label_iff in I. congruence.
Qed.

Lemma unique_all_result names : forall fuel g, NoDup (g_labels g) ->
  List.length names + List.length (g_labels g) < fuel ->
  exists ls g', unique_all fuel names g = Some (ls, g') /\ g_suffix g' = g_suffix g /\
    g_labels g' = (List.rev ls ++ g_labels g)%list /\ NoDup (g_labels g') /\
    Forall2 (fun n l => l = stage_name n ++ g_suffix g \/
                        exists i, 1 <= i /\ l = candidate (stage_name n) (g_suffix g) i) names ls.
Proof.
  induction names as [|n names IH]; intros fuel g D F.
  - exists [], g. cbn. repeat split; auto.
  - cbn [List.length] in F. destruct (unique_result fuel n g ltac:(lia)) as (l & E & N & S).
    destruct (IH fuel (mkGen (l :: g_labels g) (g_suffix g))) as (ls & g' & E' & Sf & L & D' & F2).
    + constructor; assumption.
    + cbn [g_labels List.length]. lia.
    + cbn [g_suffix g_labels] in *. exists (l :: ls), g'. cbn [unique_all]. rewrite E, E'.
      split; [reflexivity|]. split; [exact Sf|]. split; [|split; [exact D'|]].
      * rewrite L. cbn [List.rev]. rewrite <- app_assoc. reflexivity.
      * constructor; [|exact F2]. destruct S as [S | (_ & i & Hi & S & _)]; [left; exact S | right; exists i; auto].
Qed.
