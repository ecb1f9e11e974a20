(** C48 and C55: the multi-process backend under every interleaving. *)
From Coq Require Import List ZArith Bool Lia Permutation.
From Verif Require Import Base ListLemmas BackendModel BackendSpec BackendProofs MultiProcModel MultiProcProofs.
Import ListNotations.

(** ** Vocabulary *)

(** Pool.map hands every row of its input to exactly one worker. *)
Definition deals {R} (split : list R -> list (list R)) : Prop := forall l, Permutation (concat (split l)) l.

(** The right answer of group_by_key: every key of the collection once, with its
    values, in any order. *)
Definition groups_of {K V} `{EqDec K} (col : list (K * V)) (out : list (K * list V)) : Prop :=
  NoDup (map fst out) /\
  (forall k, In k (map fst out) <-> In k (map fst col)) /\
  (forall k vs, In (k, vs) out -> Permutation vs (values_of k col)).

(** The right answer of count_per_element. *)
Definition counts_of {A} `{EqDec A} (col : list A) (out : list (A * Z)) : Prop :=
  NoDup (map fst out) /\
  (forall k, In k (map fst out) <-> In k col) /\
  (forall k n, In (k, n) out -> n = Z.of_nat (occ k col)).

(** The local backend gives the right answers (so the two backends agree). *)
Theorem C48_local_group_by_key {K V} `{EqDec K} (col : list (K * V)) : groups_of col (group_by_key col).
Proof.
  rewrite group_by_key_normal. repeat split.
  - rewrite map_map. cbn [fst]. rewrite map_id. apply NoDup_distinct.
  - rewrite map_map. cbn [fst]. rewrite map_id. apply in_distinct.
  - rewrite map_map. cbn [fst]. rewrite map_id. apply in_distinct.
  - intros k vs X. apply in_map_iff in X. destruct X as [k' [E _]]. inversion E; subst. apply Permutation_refl.
Qed.
Theorem C48_local_count {A} `{EqDec A} (col : list A) : counts_of col (count_per_element col).
Proof.
  rewrite count_per_element_normal. repeat split.
  - rewrite map_map. cbn [fst]. rewrite map_id. apply NoDup_distinct.
  - rewrite map_map. cbn [fst]. rewrite map_id. apply in_distinct.
  - rewrite map_map. cbn [fst]. rewrite map_id. apply in_distinct.
  - intros k vs X. apply in_map_iff in X. destruct X as [k' [E _]]. inversion E; subst. reflexivity.
Qed.

(** ** group_by_key *)

(** Whatever the split over the workers and the interleaving of their accesses. *)
Theorem C48_group_by_key {K V} `{EqDec K} (col : list (K * V)) split schedule :
  deals split ->
  mp_group_finished (Reiterable col) split schedule = true ->
  exists out, mp_group_by_key (Reiterable col) split schedule = Ok out /\ groups_of col out.
Proof.
  intros Hs F. unfold mp_group_finished, mp_group_by_key in *. cbn [consume] in *.
  assert (Inv : group_inv (distinct (map fst col)) col
                  (prun fst gfetch gstore (start (map fst col) [] (split col)) schedule)).
  { apply prun_inv; [intros s i; apply pstep_group|apply start_group, Hs]. }
  destruct Inv as [[Hd [Hf _]] Hc]. rewrite Hf. eexists. split; [reflexivity|].
  assert (N : NoDup (map fst (dict (prun fst gfetch gstore (start (map fst col) [] (split col)) schedule)))).
  { rewrite Hd. apply NoDup_distinct. }
  repeat split.
  - exact N.
  - rewrite Hd. apply in_distinct.
  - rewrite Hd. apply in_distinct.
  - intros k vs X. assert (Ik : In k (distinct (map fst col))).
    { rewrite <- Hd. change k with (fst (k, vs)). apply in_map. exact X. }
    specialize (Hc k Ik). apply lookup_in in X; [|exact N]. unfold cell in Hc. rewrite X in Hc.
    rewrite finished_left_values, app_nil_r in Hc by exact F. exact Hc.
Qed.

(** Executions do finish: every started run can be completed. *)
Theorem C48_group_by_key_completes {K V} `{EqDec K} (col : list (K * V)) split before :
  deals split -> exists after, mp_group_finished (Reiterable col) split (before ++ after) = true.
Proof.
  intros Hs. unfold mp_group_finished. cbn [consume].
  assert (Inv : group_inv (distinct (map fst col)) col
                  (prun fst gfetch gstore (start (map fst col) [] (split col)) before)).
  { apply prun_inv; [intros s i; apply pstep_group|apply start_group, Hs]. }
  destruct (can_finish fst gfetch gstore _ _ _ (proj1 Inv) eq_refl) as [after F].
  exists after. unfold prun in *. rewrite fold_left_app. exact F.
Qed.

(** Non-vacuity: two workers, both appending to the same group, interleaved. *)
Definition round_robin {R} (l : list R) : list (list R) :=
  (fix go (l : list R) (a b : list R) : list (list R) :=
     match l with [] => [a; b] | x :: l' => go l' b (a ++ [x]) end) l [] [].
Lemma round_robin_deals {R} : deals (@round_robin R).
Proof.
  intro l. unfold round_robin.
  assert (G : forall (l a b : list R), Permutation (concat
    ((fix go (l : list R) (a b : list R) : list (list R) :=
       match l with [] => [a; b] | x :: l' => go l' b (a ++ [x]) end) l a b)) (a ++ b ++ l)).
  { clear l. induction l as [|x l IH]; intros a b; [cbn; rewrite app_nil_r; apply Permutation_refl|].
    eapply Permutation_trans; [apply IH|]. rewrite <- app_assoc. cbn [app].
    rewrite app_assoc. eapply Permutation_trans; [apply Permutation_app_tail, Permutation_app_comm|].
    rewrite <- app_assoc. apply Permutation_refl. }
  apply G.
Qed.
Example C48_group_ex :
  let col := [(1, 10); (1, 11); (2, 20); (1, 12)]%Z in
  mp_group_finished (Reiterable col) round_robin [0; 1; 1; 0; 1; 0; 0; 1] = true /\
  mp_group_by_key (Reiterable col) round_robin [0; 1; 1; 0; 1; 0; 0; 1] = Ok [(1, [11; 10; 12]); (2, [20])]%Z.
Proof. split; vm_compute; reflexivity. Qed.

(** Finding: given a generator (which is what flat_map, filter, filter_by_key,
    keys, values and distinct of this backend return), collecting the keys
    exhausts it: every group comes out empty. *)
Theorem C48_group_generator_empty {K V} `{EqDec K} (col : list (K * V)) split schedule :
  deals split ->
  mp_group_by_key (Generator col) split schedule = Ok (map (fun k => (k, [])) (distinct (map fst col))).
Proof.
  intros Hs. unfold mp_group_by_key. cbn [consume].
  assert (E : forall l, In l (split []) -> l = []).
  { assert (P := Hs []). apply Permutation_sym, Permutation_nil in P. intros l Hl.
    destruct l as [|x l]; [reflexivity|]. exfalso. assert (X : In x (concat (split []))).
    { apply in_concat. exists (x :: l). split; [exact Hl|left; reflexivity]. }
    rewrite P in X. destruct X. }
  set (st := start (map fst col) [] (split [])).
  assert (G : forall sc s0, (forall w, In w (workers s0) -> w = Worker [] None) ->
    prun fst (@gfetch K V) gstore s0 sc = s0).
  { induction sc as [|i sc IH]; intros s0 Hw; [reflexivity|]. unfold prun. cbn [fold_left].
    replace (pstep fst gfetch gstore s0 i) with s0; [apply IH; exact Hw|].
    unfold pstep. destruct (nth_error (workers s0) i) as [w|] eqn:Ew; [|reflexivity].
    rewrite (Hw w (nth_error_In _ _ Ew)). reflexivity. }
  rewrite G; [reflexivity|]. intros w Hw. unfold st in Hw. cbn [start workers] in Hw. apply in_map_iff in Hw.
  destruct Hw as [l [<- Hl]]. rewrite (E l Hl). reflexivity.
Qed.
Theorem C48_group_generator_refuted :
  ~ (forall (col : list (Z * Z)) split schedule, deals split ->
       mp_group_finished (Generator col) split schedule = true ->
       exists out, mp_group_by_key (Generator col) split schedule = Ok out /\ groups_of col out).
Proof.
  intro C. destruct (C [(1, 10)]%Z round_robin [] round_robin_deals) as [out [E [_ [_ G]]]]; [vm_compute; reflexivity|].
  rewrite C48_group_generator_empty in E by apply round_robin_deals. inversion E; subst out.
  specialize (G 1%Z [] (or_introl eq_refl)). vm_compute in G. apply Permutation_nil in G. discriminate.
Qed.

(** ** count_per_element *)

(** Under every interleaving the counts are between one and the true count... *)
Theorem C48_count_bounds {A} `{EqDec A} (col : list A) split schedule :
  deals split ->
  mp_count_finished (Reiterable col) split schedule = true ->
  exists out, mp_count_per_element (Reiterable col) split schedule = Ok out /\
    NoDup (map fst out) /\ (forall k, In k (map fst out) <-> In k col) /\
    (forall k n, In (k, n) out -> (1 <= n <= Z.of_nat (occ k col))%Z).
Proof.
  intros Hs F. unfold mp_count_finished, mp_count_per_element in *. cbn [consume] in *.
  assert (Inv : count_inv (distinct col) col
                  (prun (fun a => a) cfetch cstore (start col 0%Z (split col)) schedule)).
  { apply prun_inv; [intros s i; apply pstep_count|apply start_count, Hs]. }
  destruct Inv as [[Hd [Hf _]] [Hc _]]. rewrite Hf. eexists. split; [reflexivity|].
  assert (N : NoDup (map fst (dict (prun (fun a => a) cfetch cstore (start col 0%Z (split col)) schedule)))).
  { rewrite Hd. apply NoDup_distinct. }
  split; [exact N|]. split; [intro k; rewrite Hd; apply in_distinct|].
  intros k n X. assert (Ik : In k (distinct col)).
  { rewrite <- Hd. change k with (fst (k, n)). apply in_map. exact X. }
  specialize (Hc k Ik). apply lookup_in in X; [|exact N]. unfold cell in Hc. rewrite X in Hc.
  unfold done in Hc. rewrite finished_left_all in Hc by exact F.
  assert (O : 0 < occ k col).
  { apply (proj1 (in_distinct _ _)) in Ik. clear - Ik. induction col as [|x l IH]; [destruct Ik|]. cbn [occ].
    destruct (eq_dec k x); [lia|]. destruct Ik as [E|E]; [congruence|]. specialize (IH E). lia. }
  lia.
Qed.

(** ... but increments are lost when two workers read the same count: the claim
    that the result does not depend on the interleaving is false. *)
Theorem C48_count_refuted :
  exists (col : list Z) split schedule, deals split /\
    mp_count_finished (Reiterable col) split schedule = true /\
    mp_count_per_element (Reiterable col) split schedule = Ok [(7, 1)]%Z /\
    count_per_element col = [(7, 2)]%Z.
Proof.
  exists [7; 7]%Z, round_robin, [0; 1; 0; 1]. split; [apply round_robin_deals|]. repeat split; vm_compute; reflexivity.
Qed.

Lemma step_read {A} `{EqDec A} (a : A) c w0 rest :
  pstep (fun z : A => z) cfetch cstore (Pool [(a, c)] [w0; Worker (a :: rest) None] None) 1 =
  Pool [(a, c)] [w0; Worker rest (Some (a, (c + 1)%Z))] None.
Proof. unfold pstep. cbn [workers nth_error pending todo dict lookup]. rewrite eqb_refl. reflexivity. Qed.
Lemma step_write {A} `{EqDec A} (a : A) c x w0 rest :
  pstep (fun z : A => z) cfetch cstore (Pool [(a, c)] [w0; Worker rest (Some (a, x))] None) 1 =
  Pool [(a, x)] [w0; Worker rest None] None.
Proof. unfold pstep. cbn [workers nth_error pending todo dict update]. rewrite eqb_refl. reflexivity. Qed.
Lemma repeat_steps {A} `{EqDec A} (a : A) w0 (m : nat) : forall c,
  prun (fun z : A => z) cfetch cstore (Pool [(a, c)] [w0; Worker (repeat a m) None] None) (repeat 1 (2 * m)) =
  Pool [(a, c + Z.of_nat m)%Z] [w0; Worker [] None] None.
Proof.
  induction m as [|m IH]; intro c; [cbn; rewrite Z.add_0_r; reflexivity|].
  replace (2 * S m) with (S (S (2 * m))) by lia. cbn [repeat]. unfold prun. cbn [fold_left].
  rewrite step_read, step_write. replace (c + Z.of_nat (S m))%Z with (c + 1 + Z.of_nat m)%Z by lia. apply IH.
Qed.

(** Exactness in the two cases in which no increment can be lost: no element is
    dealt to two workers (in particular a single worker) ... *)
Theorem C48_count_disjoint_workers {A} `{EqDec A} (col : list A) split schedule :
  deals split ->
  (forall i j li lj k, nth_error (split col) i = Some li -> nth_error (split col) j = Some lj ->
     In k li -> In k lj -> i = j) ->
  mp_count_finished (Reiterable col) split schedule = true ->
  exists out, mp_count_per_element (Reiterable col) split schedule = Ok out /\ counts_of col out.
Proof.
  intros Hs Hd F. unfold mp_count_finished, mp_count_per_element in *. cbn [consume] in *.
  assert (Inv : exact_inv (distinct col) col
                  (prun (fun a => a) cfetch cstore (start col 0%Z (split col)) schedule)).
  { apply prun_inv; [intros s i; apply pstep_exact|apply start_exact; [apply Hs|exact Hd]]. }
  destruct Inv as [[Hk [Hf _]] [_ [Hc _]]]. rewrite Hf. eexists. split; [reflexivity|].
  assert (N : NoDup (map fst (dict (prun (fun a => a) cfetch cstore (start col 0%Z (split col)) schedule)))).
  { rewrite Hk. apply NoDup_distinct. }
  split; [exact N|]. split; [intro k; rewrite Hk; apply in_distinct|].
  intros k n X. assert (Ik : In k (distinct col)).
  { rewrite <- Hk. change k with (fst (k, n)). apply in_map. exact X. }
  specialize (Hc k Ik). apply lookup_in in X; [|exact N]. unfold cell in Hc. rewrite X in Hc.
  unfold done in Hc. rewrite finished_left_all in Hc by exact F. lia.
Qed.

(** ... or no other worker acts between the read and the write of a row. *)
Theorem C48_count_serialised {A} `{EqDec A} (col : list A) split order :
  deals split ->
  mp_count_finished (Reiterable col) split (flat_map (fun i => [i; i]) order) = true ->
  exists out, mp_count_per_element (Reiterable col) split (flat_map (fun i => [i; i]) order) = Ok out /\
    counts_of col out.
Proof.
  intros Hs F. unfold mp_count_finished, mp_count_per_element in *. cbn [consume] in *.
  assert (Inv := prun_ser (distinct col) col order (start col 0%Z (split col)) (start_ser col (split col) (Hs col))).
  destruct Inv as [[Hk [Hf _]] [Hc _]]. rewrite Hf. eexists. split; [reflexivity|].
  assert (N : NoDup (map fst (dict (prun (fun a => a) cfetch cstore (start col 0%Z (split col)) (flat_map (fun i => [i; i]) order))))).
  { rewrite Hk. apply NoDup_distinct. }
  split; [exact N|]. split; [intro k; rewrite Hk; apply in_distinct|].
  intros k n X. assert (Ik : In k (distinct col)).
  { rewrite <- Hk. change k with (fst (k, n)). apply in_map. exact X. }
  specialize (Hc k Ik). apply lookup_in in X; [|exact N]. unfold cell in Hc. rewrite X in Hc.
  unfold done in Hc. rewrite finished_left_all in Hc by exact F. lia.
Qed.
Example C48_count_ex :
  let col := [7; 7; 8; 7]%Z in
  mp_count_finished (Reiterable col) round_robin (flat_map (fun i => [i; i]) [0; 1; 1; 0]) = true /\
  mp_count_per_element (Reiterable col) round_robin (flat_map (fun i => [i; i]) [0; 1; 1; 0]) = Ok [(7, 3); (8, 1)]%Z /\
  mp_count_finished (Reiterable col) (fun l => [l]) (repeat 0 8) = true /\
  mp_count_per_element (Reiterable col) (fun l => [l]) (repeat 0 8) = Ok [(7, 3); (8, 1)]%Z.
Proof. repeat split; vm_compute; reflexivity. Qed.

(** With two workers an arbitrary number of increments can be lost at once. *)
Theorem C48_count_loses_any_number {A} `{EqDec A} (a : A) (m : nat) :
  exists split schedule, Permutation (concat split) (repeat a (S m)) /\
    let s := prun (fun z : A => z) cfetch cstore (start (repeat a (S m)) 0%Z split) schedule in
    finished s = true /\ dict s = [(a, 1%Z)].
Proof.
  exists [[a]; repeat a m], (0 :: repeat 1 (2 * m) ++ [0]). split.
  { cbn [concat]. rewrite app_nil_r. apply Permutation_refl. }
  assert (D : distinct (repeat a (S m)) = [a]).
  { unfold distinct. cbn [repeat distinct_from mem existsb]. f_equal. induction m as [|m IH]; [reflexivity|].
    cbn [repeat distinct_from]. unfold mem. cbn [existsb]. rewrite eqb_refl. exact IH. }
  cbv zeta. unfold start. rewrite D. cbn [map]. unfold prun. cbn [fold_left].
  assert (E1 : pstep (fun z : A => z) cfetch cstore
     (Pool [(a, 0%Z)] [Worker [a] None; Worker (repeat a m) None] None) 0 =
     Pool [(a, 0%Z)] [Worker [] (Some (a, 1%Z)); Worker (repeat a m) None] None).
  { unfold pstep. cbn [workers nth_error pending todo dict lookup]. rewrite eqb_refl. reflexivity. }
  rewrite E1, fold_left_app. assert (X := repeat_steps a (Worker [] (Some (a, 1%Z))) m 0%Z). unfold prun in X. rewrite X.
  cbn [fold_left]. unfold pstep. cbn [workers nth_error pending todo dict update]. rewrite eqb_refl. split; reflexivity.
Qed.

(** ** C55: the remaining operations *)

Theorem C55_filter {A} (f : A -> bool) (col : list A) : content (mp_filter f (Reiterable col)) = filter f col.
Proof.
  unfold mp_filter. cbn [content]. induction col as [|x l IH]; [reflexivity|]. cbn. destruct (f x); cbn; congruence.
Qed.
(** On a generator at most the first row survives, and whether it does is decided
    by the predicate of the second row. *)
Theorem C55_filter_generator {A} (f : A -> bool) (col : list A) :
  content (mp_filter f (Generator col)) =
  match col with x :: y :: _ => if f y then [x] else [] | _ => [] end.
Proof. destruct col as [|x [|y l]]; try reflexivity. cbn. destruct (f y); cbn; destruct l; reflexivity. Qed.
Theorem C55_filter_generator_refuted :
  exists (f : Z -> bool) col, content (mp_filter f (Generator col)) = [1]%Z /\ filter f col = [2]%Z.
Proof. exists (fun x => Z.eqb x 2), [1; 2]%Z. split; reflexivity. Qed.

Theorem C55_filter_by_key {K V} `{EqDec K} (col : coll (K * V)) keys :
  content (mp_filter_by_key col keys) = filter_by_key (content col) keys.
Proof.
  unfold mp_filter_by_key, mp_map, filter_by_key. cbn [content]. induction (content col) as [|x l IH]; [reflexivity|].
  cbn. destruct (mem (fst x) keys); cbn; congruence.
Qed.
Theorem C55_flat_map {A B} (f : A -> list B) (col : coll A) : content (mp_flat_map f col) = flat_map f (content col).
Proof. unfold mp_flat_map, mp_map. cbn [content]. rewrite flat_map_concat_map, map_id, flat_map_concat_map. reflexivity. Qed.

(** Sampling: at most [n] values for each key, all of them values of that key,
    and all of them when there are at most [n], under every interleaving. *)
Theorem C55_sample_fixed_per_key {K V} `{EqDec K} (ch : source K) n (col : list (K * V)) split schedule :
  deals split -> valid_source n ch ->
  mp_group_finished (Reiterable col) split schedule = true ->
  exists groups, mp_group_by_key (Reiterable col) split schedule = Ok groups /\
    let out := mp_sample_groups ch n groups in
    NoDup (map fst out) /\ (forall k, In k (map fst out) <-> In k (map fst col)) /\
    forall k vs, In (k, vs) out ->
      length vs <= n /\ (exists rest, Permutation (values_of k col) (vs ++ rest)) /\
      (length (values_of k col) <= n -> Permutation vs (values_of k col)).
Proof.
  intros Hs Hv F. destruct (C48_group_by_key col split schedule Hs F) as [groups [E [N [Hk Hg]]]].
  exists groups. split; [exact E|]. cbv zeta.
  assert (M : map fst (mp_sample_groups ch n groups) = map fst groups) by (unfold mp_sample_groups; rewrite map_map; reflexivity).
  rewrite M. split; [exact N|]. split; [exact Hk|]. intros k vs X. unfold mp_sample_groups in X. apply in_map_iff in X.
  destruct X as [[k' g] [X1 X2]]. cbn [fst snd] in X1. inversion X1; subst k' vs. clear X1.
  specialize (Hg k g X2). assert (L := Permutation_length Hg).
  assert (Vd : n < length g -> valid_draw n (length g) (ch k (length g))) by (intro Y; apply Hv; exact Y).
  split; [|split].
  - unfold choose. destruct (Nat.ltb_spec n (length g)) as [Y|Y]; [|exact Y].
    assert (X := choose_length (ch k (length g)) n g Vd). unfold choose in X. apply Nat.ltb_lt in Y. rewrite Y in X. apply Nat.ltb_lt in Y. lia.
  - destruct (choose_submset (ch k (length g)) n g Vd) as [rest Hr]. exists rest.
    eapply Permutation_trans; [apply Permutation_sym; exact Hg|exact Hr].
  - intro Y. unfold choose. destruct (Nat.ltb_spec n (length g)) as [Y2|Y2]; [lia|exact Hg].
Qed.
Example C55_sample_ex :
  let col := [(1, 10); (1, 11); (2, 20); (1, 12)]%Z in
  exists groups, mp_group_by_key (Reiterable col) round_robin [0; 1; 1; 0; 1; 0; 0; 1] = Ok groups /\
    mp_sample_groups (fun _ _ => [2; 0]) 2 groups = [(1, [12; 11]); (2, [20])]%Z.
Proof. eexists. split; vm_compute; reflexivity. Qed.

(** flatten called the way the engine calls it never yields the rows of the
    collections: its items are collections and characters. *)
Theorem C55_flatten_refuted {A C} (cols : list (list A)) (stage_name : list C) :
  stage_name <> [] ->
  mp_flatten cols stage_name <> map ARow (concat cols) /\
  (forall a, ~ In (ARow a) (mp_flatten cols stage_name)).
Proof.
  intro Ns.
  assert (G : forall a, ~ In (ARow a) (mp_flatten cols stage_name)).
  { intros a X. unfold mp_flatten in X. apply in_app_iff in X.
    destruct X as [X|X]; apply in_map_iff in X; destruct X as [y [Q _]]; discriminate. }
  split; [|exact G]. intro Q. rewrite Q in G. unfold mp_flatten in Q. destruct (concat cols) as [|a l].
  - destruct cols; [|discriminate]. destruct stage_name; [congruence|discriminate].
  - apply (G a). left. reflexivity.
Qed.
Example C55_flatten_ex :
  mp_flatten [[1; 2]; [3]] [100; 101] = [ACollection [1; 2]; ACollection [3]; AChar 100; AChar 101].
Proof. reflexivity. Qed.

Print Assumptions C48_group_by_key.
Print Assumptions C48_group_by_key_completes.
Print Assumptions C48_group_generator_empty.
Print Assumptions C48_group_generator_refuted.
Print Assumptions C48_count_bounds.
Print Assumptions C48_count_refuted.
Print Assumptions C48_count_disjoint_workers.
Print Assumptions C48_count_serialised.
Print Assumptions C48_count_loses_any_number.
Print Assumptions C55_filter.
Print Assumptions C55_filter_generator.
Print Assumptions C55_filter_generator_refuted.
Print Assumptions C55_filter_by_key.
Print Assumptions C55_flat_map.
Print Assumptions C55_sample_fixed_per_key.
Print Assumptions C55_flatten_refuted.
