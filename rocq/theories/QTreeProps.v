(** C83, continued: quantile trees with Laplace noise, and whole programs whose noise is
    rounded Laplace noise. *)
From Coq Require Import String List ZArith QArith Qreals Qround Qminmax Reals Sorted Bool Permutation Lia Lqa Lra.
From Verif Require Import Base BaseLemmas ListLemmas ParamsModel CombinerModel SensModel EngineModel EngineSpec QuantileModel VectorModel VectorSpec ExpMechProofs LaplaceModel LaplaceSpec LaplaceProofs SelectModel SelectSpec
  SelectProofs SelectProps BudgetModel BudgetSpec WrapperModel DistSpec DistProofs DpModel DpSpec DpProps RoundModel RoundSpec RoundProofs RoundProofs2 RoundProps QTreeModel QTreeProofs.
Import ListNotations.
Local Open Scope R_scope.
Local Close Scope Q_scope.

(** Every entry is counted once at every level, and below the node that counts it one level
    up. *)
Lemma leaf_in_range q lo hi v : qq_lower q = Some lo -> qq_upper q = Some hi -> (lo < hi)%Q -> (0 < qq_height q)%Z -> (1 < qq_branching q)%Z ->
  (leaf q v < Z.to_nat (qq_branching q) ^ Z.to_nat (qq_height q))%nat.
Proof.
  intros E1 E2 L Hh Hb. unfold leaf. rewrite E1, E2. cbv zeta.
  assert (P : (0 < qq_branching q ^ qq_height q)%Z) by (apply Z.pow_pos_nonneg; lia).
  assert (E : (Z.to_nat (qq_branching q) ^ Z.to_nat (qq_height q))%nat = Z.to_nat (qq_branching q ^ qq_height q)).
  { apply Nat2Z.inj. rewrite Nat2Z.inj_pow, !Z2Nat.id by lia. reflexivity. }
  rewrite E. apply Z2Nat.inj_lt; [|lia|].
  - apply Z.min_glb; [lia|]. change 0%Z with (Qfloor 0). apply Qfloor_resp_le.
    assert (0 <= Qmax lo (Qmin hi v) - lo)%Q by (assert (X := Q.le_max_l lo (Qmin hi v)); Lqa.lra).
    assert (0 <= inject_Z (qq_branching q ^ qq_height q))%Q by (change 0%Q with (inject_Z 0); rewrite <- Zle_Qle; lia).
    apply Qmult_le_0_compat; [|assumption]. apply Qle_shift_div_l; Lqa.lra.
  - lia.
Qed.
Theorem C83_trees_count_every_entry q lo hi (t : list Q) level :
  qq_lower q = Some lo -> qq_upper q = Some hi -> (lo < hi)%Q -> (0 < qq_height q)%Z -> (1 < qq_branching q)%Z ->
  (1 <= level <= Z.to_nat (qq_height q))%nat ->
  (forall v, exists! n, In n (nodes q) /\ fst n = level /\ node_of q level v = snd n) /\
  (forall v, (level < Z.to_nat (qq_height q))%nat -> node_of q level v = (node_of q (S level) v / Z.to_nat (qq_branching q))%nat) /\
  list_sum (map (node_count q t) (filter (fun n => Nat.eqb (fst n) level) (nodes q))) = length t.
Proof.
  intros E1 E2 L Hh Hb Hl. set (b := Z.to_nat (qq_branching q)). set (h := Z.to_nat (qq_height q)) in *. assert (Pb : (1 < b)%nat) by lia.
  assert (Rg : forall v, (node_of q level v < b ^ level)%nat).
  { intro v. unfold node_of. fold b h. apply Nat.div_lt_upper_bound; [apply Nat.pow_nonzero; lia|].
    rewrite <- Nat.pow_add_r. replace (h - level + level)%nat with h by lia. apply (leaf_in_range q lo hi); assumption. }
  assert (In_nodes : forall i, In (level, i) (nodes q) <-> (i < b ^ level)%nat).
  { intro i. unfold nodes. fold b h. rewrite in_flat_map. split.
    - intros [l [Il I]]. apply in_map_iff in I. destruct I as [j [Ej I]]. injection Ej as -> ->. apply in_seq in I. lia.
    - intro Li. exists level. split; [apply in_seq; lia|]. apply in_map. apply in_seq. lia. }
  split; [|split].
  - intro v. exists (level, node_of q level v). split.
    + split; [apply In_nodes, Rg | split; reflexivity].
    + intros [l i] [_ [X Y]]. cbn [fst snd] in *. subst. reflexivity.
  - intros v Lt. unfold node_of. fold b h. rewrite Nat.div_div by (try apply Nat.pow_nonzero; lia).
    f_equal. replace (h - level)%nat with (S (h - S level)) by lia. cbn [Nat.pow]. apply Nat.mul_comm.
  - assert (Fl : filter (fun n => Nat.eqb (fst n) level) (nodes q) = map (pair level) (seq 0 (b ^ level))).
    { unfold nodes. fold b h. assert (G : forall s k, filter (fun n => Nat.eqb (fst n) level) (flat_map (fun l => map (pair l) (seq 0 (b ^ l))) (seq s k)) =
        if (s <=? level) && (level <? s + k) then map (pair level) (seq 0 (b ^ level)) else []).
      { intros s k. revert s. induction k as [|k IH]; intro s.
        - cbn [seq flat_map filter]. destruct (Nat.leb_spec s level), (Nat.ltb_spec level (s + 0)); cbn; try reflexivity; lia.
        - cbn [seq flat_map]. rewrite filter_app, IH.
          assert (K : filter (fun n => Nat.eqb (fst n) level) (map (pair s) (seq 0 (b ^ s))) = if Nat.eqb s level then map (pair s) (seq 0 (b ^ s)) else []).
          { induction (seq 0 (b ^ s)) as [|x l IHl]; [destruct (Nat.eqb s level); reflexivity|]. cbn [map filter fst]. rewrite IHl. destruct (Nat.eqb s level); reflexivity. }
          rewrite K. destruct (Nat.eqb_spec s level) as [Es|N]; [subst s|].
          + destruct (Nat.leb_spec (S level) level); [lia|]. cbn [andb]. rewrite app_nil_r.
            destruct (Nat.leb_spec level level), (Nat.ltb_spec level (level + S k)); try lia. reflexivity.
          + cbn [app]. destruct (Nat.leb_spec (S s) level), (Nat.leb_spec s level), (Nat.ltb_spec level (S s + k)), (Nat.ltb_spec level (s + S k)); cbn [andb]; try reflexivity; lia. }
      rewrite G. destruct (Nat.leb_spec 1 level), (Nat.ltb_spec level (1 + h)); try lia. reflexivity. }
    rewrite Fl, map_map. induction t as [|v t IH].
    + unfold node_count. cbn [filter length]. clear. induction (seq 0 (b ^ level)); [reflexivity | cbn in *; assumption].
    + assert (One : forall l, NoDup l -> list_sum (map (fun i => node_count q (v :: t) (level, i)) l) =
          (list_sum (map (fun i => node_count q t (level, i)) l) + (if in_dec Nat.eq_dec (node_of q level v) l then 1 else 0))%nat).
      { clear. induction l as [|i l IHl]; intro Nd; [cbn; reflexivity|].
        apply NoDup_cons_iff in Nd. destruct Nd as [Ni Nd]. specialize (IHl Nd). cbn [map list_sum fold_right]. fold (list_sum (map (fun i => node_count q (v :: t) (level, i)) l)).
        fold (list_sum (map (fun i => node_count q t (level, i)) l)). rewrite IHl. unfold node_count at 1. cbn [filter fst snd].
        destruct (Nat.eqb_spec (node_of q level v) i) as [E|E].
        - cbn [length]. change (length (filter _ t)) with (node_count q t (level, i)).
          destruct (in_dec Nat.eq_dec (node_of q level v) (i :: l)) as [_|N]; [|exfalso; apply N; left; symmetry; exact E].
          destruct (in_dec Nat.eq_dec (node_of q level v) l) as [I|_]; [exfalso; apply Ni; rewrite <- E; exact I|]. lia.
        - change (length (filter _ t)) with (node_count q t (level, i)).
          destruct (in_dec Nat.eq_dec (node_of q level v) (i :: l)) as [[I|I]|N]; destruct (in_dec Nat.eq_dec (node_of q level v) l) as [I'|N']; try lia; exfalso; try (apply E; symmetry; exact I); try contradiction.
          apply N. right. exact I'. }
      rewrite One by apply seq_NoDup. rewrite IH. destruct (in_dec Nat.eq_dec (node_of q level v) (seq 0 (b ^ level))) as [_|N]; [cbn [length]; lia|].
      exfalso. apply N. apply in_seq. specialize (Rg v). lia.
Qed.
Print Assumptions C83_trees_count_every_entry.

(** Quantiles computed in any way from counts with Laplace noise of scale
    height * l0 * linf / eps: the answers for all the trees are eps-differentially private when at
    most [l0] trees have further entries, at most [linf] each. *)
Theorem C83_quantile_trees_are_private g decode q eps (l0 linf : Z) ts ts' E :
  sorted_grid g -> 0 < eps -> (0 < qq_height q)%Z -> (0 < l0)%Z -> (0 < linf)%Z -> neighbouring_trees l0 linf ts ts' ->
  let trees := independent (laplace_tree g decode q (eps / IZR (qq_height q * (l0 * linf)))) in
  indistinguishable eps 0 (prob (trees ts) E) (prob (trees ts') E).
Proof.
  intros So He Hh L0 Li N trees.
  assert (Pm : 0 < IZR (qq_height q * (l0 * linf))) by (apply IZR_lt; apply Z.mul_pos_pos; [exact Hh | apply Z.mul_pos_pos; assumption]).
  assert (Hr := Rdiv_lt_0_compat _ _ He Pm).
  destruct (trees_below g decode q _ Hr So l0 linf ts ts' ltac:(lia) ltac:(lia) N) as [B1 B2].
  replace (eps / IZR (qq_height q * (l0 * linf)) * (INR (Z.to_nat (qq_height q)) * (IZR l0 * IZR linf))) with eps in B1, B2.
  - split; apply below_prob; assumption.
  - rewrite INR_IZR_INZ, Z2Nat.id by lia. rewrite !mult_IZR in *. field.
    assert (0 < IZR (qq_height q)) by (apply IZR_lt; exact Hh). assert (0 < IZR l0) by (apply IZR_lt; exact L0). assert (0 < IZR linf) by (apply IZR_lt; exact Li). lra.
Qed.
Print Assumptions C83_quantile_trees_are_private.

(** All the promises with Laplace noise: assumptions are left only for Gaussian noise,
    Gaussian thresholding and the probabilities to keep partitions (for which C59 shows that the
    documented truncated geometric and Laplace strategies meet them). *)
Theorem C83_all_promises_hold gn gv gs gq decode py :
  (forall m, sorted_grid (gn m)) -> (forall m, sorted_grid (gv m)) -> (forall s, sorted_grid (gs s)) -> (forall q, sorted_grid (gq q)) ->
  pydp_keeps_promises py -> pydp_keeps_promises (with_laplace_trees gn gv gs gq decode py).
Proof.
  intros Sn Sv Ss Sq Hp. destruct (C83_promises_hold gn gv gs py Sn Sv Ss Hp) as [N [K [Th [Qu V]]]].
  split; [exact N|]. split; [exact K|]. split; [exact Th|]. split; [apply laplace_quantiles_contract; [exact Sq | exact Qu] | exact V].
Qed.
Print Assumptions C83_all_promises_hold.
Theorem C83_what_quantile_trees_draw gn gv gs gq decode py q (l0 linf : Z) t :
  qq_noise q = "laplace"%string -> qq_l0 q = Some l0 -> qq_linf q = Some linf -> (0 < l0)%Z -> (0 < linf)%Z -> (0 < qq_height q)%Z -> (0 < qq_eps q)%Q ->
  py_quantiles (with_laplace_trees gn gv gs gq decode py) q t =
  dbind (independent (rounded_laplace (gq q) (Q2R (qq_eps q) / IZR (qq_height q * (l0 * linf)))) (map (fun n => INR (node_count q t n)) (nodes q)))
        (fun noisy => dret (decode q noisy)).
Proof.
  intros En E0 Ei L0 Li Hh He. cbn [with_laplace_trees py_quantiles]. unfold laplace_quantiles. rewrite E0, Ei, En. change (String.eqb "laplace" "laplace") with true. cbv iota zeta.
  assert (He' : 0 < Q2R (qq_eps q)) by (rewrite <- RMicromega.Q2R_0; apply Qlt_Rlt; assumption).
  assert (Pm : 0 < IZR (qq_height q * (l0 * linf))) by (apply IZR_lt; apply Z.mul_pos_pos; [exact Hh | apply Z.mul_pos_pos; assumption]).
  destruct (Rlt_dec 0 _) as [_|X]; [reflexivity | exfalso; apply X; apply Rdiv_lt_0_compat; assumption].
Qed.
Print Assumptions C83_what_quantile_trees_draw.

(** Whole programs (C61) with a PyDP that is given in full: rounded Laplace noise for numbers,
    vectors, thresholding and quantile trees, and the documented truncated geometric strategy
    ([demo_pydp]) for private partition selection.  Nothing is assumed of PyDP. (Gaussian requests
    are answered by [toy_pydp], which is private but not Gaussian.) *)
Theorem C83_programs_without_assumptions {U P} `{EqDec U} `{EqDec P}
    (e d : Q) num ws s0 ops s2 es ds (calls : list (call U P)) (u : U) gn gv gs gq decode N X T :
  new_accountant e d num ws = Ok s0 ->
  Forall op_pos ops ->
  granted ops (outs s0 ops) = flat_map call_requests calls ->
  granted ops (outs s0 ops) <> [] ->
  step (run s0 ops) Compute = (s2, Ok OutUnit) ->
  read_eps s2 es -> read_delta s2 ds ->
  Forall valid_call calls ->
  (forall m, sorted_grid (gn m)) -> (forall m, sorted_grid (gv m)) -> (forall s, sorted_grid (gs s)) -> (forall q, sorted_grid (gq q)) ->
  Forall (fun c => large_enough N X T c /\ large_enough N X T (forget u c)) calls ->
  let py := with_laplace_trees gn gv gs gq decode toy_pydp in
  forall E, indistinguishable (Q2R e) (Q2R d)
    (prob (run_calls py N X T (combine calls (divide calls (combine es ds)))) E)
    (prob (run_calls py N X T (combine (map (forget u) calls) (divide (map (forget u) calls) (combine es ds)))) E).
Proof.
  intros A1 A2 A3 A4 A5 A6 A7 A8 S1 S2 S3 S4 A9 py E.
  eapply C61_total_budget_differential_privacy; try eassumption.
  apply C83_all_promises_hold; try assumption. exact toy_pydp_keeps_promises.
Qed.
Print Assumptions C83_programs_without_assumptions.

(** ** The hypotheses are met *)
Definition small_query : quantile_query := QQuery (Some 0%Q) (Some 10%Q) 2 3 1 0 (Some 2%Z) (Some 1%Z) [(1 # 2)%Q] "laplace".
Example small_tree : map (node_count small_query [1; 4; 4; 9; 25]%Q) (nodes small_query) = [1; 2; 2; 1; 0; 0; 2; 0; 0; 0; 0; 2]%nat.
Proof. vm_compute. reflexivity. Qed.
Example small_neighbours : neighbouring_trees 2 1 [[1; 4]; [9]; [3]]%Q [[4]; [9]; []]%Q.
Proof.
  exists [[1]; []; [3]]%Q. split; [repeat constructor|]. split; [reflexivity|]. split; [repeat constructor; cbn; lia | cbn; lia].
Qed.
Example some_full_pydp : pydp_keeps_promises
  (with_laplace_trees (fun _ => small_grid) (fun _ => small_grid) (fun _ => small_grid) (fun _ => small_grid) (fun q noisy => map (fun _ => hd 0%Q noisy) (qq_quantiles q)) toy_pydp).
Proof. apply C83_all_promises_hold; try (intro; apply small_grid_sorted). exact toy_pydp_keeps_promises. Qed.
