(** Lemmas for C65: calculate_private_contribution_bounds. *)
From Coq Require Import List ZArith QArith Reals Bool PeanoNat Lia.
From Verif Require Import Base BackendModel BounderModel ParamsModel SensModel CombinerModel EngineModel HistModel ExpMechModel.
From Verif Require Import LazyModel LazyEngineModel LazySpec LazyProofs LazyProofs2 LazyProofs3.
Import ListNotations.
Local Close Scope Q_scope. Local Close Scope R_scope. Local Open Scope nat_scope.

Section Engine.
Context {U P : Type} `{EqDec U} `{EqDec P}.
Notation interp := (@interp U P).
Notation heap := (heap interp).
Notation lookup := (lookup interp).
Notation makes := (makes interp).
Notation is_col := (is_col interp).
Notation moves := (moves interp).
Notation fresh := (fresh interp).
Notation cols := (cols interp).
Implicit Types h : heap.

Lemma makes_own G h F t (e : M interp (col t)) l : fresh h F G -> makes G h F e l -> makes F h F e l.
Proof.
  intros Fr (n & c & h' & F' & E & C & Fr' & (A & B & D)). exists n, c, h', F'. split; [exact E|]. split; [exact C|]. split; [exact Fr'|].
  split; [exact A|]. split; [|exact D]. intros b L N. apply B; [exact L|]. intro X. destruct (Fr b X); [auto | lia].
Qed.
Lemma makes_reading h F s t (e : M interp (col s)) (k : col s -> M interp (col t)) l m : makes F h F e l ->
  (forall c h' F', is_col h' F' c s l -> fresh h F F' -> moves F h h' -> makes F' h' F' (k c) m) ->
  makes F h F (bind interp e k) m.
Proof. intros E K. eapply makes_bind; [exact E|]. intros c h' F' C Fr Mv. exists F'. split; [exact Fr | apply K; assumption]. Qed.
Lemma makes_pure F h t (e : M interp (col t)) l : makes [] h F e l -> makes F h F e l.
Proof. apply makes_own. apply fresh_nil. Qed.
Lemma to_multi_bind h F s t (c : col s) (k : col s -> M interp (col t)) l m : is_col h F c s l ->
  (forall c' h', lookup h' c' s = Some (LList s l) -> moves F h h' -> makes [] h' [] (k c') m) ->
  makes F h F (bind interp (b_to_multi interp c) k) m.
Proof.
  intros C K. destruct (to_multi_list interp h F s c l C) as (n & c' & h' & E & L & Mv).
  destruct (K c' h' L Mv) as (n2 & c2 & h2 & F2 & E2 & C2 & Fr2 & Mv2). exists (Nat.max n n2), c2, h2, F2.
  split; [|split; [exact C2 | split]].
  - intros m0 Le. unfold bind. rewrite E by lia. apply E2. lia.
  - intros b I. destruct (Fr2 b I) as [[]|X]. right. destruct Mv. lia.
  - eapply moves_trans; [exact Mv | apply fresh_nil | exact Mv2].
Qed.
(** One of several collections. *)
Lemma makes_part F F1 F2 h s t (e : M interp (col s)) (k : col s -> M interp (col t)) l m : incl F1 F -> incl F2 F -> makes [] h F2 e l ->
  (forall c h' F2', is_col h' F2' c s l -> fresh h F2 F2' -> moves [] h h' -> makes [] h' (F1 ++ F2') (k c) m) ->
  makes [] h F (bind interp e k) m.
Proof.
  intros I1 I2 (n & c & h' & F2' & E & C & Fr & Mv) K.
  destruct (K c h' F2' C Fr Mv) as (n2 & c2 & h2 & F3 & E2 & C2 & Fr2 & Mv2). exists (Nat.max n n2), c2, h2, F3.
  split; [|split; [exact C2 | split]].
  - intros m0 Le. unfold bind. rewrite E by lia. apply E2. lia.
  - intros b I. destruct (Fr2 b I) as [X|X]; [|right; destruct Mv; lia]. apply in_app_iff in X as [X|X]; [left; apply I1; exact X|].
    destruct (Fr b X) as [Y|Y]; [left; apply I2; exact Y | right; exact Y].
  - eapply moves_trans; [exact Mv | apply fresh_nil | exact Mv2].
Qed.

Lemma cols_snoc h F t cs l : cols h F t cs l -> forall F1 (c : col t) m, is_col h F1 c t m -> (forall b, In b F -> ~ In b F1) ->
  cols h (F ++ F1) t (cs ++ [c]) (l ++ m).
Proof.
  induction 1 as [t|F G t c0 cs l0 m0 C0 Cs IH Dj]; intros F1 c m C N.
  - cbn. rewrite <- (app_nil_r m), <- (app_nil_r F1). apply cols_cons; [exact C | apply cols_nil | intros b _ []].
  - rewrite <- !app_assoc. cbn [app]. apply cols_cons; [exact C0 | apply IH; [exact C|] |].
    + intros b I. apply N. apply in_or_app. right. exact I.
    + intros b I X. apply in_app_iff in X as [X|X]; [exact (Dj b I X)|]. exact (N b (in_or_app _ _ _ (or_introl I)) X).
Qed.
(** One more collection made of a list. *)
Lemma collect h F t u cs l s (d : list (interp s) -> list (interp t)) (c : col s) ls (k : col t -> M interp (col u)) m :
  cols h F t cs l -> lookup h c s = Some (LList s ls) ->
  (forall c' h' F', cols h' F' t (cs ++ [c']) (l ++ d ls) -> moves [] h h' -> makes [] h' F' (k c') m) ->
  makes [] h F (bind interp (b_later interp d c) k) m.
Proof.
  intros Cs L K. eapply (makes_part F F []); [apply incl_refl | intros b [] | |].
  { eapply later_rule. left. split; [exact L | reflexivity]. }
  intros c' h' F' C Fr Mv. apply K; [|exact Mv]. apply cols_snoc; [eapply cols_moves; [exact Cs | exact Mv | tauto] | exact C|].
  intros b I J. destruct (Fr b J) as [[]|X]. pose proof (cols_range interp _ _ _ _ _ Cs b I). lia.
Qed.

(** In the middle nothing that was there before is advanced. *)
Lemma to_multi_bind_new h h0 F s t (c : col s) (k : col s -> M interp (col t)) l m : is_col h F c s l -> fresh h0 [] F -> moves [] h0 h ->
  (forall c' h', lookup h' c' s = Some (LList s l) -> moves F h h' -> moves [] h0 h' -> makes [] h' [] (k c') m) ->
  exists n c' h' F', (forall m0, n <= m0 -> bind interp (b_to_multi interp c) k m0 h = Some (c', h')) /\ is_col h' F' c' t m /\ fresh h0 [] F' /\ moves [] h0 h'.
Proof.
  intros C Fr Mv0 K. destruct (to_multi_list interp h F s c l C) as (n & c' & h' & E & L & Mv).
  assert (Mv' : moves [] h0 h') by (eapply moves_trans; [exact Mv0 | exact Fr | exact Mv]).
  destruct (K c' h' L Mv Mv') as (n2 & c2 & h2 & F2 & E2 & C2 & Fr2 & Mv2). exists (Nat.max n n2), c2, h2, F2.
  split; [|split; [exact C2 | split]].
  - intros m0 Le. unfold bind. rewrite E by lia. apply E2. lia.
  - intros b I. destruct (Fr2 b I) as [[]|X]. right. destruct Mv'. lia.
  - eapply moves_trans; [exact Mv' | apply fresh_nil | exact Mv2].
Qed.
(** A collection made of a list, then read into a list. *)
Lemma list_op h s t (e : M interp (col s)) (k : col s -> M interp (col t)) l m (E : makes [] h [] e l) :
  (forall c' h', lookup h' c' s = Some (LList s l) -> moves [] h h' -> makes [] h' [] (k c') m) ->
  makes [] h [] (bind interp e (fun c => bind interp (b_to_multi interp c) k)) m.
Proof.
  intros K. destruct E as (n & c & h1 & F1 & E & C & Fr & Mv).
  destruct (to_multi_bind_new h1 h F1 s t c k l m C Fr Mv) as (n2 & c2 & h2 & F2 & E2 & C2 & Fr2 & Mv2).
  { intros c' h' L _ Mv'. apply K; assumption. }
  exists (Nat.max n n2), c2, h2, F2. split; [|split; [exact C2 | split; [exact Fr2 | exact Mv2]]].
  intros m0 Le. unfold bind at 1. rewrite E by lia. apply E2. lia.
Qed.

Lemma histograms_rule nb h F (c : col (row TQ)) rows : is_col h F c (row TQ) rows ->
  makes F h F (lazy_dataset_histograms nb c) [compute_dataset_histograms nb (rows : list (U * P * Q))].
Proof.
  intro C. unfold lazy_dataset_histograms. eapply makes_reading; [apply makes_pure; apply map_rule; exact C|].
  intros c1 h1 F1 C1 _ _. eapply to_multi_bind; [exact C1|]. cbv beta.
  assert (Er : map (fun r : U * P * Q => (fst (fst r), snd (fst r), snd r)) rows = rows).
  { rewrite <- (map_id rows) at 2. apply map_ext. intros [[? ?] ?]. reflexivity. }
  match goal with |- forall c' h', lookup h' c' _ = Some (LList _ ?x) -> _ => change x with (map (fun r : U * P * Q => (fst (fst r), snd (fst r), snd r)) rows) end.
  rewrite Er. clear - H H0. intros wv h2 Lwv _.
  refine (list_op h2 _ _ _ _ _ _ (map_rule interp h2 [] (row TQ) (TPair TU TP) fst wv _ (or_introl (conj Lwv eq_refl))) _).
  intros ps h3 Lps Mv. pose proof (list_moves interp _ _ _ _ _ _ Lwv Mv) as Lwv3. clear Lwv Mv h2.
  refine (list_op h3 _ _ _ _ _ _ (later_rule interp h3 [] (TPair TU TP) (TPair TU TP) (@distinct _ dec_UP) ps _ (or_introl (conj Lps eq_refl))) _).
  intros dps h4 Ldps Mv. pose proof (list_moves interp _ _ _ _ _ _ Lwv3 Mv) as Lwv. pose proof (list_moves interp _ _ _ _ _ _ Lps Mv) as Lps4. clear Lwv3 Lps Mv h3.
  pose proof (cols_nil interp h4 TNamed) as Cs.
  Ltac one_histogram L :=
    eapply collect; [eassumption | exact L |];
    let c := fresh "c" in let h := fresh "h" in let F := fresh "F" in let Cs' := fresh "Cs" in let Mv := fresh "Mv" in
    intros c h F Cs' Mv;
    repeat match goal with L0 : LazyModel.lookup _ ?h0 ?x _ = Some (LList _ _), Mv : LazyProofs2.moves _ [] ?h0 h |- _ =>
             pose proof (list_moves interp _ _ _ _ _ _ L0 Mv); clear L0 end;
    clear Mv.
  one_histogram Ldps. clear Cs. rename Cs0 into Cs.
  match goal with L : LazyModel.lookup _ _ ps _ = _ |- _ => one_histogram L end. clear Cs. rename Cs0 into Cs.
  match goal with L : LazyModel.lookup _ _ ps _ = _ |- _ => one_histogram L end. clear Cs. rename Cs0 into Cs.
  match goal with L : LazyModel.lookup _ _ wv _ = _ |- _ => one_histogram L end. clear Cs. rename Cs0 into Cs.
  match goal with L : LazyModel.lookup _ _ ps _ = _ |- _ => one_histogram L end. clear Cs. rename Cs0 into Cs.
  match goal with L : LazyModel.lookup _ _ dps _ = _ |- _ => one_histogram L end. clear Cs. rename Cs0 into Cs.
  match goal with L : LazyModel.lookup _ _ wv _ = _ |- _ => one_histogram L end. clear Cs. rename Cs0 into Cs.
  eapply makes_lazily; [apply flatten_rule; exact Cs|]. intros call h12 F12 C12 _ _. cbv beta.
  eapply makes_lazily; [exact (later_rule interp _ _ TNamed (TList TNamed) _ call _ C12)|]. intros one h13 F13 C13 _ _. cbv beta.
  exact (map_rule interp _ _ (TList TNamed) THists pack_histograms one _ C13).
Qed.

Lemma number_fold ns : forall a : option Z,
  fold_left (fun a x => match x with INumber n => Some n | IHistogram _ => a end) (map INumber ns) a =
  match rev ns with [] => a | n :: _ => Some n end.
Proof.
  induction ns as [|n ns IH] using rev_ind; intro a; [reflexivity|]. rewrite map_app, fold_left_app, rev_app_distr. reflexivity.
Qed.
Lemma histogram_fold ns : forall a : option (result (list (bin Z))),
  fold_left (fun a x => match x with IHistogram h => Some h | INumber _ => a end) (map INumber ns) a = a.
Proof. induction ns as [|n ns IH]; intro a; [reflexivity|]. exact (IH a). Qed.
Lemma bound_of_inputs_list sigma bp hi ns : bound_of_inputs sigma bp (IHistogram hi :: map INumber ns) =
  rbind hi (fun l0_histogram => match rev ns with [] => Err TypeError | n :: _ => calculate_l0 sigma bp l0_histogram n end).
Proof.
  unfold bound_of_inputs. cbn [fold_left]. rewrite number_fold, histogram_fold. destruct (rev ns); destruct hi; reflexivity.
Qed.

Lemma inputs_rule nb af h F (c : col (row TQ)) (pc : col TP) rows ps : is_col h F c (row TQ) rows -> lookup h pc TP = Some (LList TP ps) ->
  makes F h F (lazy_l0_inputs nb af c pc)
    [IHistogram (h_l0 (compute_dataset_histograms nb (if negb af then drop_partitions ps rows else rows : list (U * P * Q)))) ::
     map INumber (size_col (distinct ps))].
Proof.
  intros C L. unfold lazy_l0_inputs.
  eapply makes_reading.
  { apply makes_pure. instantiate (1 := if negb af then drop_partitions ps rows else rows).
    destruct (negb af); [exact (drop_rule h F TQ c pc rows ps C L) | exact (makes_ret interp h F (row TQ) c rows C)]. }
  intros c1 h1 F1 C1 _ Mv1. cbv beta. pose proof (list_moves interp _ _ _ _ _ _ L Mv1) as L1.
  eapply makes_reading. { apply histograms_rule. exact C1. }
  intros c2 h2 F2 C2 _ Mv2. cbv beta. pose proof (list_moves interp _ _ _ _ _ _ L1 Mv2) as L2.
  eapply makes_reading. { apply makes_pure. exact (map_rule interp h2 F2 THists TL0 h_l0 c2 _ C2). }
  intros c3 h3 F3 C3 _ Mv3. cbv beta. pose proof (list_moves interp _ _ _ _ _ _ L2 Mv3) as L3.
  eapply to_multi_bind; [exact C3|]. intros lc h4 Lc Mv4. cbv beta. pose proof (list_moves interp _ _ _ _ _ _ L3 Mv4) as L4.
  eapply makes_lazily. { exact (later_rule interp h4 [] TP TP (@distinct _ dec_P) pc ps (or_introl (conj L4 eq_refl))). }
  intros c5 h5 F5 C5 _ Mv5. cbv beta. pose proof (list_moves interp _ _ _ _ _ _ Lc Mv5) as Lc5.
  eapply makes_lazily. { exact (later_rule interp h5 F5 TP TZ size_col c5 _ C5). }
  intros c6 h6 F6 C6 _ Mv6. cbv beta. pose proof (list_moves interp _ _ _ _ _ _ Lc5 Mv6) as Lc6.
  eapply (makes_part F6 F6 []); [apply incl_refl | intros b [] | |].
  { exact (map_rule interp h6 [] TL0 TInput IHistogram lc _ (or_introl (conj Lc6 eq_refl))). }
  intros c7 h7 F7 C7 Fr7 Mv7. cbv beta.
  assert (C6' : is_col h7 F6 c6 TZ (size_col (distinct ps))) by (eapply col_moves; [exact C6 | exact Mv7 | tauto]).
  eapply (makes_part (F6 ++ F7) F7 F6); [apply incl_appr, incl_refl | apply incl_appl, incl_refl | |].
  { exact (map_rule interp h7 F6 TZ TInput INumber c6 _ C6'). }
  intros c8 h8 F8 C8 Fr8 Mv8. cbv beta.
  eapply makes_lazily.
  { apply flatten_two; [eapply col_moves; [exact C7 | exact Mv8 | tauto] | exact C8|].
    intros b I J. destruct (Fr7 b I) as [[]|X]. pose proof (col_range interp _ _ _ _ _ C7 b I) as R7.
    destruct (Fr8 b J) as [Y|Y]; [|lia]. pose proof (col_range interp _ _ _ _ _ C6 b Y). lia. }
  intros c9 h9 F9 C9 _ _. cbv beta. exact (later_rule interp _ _ TInput (TList TInput) _ c9 _ C9).
Qed.
Lemma bounds_rule sigma bp af h F (c : col (row TQ)) (pc : col TP) rows ps : is_col h F c (row TQ) rows -> lookup h pc TP = Some (LList TP ps) ->
  makes F h F (lazy_contribution_bounds sigma bp af c pc) [calculate_private_contribution_bounds sigma bp ps af (rows : list (U * P * Q))].
Proof.
  intros C L. unfold lazy_contribution_bounds. eapply makes_reading; [apply inputs_rule; eassumption|].
  intros c1 h1 F1 C1 _ _. cbv beta. apply makes_pure. eapply makes_as.
  { exact (map_rule interp h1 F1 (TList TInput) TBound (bound_of_inputs sigma bp) c1 _ C1). }
  cbn [map]. f_equal. etransitivity; [apply bound_of_inputs_list|]. reflexivity.
Qed.
End Engine.
