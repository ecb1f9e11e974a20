(** Lemmas for C75: processes, and CompoundCombiner with names. *)
From Coq Require Import String Ascii List ZArith QArith Bool Lia Permutation.
From Verif Require Import Base BaseLemmas ListLemmas BackendModel ParamsModel SensModel CombinerModel CombinerSpec CombinerProofs3 EngineModel RecordModel RecordSpec RecordProofs RecordProofs2.
Import ListNotations.

(** ** Processes *)

Definition good (s : process) : Prop :=
  (forall k i, nth_error (classes s) i = Some k <-> cache_get (cache s) k = Some i) /\
  Forall (fun k => namedtuple_accepts (fst k) (snd k) = true) (classes s).

Lemma good_fresh : good fresh_process.
Proof. split; [|constructor]. intros k [|i]; cbn; split; discriminate. Qed.

Lemma get_or_create_ok t f s : good s ->
  get_or_create t f s = (if namedtuple_accepts t f then
    Ok (match cache_get (cache s) (t, f) with
        | Some i => (i, s)
        | None => (length (classes s), Process (classes s ++ [(t, f)]) (((t, f), length (classes s)) :: cache s))
        end) else Err ValueError).
Proof.
  intros [G A]. unfold get_or_create. destruct (cache_get (cache s) (t, f)) as [i|] eqn:E; [|destruct (namedtuple_accepts t f); reflexivity].
  apply G in E. rewrite Forall_forall in A. specialize (A (t, f) (nth_error_In _ _ E)). cbn in A. rewrite A. reflexivity.
Qed.

Lemma nth_snoc {A} (l : list A) x i y : nth_error (l ++ [x]) i = Some y <-> nth_error l i = Some y \/ (i = length l /\ y = x).
Proof.
  destruct (lt_eq_lt_dec i (length l)) as [[L|E]|L].
  - rewrite nth_error_app1 by exact L. split; [auto|]. intros [H0|[H0 _]]; [exact H0 | lia].
  - subst. rewrite nth_error_app2, Nat.sub_diag by lia. cbn. split; [intro E; injection E as <-; auto|].
    intros [H0|[_ ->]]; [|reflexivity]. assert (nth_error l (length l) <> None) by congruence. apply nth_error_Some in H. lia.
  - rewrite nth_error_app2 by lia. destruct (i - length l)%nat as [|[|]] eqn:E; try lia; cbn; (split; [discriminate|]); (intros [H0|[H0 _]]; [|lia]);
      assert (H1 : nth_error l i <> None) by congruence; apply nth_error_Some in H1; lia.
Qed.

Lemma good_step t f s i s' : good s -> get_or_create t f s = Ok (i, s') ->
  good s' /\ nth_error (classes s') i = Some (t, f) /\ (forall j k, nth_error (classes s) j = Some k -> nth_error (classes s') j = Some k).
Proof.
  intros G E. rewrite (get_or_create_ok t f s G) in E. destruct (namedtuple_accepts t f) eqn:A; [|discriminate]. destruct G as [G F].
  destruct (cache_get (cache s) (t, f)) as [j|] eqn:C; injection E as <- <-.
  - split; [split; assumption|]. split; [apply G; exact C | auto].
  - cbn [classes cache]. split; [split|split].
    + intros k i. cbn [classes cache cache_get]. rewrite nth_snoc. destruct (eqb k (t, f)) eqn:Ek.
      * apply eqb_eq in Ek. subst k. split.
        -- intros [H0|[-> _]]; [|reflexivity]. apply G in H0. congruence.
        -- intro H0. injection H0 as <-. auto.
      * rewrite <- G. split; [|auto]. intros [H0|[_ ->]]; [exact H0|]. rewrite ListLemmas.eqb_refl in Ek. discriminate.
    + apply Forall_app. split; [exact F|]. constructor; [exact A | constructor].
    + apply nth_snoc. auto.
    + intros j k Hj. apply nth_snoc. auto.
Qed.

Lemma good_later s s' : later s s' -> good s -> good s' /\ (forall j k, nth_error (classes s) j = Some k -> nth_error (classes s') j = Some k).
Proof.
  induction 1 as [s|s s' t f i s'' L IH E]; intro G; [split; auto|]. destruct (IH G) as [G' M]. destruct (good_step t f s' i s'' G' E) as [G'' [_ M']].
  split; [exact G''|]. auto.
Qed.
Lemma good_process s : some_process s -> good s.
Proof. intro L. apply (good_later _ _ L good_fresh). Qed.
Lemma later_trans s s' s'' : later s s' -> later s' s'' -> later s s''.
Proof. intros L L'. revert L. induction L' as [|s' s1 t f i s2 L1 IH E]; intro L; [exact L|]. eapply later_step; [apply IH; exact L | exact E]. Qed.

Lemma create_ok t f vs s : good s -> namedtuple_accepts t f = true -> length vs = length f ->
  exists x s', create_instance t f vs s = Ok (x, s') /\ i_values x = vs /\ nth_error (classes s') (i_class x) = Some (t, f) /\ later s s'.
Proof.
  intros G A L. unfold create_instance. destruct (get_or_create t f s) as [[i s']|] eqn:E.
  - destruct (good_step t f s i s' G E) as [_ [N _]]. cbn [rbind fst snd]. unfold construct. rewrite N, L, Nat.eqb_refl. cbn.
    do 2 eexists. split; [reflexivity|]. split; [reflexivity|]. split; [exact N|]. eapply later_step; [apply later_refl | exact E].
  - rewrite (get_or_create_ok t f s G), A in E. discriminate.
Qed.
Lemma create_inv t f vs s x s' : good s -> create_instance t f vs s = Ok (x, s') ->
  i_values x = vs /\ length vs = length f /\ nth_error (classes s') (i_class x) = Some (t, f) /\ later s s' /\ namedtuple_accepts t f = true /\
  get_or_create t f s = Ok (i_class x, s').
Proof.
  intros G E. unfold create_instance in E. destruct (get_or_create t f s) as [[i s1]|] eqn:Eg; [|discriminate]. cbn [rbind fst snd] in E.
  destruct (good_step t f s i s1 G Eg) as [_ [N _]]. unfold construct in E. rewrite N in E. destruct (length vs =? length f)%nat eqn:El; [|discriminate].
  cbn in E. injection E as <- <-. cbn [i_values i_class]. apply Nat.eqb_eq in El. split; [reflexivity|]. split; [exact El|]. split; [exact N|].
  split; [eapply later_step; [apply later_refl | exact Eg]|]. split; [|reflexivity].
  rewrite (get_or_create_ok t f s G) in Eg. destruct (namedtuple_accepts t f); [reflexivity | discriminate].
Qed.

Lemma made_class s x : made_in s x -> good s /\ exists t f, nth_error (classes s) (i_class x) = Some (t, f) /\ length (i_values x) = length f /\ namedtuple_accepts t f = true.
Proof.
  intros [s1 [s2 [t [f [vs [P [E L]]]]]]]. pose proof (good_process s1 P) as G. destruct (create_inv t f vs s1 x s2 G E) as [V [Ln [N [L1 [A _]]]]].
  destruct (good_later _ _ (later_trans _ _ _ L1 L) G) as [Gs _]. split; [exact Gs|]. exists t, f.
  destruct (good_later _ _ L1 G) as [G2 _]. destruct (good_later _ _ L G2) as [_ M]. split; [apply M; exact N|]. split; [congruence | exact A].
Qed.

(** ** Names of metrics *)

Definition rename (nums : list number) (n : mname) : string :=
  match n with
  | NPercentile q =>
      match find (fun p => Qeq_bool (value_of p) q) nums with
      | Some p => "percentile_" ++ suffix p
      | None => ""
      end
  | _ => text n
  end.
Definition known (nums : list number) (n : mname) : Prop :=
  match n with NPercentile q => exists p, In p nums /\ q = Qred (value_of p) | _ => True end.
Definition fits_numbers (nums : list number) (c : combiner) : Prop :=
  match c with
  | CQuantile ps => ps = map value_of nums
  | CMean _ _ names | CVariance _ _ names => Forall not_percentile names
  | _ => True
  end.

Lemma rename_percentile nums p : Forall canonical nums -> In p nums -> rename nums (NPercentile (Qred (value_of p))) = ("percentile_" ++ suffix p)%string.
Proof.
  intros F I. cbn [rename]. rewrite Forall_forall in F. destruct (find _ nums) as [p'|] eqn:E.
  - apply find_some in E. destruct E as [I' E]. apply Qeq_bool_iff in E. rewrite Qred_correct in E. rewrite (suffix_same p' p (F _ I') (F _ I) E). reflexivity.
  - apply (find_none _ _ E) in I. assert (Qeq_bool (value_of p) (Qred (value_of p)) = true) by (apply Qeq_bool_iff; rewrite Qred_correct; reflexivity). congruence.
Qed.
Lemma rename_plain nums n : not_percentile n -> rename nums n = text n.
Proof. destruct n; [reflexivity..|contradiction]. Qed.

Lemma map_result_all {A B} (f : A -> result B) (g : A -> B) l : (forall x, In x l -> f x = Ok (g x)) -> map_result f l = Ok (map g l).
Proof.
  induction l as [|x l IH]; intro Hf; [reflexivity|]. cbn. rewrite (Hf x (or_introl eq_refl)). cbn [rbind]. rewrite IH by (intros; apply Hf; right; assumption). reflexivity.
Qed.
Lemma names_of_numbers nums : Forall canonical nums -> map_result format_metric_name nums = Ok (map (fun p => "percentile_" ++ suffix p)%string nums).
Proof. intro F. apply map_result_all. intros p I. rewrite Forall_forall in F. apply format_suffix, F, I. Qed.
Lemma renamed_numbers nums : Forall canonical nums ->
  map (fun p => "percentile_" ++ suffix p)%string nums = map (rename nums) (map (fun q => NPercentile (Qred q)) (map value_of nums)).
Proof. intro F. rewrite !map_map. apply map_ext_in. intros p I. symmetry. apply rename_percentile; assumption. Qed.

Lemma texts_rename nums c : Forall canonical nums -> fits_numbers nums c -> texts_of nums c = Ok (map (rename nums) (names_of c)).
Proof.
  intros F Fc. destruct c; cbn [texts_of fits_numbers names_of] in *; try reflexivity.
  - f_equal. apply map_ext_in. intros n I. rewrite Forall_forall in Fc. symmetry. apply rename_plain, Fc, I.
  - f_equal. apply map_ext_in. intros n I. rewrite Forall_forall in Fc. symmetry. apply rename_plain, Fc, I.
  - subst ps. rewrite names_of_numbers, renamed_numbers by exact F. reflexivity.
Qed.

Lemma combine_snd {A B C} (f : A -> C) (l : list A) (l' : list B) :
  combine (map f l) (map snd (combine l l')) = map (fun x => (f (fst x), snd x)) (combine l l').
Proof. revert l'. induction l as [|x l IH]; intros [|y l']; cbn; try reflexivity. f_equal. apply IH. Qed.

Definition renamed (nums : list number) (d : list (mname * released)) : list (string * released) := map (fun nv => (rename nums (fst nv), snd nv)) d.

Lemma compute_rename nz nums c a : Forall canonical nums -> fits_numbers nums c -> compute_named nz nums c a = rmap (renamed nums) (compute_metrics nz c a).
Proof.
  intros F Fc. destruct c, a; cbn [compute_named compute_metrics fits_numbers] in *; try reflexivity.
  all: try (rewrite names_of_numbers by exact F; cbn [rbind rmap]; reflexivity).
  - destruct (compute_mean nz _ _ _) as [[c0 s0] m0]. cbn. f_equal. unfold renamed. rewrite !map_app. destruct (existsb _ names), (existsb _ names); reflexivity.
  - destruct (compute_dp_var nz _ _ _ _ _) as [[[c0 s0] m0] v0]. cbn. f_equal. unfold renamed. rewrite !map_app. destruct (existsb _ names), (existsb _ names), (existsb _ names); reflexivity.
  - rewrite names_of_numbers by exact F. cbn [rbind rmap]. subst ps. rewrite renamed_numbers by exact F. f_equal. apply combine_snd.
Qed.

Lemma known_keys nz nums c a d : fits_numbers nums c -> compute_metrics nz c a = Ok d -> Forall (fun nv => known nums (fst nv)) d.
Proof.
  intros Fc E. destruct c, a; cbn [compute_metrics fits_numbers] in *; try discriminate; try solve [injection E as <-; repeat constructor].
  - destruct (compute_mean nz _ _ _) as [[c0 s0] m0]. injection E as <-. destruct (existsb _ names), (existsb _ names); repeat constructor.
  - destruct (compute_dp_var nz _ _ _ _ _) as [[[c0 s0] m0] v0]. injection E as <-. destruct (existsb _ names), (existsb _ names), (existsb _ names); repeat constructor.
  - injection E as <-. subst ps. apply Forall_forall. intros [n v] I. apply in_combine_l in I. cbn [names_of] in I. apply in_map_iff in I. destruct I as [q [<- I]].
    apply in_map_iff in I. destruct I as [p [<- I]]. cbn. eauto.
Qed.

Lemma rename_inj nums n n' : Forall canonical nums -> known nums n -> known nums n' -> rename nums n = rename nums n' -> n = n'.
Proof.
  intros F K K' E. assert (P : forall q, known nums (NPercentile q) -> exists p, In p nums /\ q = Qred (value_of p) /\ rename nums (NPercentile q) = ("percentile_" ++ suffix p)%string).
  { intros q [p [I ->]]. exists p. split; [exact I|]. split; [reflexivity|]. apply rename_percentile; assumption. }
  destruct n as [| | | | | |q], n' as [| | | | | |q']; try reflexivity; try discriminate E;
    try (destruct (P _ K) as [p [_ [_ Ep]]]; rewrite Ep in E; discriminate E);
    try (destruct (P _ K') as [p [_ [_ Ep]]]; rewrite Ep in E; discriminate E).
  destruct (P _ K) as [p [I [-> Ep]]]. destruct (P _ K') as [p' [I' [-> Ep']]]. rewrite Ep, Ep' in E.
  rewrite Forall_forall in F. f_equal. apply Qred_complete. apply (names_iff p p' (F _ I) (F _ I')). rewrite !format_suffix by (apply F; assumption). rewrite E. reflexivity.
Qed.

Lemma mem_rename nums n ns : Forall canonical nums -> known nums n -> Forall (known nums) ns -> mem (rename nums n) (map (rename nums) ns) = existsb (eqb n) ns.
Proof.
  intros F K Ks. apply eq_true_iff_eq. rewrite mem_true_iff, in_map_iff, existsb_exists. rewrite Forall_forall in Ks. split.
  - intros [m [E I]]. exists m. split; [exact I|]. rewrite (rename_inj nums m n F (Ks _ I) K E). apply ListLemmas.eqb_refl.
  - intros [m [I E]]. apply eqb_eq in E. subst. eauto.
Qed.

Lemma combine_rename nzs nums cs : Forall canonical nums -> Forall (fits_numbers nums) cs -> forall i accs sofar,
  Forall (fun nv => known nums (fst nv)) sofar ->
  combine_named nzs nums i cs accs (renamed nums sofar) = rmap (renamed nums) (combine_metrics nzs i cs accs sofar).
Proof.
  intro F. induction 1 as [|c cs Fc Fcs IH]; intros i accs sofar K; [reflexivity|]. destruct accs as [|a accs]; [reflexivity|].
  cbn [combine_named combine_metrics]. rewrite compute_rename by assumption. destruct (compute_metrics (nzs i) c a) as [d|] eqn:E; cbn [rmap rbind]; [|reflexivity].
  pose proof (known_keys _ _ _ _ _ Fc E) as Kd.
  assert (X : existsb (fun kv => mem (fst kv) (map fst (renamed nums sofar))) (renamed nums d) = existsb (fun kv => existsb (eqb (fst kv)) (map fst sofar)) d).
  { clear E. unfold renamed at 1 2. rewrite map_map. cbn [fst]. rewrite <- (map_map fst (rename nums)). induction Kd as [|[n v] d Kn Kd IHd]; [reflexivity|]. cbn [map existsb fst snd] in *.
    rewrite IHd, mem_rename; [reflexivity | exact F | exact Kn|]. apply Forall_map. exact K. }
  rewrite X. destruct (existsb _ d); [reflexivity|].
  assert (Ea : renamed nums sofar ++ renamed nums d = renamed nums (sofar ++ d)) by (symmetry; apply map_app). rewrite Ea.
  apply IH. apply Forall_app. split; assumption.
Qed.

(** ** Accepted names *)

Definition good_percentile (p : number) : Prop :=
  (0 <= value_of p)%Q /\ (is_integer (value_of p) \/ (1 # 10000 <= value_of p)%Q).

Lemma NoDup_rename nums ns : Forall canonical nums -> Forall (known nums) ns -> (NoDup (map (rename nums) ns) <-> NoDup ns).
Proof.
  intros F K. split; [apply NoDup_map_inv|]. intro N. induction N as [|n ns Ni N IH]; [constructor|]. inversion K as [|? ? Kn Ks]; subst. cbn. constructor; [|apply IH; exact Ks].
  intro I. apply in_map_iff in I. destruct I as [m [E I]]. rewrite Forall_forall in Ks. rewrite (rename_inj nums m n F (Ks _ I) Kn E) in I. contradiction.
Qed.

Lemma accepts_rename nums ns : Forall canonical nums -> Forall (known nums) ns ->
  (namedtuple_accepts "MetricsTuple" (map (rename nums) ns) = true <->
   NoDup ns /\ (forall p, In p nums -> In (NPercentile (Qred (value_of p))) ns -> good_percentile p)).
Proof.
  intros F K. unfold namedtuple_accepts. change (valid_name "MetricsTuple") with true. cbn [andb].
  assert (U : forallb (fun f => negb (starts_with_underscore f)) (map (rename nums) ns) = true).
  { apply forallb_forall. intros f I. apply in_map_iff in I. destruct I as [n [<- I]]. rewrite Forall_forall in K. specialize (K n I).
    destruct n as [| | | | | |q]; try reflexivity. destruct K as [p [Ip ->]]. rewrite (rename_percentile nums p F Ip). reflexivity. }
  rewrite U, andb_true_r, andb_true_iff, negb_true_iff, no_duplicates_NoDup, (NoDup_rename nums ns F K), forallb_forall.
  assert (V : (forall f, In f (map (rename nums) ns) -> valid_name f = true) <-> (forall p, In p nums -> In (NPercentile (Qred (value_of p))) ns -> good_percentile p)).
  { rewrite Forall_forall in F, K. split.
    - intros Hv p Ip In0. specialize (Hv _ (in_map (rename nums) _ _ In0)). rewrite rename_percentile, percentile_name in Hv by (apply Forall_forall in F || idtac; assumption).
      apply (suffix_valid p (F p Ip)). exact Hv.
    - intros Hp f I. apply in_map_iff in I. destruct I as [n [<- I]]. specialize (K n I).
      destruct n as [| | | | | |q]; try reflexivity. destruct K as [p [Ip ->]]. rewrite rename_percentile, percentile_name by (apply Forall_forall in F || idtac; assumption).
      apply (suffix_valid p (F p Ip)). apply Hp; assumption. }
  rewrite V. tauto.
Qed.

Lemma fits_created p cs nums : create_combiners p = Ok cs -> percentiles (metrics p) = map value_of nums -> Forall (fits_numbers nums) cs.
Proof.
  intros E P. unfold create_combiners in E.
  assert (W : forall (b : bool) n, not_percentile n -> Forall not_percentile (when b n)) by (intros [|] n Hn; repeat constructor; exact Hn).
  assert (App : forall b mk k l, append_if b mk k = Ok l -> (forall c, mk = Ok c -> fits_numbers nums c) -> (forall l', k = Ok l' -> Forall (fits_numbers nums) l') -> Forall (fits_numbers nums) l).
  { intros b mk k l El Hm Hk. apply append_if_split in El. destruct El as [[_ [c [l' [E1 [E2 ->]]]]]|[_ El]]; [constructor; auto | auto]. }
  set (k4 := append_if (match percentiles (metrics p) with [] => false | _ => true end) (Ok (CQuantile (percentiles (metrics p)))) (Ok [])) in E.
  assert (H4 : forall l', k4 = Ok l' -> Forall (fits_numbers nums) l').
  { intros l' El. eapply App; [exact El| |]; [intros c Ec; injection Ec as <-; exact P | intros l0 E0; injection E0 as <-; constructor]. }
  set (k3 := append_if (has VECTOR_SUM (metrics p)) (new_vector p) k4) in E.
  assert (H3 : forall l', k3 = Ok l' -> Forall (fits_numbers nums) l').
  { intros l' El. eapply App; [exact El| |exact H4]. intros c Ec. unfold new_vector in Ec. injection Ec as <-. exact I. }
  set (k2 := append_if (has PRIVACY_ID_COUNT (metrics p)) _ k3) in E.
  assert (H2 : forall l', k2 = Ok l' -> Forall (fits_numbers nums) l').
  { intros l' El. eapply App; [exact El| |exact H3]. intros c Ec. destruct (post_aggregation_thresholding p); [unfold new_thresh in Ec | unfold new_pid_count in Ec];
      apply rmap_const_ok in Ec; subst; exact I. }
  destruct (has VARIANCE (metrics p)).
  - eapply App; [exact E| |exact H2]. intros c Ec. unfold new_variance in Ec. destruct (min_value p), (max_value p); try discriminate. injection Ec as <-.
    cbn [fits_numbers]. apply Forall_cons; [exact I|]. repeat (apply Forall_app; split); apply W; exact I.
  - destruct (has MEAN (metrics p)).
    + eapply App; [exact E| |exact H2]. intros c Ec. unfold new_mean in Ec. destruct (min_value p), (max_value p); try discriminate.
      destruct (sens_count p); cbn [rbind] in Ec; [|discriminate]. apply rmap_const_ok in Ec. subst. cbn [fits_numbers]. apply Forall_cons; [exact I|]. repeat (apply Forall_app; split); apply W; exact I.
    + eapply App; [exact E| |]; [intros c Ec; unfold new_count in Ec; apply rmap_const_ok in Ec; subst; exact I|].
      intros l' El. eapply App; [exact El| |exact H2]. intros c Ec. unfold new_sum in Ec. destruct (sens_sum p); cbn [rbind] in Ec; [|discriminate].
      destruct (bounds_per_partition_are_set p); [destruct (min_sum_per_partition p), (max_sum_per_partition p) | destruct (min_value p), (max_value p)]; try discriminate; injection Ec as <-; exact I.
Qed.

Lemma percentiles_asked asks : Forall proper asks -> percentiles (map metric_of asks) = map value_of (numbers asks).
Proof.
  induction 1 as [|a asks Pa F IH]; [reflexivity|]. unfold percentiles, numbers in *. cbn [map flat_map]. rewrite map_app, <- IH. f_equal.
  destruct a as [m|n]; [destruct m; try reflexivity; contradiction | reflexivity].
Qed.
Lemma numbers_canonical asks : Forall proper asks -> Forall canonical (numbers asks).
Proof.
  induction 1 as [|a asks Pa F IH]; [constructor|]. unfold numbers. cbn [flat_map]. apply Forall_app. split; [|exact IH].
  destruct a as [m|n]; [constructor | repeat constructor; exact Pa].
Qed.
