(** Vocabulary for C59: independent coins, the random set of partitions that a run
    keeps, and what is assumed of PyDP's selection strategies. *)
From Coq Require Import String List ZArith QArith Qreals Reals Bool.
From Verif Require Import Base BackendModel ParamsModel CombinerModel EngineModel VectorModel LaplaceSpec SelectModel.
Import ListNotations.
Local Open Scope R_scope.

(** The average of [F] over independent coins; [F] gets the coins that came up heads. *)
Fixpoint expectation {C} (coins : list C) (prob : C -> R) (F : list C -> R) : R :=
  match coins with
  | [] => F []
  | c :: cs => prob c * expectation cs prob (fun heads => F (c :: heads)) + (1 - prob c) * expectation cs prob F
  end.

(** A coin for every partition of [keys] and every count up to [N]: it decides what
    should_keep(n) answers for that partition. *)
Definition coins {P} (keys : list P) (N : nat) : list (P * Z) :=
  list_prod keys (map Z.of_nat (seq 0 (S N))).
Definition answers {P} `{EqDec P} (heads : list (P * Z)) : P -> Z -> bool := fun k n => mem (k, n) heads.

(** Which of [keys] are in the result [out]. *)
Definition shown {P} `{EqDec P} (keys out : list P) : list bool := map (fun k => mem k out) keys.
Definition indicator (b : bool) : R := if b then 1 else 0.

(** The probability that the set of partitions released by DPEngine.aggregate without
    public partitions is in [E]; [keep] are the probabilities of should_keep. *)
Definition aggregate_probability {U P} `{EqDec U} `{EqDec P} (p : params) (sm : sampling U P)
    (nz : P -> nat -> noises) (keep : Z -> R) (keys : list P) (E : list bool -> bool)
    (rows : list (U * P * value)) : R :=
  expectation (coins keys (length rows)) (fun c => keep (snd c)) (fun heads =>
    match aggregate p sm (answers heads) nz None rows with
    | Ok out => indicator (E (shown keys (map fst out)))
    | Err _ => 0
    end).

(** The same for DPEngine.select_partitions. *)
Definition selection_probability {U P} `{EqDec U} `{EqDec P} (l0 : nat) (ch : source U)
    (keep : Z -> R) (keys : list P) (E : list bool -> bool) (rows : list (U * P)) : R :=
  expectation (coins keys (length rows)) (fun c => keep (snd c)) (fun heads =>
    indicator (E (shown keys (select_partitions l0 ch (answers heads) rows)))).

(** Sum over all lists of [m] booleans. *)
Fixpoint outcomes (m : nat) (F : list bool -> R) : R :=
  match m with
  | O => F []
  | S m' => outcomes m' (fun bs => F (true :: bs)) + outcomes m' (fun bs => F (false :: bs))
  end.

(** The probability of the outcome [bs] of independent coins of probabilities [ps]. *)
Definition coin (p : R) (b : bool) : R := if b then p else 1 - p.
Definition law (ps : list R) (bs : list bool) : R :=
  prodR (map (fun pb => coin (fst pb) (snd pb)) (combine ps bs)).

(** The probability that, given the counts [ns], the answers are in [E]. *)
Definition kept (keep : Z -> R) (ns : list Z) (E : list bool -> bool) : R :=
  outcomes (length ns) (fun bs => law (map keep ns) bs * indicator (E bs)).

(** (eps, delta)-indistinguishable probabilities. *)
Definition indistinguishable (eps delta a b : R) : Prop :=
  a <= exp eps * b + delta /\ b <= exp eps * a + delta.

(** A privacy id is counted at most once in each partition and in at most [l0] of them. *)
Definition neighbouring (l0 : Z) (ns ns' : list Z) : Prop :=
  Forall2 (fun n n' => (0 <= n' <= n)%Z /\ (n <= n' + 1)%Z) ns ns' /\
  (Z.of_nat (length (filter (fun nn => negb (fst nn =? snd nn)%Z) (combine ns ns'))) <= l0)%Z.

(** What a selection strategy promises: empty partitions are never kept, and the set
    of partitions kept is (eps, delta)-differentially private. *)
Definition private_strategy (keep : Z -> R) (l0 : Z) (eps delta : R) : Prop :=
  (forall n, 0 <= keep n <= 1) /\ (forall n, (n <= 0)%Z -> keep n = 0) /\
  forall ns ns' E, neighbouring l0 ns ns' -> indistinguishable eps delta (kept keep ns E) (kept keep ns' E).

(** What is assumed of PyDP: strategies created with sensible arguments keep their
    promise for these arguments. *)
Definition pydp_contract (keep : selector -> Z -> R) : Prop :=
  forall sel l0, sel_l0 sel = Some l0 -> (0 < l0)%Z -> (0 < sel_eps sel)%Q -> (0 <= sel_delta sel < 1)%Q ->
    In (sel_name sel) ["truncated_geometric"; "laplace"; "gaussian"]%string ->
    (forall t, sel_pre sel = Some t -> (0 < t)%Z) ->
    private_strategy (keep sel) l0 (Q2R (sel_eps sel)) (Q2R (sel_delta sel)).

(** The same promise for one partition, with its own budget. *)
Definition one_partition_private (keep : Z -> R) (eps delta : R) : Prop :=
  (forall n, 0 <= keep n <= 1) /\ (forall n, (n <= 0)%Z -> keep n = 0) /\
  forall n, (0 <= n)%Z ->
    indistinguishable eps delta (keep n) (keep (n + 1)%Z) /\
    indistinguishable eps delta (1 - keep n) (1 - keep (n + 1)%Z).
