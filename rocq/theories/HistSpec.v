(** Vocabulary for the statements about histograms. *)
From Coq Require Import List ZArith QArith Bool Sorted Permutation.
From Verif Require Import Base HistModel.
Import ListNotations.
Local Open Scope Z_scope.

(** The bins of count histograms: all integers that agree on their leading
    three digits and have the same length.  The width is a power of ten. *)
Definition leading_bin (lo up : Z) : Prop :=
  exists k, 0 <= k /\ up = lo + 10 ^ k /\ (10 ^ k | lo) /\
    (k = 0 /\ 0 < lo < 1000 \/ 100 * 10 ^ k <= lo < 1000 * 10 ^ k).

(** The data in a half-open interval. *)
Definition within (lo up : Z) (xs : list Z) : list Z :=
  filter (fun x => (lo <=? x) && (x <? up)) xs.

(** [m] is the largest / smallest element. *)
Definition maximum (m : Z) (xs : list Z) : Prop := In m xs /\ Forall (fun x => x <= m) xs.
Definition minimum (m : Z) (xs : list Z) : Prop := In m xs /\ Forall (fun x => m <= x) xs.

(** [b] describes the data of [xs] that lie in its bin. *)
Definition describes (xs : list Z) (b : bin Z) : Prop :=
  leading_bin (b_lower b) (b_upper b) /\
  let here := within (b_lower b) (b_upper b) xs in
  b_count b = Z.of_nat (length here) /\ b_sum b = sumZ here /\
  maximum (b_max b) here /\ minimum (b_min b) here.

(** [h] is the histogram of [xs]: increasing bins, each describing its part of
    the data, and together covering the data. *)
Definition histogram_of (xs : list Z) (h : list (bin Z)) : Prop :=
  StronglySorted (fun a b => b_upper a <= b_lower b) h /\
  Forall (describes xs) h /\
  (forall x, In x xs -> exists b, In b h /\ b_lower b <= x < b_upper b).

(** What bounding every contribution to at most [t] removes. *)
Definition excess (t : Z) (xs : list Z) : Z := sumZ (map (fun x => Z.max 0 (x - t)) xs).

(** ** Sum histograms *)

(** Largest / smallest element, up to equality of rationals. *)
Definition maximumQ (m : Q) (xs : list Q) : Prop :=
  (exists x, In x xs /\ x == m)%Q /\ Forall (fun x => x <= m)%Q xs.
Definition minimumQ (m : Q) (xs : list Q) : Prop :=
  (exists x, In x xs /\ x == m)%Q /\ Forall (fun x => m <= x)%Q xs.

(** The data in [lo, up), or in [lo, up] if [up] is the right end of the whole
    histogram. *)
Definition in_bucket (right lo up x : Q) : bool :=
  Qle_bool lo x && (negb (Qle_bool up x) || Qeq_bool up right).

(** [b] is bucket number [i] of [n] equal buckets on [left, right] and describes
    the data of [xs] in it. *)
Definition describes_bucket (left right : Q) (n : Z) (xs : list Q) (b : bin Q) : Prop :=
  (exists i, 0 <= i < n /\
     (b_lower b == left + inject_Z i * ((right - left) / inject_Z n))%Q /\
     (b_upper b == left + inject_Z (i + 1) * ((right - left) / inject_Z n))%Q) /\
  let here := filter (in_bucket right (b_lower b) (b_upper b)) xs in
  b_count b = Z.of_nat (length here) /\ (b_sum b == sumQ here)%Q /\
  maximumQ (b_max b) here /\ minimumQ (b_min b) here.

(** [h] is the histogram of [xs] with [n] buckets between the smallest and the
    largest value; buckets without data are left out. *)
Definition sum_histogram_of (n : Z) (xs : list Q) (h : list (bin Q)) : Prop :=
  exists left right, minimumQ left xs /\ maximumQ right xs /\
    StronglySorted (fun a b => b_lower a < b_lower b)%Q h /\
    Forall (describes_bucket left right n xs) h /\
    (forall x, In x xs -> exists b, In b h /\ in_bucket right (b_lower b) (b_upper b) x = true).

(** Bins and histograms up to equality of rationals. *)
Definition same_bin (a b : bin Q) : Prop :=
  (b_lower a == b_lower b)%Q /\ (b_upper a == b_upper b)%Q /\ b_count a = b_count b /\
  (b_sum a == b_sum b)%Q /\ (b_max a == b_max b)%Q /\ (b_min a == b_min b)%Q.

Definition same_sum_histogram (a b : result (option (list (bin Q)))) : Prop :=
  match a, b with
  | Ok None, Ok None => True
  | Ok (Some h), Ok (Some h') => Forall2 same_bin h h'
  | _, _ => False
  end.

(** The same data in another order, up to equality of rationals. *)
Definition same_data (xs ys : list Q) : Prop :=
  exists zs, Permutation xs zs /\ Forall2 Qeq zs ys.
