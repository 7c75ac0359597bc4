(** * Vocabulary: equal-width and equal-frequency divisions (C126) *)
From Verif Require Import Prelude.
From Coq Require Import Permutation Sorted.
Set Implicit Arguments.
Open Scope Qc_scope.

(** the least and the greatest value of a column *)
Definition least (x : list Qc) (m : Qc) : Prop := In m x /\ forall v, In v x -> m <= v.
Definition greatest (x : list Qc) (m : Qc) : Prop := In m x /\ forall v, In v x -> v <= m.
(** at most half a thousandth apart *)
Definition close (a b : Qc) : Prop := qabs (a - b) <= qc 1 2000.
(** a number with at most three decimals *)
Definition three_decimals (a : Qc) : Prop := exists z, a * qz 1000 = qz z.
(** the [i]-th of the points that divide [lo, hi] into [k] equal parts *)
Definition part (lo hi : Qc) (k i : nat) : Qc := lo + qn i * ((hi - lo) / qn k).
(** [v] is the quantile [q] of a column: the value at position q * (n - 1) of the sorted column, interpolated between neighbours *)
Definition quantile_of (x : list Qc) (q v : Qc) : Prop :=
  exists s j a b, let pos := q * qn (List.length x - 1) in
    Permutation x s /\ StronglySorted Qcle s /\ nth_error s j = Some a /\
    (nth_error s (S j) = Some b \/ S j = List.length s /\ b = a) /\
    qn j <= pos /\ pos < qn (S j) /\ v = a + (pos - qn j) * (b - a).
(** the quantiles 0, 1/k, 2/k, ..., 1 of a column *)
Definition quantiles_of (x : list Qc) (k : nat) (qs : list Qc) : Prop :=
  List.length qs = S k /\ forall i v, nth_error qs i = Some v -> quantile_of x (qn i / qn k) v.
(** each number more than 10^-19 above the one before *)
Definition apart (l : list Qc) : Prop := Sorted (fun a b => a + qc 1 10000000000000000000 < b) l.
