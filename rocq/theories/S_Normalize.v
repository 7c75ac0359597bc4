(** * Specification vocabulary for normalised data sets *)
From Verif Require Import Prelude M_Utils S_Utils.
Set Implicit Arguments.
Open Scope Qc_scope.

(** the deviation of a column that is not constant is positive *)
Definition positive_deviation (deviation : list Qc -> Qc) : Prop := forall l a b, In a l -> In b l -> a <> b -> 0 < deviation l.
(** [m] is the mean of [l] *)
Definition mean_is (l : list Qc) (m : Qc) : Prop := qn (List.length l) * m = qsum l.
(** [l'] is [l] shifted by its mean and divided by [s], which is the deviation, or 1 for a constant column *)
Definition standardised (deviation : list Qc -> Qc) (l l' : list Qc) : Prop :=
  exists m s, mean_is l m /\ (constant l -> s = 1) /\ (~ constant l -> s = deviation l) /\ l' = map (fun x => (x - m) / s) l.
(** [l'] lies in the order of [l], and equal values stay equal *)
Definition same_ranking (l l' : list Qc) : Prop := List.length l = List.length l' /\
  forall i j a b a' b', nth_error l i = Some a -> nth_error l j = Some b -> nth_error l' i = Some a' -> nth_error l' j = Some b' -> (a < b <-> a' < b') /\ (a = b <-> a' = b').
