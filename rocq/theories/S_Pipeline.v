(** * Specification vocabulary: from a fuzzified neighbourhood to an explainer (C131) *)
From Verif Require Import Prelude M_Fuzzy M_Neighborhood.
Set Implicit Arguments.
Open Scope Qc_scope.

(** a value lies among the sets of a variable: it is the value of a discrete set, or a number between two peaks *)
Definition among (v : fvar) (x : cell) : Prop :=
  (exists name, In (FD name x) (fv_sets v)) \/
  (exists q c c', x = CNum q /\ In (FC c) (fv_sets v) /\ In (FC c') (fv_sets v) /\ pb c <= q /\ q <= pb c').
(** so do all values of a row *)
Definition row_among (vars : list fvar) (row : list cell) : Prop :=
  forall i v, nth_error vars i = Some v -> exists x, nth_error row i = Some x /\ among v x.
(** column [i] of the table has two different values *)
Definition two_values (X : table) (i : nat) : Prop :=
  exists r r', In r (tb_rows X) /\ In r' (tb_rows X) /\ nth_error r i <> nth_error r' i.
