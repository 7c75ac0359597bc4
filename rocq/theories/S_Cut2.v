(** * Vocabulary: the fuzzy variables of an equal-width or equal-frequency division (C127) *)
From Verif Require Import Prelude M_Fuzzy M_Discretize M_Rule M_Neighborhood S_Neighborhood M_Cut S_Cut.
Set Implicit Arguments.
Open Scope Qc_scope.

(** [pts] are the points at which the method divides a column into [n] sets *)
Definition divides (division : string) (n : Z) (qs pts : list Qc) : Prop :=
  (division = "equal_width"%string /\ width_points qs n = Ok pts) \/ (division = "equal_freq"%string /\ freq_points qs n = Ok pts).
(** [vars] are the fuzzy variables of the table [X]: one per column, in order and under its name; a categorical column has one set for each of
    its values; a numerical column has triangular sets around the points of the division, or around its values if it is nearly constant *)
Definition divided (show : Qc -> string) (show_cell : cell -> string) (division : string) (n : Z) (X : table) (num cat : list string) (vars : list fvar) : Prop :=
  map fv_name vars = tb_cols X /\
  forall i v col, nth_error vars i = Some v -> column (tb_rows X) i = Ok col ->
    (In (fv_name v) cat -> exists values, NoDup values /\ (forall x, In x values <-> In x col) /\
       fv_sets v = map (fun x => FD (show_cell x) x) values) /\
    (~ In (fv_name v) cat -> In (fv_name v) num /\ exists qs pts sets, col = map CNum qs /\
       fv_sets v = map FC sets /\ continuous_sets "point_set" (zip (map show pts) pts) = Ok sets /\
       (nearly_constant qs -> StronglySorted Qclt pts /\ forall x, In x pts <-> In x qs) /\
       (~ nearly_constant qs -> divides division n qs pts)).
(** the points of the division lie apart: for equal width a step of more than 1/1000, for equal frequency quantiles that differ by more than 10^-19 *)
Definition spaced (division : string) (n : Z) (qs : list Qc) : Prop :=
  (division = "equal_width"%string -> exists mn mx, least qs mn /\ greatest qs mx /\ qc 1 1000 < (mx - mn) / qz (n - 1)) /\
  (division = "equal_freq"%string -> exists bs, quantiles_of qs (Z.to_nat (n - 1)) bs /\ apart bs).
(** every numerical column of the table is nearly constant or has a division with points apart *)
Definition columns_spaced (division : string) (n : Z) (X : table) (cat : list string) : Prop :=
  forall i c qs, nth_error (tb_cols X) i = Some c -> ~ In c cat -> column (tb_rows X) i = Ok (map CNum qs) -> nearly_constant qs \/ spaced division n qs.
