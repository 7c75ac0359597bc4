(** * Specification vocabulary for neighbourhoods *)
From Verif Require Import Prelude M_Fuzzy M_Discretize M_Rule M_Explainer M_Neighborhood.
From Coq Require Import Reals.
Set Implicit Arguments.
Open Scope Qc_scope.

(** an operation on a neighbourhood object: fit, whose computations have the given results, or fuzzify *)
Inductive op := Fit (o : outcome) | Fuzzify (division : string) (kw : zargs).
(** the object after a series of operations of which any may have raised *)
Section History.
  Variables (fitting : nbhd -> outcome -> nbhd * option exn) (fuzzifying : nbhd -> string -> zargs -> nbhd * option exn).
  Definition apply_op (s : nbhd) (a : op) : nbhd * option exn :=
    match a with Fit o => fitting s o | Fuzzify d kw => fuzzifying s d kw end.
  Fixpoint after_ops (s : nbhd) (ops : list op) : nbhd :=
    match ops with [] => s | a :: rest => after_ops (fst (apply_op s a)) rest end.
End History.
(** the two classes with a fuzzify method: SamplingNeighborhood and LoreNeighborhood *)
Inductive kind := Sampling | Lore.
Definition fit_of (k : kind) : nbhd -> outcome -> nbhd * option exn := match k with Sampling => sampling_fit | Lore => lore_fit end.
Section Kinds.
  Variables (cut : string -> list Qc -> Z -> option (list Qc * Qc) * option (list Qc * Qc)) (show : Qc -> string) (show_cell : cell -> string) (inst : list cell).
  Definition fuzzify_of (k : kind) : nbhd -> string -> zargs -> nbhd * option exn :=
    match k with Sampling => sampling_fuzzify cut show show_cell inst | Lore => lore_fuzzify cut show show_cell inst end.
  (** a new object after a series of operations *)
  Definition history (k : kind) (ops : list op) : nbhd := after_ops (fit_of k) (fuzzify_of k) new_nbhd ops.
End Kinds.
(** fit gets as far as producing the table [X], and as far as the predictions [y] *)
Definition makes_X (o : outcome) (X : table) : Prop :=
  (exists d, o_decoded o = Ok d) /\ (exists z, o_Z o = Ok z) /\ o_target o = Ok tt /\ o_df o = Ok X.
Definition makes_y (o : outcome) (y : list Z) : Prop := exists X, makes_X o X /\ o_y o = Ok y.
(** the neighbourhood has the data of some fit *)
Definition fitted_with (s : nbhd) (X : table) (y : list Z) : Prop := get_X s = Ok X /\ get_y s = Ok y.
(** [vars] are fuzzy variables for the columns of [X] made from its data: one per column, in order and under its name; a
    categorical column has one set for each of its values; a numerical column has triangular sets around peaks taken
    from the column, in increasing order from its minimum *)
Definition variables_of (show : Qc -> string) (show_cell : cell -> string) (X : table) (num cat : list string) (vars : list fvar) : Prop :=
  map fv_name vars = tb_cols X /\
  forall i v col, nth_error vars i = Some v -> column (tb_rows X) i = Ok col ->
    (In (fv_name v) cat -> exists values, NoDup values /\ (forall x, In x values <-> In x col) /\
       fv_sets v = map (fun x => FD (show_cell x) x) values) /\
    (~ In (fv_name v) cat -> In (fv_name v) num /\ exists qs first rest sets, col = map CNum qs /\
       StronglySorted Qclt (first :: rest) /\ (forall p, In p (first :: rest) -> In p qs) /\ (forall q, In q qs -> first <= q) /\
       continuous_sets "point_set" (zip (map show (first :: rest)) (first :: rest)) = Ok sets /\ fv_sets v = map FC sets).
(** the standard deviation of a sample (divisor n - 1) is below 0.00001 *)
Definition nearly_constant (qs : list Qc) : Prop :=
  (2 <= List.length qs)%nat /\ exists m v, qn (List.length qs) * m = qsum qs /\
    (qn (List.length qs) - 1) * v = qsum (map (fun x => (x - m) * (x - m)) qs) /\ v < qc 1 100000 * qc 1 100000.
(** the peaks of the sets of a numerical column: its values if it is nearly constant, otherwise the points of the entropy method *)
Definition peaks_of (show : Qc -> string) (X : table) (y : list Z) (th : option R) (cat : list string) (vars : list fvar) : Prop :=
  forall i v qs, nth_error vars i = Some v -> column (tb_rows X) i = Ok (map CNum qs) -> ~ In (fv_name v) cat ->
    exists pts sets, fv_sets v = map FC sets /\ continuous_sets "point_set" (zip (map show pts) pts) = Ok sets /\
      (nearly_constant qs -> StronglySorted Qclt pts /\ forall x, In x pts <-> In x qs) /\
      (~ nearly_constant qs -> entropy_points 0 th (combine qs y) = Ok pts).
(** a row fits the columns: a value per column, numbers in those that are not categorical *)
Definition fits (cols cat : list string) (row : list cell) : Prop :=
  List.length row = List.length cols /\ forall i c, nth_error cols i = Some c -> ~ In c cat -> exists q, nth_error row i = Some (CNum q).

(** what an explainer reads from the neighbourhood *)
Definition all_some {A} (l : list (option A)) : res (list A) := mapM (fun o => ret_opt AttributeError o) l.
Definition view (s : nbhd) : nview :=
  mkN (do vs <- get_vars s; all_some vs) (get_instance_membership s) (ret_opt AttributeError (nb_decoded s))
      (do X <- get_X s; Ok (tb_rows X)) (get_y s) (get_X_membership s).
