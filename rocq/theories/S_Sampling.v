(** * Specification vocabulary for the sampling neighbourhood and the 'mixed' distance *)
From Verif Require Import Prelude M_Fuzzy M_Discretize M_Neighborhood M_Sampling.
From Coq Require Import Reals.
Set Implicit Arguments.
Open Scope Qc_scope.

(** the mean and the standard deviation of real numbers *)
Definition mean_R (l : list R) : R := (fold_right Rplus 0 l / INR (List.length l))%R.
Definition std_R (l : list R) : R := sqrt (mean_R (map (fun x => ((x - mean_R l) * (x - mean_R l))%R) l)).
(** [x] lies strictly within the configured range of [c]: the standard deviation of the column or a share of its extent *)
Definition close (nr : nrange) (col : list Qc) (c x : Qc) : Prop :=
  match nr with
  | RStd => (Rabs (qr x - qr c) < std_R (map qr col))%R
  | RFloat q => 0 < q /\ q < 1 /\
      exists hi lo, In hi col /\ In lo col /\ (forall y, In y col -> lo <= y /\ y <= hi) /\ qabs (x - c) < q * (hi - lo)
  | ROther => False
  end.
(** column [i] of the rows *)
Definition col_of (X : list (list Qc)) (i : nat) : list Qc := map (fun r => nth i r 0) X.
(** value [x] may be generated for column [i] around [centre]: it occurs in the column, and is close to the centre if the column is continuous *)
Definition admissible (nr : nrange) (X : list (list Qc)) (cont : list nat) (centre : list Qc) (i : nat) (x : Qc) : Prop :=
  In x (col_of X i) /\ (In i cont -> exists c, nth_error centre i = Some c /\ close nr (col_of X i) c x).
(** a row of [w] admissible values *)
Definition drawn_around (nr : nrange) (X : list (list Qc)) (w : nat) (cont : list nat) (centre row : list Qc) : Prop :=
  List.length row = w /\ forall i x, nth_error row i = Some x -> admissible nr X cont centre i x.
(** a matrix of [w] columns *)
Definition matrix (w : nat) (X : list (list Qc)) : Prop := forall r, In r X -> List.length r = w.

(** [l] results from [l'] by leaving out elements *)
Inductive subsequence {A : Type} : list A -> list A -> Prop :=
| sub_nil : subsequence [] []
| sub_keep x l l' : subsequence l l' -> subsequence (x :: l) (x :: l')
| sub_drop x l l' : subsequence l l' -> subsequence l (x :: l').
(** the number of rows of class [c] *)
Definition of_class (bb : list Qc -> Z) (c : Z) (rows : list (list Qc)) : nat := List.length (filter (fun r => Z.eqb (bb r) c) rows).
(** size / classes, rounded up *)
Definition share (size classes : nat) : nat := ((size + classes - 1) / classes)%nat.

(** the 'mixed' distance of two rows of [w] features: the euclidean distance of the continuous and the share of differing
    discrete features (among those not zero in both), weighted by the numbers of features *)
Definition differ (disc : list nat) (a b : list Qc) : nat := List.length (filter (fun i => negb (qeqb (nth i a 0) (nth i b 0))) disc).
Definition present (disc : list nat) (a b : list Qc) : nat := List.length (filter (fun i => negb (qeqb (nth i a 0) 0 && qeqb (nth i b 0) 0)) disc).
Definition mixed_value (cont disc : list nat) (w : nat) (a b : list Qc) : R :=
  (INR (List.length cont) / INR w * sqrt (fold_right Rplus 0 (map (fun i => (qr (nth i a 0%Qc) - qr (nth i b 0%Qc)) * (qr (nth i a 0%Qc) - qr (nth i b 0%Qc))) cont))
   + INR (List.length disc) / INR w * (INR (differ disc a b) / INR (Nat.max 1 (present disc a b))))%R.
(** [c] is a row at the least positive distance *)
Definition nearest (dist : list Qc -> list Qc -> R) (a : list Qc) (rows : list (list Qc)) (c : list Qc) : Prop :=
  In c rows /\ (0 < dist a c)%R /\ forall r, In r rows -> (0 < dist a r)%R -> (dist a c <= dist a r)%R.

(** a valid value of neighbor_range *)
Definition valid_range (nr : nrange) : Prop := match nr with RStd => True | RFloat q => 0 < q /\ q < 1 | ROther => False end.
(** the names of the feature columns *)
Definition feature_names (d : sdata) (class_name : string) : list string := filter (fun c => negb (eqb c class_name)) (s_columns d).
(** a sampling task: a matrix with a column for each feature, each of which is continuous or discrete, containing the instance and a
    row that the black box classifies differently; its classes are 0, ..., outcomes - 1 *)
Record task (bb : list Qc -> Z) (d : sdata) (class_name : string) (w : nat) (X : list (list Qc)) (instance : list Qc) : Prop := mkTask {
  task_matrix : matrix w X;
  task_names : List.length (feature_names d class_name) = w;
  task_covered : forall i, (i < w)%nat -> In i (idx_of (s_continuous d) d) \/ In i (idx_of (s_discrete d) d);
  task_indexes : forall i, In i (idx_of (s_continuous d) d) \/ In i (idx_of (s_discrete d) d) -> (i < w)%nat;
  task_instance : In instance X;
  task_other : exists r, In r X /\ bb r <> bb instance;
  task_classes : forall r, (0 <= bb r < Z.of_nat (s_outcomes d))%Z }.
(** column [i] has two different values *)
Definition varies (X : list (list Qc)) (i : nat) : Prop := exists x y, In x (col_of X i) /\ In y (col_of X i) /\ x <> y.
