(** * Specification vocabulary for the genetic neighbourhood *)
From Verif Require Import Prelude M_Genetic.
Set Implicit Arguments.
Open Scope Qc_scope.

(** the number of individuals with a fitness of at least [v] *)
Definition at_least {A} (fitness : A -> Qc) (v : Qc) (pop : list A) : nat := List.length (filter (fun p => qleb v (fitness p)) pop).
(** [l] keeps the fittest elements of [all] : with [rest] it is a rearrangement, in decreasing order, no element of [rest] is fitter *)
Definition fittest {A} (fitness : A -> Qc) (all l rest : list A) : Prop :=
  Permutation all (l ++ rest) /\ StronglySorted (fun a b => fitness b <= fitness a) l /\ forall a b, In a l -> In b rest -> fitness b <= fitness a.
(** every gene comes from that position of a member of [init] or from that feature's generator *)
Definition descends {A} (init : list (list A)) (fv : generators) (ind : list A) : Prop :=
  forall j x, nth_error ind j = Some x ->
    (exists ind0, In ind0 init /\ nth_error ind0 j = Some x) \/ (exists g seed, In (j, g) fv /\ x = g seed).
(** [T] and [T'] are neighbouring values of the list *)
Definition neighbours (l : list Qc) (T T' : Qc) : Prop := In T l /\ In T' l /\ T < T' /\ forall v, In v l -> v <= T \/ T' <= v.
(** [T] is below the last of the widest gaps *)
Definition below_widest_gap (l : list Qc) (T : Qc) : Prop :=
  exists T', neighbours l T T' /\ forall S S', neighbours l S S' -> S' - S <= T' - T /\ (S' - S = T' - T -> S <= T).
