(** * Specification vocabulary for C140: classifiers on a training table *)
From Verif Require Import Prelude M_Fuzzy M_Rule.
Set Implicit Arguments.
Open Scope Qc_scope.

(** how many rows of the table the classifier [g] labels correctly *)
Definition correct (g : list cell -> Z) (X : list (list cell)) (y : list Z) : nat :=
  List.length (filter (fun xy => Z.eqb (g (fst xy)) (snd xy)) (combine X y)).
(** no two rows of the table with the same first [n] values have different labels *)
Definition consistent (n : nat) (X : list (list cell)) (y : list Z) : Prop :=
  forall x c x' c', In (x, c) (combine X y) -> In (x', c') (combine X y) -> firstn n x = firstn n x' -> c = c'.
