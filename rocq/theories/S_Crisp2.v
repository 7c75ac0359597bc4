(** * Specification vocabulary for rows without fuzziness in binary trees (statements of Properties_Crisp2.v) *)
From Verif Require Import Prelude M_Fuzzy M_Rule M_FDT M_FBDT S_FDT S_FBDT.
Set Implicit Arguments.
Open Scope Qc_scope.

(** the row lies fully in all the groups of sets a path names *)
Definition binside (vars : list fvar) (row : list cell) (p : list glit) : bool :=
  forallb (fun l => qeqb (side_degree vars row l) 1) p.
(** the classes of the training rows inside a path *)
Definition bmembers (vars : list fvar) (X : list (list cell)) (y : list Z) (p : list glit) : list Z :=
  map snd (filter (fun rc => binside vars (fst rc) p) (combine X y)).
