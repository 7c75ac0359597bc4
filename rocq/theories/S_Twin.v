(** * Specification vocabulary for comparing the multiway and the binary tree (statements of Properties_Twin.v) *)
From Verif Require Import Prelude M_Fuzzy M_Rule M_FDT M_FBDT.
Set Implicit Arguments.
Open Scope Qc_scope.

(** every variable has exactly two sets, both of them continuous *)
Definition two_sets (vars : list fvar) : Prop :=
  forall v, In v vars -> exists s1 s2, fv_sets v = [FC s1; FC s2].
(** the two trees have the same shape, the same classes and levels and the same activations; a
    binary node stands for a group of sets, here always a single one *)
Inductive twin : tree -> btree -> Prop :=
| Twin lf cs bcs cv lv va vr mu ig : Forall2 twin cs bcs ->
    twin (Tree lf cs cv lv va vr mu) (BTree lf bcs cv lv (option_map (fun l => (fst l, [snd l])) va) vr mu ig).
(** a rule over sets as a rule over groups of sets *)
Definition grouped (r : rule string) : rule (list string) :=
  mkR (map (fun l => (fst l, [snd l])) (r_ant r)) (r_cons r) (r_weight r).
(** Python iterates the set of features in the order of the variables *)
Definition listed_order : list (nat * nat) -> list string -> list string := fun _ s => s.
