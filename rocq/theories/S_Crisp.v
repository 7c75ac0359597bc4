(** * Specification vocabulary for rows without fuzziness (statements of Properties_Crisp.v) *)
From Verif Require Import Prelude M_Fuzzy M_Rule M_FDT S_FDT.
Set Implicit Arguments.
Open Scope Qc_scope.

(** the row lies fully in exactly one set of every variable (and outside all its other sets) *)
Definition crisp (vars : list fvar) (row : list cell) : Prop :=
  forall a v, nth_error vars a = Some v -> exists i, (i < List.length (fv_sets v))%nat /\
    lit_degree vars row (a, i) = 1 /\ forall j, j <> i -> lit_degree vars row (a, j) = 0.
(** the row lies fully in all the sets a path names *)
Definition inside (vars : list fvar) (row : list cell) (p : list (nat * nat)) : bool :=
  forallb (fun l => qeqb (lit_degree vars row l) 1) p.
(** on the degrees 0 and 1 the t-norm is conjunction *)
Definition crisp_norm (tn : Qc -> Qc -> Qc) : Prop := tn 1 1 = 1 /\ tn 1 0 = 0 /\ tn 0 1 = 0 /\ tn 0 0 = 0.
(** the classes of the training rows inside a path, and how often a class occurs there *)
Definition members (vars : list fvar) (X : list (list cell)) (y : list Z) (p : list (nat * nat)) : list Z :=
  map snd (filter (fun rc => inside vars (fst rc) p) (combine X y)).
Definition frequency (l : list Z) (c : Z) : Qc := qn (count_occ Z.eq_dec l c).
(** a variable whose sets are the distinct values of a column *)
Definition categorical (v : fvar) : Prop :=
  exists nvs, fv_sets v = map (fun nv => FD (fst nv) (snd nv)) nvs /\ NoDup (map snd nvs).
Definition known (v : fvar) (x : cell) : Prop := exists n, In (FD n x) (fv_sets v).
