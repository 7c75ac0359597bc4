(** * Specification vocabulary for comparing FDT and ID3 (statements of Properties_Same.v) *)
From Verif Require Import Prelude M_Fuzzy M_Rule M_FDT M_ID3 S_FDT S_ID3.
Set Implicit Arguments.
Open Scope Qc_scope.

(** the sets of the variable are the distinct values of column [a] of the table, one set for each *)
Definition column_variable (X : list (list cell)) (a : nat) (v : fvar) : Prop :=
  exists nvs, fv_sets v = map (fun nv => FD (fst nv) (snd nv)) nvs /\ NoDup (map snd nvs) /\
    forall x, In x (map snd nvs) <-> occurs X a x.
Definition column_variables (X : list (list cell)) (vars : list fvar) : Prop :=
  forall a v, nth_error vars a = Some v -> column_variable X a v.
(** the value a literal (variable, set) of such variables asks for *)
Definition asked (vars : list fvar) (l : nat * nat) : cell :=
  match nth_error vars (fst l) with
  | Some v => match nth_error (fv_sets v) (snd l) with Some (FD _ x) => x | _ => CNum 0 end
  | None => CNum 0
  end.
(** a path of the fuzzy tree read as tests "column = value" *)
Definition tests (vars : list fvar) (p : list (nat * nat)) : list (nat * cell) := map (fun l => (fst l, asked vars l)) p.
(** all literals of the path name sets *)
Definition literals (vars : list fvar) (p : list (nat * nat)) : Prop :=
  forall l, In l p -> exists v s, nth_error vars (fst l) = Some v /\ nth_error (fv_sets v) (snd l) = Some s.
