(** * Vocabulary: tables that have the same degrees (C112) *)
From Verif Require Import Prelude M_Fuzzy.

(** the same variables and sets by name *)
Definition same_names (vars vars' : list fvar) : Prop :=
  Forall2 (fun v v' => fv_name v = fv_name v' /\ map fs_name (fv_sets v) = map fs_name (fv_sets v')) vars vars'.
(** variable by variable, the first sets are of one kind: the binary tree orders the sets of a variable that starts
    with a discrete set by the share of a class, and those of a continuous variable as they are *)
Definition same_kinds (vars vars' : list fvar) : Prop :=
  Forall2 (fun v v' => match fv_sets v, fv_sets v' with
                       | [], [] | FC _ :: _, FC _ :: _ | FD _ _ :: _, FD _ _ :: _ => True
                       | _, _ => False
                       end) vars vars'.
(** the two rows have the same degree (or exception) in every set of every variable *)
Definition same_degrees (vars vars' : list fvar) (row row' : list cell) : Prop :=
  forall a v v', nth_error vars a = Some v -> nth_error vars' a = Some v' ->
    match nth_error row a, nth_error row' a with
    | Some x, Some x' => forall i s s', nth_error (fv_sets v) i = Some s -> nth_error (fv_sets v') i = Some s' -> membership s x = membership s' x'
    | None, None => True
    | _, _ => False
    end.

(** measuring in other units: x becomes k * x + b; text cells and the names of sets stay *)
Definition other_units (kb : Qc * Qc) (x : Qc) : Qc := (fst kb * x + snd kb)%Qc.
Definition convert_cell (kb : Qc * Qc) (v : cell) : cell := match v with CNum x => CNum (other_units kb x) | CStr s => CStr s end.
Definition convert_cset (kb : Qc * Qc) (s : cset) : cset :=
  mkC (c_name s) (other_units kb (pa s)) (other_units kb (pb s)) (other_units kb (pc s)) (c_point s).
Definition convert_set (kb : Qc * Qc) (s : fset) : fset :=
  match s with FC c => FC (convert_cset kb c) | FD n v => FD n (convert_cell kb v) end.
Definition convert_var (kb : Qc * Qc) (v : fvar) : fvar := mkV (fv_name v) (map (convert_set kb) (fv_sets v)).
(** each column with its own units *)
Definition convert_row (units : list (Qc * Qc)) (row : list cell) : list cell := map2 convert_cell units row.
