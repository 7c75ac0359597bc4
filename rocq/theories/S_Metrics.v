(** * Specification vocabulary for the metrics (statements of Properties_Metrics.v) *)
From Verif Require Import Prelude M_Fuzzy M_Rule M_Metrics.
Set Implicit Arguments.
Open Scope Qc_scope.

(** row [j] has degree [d] in set [v] of feature [f] *)
Definition row_degree (ds : fdata) (f v : string) (j : nat) (d : Qc) : Prop :=
  exists sets col, dget f ds = Some sets /\ dget v sets = Some col /\ nth_error col j = Some d.
(** a data set of [n] rows: at least one column, all of length [n] *)
Definition rows_of (ds : fdata) (n : nat) : Prop :=
  (exists f v col sets rest, ds = (f, (v, col) :: sets) :: rest) /\
  forall f sets v col, In (f, sets) ds -> In (v, col) sets -> List.length col = n.
(** the literals of the rule occur in the data set *)
Definition rule_known (ds : fdata) (r : rule string) : Prop :=
  forall f v, In (f, v) (r_ant r) -> exists sets col, dget f ds = Some sets /\ dget v sets = Some col.
(** rule [r] covers row [j]: all degrees (and 1, the degree of no literal) exceed the threshold *)
Definition covers (ds : fdata) (th : Qc) (r : rule string) (j : nat) : Prop :=
  th < 1 /\ forall f v, In (f, v) (r_ant r) -> exists d, row_degree ds f v j d /\ th < d.
(** [l] lists, without repetition, the rows below [n] with property [P] *)
Definition row_set (n : nat) (P : nat -> Prop) (l : list nat) : Prop :=
  NoDup l /\ forall j, In j l <-> (j < n)%nat /\ P j.

(** instances of [n] features: continuous ones are numbers with a positive deviation, all
    others are listed as discrete *)
Definition instance_ok (n : nat) (continuous discrete : list nat) (mad : dict nat Qc) (a : list cell) : Prop :=
  List.length a = n /\ forall i x, nth_error a i = Some x ->
    (In i continuous -> exists q m, x = CNum q /\ dget i mad = Some m /\ 0 < m) /\ (~ In i continuous -> In i discrete).
(** contribution of feature [i] to the distance of [a] and [b] *)
Definition feature_distance (continuous discrete : list nat) (mad : dict nat Qc) (a b : list cell) (i : nat) : Qc :=
  if in_dec Nat.eq_dec i continuous then
    match nth_error a i, nth_error b i, dget i mad with
    | Some (CNum x), Some (CNum y), Some m => qabs (x - y) / m / qn (List.length continuous)
    | _, _, _ => 0
    end
  else if eq_dec (nth_error a i) (nth_error b i) then 0 else 1 / qn (List.length discrete).
