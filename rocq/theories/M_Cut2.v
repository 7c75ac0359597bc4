(** * The pandas calls of M_Cut as the oracle of M_Neighborhood *)
From Verif Require Import Prelude M_Fuzzy M_Discretize M_Cut.
Local Notation eqb := Prelude.eqb.
Open Scope Qc_scope.

(** _discretize.py:34-41 and 58-67: what the two calls of pandas.cut (pandas.qcut) give _equal_width (_equal_freq): the left limits and the
    last right limit, or [None] if the call raises ValueError.  Intervals without limits (IndexError) are also [None]; they arise only from a column with
    a single value (see C127_calls) *)
Definition call (include_lowest drop : bool) (bins : list Qc) : option (list Qc * Qc) :=
  match breaks drop include_lowest bins with
  | Ok b => match sides b with Ok s => Some s | Err _ => None end
  | Err _ => None
  end.
Definition pandas_cut (method : string) (x : list Qc) (sets : Z) : option (list Qc * Qc) * option (list Qc * Qc) :=
  if eqb method "equal_width"%string then
    match cut_bins x (sets - 1) with
    | Ok bins => (call false false bins, call false true bins)
    | Err _ => (None, None)
    end
  else let bins := qcut_bins x (Z.to_nat (sets - 1)) in (call true false bins, call true true bins).
