(** * Model of the equal-width and equal-frequency divisions with pandas.cut and pandas.qcut spelled out.
    M_Discretize.equal_width and equal_freq take the results of the pandas calls as inputs; here the calls are computed, as
    pandas documents and implements them (pandas/core/reshape/tile.py), on exact numbers. *)
From Verif Require Import Prelude M_Fuzzy M_Discretize M_Rule M_FDT M_Neighborhood M_Lore M_Distr.
From Coq Require Import Reals.
Local Notation eqb := Prelude.eqb.
Set Implicit Arguments.
Open Scope Qc_scope.

Definition ten (d : nat) : Qc := qz (10 ^ Z.of_nat d).
(** numpy.around(x, d) *)
Definition around (d : nat) (x : Qc) : Qc := qz (np_round (x * ten d)) / ten d.
(** - floor(log10(x)) for 0 < x < 1: the place of the first significant decimal; [fuel] bounds it (shown sufficient) *)
Fixpoint leading (fuel : nat) (x : Qc) : nat :=
  match fuel with
  | O => 1
  | S fuel' => if qleb 1 (x * qz 10) then 1 else S (leading fuel' (x * qz 10))
  end.
(** pandas _round_frac: [precision] decimals, counted from the first significant one if |x| < 1 *)
Definition round_frac (precision : nat) (x : Qc) : Qc :=
  if qeqb x 0 then 0
  else if qltb (qabs x) 1 then around (leading (Pos.size_nat (Qden (this x))) (qabs x) - 1 + precision) x
  else around precision x.
(** pandas _infer_precision: the first of 3, ..., 19 that keeps the edges apart, else 3 *)
Definition infer_precision (bins : list Qc) : nat :=
  match find (fun p => Nat.eqb (List.length (qunique (map (round_frac p) bins))) (List.length bins)) (seq 3 17) with
  | Some p => p
  | None => 3
  end.
(** pandas _bins_to_cuts: repeated edges raise ValueError or are dropped; the limits of the intervals are the rounded edges,
    the first lowered by the precision if the lowest value has to be inside *)
Definition breaks (drop include_lowest : bool) (bins : list Qc) : res (list Qc) :=
  let u := qunique bins in
  do b <- (if Nat.ltb (List.length u) (List.length bins) && negb (Nat.eqb (List.length bins) 2) then (if drop then Ok u else Err ValueError) else Ok bins);
  let p := infer_precision b in
  let r := map (round_frac p) b in
  Ok (if include_lowest then match r with [] => [] | x :: r' => (x - 1 / ten p) :: r' end else r).
(** the edges of pandas.cut(x, k) *)
Definition cut_bins (x : list Qc) (k : Z) : res (list Qc) :=
  if Z.ltb k 1 then Err ValueError else
  do mn <- qminimum x; do mx <- qmaximum x;
  let n := Z.to_nat (k + 1) in
  if qeqb mn mx then
    let adj := if qeqb mn 0 then qc 1 1000 else qabs mn * qc 1 1000 in
    Ok (linspace (mn - adj) (mx + adj) n)
  else
    match linspace mn mx n with
    | [] => Ok []
    | e :: es => Ok ((e - (mx - mn) * qc 1 1000) :: es)
    end.
(** the edges of pandas.qcut(x, k): the quantiles 0, 1/k, ..., 1 (k >= 1) *)
Definition qcut_bins (x : list Qc) (k : nat) : list Qc := map (fun q => percentile q x) (linspace 0 1 (S k)).
(** _discretize.py:36, 39: the left limits and the last right limit; without intervals categories[-1] raises IndexError *)
Definition sides (b : list Qc) : res (list Qc * Qc) :=
  match b with
  | [] | [_] => Err IndexError
  | x :: b' => Ok (removelast b, last b x)
  end.
(** _discretize.py:19-41 _equal_width(variable, sets) *)
Definition width_points (x : list Qc) (sets : Z) : res (list Qc) :=
  do bins <- cut_bins x (sets - 1);
  match breaks false false bins with
  | Ok b => do s <- sides b; equal_width (Some s) None x
  | Err _ => do b <- breaks true false bins; do s <- sides b; equal_width None (Some s) x
  end.
(** _discretize.py:44-67 _equal_freq(variable, sets) for sets >= 2 and a variable with values *)
Definition freq_points (x : list Qc) (sets : Z) : res (list Qc) :=
  let bins := qcut_bins x (Z.to_nat (sets - 1)) in
  match breaks false true bins with
  | Ok b => do s <- sides b; equal_freq (Some s) None x
  | Err _ => do b <- breaks true true bins; do s <- sides b; equal_freq None (Some s) x
  end.

(** _base.py:29-91 get_fuzzy_points(method, names, X, y, sets, point_variables, max_depth, th).  [X] is a matrix of finite
    numbers; check_X_y and check_array reject a matrix without rows or columns and labels of another length.  Without labels
    the entropy method fails when it first counts labels; the exception is not modelled precisely *)
Definition fuzzy_points (method : string) (names : list string) (X : list (list Qc)) (y : option (list Z)) (sets : Z)
    (point_variables : list string) (max_depth : Z) (th : option R) : res (dict string (list Qc)) :=
  if Nat.eqb (List.length X) 0 || match X with r :: _ => Nat.eqb (List.length r) 0 | [] => true end then Err ValueError else
  if match y with Some l => negb (Nat.eqb (List.length l) (List.length X)) | None => false end then Err ValueError else
  if negb (memb method ["equal_freq"; "equal_width"; "entropy"]%string) then Err ValueError else
  do pts <- mapM (fun ic => let '(i, name) := ic in
      do col <- mapM (fun row => ret_opt IndexError (nth_error row i)) X;
      do p <- (if memb name point_variables then Ok (qunique col)
               else if eqb method "entropy"%string then match y with Some l => entropy_points max_depth th (zip col l) | None => Err TypeError end
               else if eqb method "equal_width"%string then width_points col sets
               else freq_points col sets);
      Ok (name, p)) (enumerate names);
  Ok (dict_of pts).
