(** * Model of src/teacher/fuzzy/{fuzzy_set,fuzzy_variable,_base}.py (except discretisation) *)
From Verif Require Import Prelude.
Set Implicit Arguments.

(** fuzzy_set.py:77-84 FuzzyContinuousSet: name, fuzzy_points = [a, b, c], point_set flag.
    (A list of other than three points makes trimf fail; not modelled.) *)
Record cset := mkC { c_name : string; pa : Qc; pb : Qc; pc : Qc; c_point : bool }.

(** fuzzy_set.py:193-199 FuzzyDiscreteSet: name and value. *)
Inductive fset := FC (s : cset) | FD (name : string) (value : cell).

#[export] Instance eqd_cset : EqDec cset.
Proof. intros x y. pose proof Qc_eq_dec. pose proof string_dec. pose proof bool_dec. decide equality. Defined.
#[export] Instance eqd_fset : EqDec fset.
Proof. intros x y. pose proof eqd_cset. pose proof eqd_cell. pose proof string_dec. unfold EqDec in *. decide equality. Defined.

Definition fs_name (s : fset) : string := match s with FC c => c_name c | FD n _ => n end.

(** skfuzzy.trimf on one value, called at fuzzy_set.py:93 and _discretize.py:195-202:
    assert a <= b <= c; 0 outside, linear on both open sides, 1 at b. *)
Definition tri (a b c x : Qc) : Qc :=
  if qeqb x b then 1
  else if negb (qeqb a b) && (qltb a x && qltb x b) then (x - a) / (b - a)
  else if negb (qeqb b c) && (qltb b x && qltb x c) then (c - x) / (c - b)
  else 0.
Definition valid_points (a b c : Qc) : bool := qleb a b && qleb b c.
Definition trimf (a b c x : Qc) : res Qc :=
  if valid_points a b c then Ok (tri a b c x) else Err AssertionError.

(** fuzzy_set.py:92-93 and 201-205 membership, on one cell.  A text cell in a
    triangular set makes numpy's comparison raise TypeError. *)
Definition membership (s : fset) (v : cell) : res Qc :=
  match s with
  | FC c => match v with
            | CNum x => trimf (pa c) (pb c) (pc c) x
            | CStr _ => if valid_points (pa c) (pb c) (pc c) then Err TypeError else Err AssertionError
            end
  | FD _ value => Ok (if eqb v value then 1 else 0)
  end.
(** the same on a column (numpy is element-wise) *)
Definition membership_col (s : fset) (col : list cell) : res (list Qc) := mapM (membership s) col.

(** fuzzy_set.py:113-130 _line_intersect *)
Definition segment := ((Qc * Qc) * (Qc * Qc))%type.
Definition line_intersect (A B : segment) : Qc :=
  if eqb A B then 1 else
  let '((ax1, ay1), (ax2, ay2)) := A in
  let '((bx1, by1), (bx2, by2)) := B in
  let denom := (ax1 - ax2) * (by1 - by2) - (ay1 - ay2) * (bx1 - bx2) in
  if qeqb denom 0 then 0 else
  let y := ((ax1 * ay2 - ay1 * ax2) * (by1 - by2) - (ay1 - ay2) * (bx1 * by2 - by1 * bx2)) / denom in
  if qltb y 0 || qltb 1 y then 0 else y.

(** fuzzy_set.py:95-111 intersection of two continuous sets *)
Definition intersection_c (s o : cset) : Qc :=
  let A := ((pa s, 0), (pb s, 1)) in
  let B := ((pb s, 1), (pc s, 0)) in
  let C := ((pa o, 0), (pb o, 1)) in
  let D := ((pb o, 1), (pc o, 0)) in
  qmax (qmax (qmax (line_intersect A C) (line_intersect A D)) (line_intersect B C)) (line_intersect B D).

(** fuzzy_set.py:95-97, 207-211 intersection *)
Definition intersection (s o : fset) : res Qc :=
  match s, o with
  | FC s, FC o => Ok (intersection_c s o)
  | FD n v, FD n' v' => Ok (if eqb n n' && eqb v v' then 1 else 0)
  | _, _ => Err ValueError
  end.

(** fuzzy_set.py:132-150 simmilarity of continuous sets *)
Definition two : Qc := qc 2 1.
Definition simmilarity_c (s o : cset) : Qc :=
  let min_self := (pb s - pa s) / two in
  let max_self := (pc s - pb s) / two in
  let min_other := (pb o - pa o) / two in
  let max_other := (pc o - pb o) / two in
  if qleb max_other min_self || qleb max_self min_other then 0 else
  let inters := qmin max_self max_other - qmax min_self min_other in
  let union := qmax max_self max_other - qmin min_self min_other in
  inters / union.
(** fuzzy_set.py:132-134, 213-214 simmilarity *)
Definition simmilarity (s o : fset) : res Qc :=
  match s, o with
  | FC s, FC o => Ok (simmilarity_c s o)
  | FC _, FD _ _ => Err ValueError
  | FD _ _, _ => intersection s o
  end.

(** fuzzy_set.py:152-161 alpha_cut *)
Definition alpha_cut (s : cset) (cut : Qc) : res (Qc * Qc) :=
  if qltb cut 0 || qltb 1 cut then Err ValueError else
  Ok (pa s + (pb s - pa s) * cut, pc s - (pc s - pb s) * cut).

(** fuzzy_set.py:163-171 merge; [parse]/[show] stand for Python's float() and str() *)
Definition merge (parse : string -> option Qc) (show : Qc -> string) (a b : cset) : res cset :=
  do x <- ret_opt ValueError (parse (c_name a));
  do y <- ret_opt ValueError (parse (c_name b));
  Ok (mkC (show ((x + y) / two)) (qmin (pa a) (pa b)) ((pb a + pb b) / two) (qmax (pc a) (pc b)) false).

(** fuzzy_set.py:173-190 jaccard_similarity (the [union = 0] division cannot be reached
    past the guard, see [jaccard_union_pos]) *)
Definition jaccard (a b : cset) : Qc :=
  let start := qmax (pa a) (pa b) in
  let stop := qmin (pc a) (pc b) in
  if qleb stop start then 0 else
  (stop - start) / (qmax (pc a) (pc b) - qmin (pa a) (pa b)) * intersection_c a b.

(* ------------------------------------------------------------------ *)

(** fuzzy_variable.py:13-19 *)
Record fvar := mkV { fv_name : string; fv_sets : list fset }.

(** fuzzy_variable.py:35 membership: {fs.name: fs.membership(variable)} on a column *)
Definition var_membership (v : fvar) (col : list cell) : res (dict string (list Qc)) :=
  do l <- mapM (fun s => do m <- membership_col s col; Ok (fs_name s, m)) (fv_sets v);
  Ok (dict_of l).

(** _base.py:174-184 _point_set *)
Definition point_set (d : string * Qc) : list cset :=
  [mkC (fst d) (snd d) (snd d) (snd d) true].

(** _base.py:217-219: the inner triangles *)
Fixpoint middle_sets (d : list (string * Qc)) : list cset :=
  match d with
  | x :: ((y :: z :: _) as d') => mkC (fst y) (snd x) (snd y) (snd z) false :: middle_sets d'
  | _ => []
  end.

(** _base.py:222: the last triangle, from [divisions[-2]] and [divisions[-1]] *)
Fixpoint last_set (d : list (string * Qc)) : list cset :=
  match d with
  | x :: ((y :: []) ) => [mkC (fst y) (snd x) (snd y) (snd y) false]
  | _ :: d' => last_set d'
  | [] => []
  end.

(** _base.py:187-224 get_fuzzy_continuous_sets *)
Definition continuous_sets (method : string) (d : list (string * Qc)) : res (list cset) :=
  match d with
  | [] => Err IndexError                                    (* divisions[0] *)
  | [x] => if eqb method "point_set"%string then Ok (point_set x) else Err ValueError
  | x :: y :: _ => Ok (mkC (fst x) (snd x) (snd x) (snd y) false :: middle_sets d ++ last_set d)
  end.

(** _base.py:227-244 get_fuzzy_discrete_sets *)
Definition discrete_sets (d : list (string * cell)) : list fset :=
  map (fun nv => FD (fst nv) (snd nv)) d.

(** labels of a column: the given ones, or the printed points (_base.py:157-160, 165-168) *)
Definition col_labels {A} (show : A -> string) (labels : option (dict string (list string)))
    (name : string) (points : list A) : list string :=
  match labels with
  | None => map show points
  | Some l => match dget name l with Some ls => ls | None => map show points end
  end.

Fixpoint list_set {A} (i : nat) (x : A) (l : list A) : res (list A) :=
  match l, i with
  | [], _ => Err IndexError
  | _ :: l', O => Ok (x :: l')
  | y :: l', S i' => do r <- list_set i' x l'; Ok (y :: r)
  end.

(** _base.py:123-171 get_fuzzy_variables.  Column positions are naturals (negative
    Python indices are not modelled). *)
Definition get_fuzzy_variables (show : Qc -> string) (show_cell : cell -> string)
    (cont : dict string (list Qc)) (disc : dict string (list cell)) (order : dict string nat)
    (clab dlab : option (dict string (list string))) (method : string) : res (list (option fvar)) :=
  let init := repeat None (List.length order) in
  do l1 <- foldM (fun acc np =>
      let '(name, points) := np in
      do sets <- continuous_sets method (zip (col_labels show clab name points) points);
      do i <- ret_opt KeyError (dget name order);
      list_set i (Some (mkV name (map FC sets))) acc) init cont;
  foldM (fun acc nv =>
      let '(name, values) := nv in
      do i <- ret_opt KeyError (dget name order);
      list_set i (Some (mkV name (discrete_sets (zip (col_labels show_cell dlab name values) values)))) acc)
    l1 disc.

(** column [i] of a table: X[:, i] *)
Definition column (X : list (list cell)) (i : nat) : res (list cell) :=
  mapM (fun row => ret_opt IndexError (nth_error row i)) X.

Definition enumerate {A} (l : list A) : list (nat * A) := zip (seq 0 (List.length l)) l.

(** _base.py:94-120 dataset_membership (check_array is assumed to accept X) *)
Definition dataset_membership (X : list (list cell)) (vars : list fvar)
    : res (dict string (dict string (list Qc))) :=
  do l <- mapM (fun iv => let '(i, v) := iv in
      do col <- column X i;
      do d <- var_membership v col;
      Ok (fv_name v, d)) (enumerate vars);
  Ok (dict_of l).
