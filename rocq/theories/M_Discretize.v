(** * Model of src/teacher/fuzzy/_discretize.py and _base.get_fuzzy_points *)
From Coq Require Import Reals.
From Verif Require Import Prelude M_Fuzzy.
Set Implicit Arguments.
Open Scope Qc_scope.

(** rationals inside the reals; real comparison as a boolean (not executable) *)
Definition qr (x : Qc) : R := Q2R (this x).
Definition Rltb (x y : R) : bool := if Rlt_dec x y then true else false.
Definition rsum (l : list R) : R := fold_right Rplus 0%R l.
(** math.log2 on a positive argument *)
Definition log2 (x : R) : R := (ln x / ln 2)%R.

(** _discretize.py:159: np.sum(triangle[class_variable == value]) *)
Definition class_card (t : list Qc) (cls : list Z) (v : Z) : Qc :=
  qsum (map fst (filter (fun p => Z.eqb (snd p) v) (zip t cls))).

(** _discretize.py:139-168 _fuzzy_entropy (arrays of equal length).  In the recursive calls of
    _fuzzy_discretization the labels arrive as a tuple (lines 121-122); [tuple == np.int64]
    falls back to the numpy scalar's elementwise comparison, so for the integer labels of this
    model line 159 reads the same in both cases. *)
Definition entropy_term (t : list Qc) (cls : list Z) (v : Z) : R :=
  let cc := class_card t cls v in
  if qltb 0 cc then
    let ratio := qr (cc / qsum t) in (- ratio * log2 ratio)%R
  else 0%R.
Definition fuzzy_entropy (t : list Qc) (cls : list Z) : R :=
  rsum (map (entropy_term t cls) (zunique cls)).

(** _discretize.py:216-239 _weighted_fuzzy_entropy (dict values in order; for a
    non-empty partition) *)
Definition weighted_fuzzy_entropy (ts : list (list Qc)) (cls : list Z) : R :=
  (rsum (map (fun t => qr (qsum t) * fuzzy_entropy t cls)%R ts) / INR (List.length cls))%R.

(** _discretize.py:171-213 _fuzzy_triangle.  The dict keys 'low','mid','high' used by the
    callers are distinct, so the dict is the list of its values in order. *)
Fixpoint middle_points (p : list Qc) : list (Qc * Qc * Qc) :=
  match p with
  | x :: ((y :: z :: _) as p') => (x, y, z) :: middle_points p'
  | _ => []
  end.
Definition triangle_points (p : list Qc) : res (list (Qc * Qc * Qc)) :=
  match p with
  | x :: y :: _ =>
      let l := List.last p 0 in let l2 := List.last (removelast p) 0 in
      Ok ((x, x, y) :: middle_points p ++ [(l2, l, l)])
  | _ => Err IndexError
  end.
Definition fuzzy_triangle (variable : list Qc) (peaks : list Qc) : res (list (list Qc)) :=
  do pts <- triangle_points peaks;
  mapM (fun abc => let '(a, b, c) := abc in mapM (trimf a b c) variable) pts.

(** _discretize.py:242-282 _get_delta_point *)
Definition positive_classes (t : list Qc) (cls : list Z) : nat :=
  List.length (zunique (map snd (filter (fun p => qltb 0 (fst p)) (zip t cls)))).
Definition delta_point (global best : list (list Qc)) (cls : list Z) : R :=
  let n := List.length (zunique cls) in
  let old := (INR n * weighted_fuzzy_entropy global cls)%R in
  let new := rsum (map (fun t => INR (positive_classes t cls) * fuzzy_entropy t cls)%R best) in
  (log2 (pow 3 n - 2) - (old - new))%R.

(** _discretize.py:72-92: the best cut point; [None] is best_wfe = inf *)
Definition best_cut (variable : list Qc) (cls : list Z) (min_point max_point : Qc)
    : res (option (R * Qc * list (list Qc))) :=
  foldM (fun best point =>
    if negb (qeqb point min_point) && negb (qeqb point max_point) then
      do ft <- fuzzy_triangle variable [min_point; point; max_point];
      let wfe := weighted_fuzzy_entropy ft cls in
      match best with
      | None => Ok (Some (wfe, point, ft))
      | Some (b, _, _) => if Rltb wfe b then Ok (Some (wfe, point, ft)) else Ok best
      end
    else Ok best) None (qunique variable).

(** _discretize.py:70-136 _fuzzy_discretization on the zipped (value, class) rows.
    [th = None] is the entropy-based threshold; depths are Python ints. *)
Fixpoint discretize (fuel : nat) (max_depth : Z) (th : option R) (depth : Z)
    (min_point : Qc) (data : list (Qc * Z)) : res (list Qc) :=
  match fuel with
  | O => Err OutOfFuel
  | S fuel' =>
    let variable := map fst data in
    let cls := map snd data in
    do max_point <- qmaximum variable;                                    (* line 71 *)
    do best <- best_cut variable cls min_point max_point;                 (* 72-92 *)
    do global <- fuzzy_triangle variable [min_point; max_point];          (* 95 *)
    let global_wfe := weighted_fuzzy_entropy global cls in
    let best_ft := match best with Some (_, _, ft) => ft | None => [] end in
    let best_point := match best with Some (_, p, _) => p | None => 0 end in
    let delta := delta_point global best_ft cls in                        (* 105 *)
    do threshold <-                                                        (* 106-109 *)
      match th with
      | Some t => Ok t
      | None => if Nat.leb (List.length data) 1 then Err ValueError (* log2(0) *)
                else Ok ((log2 (INR (List.length data) - 1) + delta) / INR (List.length data))%R
      end;
    if (Z.ltb 0 max_depth && Z.ltb depth max_depth) || Z.eqb max_depth 0 then  (* 116 *)
      (* f_gain = global_wfe - best_wfe, which is -inf without a candidate *)
      if (match best with
          | Some (b, _, _) => negb (Rltb (global_wfe - b) threshold)
          | None => false
          end) then                                                        (* 117 *)
        let lft := filter (fun pc => qleb (fst pc) best_point) data in
        let rgt := filter (fun pc => qltb best_point (fst pc)) data in
        match lft, rgt with
        | [], _ | _, [] => Err ValueError                       (* unpacking zip of [] *)
        | _, _ =>
          do lp <- (if Nat.ltb 1 (List.length lft)
                    then discretize fuel' max_depth th (depth + 1) min_point lft else Ok []);
          do rp <- (if Nat.ltb 1 (List.length rgt)
                    then discretize fuel' max_depth th (depth + 1) best_point rgt else Ok []);
          Ok (qunique (lp ++ rp))                                          (* 131-132 *)
        end
      else Ok [min_point; max_point]
    else Ok [min_point; max_point]
  end.

(** _base.py:80-87: the call made by get_fuzzy_points for method 'entropy' *)
Definition entropy_points (max_depth : Z) (th : option R) (data : list (Qc * Z)) : res (list Qc) :=
  do m <- qminimum (map fst data);
  discretize (S (List.length data)) max_depth th 0 m data.

(** _discretize.py:44-67 _equal_freq.  pandas.qcut is an oracle: [q1] is the result of the
    first call (left edges of the intervals and right edge of the last, [None] when it
    raises ValueError), [q2] the result with duplicates='drop'. *)
Definition equal_freq (q1 q2 : option (list Qc * Qc)) (variable : list Qc) : res (list Qc) :=
  match q1 with
  | Some (lefts, r) =>
      do m <- qminimum variable; list_set 0 m (lefts ++ [r])
  | None =>
      match q2 with
      | None => Err ValueError
      | Some (lefts, r) =>
          do m <- qminimum variable; list_set 1 m (m :: lefts ++ [r])   (* sol[1] = sol[0] *)
      end
  end.

(** _discretize.py:19-41 _equal_width, pandas.cut as an oracle in the same way *)
Definition equal_width (q1 q2 : option (list Qc * Qc)) (variable : list Qc) : res (list Qc) :=
  match q1 with
  | Some (lefts, r) => do m <- qminimum variable; list_set 0 m (lefts ++ [r])
  | None =>
      match q2 with
      | None => Err ValueError
      | Some (lefts, r) => do m <- qminimum variable; list_set 0 m (m :: lefts ++ [r])
      end
  end.
