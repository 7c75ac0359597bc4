(** * Model of src/teacher/utils/distance_functions.py, src/teacher/utils/util.py and of generate_dataset
    (src/teacher/datasets/_base.py) *)
From Verif Require Import Prelude M_Fuzzy M_Discretize M_Rule M_FDT M_ID3 M_Neighborhood M_Sampling M_Genetic.
Set Implicit Arguments.
Open Scope Qc_scope.

(** a number computed by numpy: [None] is NaN *)
Definition fl := option Qc.
Definition fl_mult (c : Qc) (x : fl) : fl := option_map (Qcmult c) x.
Definition fl_plus (x y : fl) : fl := match x, y with Some a, Some b => Some (a + b) | _, _ => None end.

(* ------------------------------------------------------------------ *)
(** ** distance_functions.py *)

(** distance_functions.py:8-14 simple_match_distance *)
Definition simple_match (x y : list cell) : res Qc :=
  let count := fold_left (fun n (p : cell * cell) => if eqb (fst p) (snd p) then S n else n) (zip x y) 0%nat in
  if Nat.eqb (List.length x) 0 then Err ZeroDivisionError else Ok (1 - qn count / qn (List.length x)).
(** distance_functions.py:43-51 mad_distance *)
Definition mad_distance (x y mad : list Qc) : res Qc :=
  foldM (fun val i =>
    do m <- lget mad i;
    if qeqb m 0 then Ok val else
    do a <- lget x i; do b <- lget y i; Ok (val + qabs (a - b) / m)) 0 (seq 0 (List.length mad)).
(** distance_functions.py:4-5 normalized_euclidean_distance.  numpy: arrays of different lengths cannot be subtracted
    (length 1 would be broadcast, not modelled); the variance of an empty array is NaN; if both variances are 0 then
    x - y is constant and the quotient is 0/0, NaN *)
Definition normalized_euclidean (x y : list Qc) : res fl :=
  if negb (Nat.eqb (List.length x) (List.length y)) then Err ValueError else
  Ok match variance (map2 Qcminus x y), variance x, variance y with
     | Some d, Some vx, Some vy => if qeqb (vx + vy) 0 then None else Some (qc 1 2 * d / (vx + vy))
     | _, _, _ => None
     end.
(** distance_functions.py:17-20 normalized_square_euclidean_distance(ranges)(x, y); a range of 0 gives inf or NaN: [None] *)
Definition normalized_square_euclidean (ranges x y : list Qc) : res fl :=
  if negb (Nat.eqb (List.length x) (List.length y)) || negb (Nat.eqb (List.length y) (List.length ranges)) then Err ValueError else
  Ok (if existsb (fun r => qeqb r 0) ranges then None
      else Some (qsum (map2 (fun d r => (qabs d / r) * (qabs d / r)) (map2 Qcminus x y) ranges))).

(** a record: column name -> value *)
Definition record := dict string cell.
Definition fields (x : record) (atts : list string) : res (list cell) := mapM (fun att => ret_opt KeyError (dget att x)) atts.
(** distance_functions.py:23-40 mixed_distance *)
Definition mixed_distance (x y : record) (discrete continuous : list string) (class_name : string)
    (ddist : list cell -> list cell -> res Qc) (cdist : list cell -> list cell -> res fl) : res fl :=
  let dnc := filter (fun att => negb (eqb att class_name)) discrete in
  let total := qn (List.length discrete + List.length continuous) in
  do xd <- fields x dnc;
  if Nat.ltb 0 (List.length xd) then
    do yd <- fields y dnc;
    let wd := qn (List.length discrete) / total in
    do dd <- ddist xd yd;
    do xc <- fields x continuous;
    do yc <- fields y continuous;
    let wc := qn (List.length continuous) / total in
    do cd <- cdist xc yc;
    Ok (fl_plus (Some (wd * dd)) (fl_mult wc cd))
  else
    (* both weights and both distances keep their initial value 0.0 *)
    do xc <- fields x continuous;
    Ok (Some (0 * 0 + 0 * 0)).
(** a distance of numbers applied to cells: text cannot be subtracted *)
Definition on_numbers {A} (f : list Qc -> list Qc -> res A) (a b : list cell) : res A :=
  do x <- numbers a; do y <- numbers b; f x y.

(* ------------------------------------------------------------------ *)
(** ** util.py *)

(** a DataFrame as the dictionary of its columns, with their dtypes *)
Definition frame := dict string (list cell).
Inductive dtype := DInt | DFloat | DObject | DOther.
(** util.py:8-25 recognize_features_type: type_features as a triple, features_type *)
Definition is_dtype (t : dtype) (dt : string -> dtype) (c : string) : bool :=
  match t, dt c with DInt, DInt | DFloat, DFloat | DObject, DObject => true | _, _ => false end.
Definition type_features (dt : string -> dtype) (df : frame) : list string * list string * list string :=
  (filter (is_dtype DInt dt) (dkeys df), filter (is_dtype DFloat dt) (dkeys df), filter (is_dtype DObject dt) (dkeys df)).
Definition features_type (dt : string -> dtype) (df : frame) : dict string string :=
  let '(ints, doubles, strs) := type_features dt df in
  dict_of (map (fun c => (c, "integer"%string)) ints ++ map (fun c => (c, "double"%string)) doubles ++ map (fun c => (c, "string"%string)) strs).

(** util.py:28-44 set_discrete_continuous; [setlist] is list(set(.)), in any order *)
Definition set_discrete_continuous (setlist : list string -> list string) (features : list string)
    (tf : list string * list string * list string) (class_name : string) (discrete continuous : option (list string))
    : list string * list string :=
  let '(ints, doubles, strs) := tf in
  (* 31-33 *)
  let '(discrete, continuous) := match discrete, continuous with None, None => (Some strs, Some (ints ++ doubles)) | d, c => (d, c) end in
  (* 35-37 *)
  let '(discrete, continuous) := match discrete, continuous with
    | None, Some c => (Some (filter (fun f => negb (memb f c)) features), Some (setlist (c ++ ints ++ doubles)))
    | d, c => (d, c) end in
  (* 39-41 *)
  let '(discrete, continuous) := match discrete, continuous with
    | Some d, None => (Some (setlist (d ++ strs)), Some (filter (fun f => negb (memb f d) && (memb f ints || memb f doubles)) features))
    | d, c => (d, c) end in
  (* 43-45; both are set by now *)
  match discrete, continuous with
  | Some d, Some c => (filter (fun f => negb (eqb f class_name)) d ++ [class_name], filter (fun f => negb (eqb f class_name)) c)
  | _, _ => ([], [])
  end.

(** sklearn's LabelEncoder: the sorted classes; transform raises ValueError on an unseen value, inverse_transform on a number
    that is no position (an integer column is assumed) *)
Definition encoders := dict string (list cell).
Fixpoint position (x : cell) (l : list cell) : option nat :=
  match l with
  | [] => None
  | y :: l' => if eqb x y then Some 0%nat else option_map S (position x l')
  end.
Definition transform (classes col : list cell) : res (list cell) :=
  mapM (fun x => do i <- ret_opt ValueError (position x classes); Ok (CNum (qn i))) col.
Definition as_index (x : cell) : option nat :=
  match x with
  | CNum q => if qeqb q (qz (Qround.Qfloor (this q))) && qleb 0 q then Some (Z.to_nat (Qround.Qfloor (this q))) else None
  | CStr _ => None
  end.
Definition inverse_transform (classes col : list cell) : res (list cell) :=
  mapM (fun x => do i <- ret_opt ValueError (as_index x); ret_opt ValueError (nth_error classes i)) col.
(** df[col] *)
Definition fcolumn (df : frame) (c : string) : res (list cell) := ret_opt KeyError (dget c df).
(** util.py:47-59 label_encode; [None]: label_encoder=None *)
Definition label_encode (df : frame) (columns : list string) (le : option encoders) : res (frame * encoders) :=
  match le with
  | None =>
      foldM (fun (st : frame * encoders) c =>
        do col <- fcolumn (fst st) c;
        do classes <- np_unique col;
        do codes <- transform classes col;
        Ok (dset c codes (fst st), dset c classes (snd st))) (df, []) columns
  | Some encs =>
      do df' <- foldM (fun df c =>
        do classes <- ret_opt KeyError (dget c encs);
        do col <- fcolumn df c;
        do codes <- transform classes col;
        Ok (dset c codes df)) df columns;
      Ok (df', encs)
  end.
(** util.py:62-67 label_decode *)
Definition label_decode (df : frame) (columns : list string) (encs : encoders) : res frame :=
  foldM (fun df c =>
    do classes <- ret_opt KeyError (dget c encs);
    do col <- fcolumn df c;
    do vals <- inverse_transform classes col;
    Ok (dset c vals df)) df columns.

(** the number of rows; df.to_dict('records') (the columns have the same length) *)
Definition frame_length (df : frame) : nat := match df with [] => 0 | (_, col) :: _ => List.length col end.
Definition records (df : frame) : list record :=
  map (fun i => map (fun cc : string * list cell => (fst cc, nth i (snd cc) (CNum 0))) df) (seq 0 (frame_length df)).
(** df.iloc[:, df.columns != class_name].values: rows without the class *)
Definition matrix_without (class_name : string) (df : frame) : list (list cell) :=
  let cols := filter (fun cc : string * list cell => negb (eqb (fst cc) class_name)) df in
  map (fun i => map (fun cc : string * list cell => nth i (snd cc) (CNum 0)) cols) (seq 0 (frame_length df)).

Section Closest.
  (** np.argsort: positions in the order of the values, NaN last; the order of ties depends on the algorithm *)
  Variable argsort : list fl -> list nat.
  (** distance_function(x, z, discrete, continuous, class_name) *)
  Variable distance : record -> record -> res fl.
  (** util.py:70-75 get_closest *)
  Definition get_closest (df : frame) (x : record) (k : nat) : res (list nat) :=
    do ds <- mapM (distance x) (records df);
    Ok (firstn k (argsort ds)).
  (** indexes[argsort(distances)[:k]] for the records of one outcome *)
  Definition closest_of (dis : list (nat * fl)) (k : nat) : res (list nat) :=
    mapM (fun j => lget (map fst dis) j) (firstn k (argsort (map snd dis))).
  Definition common (a b : list nat) : nat := List.length (filter (fun i => memb i b) (nodup Nat.eq_dec a)).
  (** int(k * diff_out_ratio), diff_out_ratio >= 0 *)
  Definition int_share (k : nat) (ratio : Qc) : nat := Z.to_nat (Qround.Qfloor (this (qn k * ratio))).
  (** util.py:78-116 get_closest_diffoutcome; [predict] is the black box on one row.  For a ratio above 1 the slice
      all_indexs[:k_index] would have a negative bound, not modelled *)
  Definition get_closest_diffoutcome (predict : list cell -> Z) (df : frame) (x : record) (discrete : list string) (class_name : string)
      (encs : encoders) (k : nat) (ratio : Qc) : res (list nat) :=
    do zle <- label_encode df discrete (Some encs);
    let Z1 := matrix_without class_name (fst zle) in
    do rows <- mapM (fun izz : nat * (record * list cell) => let '(idx, (z, z1)) := izz in
        do d <- distance x z; Ok ((idx, d), Z.eqb (predict z1) 0)) (enumerate (zip (records df) Z1));
    let zero := map fst (filter (fun r : nat * fl * bool => snd r) rows) in
    let one := map fst (filter (fun r : nat * fl * bool => negb (snd r)) rows) in
    let all_indexs := firstn k (argsort (map (fun r : nat * fl * bool => snd (fst r)) rows)) in
    do indexes0 <- closest_of zero k;
    do indexes1 <- closest_of one k;
    if Nat.eqb (List.length all_indexs) 0 then Err ZeroDivisionError else
    let k_index := (k - int_share k ratio)%nat in
    if qltb (qn (common all_indexs indexes0) / qn (List.length all_indexs)) ratio then
      Ok (firstn k_index all_indexs ++ firstn (int_share k ratio) indexes0)
    else if qltb (qn (common all_indexs indexes1)) ratio then
      Ok (firstn k_index all_indexs ++ firstn (int_share k ratio) indexes1)
    else Ok all_indexs.
End Closest.

(** data_col.astype(int): truncation towards zero *)
Definition truncate (q : Qc) : Qc := if qltb q 0 then - qz (Qround.Qfloor (this (- q))) else qz (Qround.Qfloor (this q)).
(** util.py:184-203 build_df2explain; [y] = bb.predict(X); X a matrix of numbers *)
Definition build_df2explain (y : list Z) (X : list (list Qc)) (columns : list string) (ftype : dict string string)
    (discrete : list string) (encs : encoders) : res frame :=
  if negb (Nat.eqb (List.length y) (List.length X)) then Err ValueError else
  let yX := map2 (fun c row => qz c :: row) y X in
  do data <- mapM (fun ic : nat * string => let '(i, col) := ic in
      do data_col <- mapM (fun row => ret_opt IndexError (nth_error row i)) yX;
      let d1 := if memb col discrete then map truncate data_col else data_col in
      do t <- ret_opt KeyError (dget col ftype);
      Ok (col, map CNum (if eqb t "integer"%string then map truncate d1 else d1))) (enumerate columns);
  (* data[0] *)
  if Nat.eqb (List.length columns) 0 then Err IndexError else
  label_decode data discrete encs.

(** util.py:220-221 get_diff_outcome *)
Definition get_diff_outcome (outcome : cell) (possible : list cell) : res cell :=
  do p0 <- lget possible 0; if eqb outcome p0 then lget possible 1 else lget possible 0.

(* ------------------------------------------------------------------ *)
(** ** generate_dataset *)

(** datasets/_base.py:35-107 generate_dataset with normalize=False (standardising needs square roots) *)
Record dataset := mkDs {
  ds_columns : list string; ds_outcomes : list cell; ds_types : dict string string; ds_discrete : list string; ds_continuous : list string;
  ds_idx : dict nat string; ds_encoders : encoders; ds_X : list (list cell); ds_y : list cell }.
(** list.remove: the first occurrence *)
Fixpoint list_remove (x : string) (l : list string) : res (list string) :=
  match l with
  | [] => Err ValueError
  | y :: l' => if eqb y x then Ok l' else do r <- list_remove x l'; Ok (y :: r)
  end.
Definition generate_dataset (setlist : list string -> list string) (dt : string -> dtype) (df : frame) (columns : list string) (class_name : string)
    (discrete : list string) : res dataset :=
  do target <- fcolumn df class_name;
  let possible := appearing target in
  let '(disc, cont) := set_discrete_continuous setlist columns (type_features dt df) class_name (Some discrete) None in
  do tmp <- list_remove class_name columns;
  do dle <- label_encode df disc None;
  do y <- fcolumn (fst dle) class_name;
  Ok (mkDs columns possible (features_type dt df) disc cont (enumerate tmp) (snd dle) (matrix_without class_name (fst dle)) y).
