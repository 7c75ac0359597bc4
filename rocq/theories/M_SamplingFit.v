(** * Model of SamplingNeighborhood.fit with the computations it makes (src/teacher/neighbors/_sampling_neighborhood.py) *)
From Verif Require Import Prelude M_Fuzzy M_Discretize M_Rule M_FDT M_Counterfactual M_Explainer M_Neighborhood M_Sampling M_Genetic M_Utils.
Set Implicit Arguments.
Open Scope Qc_scope.

(** _sampling_neighborhood.py:158, 172: np.array([v], dtype=int), df[le].astype(int) *)
Definition as_int (x : cell) : res cell := match x with CNum q => Ok (CNum (truncate q)) | CStr _ => Err ValueError end.
(** _sampling_neighborhood.py:154-161: decoded_instance; the KeyError of a feature without an encoder is caught *)
Definition decode_instance (encs : encoders) (features : list string) (instance : list Qc) : res (list cell) :=
  mapM (fun iv : nat * string =>
      match dget (snd iv) encs with
      | Some classes =>
          do v <- lget instance (fst iv);
          do k <- as_int (CNum v);
          do d <- inverse_transform classes [k];
          lget d 0
      | None => do v <- lget instance (fst iv); Ok (CNum v)
      end) (enumerate features).
(** df[le] = vals for the column number [i]; [vals] has a value for each row *)
Definition put_column (i : nat) (rows : list (list cell)) (vals : list cell) : list (list cell) :=
  map2 (fun (row : list cell) v => firstn i row ++ v :: skipn (S i) row) rows vals.
(** _sampling_neighborhood.py:164, 170-172: the copy of the table with the columns of the encoders decoded; the names of the columns are distinct *)
Definition decode_table (encs : encoders) (class_name : string) (Z : table) : res table :=
  do rows <- foldM (fun rows (le : string * list cell) =>
      if eqb (fst le) class_name then Ok rows else
      do i <- (match index_of (fst le) (tb_cols Z) with Ok i => Ok i | Err _ => Err KeyError end);
      do col <- column rows i;
      do ints <- mapM as_int col;
      do vals <- inverse_transform (snd le) ints;
      Ok (put_column i rows vals)) (tb_rows Z) encs;
  Ok (mkTb (tb_cols Z) rows).
(** _sampling_neighborhood.py:168, 176: label_encoder[class_name].inverse_transform(y) *)
Definition decode_labels (encs : encoders) (class_name : string) (y : list Z) : res (list cell) :=
  do classes <- ret_opt KeyError (dget class_name encs);
  inverse_transform classes (map (fun c => CNum (qz c)) y).
(** the rows of a table of numbers *)
Definition number_rows (Z : table) : list (list Qc) := map (map (fun x => match x with CNum q => q | CStr _ => 0 end)) (tb_rows Z).

(** _sampling_neighborhood.py:149-176 fit: the computations in the order of M_Neighborhood.sampling_fit; the black box predicts each row by itself;
    [fuel] bounds the rounds of the generation (see C64_terminates) *)
Definition sampling_outcome (rnd : nat -> nat) (bb : list Qc -> Z) (encs : encoders) (method : string) (fuel : nat) (nr : nrange) (d : sdata)
    (class_name : string) (w : nat) (X2E : list (list Qc)) (instance : list Qc) (size : nat) : outcome :=
  let features := filter (fun c => negb (eqb c class_name)) (s_columns d) in
  let Z := generate rnd bb method fuel nr d class_name w X2E instance size in
  let y := do t <- Z; Ok (map bb (number_rows t)) in
  mkO (decode_instance encs features instance)
      Z
      (do _ <- decode_labels encs class_name [bb instance]; Ok tt)
      (do t <- Z; decode_table encs class_name t)
      y
      (do l <- y; decode_labels encs class_name l).
(** the object after fit *)
Definition sampling_run (rnd : nat -> nat) (bb : list Qc -> Z) (encs : encoders) (method : string) (fuel : nat) (nr : nrange) (d : sdata)
    (class_name : string) (w : nat) (X2E : list (list Qc)) (instance : list Qc) (size : nat) (s : nbhd) : nbhd * option exn :=
  sampling_fit s (sampling_outcome rnd bb encs method fuel nr d class_name w X2E instance size).
