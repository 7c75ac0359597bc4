(** * Model of generate_dataset with normalize=True (src/teacher/datasets/_base.py) *)
From Verif Require Import Prelude M_Fuzzy M_Discretize M_Rule M_FDT M_ID3 M_Neighborhood M_Sampling M_Genetic M_Utils.
Set Implicit Arguments.
Open Scope Qc_scope.

Section Normalize.
  (** the standard deviation of a column as numpy computes it (a floating point number; the exact one need not be rational) *)
  Variable deviation : list Qc -> Qc.
  Definition qmean (l : list Qc) : Qc := qsum l / qn (List.length l).
  (** sklearn's StandardScaler.fit_transform on one column, called in _base.py:82: (x - mean) / scale, where a scale of 0, that of a constant column, is replaced by 1 *)
  Definition all_equal (l : list Qc) : bool := match l with [] => true | x :: l' => forallb (qeqb x) l' end.
  Definition scale_column (l : list Qc) : list Qc :=
    let s := if all_equal l then 1 else deviation l in
    map (fun x => (x - qmean l) / s) l.
  (** _base.py:82: df[continuous] = scaler.fit_transform(df[continuous]); the scaler needs at least one row and one column *)
  Definition scale_frame (df : frame) (continuous : list string) : res frame :=
    if Nat.eqb (List.length continuous) 0 || Nat.eqb (frame_length df) 0 then Err ValueError else
    foldM (fun df c => do col <- fcolumn df c; do qs <- numbers col; Ok (dset c (map CNum (scale_column qs)) df)) df continuous.
  (** _base.py:35-107 generate_dataset(normalize=True): the caller's table afterwards, and the result; the table is the dataset's 'df'.
      The scaler itself ('normalize_scaler') is left out *)
  Definition generate_normalized (setlist : list string -> list string) (dt : string -> dtype) (df : frame) (columns : list string) (class_name : string)
      (discrete : list string) : frame * res dataset :=
    match fcolumn df class_name with
    | Err e => (df, Err e)
    | Ok target =>
      let possible := appearing target in
      let '(disc, cont) := set_discrete_continuous setlist columns (type_features dt df) class_name (Some discrete) None in
      match list_remove class_name columns with
      | Err e => (df, Err e)
      | Ok tmp =>
        match scale_frame df cont with
        | Err e => (df, Err e)
        | Ok df1 =>
          (df1, do dle <- label_encode df1 disc None;
                do y <- fcolumn (fst dle) class_name;
                Ok (mkDs columns possible (features_type dt df) disc cont (enumerate tmp) (snd dle) (matrix_without class_name (fst dle)) y))
        end
      end
    end.
End Normalize.
