(** * Model of the loaders of src/teacher/datasets/_base.py (what they do with the table read from the file) *)
From Verif Require Import Prelude M_Fuzzy M_Discretize M_Rule M_FDT M_ID3 M_Neighborhood M_Sampling M_Genetic M_Utils.
Set Implicit Arguments.
Open Scope string_scope. Open Scope list_scope. Open Scope Qc_scope.

(** df[cols] *)
Definition select {A} (cols : list string) (df : dict string A) : res (dict string A) :=
  mapM (fun c => do v <- ret_opt KeyError (dget c df); Ok (c, v)) cols.
(** del df[c] *)
Definition del_column {A} (df : dict string A) (c : string) : res (dict string A) :=
  if memb c (dkeys df) then Ok (filter (fun cv : string * A => negb (eqb (fst cv) c)) df) else Err KeyError.
(** df_cols.remove(class_name); df[[class_name] + df_cols] (datasets/_base.py:244-247, 267-270, 290-293, 322-325, 348-351,
    374-377, 421-424) *)
Definition class_first {A} (cls : string) (df : dict string A) : res (dict string A) :=
  do rest <- list_remove cls (dkeys df); select (cls :: rest) df.
(** columns[-1:] + columns[:-1]; df[columns] (datasets/_base.py:153-154, 204-205) *)
Definition last_first {A} (df : dict string A) : res (dict string A) :=
  let columns := dkeys df in
  let n := (List.length columns - 1)%nat in
  select (skipn n columns ++ firstn n columns) df.

(** value_counts().index[0]: the most frequent value (ties in any order; missing values are not counted); no value raises
    IndexError *)
Definition most_frequent_oracle := list cell -> res cell.

Section Loaders.
  Variables (sl : list string -> list string) (dt : string -> dtype).
  (** datasets/_base.py:110-128 load_german and 212-228 load_heloc: the columns as they are *)
  Definition load_plain (cls : string) (discrete : list string) (df : frame) : res dataset :=
    generate_dataset sl dt df (dkeys df) cls discrete.
  Definition load_german : frame -> res dataset :=
    load_plain "default" ["installment_as_income_perc"; "present_res_since"; "credits_this_bank"; "people_under_maintenance"].
  Definition load_heloc : frame -> res dataset := load_plain "RiskPerformance" [].
  (** datasets/_base.py:384-401 load_breast *)
  Definition load_breast (df : frame) : res dataset := do df1 <- del_column df "id"; load_plain "diagnosis" [] df1.
  (** datasets/_base.py:231-251 load_beer, 254-274 load_pima, 277-297 load_flavia: the class moved to the front *)
  Definition load_moved (cls : string) (df : frame) : res dataset :=
    do df1 <- class_first cls df; generate_dataset sl dt df1 (dkeys df1) cls [].
  Definition load_beer : frame -> res dataset := load_moved "beer_style".
  Definition load_pima : frame -> res dataset := load_moved "Class".
  Definition load_flavia : frame -> res dataset := load_moved "Class".
  (** datasets/_base.py:300-329 load_phishing *)
  Definition load_phishing (df : frame) : res dataset :=
    do df1 <- foldM del_column df
      ["id"; "PctExtResourceUrls"; "PctNullSelfRedirectHyperlinks"; "SubdomainLevelRT"; "UrlLengthRT"; "PctExtResourceUrlsRT";
       "AbnormalExtFormActionR"; "ExtMetaScriptLinkRT"; "PctExtNullSelfRedirectHyperlinksRT"];
    load_moved "CLASS_LABEL" df1.
  (** datasets/_base.py:332-355 load_iris and 358-381 load_wine: the last column is the class *)
  Definition load_last (df : frame) : res dataset :=
    do cls <- ret_opt IndexError (nth_error (rev (dkeys df)) 0); load_moved cls df.
  (** datasets/_base.py:404-427 load_basket: the column list is taken before the class is moved *)
  Definition load_basket (df : frame) : res dataset :=
    let columns := dkeys df in
    do df1 <- class_first "Position" df; generate_dataset sl dt df1 columns "Position" [].

  Variable top : most_frequent_oracle.
  (** datasets/_base.py:148-149: '?' replaced by the most frequent value of its column (pandas < 3: in place) *)
  Definition replace_unknown (df : frame) : res frame :=
    mapM (fun cc : string * list cell =>
      do t <- top (snd cc); Ok (fst cc, map (fun x => if eqb x (CStr "?") then t else x) (snd cc))) df.
  (** datasets/_base.py:131-158 load_adult up to generate_dataset, then all of it *)
  Definition adult_table (df : frame) : res frame :=
    do df1 <- foldM del_column df ["fnlwgt"; "education-num"];
    do df2 <- replace_unknown df1;
    last_first df2.
  Definition load_adult (df : frame) : res dataset :=
    do df1 <- adult_table df; generate_dataset sl dt df1 (dkeys df1) "class" [].

  (** a table with missing values *)
  Definition rframe := dict string (list (option cell)).
  Definition rcolumn (df : rframe) (c : string) : res (list (option cell)) := ret_opt KeyError (dget c df).
  (** np.abs; text raises TypeError *)
  Definition abs_cell (x : option cell) : res (option cell) :=
    match x with None => Ok None | Some (CNum q) => Ok (Some (CNum (qabs q))) | Some (CStr _) => Err TypeError end.
  (** fillna with the most frequent value *)
  Definition fill (col : list (option cell)) : res (list (option cell)) :=
    do t <- top (flat_map (fun x => match x with Some v => [v] | None => [] end) col);
    Ok (map (fun x => match x with Some v => Some v | None => Some t end) col).
  (** astype(int): missing values raise ValueError, as does text *)
  Definition int_cell (x : option cell) : res (option cell) :=
    match x with Some (CNum q) => Ok (Some (CNum (truncate q))) | _ => Err ValueError end.
  (** pd.to_datetime of text gives seconds ([parse]); a missing time stays missing; a number is not expected *)
  Variable parse : string -> res Z.
  Definition time_of (x : option cell) : res (option Z) :=
    match x with None => Ok None | Some (CStr s) => do z <- parse s; Ok (Some z) | Some (CNum _) => Err TypeError end.
  (** (out - in).dt.days: whole days, rounded down *)
  Definition days_between (o i : option Z) : option cell :=
    match o, i with Some o, Some i => Some (CNum (qz ((o - i) / 86400))) | _, _ => None end.
  (** datasets/_base.py:190-194 get_class; a comparison with a missing value is false *)
  Definition get_class (x : option cell) : res (option cell) :=
    match x with
    | Some (CStr _) => Err TypeError
    | Some (CNum q) => Ok (Some (CStr (if qltb q (qz 7) then "Medium-Low" else "High")))
    | None => Ok (Some (CStr "High"))
    end.
  Definition compas_columns : list string :=
    ["age"; "age_cat"; "sex"; "race"; "priors_count"; "days_b_screening_arrest"; "c_jail_in"; "c_jail_out";
     "c_charge_degree"; "is_recid"; "is_violent_recid"; "two_year_recid"; "decile_score"; "score_text"].
  (** datasets/_base.py:161-209 load_compas up to generate_dataset *)
  Definition compas_table (df : rframe) : res rframe :=
    do df <- select compas_columns df;
    do days <- rcolumn df "days_b_screening_arrest";
    do days <- mapM abs_cell days;
    let df := dset "days_b_screening_arrest" days df in
    do c_out <- rcolumn df "c_jail_out";
    do t_out <- mapM time_of c_out;
    do c_in <- rcolumn df "c_jail_in";
    do t_in <- mapM time_of c_in;
    let stay := map2 days_between t_out t_in in
    do stay <- mapM abs_cell stay;
    do stay <- fill stay;
    do days <- fill days;
    do stay <- mapM int_cell stay;
    do days <- mapM int_cell days;
    let df := dset "days_b_screening_arrest" days (dset "length_of_stay" stay df) in
    do decile <- rcolumn df "decile_score";
    do classes <- mapM get_class decile;
    let df := dset "class" classes df in
    do df <- foldM del_column df ["c_jail_in"; "c_jail_out"; "decile_score"; "score_text"];
    last_first df.
End Loaders.
