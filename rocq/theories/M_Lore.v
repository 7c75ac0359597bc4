(** * Model of the LORE generator: src/teacher/neighbors/gpdatagenerator.py, neighbor_generator.py, _lore_neighborhood.py and of
    get_feature_values (genetic_algorithm.py).  Records are rows of numbers (categories label-encoded); the black box predicts
    row by row; randomness comes from streams of draws. *)
From Verif Require Import Prelude M_Fuzzy M_Discretize M_Rule M_FDT M_ID3 M_Neighborhood M_Sampling M_Genetic M_Utils.
Set Implicit Arguments.
Open Scope Qc_scope.

(** np.round to an integer: halves go to the even neighbour *)
Definition np_round (q : Qc) : Z :=
  let f := Qround.Qfloor (this q) in
  let d := q - qz f in
  if qltb d (qc 1 2) then f else if qltb (qc 1 2) d then (f + 1)%Z else if Z.even f then f else (f + 1)%Z.
(** int(np.round(a * b)) as a size: a size that is not positive is 0 *)
Definition share_size (n : nat) (ratio : Qc) : nat := Z.to_nat (np_round (qn n * ratio)).

(* ------------------------------------------------------------------ *)
(** ** Fitness functions *)
Section Fitness.
  Variable bb : list Qc -> Z.
  (** distance_function(x0d, x1d, discrete, continuous, class_name) *)
  Variable distance : record -> record -> res fl.
  Variable idx_features : dict nat string.
  (** gpdatagenerator.py:40-41, 57-58, 74-75, 91-92: {idx_features[i]: val for i, val in enumerate(x)} *)
  Definition keyed (x : list Qc) : res record :=
    do kv <- mapM (fun iv : nat * Qc => do f <- ret_opt KeyError (dget (fst iv) idx_features); Ok (f, CNum (snd iv))) (enumerate x);
    Ok (dict_of kv).
  (** 1.0 - distance *)
  Definition sim_ratio (x0 x1 : list Qc) : res fl :=
    do x0d <- keyed x0; do x1d <- keyed x1; do d <- distance x0d x1d; Ok (option_map (fun q => 1 - q) d).
  (** gpdatagenerator.py:38-52 fitness_sso; comparisons with NaN are false *)
  Definition fitness_sso (x0 : list Qc) (alpha1 alpha2 eta : Qc) (x1 : list Qc) : res fl :=
    do sim <- sim_ratio x0 x1;
    let record_similarity := match sim with Some s => if qleb eta s then Some 0 else Some s | None => None end in
    let target_similarity := if Z.eqb (bb x0) (bb x1) then 1 else 0 in
    Ok (fl_plus (fl_mult alpha1 record_similarity) (Some (alpha2 * target_similarity))).
  (** gpdatagenerator.py:55-69 fitness_sdo *)
  Definition fitness_sdo (x0 : list Qc) (alpha1 alpha2 eta : Qc) (x1 : list Qc) : res fl :=
    do sim <- sim_ratio x0 x1;
    let record_similarity := match sim with Some s => if qleb eta s then Some 0 else Some s | None => None end in
    let target_similarity := if negb (Z.eqb (bb x0) (bb x1)) then 1 else 0 in
    Ok (fl_plus (fl_mult alpha1 record_similarity) (Some (alpha2 * target_similarity))).
  (** gpdatagenerator.py:72-86 fitness_dso *)
  Definition fitness_dso (x0 : list Qc) (alpha1 alpha2 eta : Qc) (x1 : list Qc) : res fl :=
    do sim <- sim_ratio x0 x1;
    let record_similarity := match sim with Some s => if qleb s eta then Some 0 else Some (1 - s) | None => None end in
    let target_similarity := if Z.eqb (bb x0) (bb x1) then 1 else 0 in
    Ok (fl_plus (fl_mult alpha1 record_similarity) (Some (alpha2 * target_similarity))).
  (** gpdatagenerator.py:89-103 fitness_ddo *)
  Definition fitness_ddo (x0 : list Qc) (alpha1 alpha2 eta : Qc) (x1 : list Qc) : res fl :=
    do sim <- sim_ratio x0 x1;
    let record_similarity := match sim with Some s => if qleb s eta then Some 0 else Some (1 - s) | None => None end in
    let target_similarity := if negb (Z.eqb (bb x0) (bb x1)) then 1 else 0 in
    Ok (fl_plus (fl_mult alpha1 record_similarity) (Some (alpha2 * target_similarity))).
End Fitness.

(* ------------------------------------------------------------------ *)
(** ** The genetic algorithm of deap *)

(** the draws of one generation: the individual selected at position [i], the coin for mating [i-1] and [i] and the two cut
    points, the coin for mutating [i], the coins and values for its genes *)
Record ea_draws := mkE {
  e_pick : nat -> nat; e_cross : nat -> Qc; e_cut1 : nat -> nat; e_cut2 : nat -> nat;
  e_mutate : nat -> Qc; e_gene : nat -> nat -> Qc; e_value : nat -> nat -> nat }.

(** deap.tools.cxTwoPoint (gpdatagenerator.py:121): randint(1, size), randint(1, size - 1), the second shifted past the first
    or the two swapped; randint(1, 0) raises ValueError *)
Definition two_point (c1 c2 : nat) (a b : list Qc) : res (list Qc * list Qc) :=
  let size := Nat.min (List.length a) (List.length b) in
  if Nat.ltb size 2 then Err ValueError else
  let p1 := (1 + c1 mod size)%nat in
  let p2 := (1 + c2 mod (size - 1))%nat in
  let '(lo, hi) := if Nat.leb p1 p2 then (p1, (p2 + 1)%nat) else (p2, p1) in
  let slice l := firstn (hi - lo) (skipn lo l) in
  Ok (firstn lo a ++ slice b ++ skipn hi a, firstn lo b ++ slice a ++ skipn hi b).

Section Evolution.
  Variable feature_values : dict nat (list Qc).
  (** deap.algorithms.varAnd: mating of the pairs (0,1), (2,3), ... *)
  Definition mate_phase (d : ea_draws) (cxpb : Qc) (pop : list (list Qc)) : res (list (list Qc)) :=
    foldM (fun pop i =>
      if qltb (e_cross d i) cxpb then
        do a <- lget pop (2 * i); do b <- lget pop (2 * i + 1);
        do ab <- two_point (e_cut1 d i) (e_cut2 d i) a b;
        do pop1 <- lset pop (2 * i) (fst ab); lset pop1 (2 * i + 1) (snd ab)
      else Ok pop) pop (seq 0 (List.length pop / 2)).
  (** ... and mutation; toolbox.mutate is gpdatagenerator.mutate with indpb = mutpb (gpdatagenerator.py:122) *)
  Definition mutate_phase (d : ea_draws) (mutpb indpb : Qc) (pop : list (list Qc)) : res (list (list Qc)) :=
    foldM (fun pop i =>
      if qltb (e_mutate d i) mutpb then
        do a <- lget pop i;
        do m <- mutate (e_gene d i) (e_value d i) feature_values indpb a;
        lset pop i m
      else Ok pop) pop (seq 0 (List.length pop)).

  Variable evaluate : list Qc -> res fl.
  Definition evaluated (pop : list (list Qc)) : res (list (list Qc * fl)) := mapM (fun ind => do f <- evaluate ind; Ok (ind, f)) pop.
  (** gpdatagenerator.py:128-143 fit, with deap.algorithms.eaSimple.  Tournament selection is replaced by any choice of members
      of the population ([e_pick]) and the hall of fame by any choice of at most halloffame_size individuals evaluated so far
      ([hall]); a hall of fame of size 0 raises IndexError at its first update.  Every generation is evaluated as a whole: the
      fitness kept by an unchanged individual is the value of the same function on it *)
  Definition ga_fit (rnd : nat -> ea_draws) (hall : list nat) (population_size : nat) (initial : list (list Qc))
      (halloffame_ratio cxpb mutpb indpb : Qc) (ngen : nat) : res (list (list Qc * fl) * list (list Qc * fl)) :=
    let halloffame_size := share_size population_size halloffame_ratio in
    do e0 <- evaluated initial;
    if Nat.eqb halloffame_size 0 then Err IndexError else
    do ps <- foldM (fun (ps : list (list Qc * fl) * list (list Qc * fl)) g =>
        let pop := map fst (fst ps) in
        do sel <- mapM (fun i => lget pop (e_pick (rnd g) i mod List.length pop)) (seq 0 (List.length pop));
        do mated <- mate_phase (rnd g) cxpb sel;
        do mutated <- mutate_phase (rnd g) mutpb indpb mated;
        do e <- evaluated mutated;
        Ok (e, snd ps ++ e)) (e0, e0) (seq 0 ngen);
    do hof <- mapM (fun i => lget (snd ps) (i mod List.length (snd ps))) (firstn halloffame_size hall);
    Ok (fst ps, hof).
End Evolution.

(** gpdatagenerator.py:146-164 get_oversample on fitness values that may be NaN: a NaN in the population makes the widest gap
    NaN, which no gap equals, so that np.max of no position raises ValueError; a NaN in the hall of fame is above no threshold *)
Definition number (p : list Qc * fl) : option (list Qc * Qc) := option_map (pair (fst p)) (snd p).
Definition oversample (population halloffame : list (list Qc * fl)) : res (list (list Qc)) :=
  do pop <- mapM (fun p => ret_opt ValueError (number p)) population;
  get_oversample pop (flat_map (fun p => match number p with Some q => [q] | None => [] end) halloffame).

(** neigtype: 'all' or a dictionary *)
Inductive neigtype := NAll | NDict (d : dict string Qc).
Definition ratio_of (nt : neigtype) (key : string) : Qc :=
  let d := match nt with NAll => [("ss", qc 1 4); ("sd", qc 1 4); ("ds", qc 1 4); ("dd", qc 1 4)]%string | NDict d => d end in
  match dget key d with Some r => r | None => 0 end.

Section Generate.
  Variable bb : list Qc -> Z.
  Variable distance : record -> record -> res fl.
  Variable idx_features : dict nat string.
  Variable feature_values : dict nat (list Qc).
  (** the draws of the four runs *)
  Variable rnd : nat -> nat -> ea_draws.
  Variable hall : nat -> list nat.
  (** gpdatagenerator.py:181-192 and its three copies: one run; record_init gives the record itself (11-12) *)
  Definition run_group (run : nat) (fitness : list Qc -> res fl) (x : list Qc) (size : nat) (halloffame_ratio cxpb mutpb : Qc) (ngen : nat)
      : res (list (list (list Qc))) :=
    if Nat.ltb 0 size then
      do ph <- ga_fit feature_values fitness (rnd run) (hall run) size (repeat x size) halloffame_ratio cxpb mutpb mutpb ngen;
      do X <- oversample (fst ph) (snd ph);
      Ok (match X with [] => [] | _ => [X] end)
    else Ok [].
  (** gpdatagenerator.py:167-238 generate_data (return_logbook=False, which returns the log besides); np.concatenate of no
      array raises ValueError *)
  Definition generate_data (x : list Qc) (nt : neigtype) (population_size : nat) (halloffame_ratio alpha1 alpha2 eta1 eta2 cxpb mutpb : Qc) (ngen : nat)
      : res (list (list Qc)) :=
    let size_sso := share_size population_size (ratio_of nt "ss") in
    let size_sdo := share_size population_size (ratio_of nt "sd") in
    let size_dso := share_size population_size (ratio_of nt "ds") in
    let size_ddo := share_size population_size (ratio_of nt "dd") in
    do g1 <- run_group 0 (fitness_sso bb distance idx_features x alpha1 alpha2 eta1) x size_sso halloffame_ratio cxpb mutpb ngen;
    do g2 <- run_group 1 (fitness_sdo bb distance idx_features x alpha1 alpha2 eta1) x size_sdo halloffame_ratio cxpb mutpb ngen;
    do g3 <- run_group 2 (fitness_dso bb distance idx_features x alpha1 alpha2 eta2) x size_dso halloffame_ratio cxpb mutpb ngen;
    do g4 <- run_group 3 (fitness_ddo bb distance idx_features x alpha1 alpha2 eta2) x size_ddo halloffame_ratio cxpb mutpb ngen;
    match g1 ++ g2 ++ g3 ++ g4 with [] => Err ValueError | Xgp => Ok (List.concat Xgp) end.
End Generate.

(** X[:, i] *)
Definition qcolumn (X : list (list Qc)) (i : nat) : res (list Qc) := mapM (fun row => ret_opt IndexError (nth_error row i)) X.
(** gpdatagenerator.py:241-271 calculate_feature_values with both flags False, as its only caller has them; [normal i j]: the
    j-th normal draw for feature [i].  A column in neither list keeps the values of the column before it: new_values is not
    assigned, for the first column UnboundLocalError (a NameError) *)
Definition calculate_feature_values (normal : nat -> nat -> Qc) (X : list (list Qc)) (columns : list string) (class_name : string)
    (discrete continuous : list string) (size : nat) : res (dict nat (list Qc)) :=
  do columns1 <- list_remove class_name columns;
  do st <- foldM (fun (st : dict nat (list Qc) * option (list Qc)) (ic : nat * string) =>
      let '(i, col) := ic in
      do values <- qcolumn X i;
      do new_values <-
        (if memb col discrete then Ok (qunique values)
         else if memb col continuous then Ok (values ++ map (normal i) (seq 0 size))
         else ret_opt NameError (snd st));
      Ok (dset i new_values (fst st), Some new_values)) ([], None) (enumerate columns1);
  Ok (fst st).

(** genetic_algorithm.py:5-21 get_feature_values: a generator per column, np.random.normal for a column of numbers ([normal]),
    np.random.choice of the distinct values otherwise (of no value: ValueError, when the generator is called; not modelled).
    A column counts as one of numbers if all its cells are *)
Definition get_feature_values (normal : string -> nat -> Qc) (df : frame) : generators (A := cell) :=
  map (fun icc : nat * (string * list cell) => let '(i, (c, col)) := icc in
    (i, fun s => match numbers col with
                 | Ok _ => CNum (normal c s)
                 | Err _ => nth (s mod List.length (appearing col)) (appearing col) (CNum 0)
                 end)) (enumerate df).

(* ------------------------------------------------------------------ *)
(** ** neighbor_generator.py *)
Section Neighbor.
  Variable bb : list Qc -> Z.
  (** the black box on a row of a DataFrame, whose cells are numbers *)
  Definition bb_cells (row : list cell) : Z := bb (map (fun c => match c with CNum q => q | CStr _ => 0 end) row).
  Variable argsort : list fl -> list nat.
  Variable class_name : string.
  Variable ds : dataset.
  (** neighbor_generator.py:40-43, 85-88, 112-115 distance_function *)
  Definition lore_distance (discrete : list string) (x0 x1 : record) : res fl :=
    mixed_distance x0 x1 discrete (ds_continuous ds) class_name simple_match (on_numbers normalized_euclidean).
  Definition explain_frame (Z : list (list Qc)) : res frame :=
    build_df2explain (map bb Z) Z (ds_columns ds) (ds_types ds) (ds_discrete ds) (ds_encoders ds).

  (** neighbor_generator.py:30-63 genetic_neighborhood.  If all predictions are equal, Z.columns is read from an array: AttributeError *)
  Definition genetic_neighborhood (feature_values : dict nat (list Qc)) (rnd : nat -> nat -> ea_draws) (hall : nat -> list nat)
      (dfZ : frame) (x : list Qc) (population_size : nat) : res (frame * list (list Qc)) :=
    do discrete_no_class <- list_remove class_name (ds_discrete ds);
    do Z <- generate_data bb (lore_distance discrete_no_class) (ds_idx ds) feature_values rnd hall x
              (NDict [("ss", qc 1 2); ("sd", qc 1 2)]%string) population_size (qc 1 10) (qc 1 2) (qc 1 2) 1 0 (qc 1 2) (qc 1 5) 10;
    do Z <-
      (if Nat.eqb (List.length (zunique (map bb Z))) 1 then
         do dfx <- explain_frame [x];
         do dfx0 <- lget (records dfx) 0;
         do neig <- get_closest_diffoutcome argsort (lore_distance (ds_discrete ds)) bb_cells dfZ dfx0 (ds_discrete ds) class_name (ds_encoders ds) 100 (qc 1 10);
         do Zn <- label_encode dfZ (ds_discrete ds) (Some (ds_encoders ds));
         Err AttributeError
       else Ok Z);
    do df <- explain_frame Z;
    Ok (df, Z).

  (** neighbor_generator.py:66-76 real_data *)
  Definition real_data (dfZ : frame) : res (frame * list (list Qc)) :=
    do Zle <- label_encode dfZ (ds_discrete ds) (Some (ds_encoders ds));
    do Z <- mapM numbers (matrix_without class_name (fst Zle));
    do df <- explain_frame Z;
    Ok (df, Z).
  (** neighbor_generator.py:79-99 closed_real_data *)
  Definition closed_real_data (dfZ : frame) (x : list Qc) : res (frame * list (list Qc)) :=
    do dfx <- explain_frame [x];
    do dfx0 <- lget (records dfx) 0;
    do neig <- get_closest_diffoutcome argsort (lore_distance (ds_discrete ds)) bb_cells dfZ dfx0 (ds_discrete ds) class_name (ds_encoders ds) 100 (qc 1 10);
    do Zle <- label_encode dfZ (ds_discrete ds) (Some (ds_encoders ds));
    do rows <- mapM (lget (matrix_without class_name (fst Zle))) neig;
    do Z <- mapM numbers rows;
    do df <- explain_frame Z;
    Ok (df, Z).

  (** np.random.choice(a, size, replace): without replacement more draws than values raise ValueError; other draws without
      replacement are not modelled (the code below reaches that case only without values) *)
  Definition np_choice (draw : nat -> nat) (a : list Qc) (size : nat) (replace : bool) : res (list Qc) :=
    if negb replace && Nat.ltb (List.length a) size then Err ValueError else
    mapM (fun j => ret_opt ValueError (nth_error a (draw j mod List.length a))) (seq 0 size).
  (** neighbor_generator.py:138-166 generate_random_data on an array.  [choice i j], [normal i j]: the j-th draw for feature [i].
      Line 152 passes the list of probabilities as the argument [replace], where it counts as True unless it is empty.  The
      deviation of an empty column is NaN; its normal draws, NaN, are not distinguished *)
  Definition generate_random_data (choice : nat -> nat -> nat) (normal : nat -> nat -> Qc) (X : list (list Qc)) (columns : list string)
      (discrete continuous : list string) (ftype : dict string string) (size : nat) (uniform : bool) : res (list (list Qc)) :=
    do columns1 <- list_remove class_name columns;
    do st <- foldM (fun (st : list (list Qc) * option (list Qc)) (ic : nat * string) =>
        let '(i, col) := ic in
        do values <- qcolumn X i;
        let diff_values := qunique values in
        let prob_values := map (fun val => qn (List.length (filter (qeqb val) values)) / qn (List.length values)) diff_values in
        do new_values <-
          (if memb col discrete then
             if uniform then np_choice (choice i) diff_values size true
             else np_choice (choice i) diff_values size (negb (Nat.eqb (List.length prob_values) 0))
           else if memb col continuous then
             match variance values with
             | Some v => if qleb v 0 then do v0 <- lget values 0; Ok (repeat v0 size) else Ok (map (normal i) (seq 0 size))
             | None => Ok (map (normal i) (seq 0 size))
             end
           else ret_opt NameError (snd st));
        do t <- ret_opt KeyError (dget col ftype);
        let new_values := if eqb t "integer"%string then map truncate new_values else new_values in
        Ok (fst st ++ [new_values], Some new_values)) ([], None) (enumerate columns1);
    if Nat.eqb (List.length columns1) 0 then Err ValueError else
    if negb (forallb (fun row => Nat.eqb (List.length row) (List.length columns1)) X) then Err ValueError else
    Ok (X ++ map (fun j => map (fun c => nth j c 0) (fst st)) (seq 0 size)).

  (** neighbor_generator.py:102-135 random_neighborhood *)
  Definition random_neighborhood (choice : nat -> nat -> nat) (normal : nat -> nat -> Qc) (dfZ : frame) (x : list Qc) (stratified : bool)
      : res (frame * list (list Qc)) :=
    if stratified then
      do dfx <- explain_frame [x];
      do dfx0 <- lget (records dfx) 0;
      do neig <- get_closest_diffoutcome argsort (lore_distance (ds_discrete ds)) bb_cells dfZ dfx0 (ds_discrete ds) class_name (ds_encoders ds) 100 (qc 1 10);
      do Zle <- label_encode dfZ (ds_discrete ds) (Some (ds_encoders ds));
      do rows <- mapM (lget (matrix_without class_name (fst Zle))) neig;
      do Z <- mapM numbers rows;
      do Z <- generate_random_data choice normal Z (ds_columns ds) (ds_discrete ds) (ds_continuous ds) (ds_types ds) 1000 true;
      do df <- explain_frame Z;
      Ok (df, Z)
    else
      do Zle <- label_encode dfZ (ds_discrete ds) (Some (ds_encoders ds));
      do Z <- mapM numbers (matrix_without class_name (fst Zle));
      do Z <- generate_random_data choice normal Z (ds_columns ds) (ds_discrete ds) (ds_continuous ds) (ds_types ds) 1000 true;
      do df <- explain_frame Z;
      Ok (df, Z).

(* ------------------------------------------------------------------ *)
(** ** _lore_neighborhood.py *)

  (** _lore_neighborhood.py:52-59: values beyond the observed range are replaced by its bounds (pandas < 3: the chained assignment
      writes into the frame) *)
  Definition clip_columns (df : frame) (continuous : list string) (X2E : list (list Qc)) (feat_idx : dict string nat) : res frame :=
    foldM (fun ndf col =>
      do i <- ret_opt KeyError (dget col feat_idx);
      do observed <- qcolumn X2E i;
      do min_val <- qminimum observed;
      do max_val <- qmaximum observed;
      do cells <- fcolumn ndf col;
      do values <- numbers cells;
      let clipped := map (fun v => if qltb max_val v then max_val else v) values in
      let clipped := map (fun v => if qltb v min_val then min_val else v) clipped in
      Ok (dset col (map CNum clipped) ndf)) df continuous.
  (** |z-score| < 3, on the squares; scipy's z-scores of a constant column are NaN, which is below nothing *)
  Definition z_below_3 (values : list Qc) (x : Qc) : bool :=
    match qmean values, variance values with
    | Some m, Some v => qltb 0 v && qltb ((x - m) * (x - m)) (qz 9 * v)
    | _, _ => false
    end.
  (** _lore_neighborhood.py:61-65: the mask; the loop never runs, since rows are only removed *)
  Definition drop_outliers (df : frame) (continuous : list string) : res frame :=
    do cols <- mapM (fun c => do cells <- fcolumn df c; numbers cells) continuous;
    let mask := map (fun i => forallb (fun values => z_below_3 values (nth i values 0)) cols) (seq 0 (frame_length df)) in
    Ok (map (fun cc : string * list cell => (fst cc, map snd (filter fst (zip mask (snd cc))))) df).
  (** _lore_neighborhood.py:51-75 _smooth_neighborhood *)
  Definition smooth_neighborhood (instance : list Qc) (df : frame) (continuous : list string) (X2E : list (list Qc)) (feat_idx : dict string nat)
      (encs : encoders) : res (frame * list (list cell)) :=
    do clipped <- clip_columns df continuous X2E feat_idx;
    do kept <- drop_outliers clipped continuous;
    let instance_row := qz (bb instance) :: instance in
    if negb (Nat.eqb (List.length instance_row) (List.length kept)) then Err ValueError else
    let ndf := map (fun ccv : (string * list cell) * Qc => (fst (fst ccv), snd (fst ccv) ++ [CNum (snd ccv)])) (zip kept instance_row) in
    if memb class_name (dkeys ndf) then
      do edf <- foldM (fun edf (le : string * list cell) =>
          if eqb (fst le) class_name then Ok edf else
          do col <- fcolumn edf (fst le);
          do codes <- transform (snd le) col;
          Ok (dset (fst le) codes edf)) (filter (fun cc : string * list cell => negb (eqb (fst cc) class_name)) ndf) encs;
      Ok (ndf, matrix_without class_name edf)
    else Err KeyError.

  (** what fit leaves in the object *)
  Record lore_state := mkL {
    l_decoded_instance : list cell; l_decoded_target : list cell; l_Xy : frame; l_X : frame; l_y : list Z; l_y_decoded : list cell }.
  (** _lore_neighborhood.py:77-116 fit *)
  Definition lore_neighborhood (normal : nat -> nat -> Qc) (rnd : nat -> nat -> ea_draws) (hall : nat -> list nat)
      (instance : list Qc) (size : nat) (X2E : list (list Qc)) (idx : nat) : res lore_state :=
    do decoded <- mapM (fun iv : nat * string =>
        do v <- lget instance (fst iv);
        match dget (snd iv) (ds_encoders ds) with
        | Some classes => do d <- inverse_transform classes [CNum v]; lget d 0
        | None => Ok (CNum v)
        end) (enumerate (filter (fun c => negb (eqb c class_name)) (ds_columns ds)));
    do classes <- ret_opt KeyError (dget class_name (ds_encoders ds));
    do target <- inverse_transform classes [CNum (qz (bb instance))];
    do fv <- calculate_feature_values normal X2E (ds_columns ds) class_name (ds_discrete ds) (ds_continuous ds) size;
    do x <- lget X2E idx;
    do dfZ <- explain_frame X2E;
    do dZ <- genetic_neighborhood fv rnd hall dfZ x size;
    let feat_idx := dict_of (map (fun kf : nat * string => (snd kf, fst kf)) (ds_idx ds)) in
    do sm <- smooth_neighborhood instance (fst dZ) (filter (fun c => negb (eqb c class_name)) (ds_continuous ds)) X2E feat_idx (ds_encoders ds);
    do yd <- fcolumn (fst sm) class_name;
    Ok (mkL decoded target (fst sm) (filter (fun cc : string * list cell => negb (eqb (fst cc) class_name)) (fst sm))
            (map bb_cells (snd sm)) yd).
End Neighbor.
