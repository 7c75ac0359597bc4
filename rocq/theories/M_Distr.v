(** * Model of the rest of src/teacher/neighbors/gpdatagenerator.py: estimating a distribution for a column of numbers, and
    calculate_feature_values with its flags; and of util.generate_artificial_features *)
From Verif Require Import Prelude M_Fuzzy M_Discretize M_Rule M_FDT M_ID3 M_Neighborhood M_Sampling M_Genetic M_Utils M_Lore.
From Coq Require Import Reals.
From Coq Require DecimalString.
Set Implicit Arguments.
Open Scope Qc_scope.

(** numpy.percentile(x, 100 * q) with linear interpolation, for a non-empty [x] *)
Definition percentile (q : Qc) (x : list Qc) : Qc :=
  let s := sort_asc (fun v => v) x in
  let pos := q * qn (List.length x - 1) in
  let lo := Z.to_nat (Qround.Qfloor (this pos)) in
  let a := nth lo s 0 in
  let b := nth (S lo) s a in
  a + (pos - qn lo) * (b - a).
(** math.ceil of a finite number *)
Definition ceiling (r : R) : Z := (- Int_part (- r))%Z.
(** gpdatagenerator.py:296-301 freedman_diaconis, for a non-empty [x].  numpy divides by 0 to inf or NaN, on which math.ceil
    raises OverflowError or ValueError *)
Definition freedman_diaconis (x : list Qc) : res Z :=
  let iqr := percentile (qc 3 4) x - percentile (qc 1 4) x in
  do hi <- qmaximum x; do lo <- qminimum x;
  if qeqb iqr 0 then (if qeqb (hi - lo) 0 then Err ValueError else Err OverflowError)
  else Ok (ceiling (qr (hi - lo) / (2 * qr iqr / Rpower (INR (List.length x)) (1 / 3)))).
(** gpdatagenerator.py:304-307 struges; the logarithm of 0 is -inf, on which math.ceil raises OverflowError *)
Definition struges (x : list Qc) : res Z :=
  if Nat.eqb (List.length x) 0 then Err OverflowError else Ok (ceiling (ln (INR (List.length x)) / ln 2) + 1)%Z.
(** gpdatagenerator.py:310-318 estimate_nbr_bins; lines 315-316 test for inf and NaN, which an integer never is *)
Definition estimate_nbr_bins (x : list Qc) : res Z :=
  if Nat.eqb (List.length x) 1 then Ok 1%Z else
  do k_fd <- (if Nat.ltb 2 (List.length x) then freedman_diaconis x else Ok 1%Z);
  do k_struges <- struges x;
  Ok (Z.max k_fd k_struges).

(** gpdatagenerator.py:291-293 DISTRIBUTIONS, by name *)
Definition DISTRIBUTIONS : list string :=
  ["uniform"; "dweibull"; "exponweib"; "expon"; "exponnorm"; "gamma"; "beta"; "alpha"; "chi"; "chi2"; "laplace"; "lognorm"; "norm"; "powerlaw"]%string.
Section Fitting.
  (** the attempt to fit the named distribution of scipy.stats to the data with that number of bins: [None] if it raises, else
      the parameters and the sum of squared errors ([None]: NaN or inf) *)
  Variable attempt : list Qc -> Z -> string -> option (list Qc * option Qc).
  (** dist.ppf(q, *arg, loc=loc, scale=scale) *)
  Variable ppf : string -> list Qc -> Qc -> Qc.
  (** gpdatagenerator.py:333-370: the loop; best_sse = inf is [None] *)
  Definition fit_among (data : list Qc) (bins : Z) (names : list string) : (string * list Qc) * option Qc :=
    fold_left (fun best d =>
      match attempt data bins d with
      | Some (params, Some sse) =>
          if match snd best with None => true | Some b => qltb sse b end && qltb 0 sse then ((d, params), Some sse) else best
      | _ => best
      end) names (("norm"%string, [0; 1]), None).
  (** gpdatagenerator.py:322-372 best_fit_distribution (ax=None) *)
  Definition best_fit_distribution (data : list Qc) (bins : Z) : string * list Qc := fst (fit_among data bins DISTRIBUTIONS).
  (** numpy.linspace(start, end, size) *)
  Definition linspace (start stop : Qc) (size : nat) : list Qc :=
    map (fun i => start + qn i * ((stop - start) / qn (size - 1))) (seq 0 size).
  (** gpdatagenerator.py:274-288 get_distr_values *)
  Definition get_distr_values (x : list Qc) (size : nat) : res (list Qc) :=
    do nbr_bins <- estimate_nbr_bins x;
    let '(name, params) := best_fit_distribution x nbr_bins in
    Ok (linspace (ppf name params (qc 1 100)) (ppf name params (qc 99 100)) size).
  (** gpdatagenerator.py:241-271 calculate_feature_values with its flags; [normal], and a column in neither list, as for
      M_Lore.calculate_feature_values; [choice i j]: the j-th choice for feature [i], any value of the column, since every
      probability is positive *)
  Definition calculate_values (use_probabilities estimation : bool) (normal : nat -> nat -> Qc) (choice : nat -> nat -> nat) (X : list (list Qc))
      (columns : list string) (class_name : string) (discrete continuous : list string) (size : nat) : res (dict nat (list Qc)) :=
    do columns1 <- list_remove class_name columns;
    do st <- foldM (fun (st : dict nat (list Qc) * option (list Qc)) (ic : nat * string) =>
        let '(i, col) := ic in
        do values <- qcolumn X i;
        do new_values <-
          (if memb col discrete then
             if use_probabilities then do drawn <- np_choice (choice i) (qunique values) size true; Ok (values ++ drawn)
             else Ok (qunique values)
           else if memb col continuous then
             do new <- (if estimation then get_distr_values values size else Ok (map (normal i) (seq 0 size)));
             Ok (values ++ new)
           else ret_opt NameError (snd st));
        Ok (dset i new_values (fst st), Some new_values)) ([], None) (enumerate columns1);
    Ok (fst st).
End Fitting.

(* ------------------------------------------------------------------ *)
(** ** util.py generate_artificial_features *)
(** the arguments that are changed in place *)
Record art_state := mkArt { a_columns : list string; a_types : dict string string; a_discrete : list string; a_continuous : list string }.
(** 'artificial_disc_%d' % i, 'artificial_cont_%d' % i *)
Definition art_name (prefix : string) (i : nat) : string := (prefix ++ DecimalString.NilZero.string_of_uint (Nat.to_uint i))%string.
(** the lazy result map(list, map(None, ...)) when it is read: the rows are only built from non-empty columns, where calling
    None raises TypeError *)
Definition read_map (size : nat) : res (list (list Qc)) := if Nat.eqb size 0 then Ok [] else Err TypeError.
(** util.py:122-181 generate_artificial_features; the drawn values are not kept, as they cannot be read.
    The outcome: the changed arguments, and the result of reading the first component with the two lists of names, or the
    exception: map(None) without data raises TypeError *)
Definition generate_artificial_features (size : nat) (class_name : string) (st : art_state) (ratio : Qc)
    : art_state * res (res (list (list Qc)) * list string * list string) :=
  match list_remove class_name (a_discrete st) with
  | Err e => (st, Err e)
  | Ok discrete_no_class =>
      let num_art := np_round (ratio * qz (Z.of_nat (List.length (a_columns st)) - 1)) in
      let num_disc := np_round (ratio * qn (List.length discrete_no_class)) in
      let num_cont := Z.max 0 (num_art - num_disc) in
      let new_disc := map (art_name "artificial_disc_") (seq 0 (Z.to_nat num_disc)) in
      let new_cont := map (art_name "artificial_cont_") (seq 0 (Z.to_nat num_cont)) in
      let types := fold_left (fun d n => dset n "double"%string d) new_cont (fold_left (fun d n => dset n "integer"%string d) new_disc (a_types st)) in
      let st' := mkArt (a_columns st ++ new_disc ++ new_cont) types (a_discrete st ++ new_disc) (a_continuous st ++ new_cont) in
      (st', if Nat.eqb (List.length (new_disc ++ new_cont)) 0 then Err TypeError else Ok (read_map size, new_disc, new_cont))
  end.
