(** * Model of src/teacher/neighbors: _base_neighborhood.py, _fuzzy_neighborhood.py, _simple_neighborhood.py and the
    fit/fuzzify methods of _sampling_neighborhood.py and _lore_neighborhood.py *)
From Verif Require Import Prelude M_Fuzzy M_Discretize M_Rule M_FDT M_Counterfactual M_Explainer.
From Coq Require Import Reals.
Set Implicit Arguments.
Open Scope Qc_scope.

(** a pandas DataFrame: column names and rows *)
Record table := mkTb { tb_cols : list string; tb_rows : list (list cell) }.
(** X[name] *)
Definition tb_column (tb : table) (c : string) : res (list cell) :=
  do i <- (match index_of c (tb_cols tb) with Ok i => Ok i | Err _ => Err KeyError end); column (tb_rows tb) i.
(** arithmetic on a column needs numbers *)
Definition numbers (col : list cell) : res (list Qc) :=
  mapM (fun x => match x with CNum q => Ok q | CStr _ => Err TypeError end) col.
(** _fuzzy_neighborhood.py:81, 86: X[num].std() < 0.00001, by the square of both sides (pandas' std has ddof=1 and
    is NaN for fewer than two rows) *)
Definition small_std (l : list Qc) : bool :=
  match l with
  | [] | [_] => false
  | _ => let mean := qsum l / qn (List.length l) in
         qltb (qsum (map (fun x => (x - mean) * (x - mean)) l) / (qn (List.length l) - 1)) (qc 1 10000000000)
  end.
(** pandas' unique(): the distinct values in order of first appearance *)
Fixpoint appearing (l : list cell) : list cell :=
  match l with
  | [] => []
  | x :: l' => x :: filter (fun y => negb (eqb y x)) (appearing l')
  end.

Section Fuzzify.
  (** pandas.cut / pandas.qcut as oracles: for a method, a column and a number of sets the results of the two
      calls (see M_Discretize.equal_width, equal_freq); str() of numbers and of cells *)
  Variables (cut : string -> list Qc -> Z -> option (list Qc * Qc) * option (list Qc * Qc))
    (show : Qc -> string) (show_cell : cell -> string).

  (** _base.py:29-91 get_fuzzy_points(method, columns, X, y, sets, point_variables, th=th), max_depth=0.  check_X_y
      rejects a table without rows or columns and labels of another length *)
  Definition points_of (method : string) (y : list Z) (sets : Z) (th : option R) (pv : list string) (nc : string * list Qc) : res (list Qc) :=
    let '(name, col) := nc in
    if memb name pv then Ok (qunique col)
    else if eqb method "entropy"%string then entropy_points 0 th (zip col y)
    else if eqb method "equal_width"%string then equal_width (fst (cut method col sets)) (snd (cut method col sets)) col
    else equal_freq (fst (cut method col sets)) (snd (cut method col sets)) col.
  Definition get_fuzzy_points (method : string) (cols : list (string * list Qc)) (rows : nat) (y : list Z) (sets : Z) (th : option R) (pv : list string)
      : res (dict string (list Qc)) :=
    if Nat.eqb (List.length cols) 0 || Nat.eqb rows 0 || negb (Nat.eqb rows (List.length y)) then Err ValueError else
    if negb (memb method ["equal_freq"; "equal_width"; "entropy"]%string) then Err ValueError else
    do pts <- mapM (fun nc => do p <- points_of method y sets th pv nc; Ok (fst nc, p)) cols;
    Ok (dict_of pts).

  (** _base.py:94-120 dataset_membership where an entry of the list of variables may be None *)
  Definition dataset_membership_opt (X : list (list cell)) (vars : list (option fvar)) : res xmem :=
    do l <- mapM (fun iv => let '(i, ov) := iv in
        match ov with
        | None => Err AttributeError
        | Some v => do col <- column X i; do d <- var_membership v col; Ok (fv_name v, d)
        end) (enumerate vars);
    Ok (dict_of l).
  (** the membership of a single instance: arrays of length one, read as numbers *)
  Definition single (m : xmem) : imem := map (fun fd => (fst fd, map (fun sl => (fst sl, nth 0 (snd sl) 0)) (snd fd))) m.

  (** _base_neighborhood.py:35-37, _fuzzy_neighborhood.py:28-30 and the attributes set by fit; [nb_Xy]: _Xy is not None *)
  Record nbhd := mkNb {
    nb_X : option table; nb_y : option (list Z); nb_Xy : bool; nb_decoded : option (list cell); nb_y_decoded : option (list cell);
    nb_vars : option (list (option fvar)); nb_XM : option xmem; nb_IM : option imem }.
  Definition new_nbhd : nbhd := mkNb None None false None None None None None.

  (** _base_neighborhood.py:50-86, _fuzzy_neighborhood.py:104-161; get_y_decoded is a plain attribute *)
  Definition get_X (s : nbhd) : res table := ret_opt NotFitted (nb_X s).
  Definition get_y (s : nbhd) : res (list Z) := ret_opt NotFitted (nb_y s).
  Definition get_X_membership (s : nbhd) : res xmem := ret_opt NotFuzzified (nb_XM s).
  Definition get_instance_membership (s : nbhd) : res imem := ret_opt NotFuzzified (nb_IM s).
  Definition get_vars (s : nbhd) : res (list (option fvar)) := ret_opt NotFuzzified (nb_vars s).
  Definition get_y_decoded (s : nbhd) : res (list cell) := ret_opt AttributeError (nb_y_decoded s).

  (** the keyword arguments of fuzzify; [z_verbose]: verbose is given, [z_inst]: instance_membership *)
  Record zargs := mkZ {
    z_sets : option Z; z_verbose : bool; z_num : option (list string); z_cat : option (list string); z_th : option (option R); z_inst : option bool }.

  Definition set_vars (s : nbhd) vs := mkNb (nb_X s) (nb_y s) (nb_Xy s) (nb_decoded s) (nb_y_decoded s) (Some vs) (nb_XM s) (nb_IM s).
  Definition set_XM (s : nbhd) xm := mkNb (nb_X s) (nb_y s) (nb_Xy s) (nb_decoded s) (nb_y_decoded s) (nb_vars s) (Some xm) (nb_IM s).
  Definition set_IM (s : nbhd) im := mkNb (nb_X s) (nb_y s) (nb_Xy s) (nb_decoded s) (nb_y_decoded s) (nb_vars s) (nb_XM s) (Some im).
  Definition set_X (s : nbhd) X := mkNb (Some X) (nb_y s) (nb_Xy s) (nb_decoded s) (nb_y_decoded s) (nb_vars s) (nb_XM s) (nb_IM s).
  Definition set_y (s : nbhd) y := mkNb (nb_X s) (Some y) (nb_Xy s) (nb_decoded s) (nb_y_decoded s) (nb_vars s) (nb_XM s) (nb_IM s).
  Definition set_Xy (s : nbhd) := mkNb (nb_X s) (nb_y s) true (nb_decoded s) (nb_y_decoded s) (nb_vars s) (nb_XM s) (nb_IM s).
  Definition set_decoded (s : nbhd) d := mkNb (nb_X s) (nb_y s) (nb_Xy s) (Some d) (nb_y_decoded s) (nb_vars s) (nb_XM s) (nb_IM s).
  Definition set_y_decoded (s : nbhd) d := mkNb (nb_X s) (nb_y s) (nb_Xy s) (nb_decoded s) (Some d) (nb_vars s) (nb_XM s) (nb_IM s).

  (** _fuzzy_neighborhood.py:69-97 fuzzify up to the fuzzy variables; unknown keyword arguments are ignored *)
  Definition fuzzy_vars (s : nbhd) (division : string) (kw : zargs) : res (table * list (option fvar)) :=
    match nb_X s, nb_y s, nb_Xy s with
    | Some X, Some y, true =>
        if (eqb division "equal_width"%string || eqb division "equal_freq"%string) && negb (given (z_sets kw)) then Err ValueError else
        match z_num kw, z_cat kw with
        | Some num, Some cat =>
            do cols <- mapM (fun c => do col <- tb_column X c; do q <- numbers col; Ok (c, q)) num;
            let pv := map fst (filter (fun cq => small_std (snd cq)) cols) in
            if z_verbose kw then Err TypeError else          (* get_fuzzy_points has no parameter verbose *)
            do points <- get_fuzzy_points division cols (List.length (tb_rows X)) y (or_default 0%Z (z_sets kw)) (or_default None (z_th kw)) pv;
            do disc <- mapM (fun c => do col <- tb_column X c; Ok (c, appearing col)) cat;
            let order := dict_of (map (fun ic => (snd ic, fst ic)) (enumerate (tb_cols X))) in
            do vars <- get_fuzzy_variables show show_cell points (dict_of disc) order None None "point_set"%string;
            Ok (X, vars)
        | _, _ => Err ValueError
        end
    | _, _, _ => Err NotFitted
    end.
  (** _fuzzy_neighborhood.py:97-102: assignments, with the membership of self.instance if [with_instance] *)
  Definition fuzzify_base (inst : list cell) (with_instance : bool) (s : nbhd) (division : string) (kw : zargs) : nbhd * option exn :=
    tryS (fuzzy_vars s division kw) s (fun Xv =>
    let s1 := set_vars s (snd Xv) in
    tryS (dataset_membership_opt (tb_rows (fst Xv)) (snd Xv)) s1 (fun xm =>
    let s2 := set_XM s1 xm in
    if with_instance then
      tryS (if Nat.ltb (List.length (tb_cols (fst Xv))) (List.length inst) then Err IndexError
            else dataset_membership_opt [inst] (snd Xv)) s2 (fun im => (set_IM s2 (single im), None))
    else (s2, None))).
  (** the last line of both subclasses: the membership of decoded_instance with the variables just made *)
  Definition decoded_membership (r : nbhd * option exn) : nbhd * option exn :=
    match r with
    | (s, Some e) => (s, Some e)
    | (s, None) =>
        tryS (ret_opt AttributeError (nb_decoded s)) s (fun d =>
        tryS (ret_opt TypeError (nb_vars s)) s (fun vs =>
        tryS (dataset_membership_opt [d] vs) s (fun im => (set_IM s (single im), None))))
    end.
  (** _lore_neighborhood.py:118-120 fuzzify *)
  Definition lore_fuzzify (inst : list cell) (s : nbhd) (division : string) (kw : zargs) : nbhd * option exn :=
    decoded_membership (fuzzify_base inst (or_default true (z_inst kw)) s division kw).
  (** _sampling_neighborhood.py:178-181 fuzzify: instance_membership must not be given again *)
  Definition sampling_fuzzify (inst : list cell) (s : nbhd) (division : string) (kw : zargs) : nbhd * option exn :=
    match z_inst kw with
    | Some _ => (s, Some TypeError)
    | None => decoded_membership (fuzzify_base inst false s division kw)
    end.

  (** the results of the computations made by fit, each of which may raise: decoding the instance, generating the encoded
      neighbourhood, predicting and decoding the target, decoding the table, predicting the table, decoding the predictions *)
  Record outcome := mkO {
    o_decoded : res (list cell); o_Z : res table; o_target : res unit; o_df : res table; o_y : res (list Z); o_y_decoded : res (list cell) }.
  (** _sampling_neighborhood.py:149-176 fit *)
  Definition sampling_fit (s : nbhd) (o : outcome) : nbhd * option exn :=
    tryS (o_decoded o) s (fun d =>
    tryS (o_Z o) s (fun _ =>
    let s1 := set_decoded s d in
    tryS (o_target o) s1 (fun _ =>
    tryS (o_df o) s1 (fun df =>
    let s2 := set_X s1 df in
    tryS (o_y o) s2 (fun y =>
    let s3 := set_Xy (set_y s2 y) in
    tryS (o_y_decoded o) s3 (fun yd => (set_y_decoded s3 yd, None))))))).
  (** _lore_neighborhood.py:77-116 fit: [o_df] is the decoded, smoothed table without the class column *)
  Definition lore_fit (s : nbhd) (o : outcome) : nbhd * option exn :=
    tryS (o_decoded o) s (fun d =>
    let s1 := set_decoded s d in
    tryS (o_target o) s1 (fun _ =>
    tryS (o_Z o) s1 (fun _ =>
    tryS (o_df o) s1 (fun df =>
    let s2 := set_X (set_Xy s1) df in
    tryS (o_y o) s2 (fun y =>
    let s3 := set_y s2 y in
    tryS (o_y_decoded o) s3 (fun yd => (set_y_decoded s3 yd, None))))))).
End Fuzzify.

(** _simple_neighborhood.py:26-28 SimpleNeighborhood.fit; [bb] is bb.predict on a table *)
Definition simple_fit (instance : list cell) (size : nat) (bb : list (list cell) -> res (list Z)) (s : nbhd) : nbhd * option exn :=
  let rows := repeat instance size in
  let s1 := set_X s (mkTb (map (fun _ => ""%string) instance) rows) in
  tryS (bb rows) s1 (fun y => (set_y s1 y, None)).
