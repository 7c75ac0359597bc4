(** * Model of src/teacher/tree/rule.py *)
From Verif Require Import Prelude M_Fuzzy.
Set Implicit Arguments.

(** rule.py:17-34 Rule.__init__ (simplify=False).  The type [V] of literal values is
    [string] (a set name) for ordinary rules and [list string] when the flag
    multiple_antecedents is set (the flag is thus the type); intervals and names for crisp
    rules. *)
Record rule (V : Type) := mkR { r_ant : list (string * V); r_cons : Z; r_weight : Qc }.
Arguments mkR {V} _ _ _.

(** membership of one instance: {feature: {set: degree}} *)
Definition imem := dict string (dict string Qc).

(** instance_membership[feature][value] *)
Definition degree (m : imem) (f v : string) : res Qc :=
  do d <- ret_opt KeyError (dget f m); ret_opt KeyError (dget v d).

(** except KeyError: return 0 (rule.py:86-87, 91-92) *)
Definition catch_key (r : res Qc) : res Qc :=
  match r with Err KeyError => Ok 0 | r => r end.

(** rule.py:88-92 Rule.matching, multiple_antecedents=False; [t_norm] is a function of the
    list of degrees *)
Definition matching_tn (t_norm : list Qc -> res Qc) (m : imem) (r : rule string) : res Qc :=
  catch_key (do ds <- mapM (fun fv => degree m (fst fv) (snd fv)) (r_ant r); t_norm ds).
Definition matching (m : imem) (r : rule string) : res Qc := matching_tn qminimum m r.

(** rule.py:77-87 Rule.matching, multiple_antecedents=True *)
Definition sum_degrees (m : imem) (f : string) (values : list string) : res Qc :=
  foldM (fun acc v => do d <- degree m f v; Ok (acc + d)) 0 values.
Definition matching_multi_tn (t_norm : list Qc -> res Qc) (m : imem) (r : rule (list string)) : res Qc :=
  catch_key (do ds <- mapM (fun fv => sum_degrees m (fst fv) (snd fv)) (r_ant r); t_norm ds).
Definition matching_multi (m : imem) (r : rule (list string)) : res Qc := matching_multi_tn qminimum m r.

(** rule.py:53-63 Rule.simplify; [len] is Python's len of a literal value *)
Definition simplify_ant {V} (len : V -> nat) (ant : list (string * V)) : list (string * V) :=
  fold_left (fun d fv =>
    match dget (fst fv) d with
    | None => dset (fst fv) (snd fv) d
    | Some old => if Nat.ltb (len (snd fv)) (len old) then dset (fst fv) (snd fv) d else d
    end) ant [].
Definition simplify {V} (len : V -> nat) (r : rule V) : rule V :=
  mkR (simplify_ant len (r_ant r)) (r_cons r) (r_weight r).

(** {fv.name: fv.fuzzy_sets for fv in fuzzy_variables} (rule.py:108, 120, 147, 218-219) *)
Definition vars_dict (vars : list fvar) : dict string (list fset) :=
  dict_of (map (fun v => (fv_name v, fv_sets v)) vars).
(** {fs.name: fs for fs in sets} (rule.py:112, 124, 151, 229) *)
Definition sets_dict (sets : list fset) : dict string fset :=
  dict_of (map (fun s => (fs_name s, s)) sets).
Definition find_set (vars : list fvar) (f v : string) : res fset :=
  do sets <- ret_opt KeyError (dget f (vars_dict vars)); ret_opt KeyError (dget v (sets_dict sets)).

(** one tuple of "fuzzy_things": (feature, name, points) or (feature, name) *)
Definition thing := (string * string * option (Qc * Qc * Qc))%type.
Definition describe (f : string) (s : fset) : thing :=
  match s with
  | FC c => (f, c_name c, Some (pa c, pb c, pc c))
  | FD n _ => (f, n, None)
  end.
(** rule.py:94-131 to_json *)
Definition to_json (vars : list fvar) (r : rule string)
    : res (dict string string * Z * Qc * list thing) :=
  do ths <- mapM (fun fv => do s <- find_set vars (fst fv) (snd fv); Ok (describe (fst fv) s)) (r_ant r);
  Ok (dict_of (r_ant r), r_cons r, r_weight r, ths).
Definition to_json_multi (vars : list fvar) (r : rule (list string))
    : res (dict string (list string) * Z * Qc * list thing) :=
  do ths <- mapM (fun fv =>
      do sets <- ret_opt KeyError (dget (fst fv) (vars_dict vars));
      mapM (fun v => do s <- ret_opt KeyError (dget v (sets_dict sets)); Ok (describe (fst fv) s)) (snd fv))
    (r_ant r);
  Ok (dict_of (r_ant r), r_cons r, r_weight r, List.concat ths).

(** rule.py:133-163 to_crisp: continuous literals become intervals, others keep the name *)
Inductive crisp := CrInterval (l r : Qc) | CrName (n : string).
Definition to_crisp (cut : Qc) (vars : list fvar) (r : rule string) : res (rule crisp) :=
  do ant <- mapM (fun fv =>
      do s <- find_set vars (fst fv) (snd fv);
      do v <- match s with
              | FC c => do lr <- alpha_cut c cut; Ok (CrInterval (fst lr) (snd lr))
              | FD _ _ => Ok (CrName (snd fv))
              end;
      Ok (fst fv, v)) (r_ant r);
  Ok (mkR ant (r_cons r) (r_weight r)).

(** rule.py:165-188 weighted_vote *)
Definition vote_dict (rules : list (rule string)) (m : imem) : res (dict Z Qc) :=
  foldM (fun d r => do x <- matching m r; Ok (dadd (r_cons r) (x * r_weight r) d)) [] rules.
(** max(d, key=lambda c: d[c]): first key of maximal value *)
Definition dict_argmax (d : dict Z Qc) : res Z :=
  do kv <- ret_opt ValueError (max_by (fun a b => qltb (snd a) (snd b)) d); Ok (fst kv).
Definition weighted_vote (rules : list (rule string)) (m : imem) : res Z :=
  do d <- vote_dict rules m; dict_argmax d.

(** rule.py:190-240 map_rule_variables *)
Inductive map_function := MapIntersection | MapSimmilarity | MapOther.
Definition keys_eqb (d1 d2 : dict string (list fset)) : bool :=
  forallb (fun k => dmem k d2) (dkeys d1) && forallb (fun k => dmem k d1) (dkeys d2).
Definition best_set (key : fset -> res Qc) (sets : list fset) : res fset :=
  do ks <- mapM (fun s => do k <- key s; Ok (k, s)) sets;
  do b <- ret_opt ValueError (max_by (fun a b => qltb (fst a) (fst b)) ks);
  Ok (snd b).
Definition map_rule_variables (r : rule string) (origin dest : list fvar) (mf : map_function)
    : res (rule string) :=
  if negb (keys_eqb (vars_dict origin) (vars_dict dest)) then Err ValueError else
  do ant <- mapM (fun fv =>
      do o_sets <- ret_opt KeyError (dget (fst fv) (vars_dict origin));
      do d_sets <- ret_opt KeyError (dget (fst fv) (vars_dict dest));
      do o <- ret_opt KeyError (dget (snd fv) (sets_dict o_sets));
      do b <- match mf with
              | MapIntersection => best_set (fun s => intersection s o) d_sets
              | MapSimmilarity => best_set (fun s => simmilarity s o) d_sets
              | MapOther => Err ValueError
              end;
      Ok (fst fv, fs_name b)) (r_ant r);
  Ok (mkR ant (r_cons r) (r_weight r)).
