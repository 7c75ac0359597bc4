(** * Model of src/teacher/tree/fdt_tree.py, _voting.py and base_decision_tree.py *)
From Verif Require Import Prelude M_Fuzzy M_Discretize M_Rule.
From Coq Require Import Reals.
Set Implicit Arguments.
Open Scope Qc_scope.

(** fdt_tree.py:33-45 TreeFDT: is_leaf, childlist, class_value ([None] is the initial -1),
    level, value, fuzzy_variable, mu.  t_norm and voting are only read from the root
    (fdt_tree.py:77, 96) and live in the configuration below. *)
Inductive tree := Tree (is_leaf : bool) (childlist : list tree) (class_value : option (dict Z Qc))
    (level : Z) (value : option (nat * nat)) (fuzzy_variable : option fvar) (mu : list Qc).
Definition t_leaf (t : tree) := let 'Tree l _ _ _ _ _ _ := t in l.
Definition t_children (t : tree) := let 'Tree _ c _ _ _ _ _ := t in c.
Definition t_class (t : tree) := let 'Tree _ _ c _ _ _ _ := t in c.
Definition t_level (t : tree) := let 'Tree _ _ _ l _ _ _ := t in l.
Definition t_value (t : tree) := let 'Tree _ _ _ _ v _ _ := t in v.
Definition t_var (t : tree) := let 'Tree _ _ _ _ _ v _ := t in v.
Definition t_mu (t : tree) := let 'Tree _ _ _ _ _ _ m := t in m.
Definition new_tree (value : option (nat * nat)) (var : option fvar) (mu : list Qc) : tree :=
  Tree true [] None (-1) value var mu.

(** fdt_tree.py:22-25 VOTING_METHODS and the lookup at 42-45 *)
Inductive voting := AggVote | MaxMatch.
Definition voting_of (s : string) : res voting :=
  if eqb s "agg_vote"%string then Ok AggVote
  else if eqb s "max_match"%string then Ok MaxMatch else Err ValueError.

(** fdt_tree.py:133-161 FDT.__init__ (th and prunning are never read) *)
Record fdt_cfg := mkFDT {
  f_vars : list fvar; f_threshold : R; f_max_depth : Z; f_min_examples : Z;
  f_tnorm : Qc -> Qc -> Qc; f_voting : voting }.
(** self.features = set(names); its iteration order is supplied by an oracle *)
Definition f_features (cfg : fdt_cfg) : list string := nodup string_dec (map fv_name (f_vars cfg)).
(** features_dict, fdt_tree.py:157 *)
Definition f_positions (vars : list fvar) : dict string nat :=
  dict_of (map (fun iv => (fv_name (snd iv), fst iv)) (enumerate vars)).

Definition xmem := dict string (dict string (list Qc)).

(** fdt_tree.py:167-191: the gain of one feature.  crisp_cardinality = 0 makes numpy produce
    NaN; it is modelled as an error, proved unreachable. *)
Definition child_mus (t_norm : Qc -> Qc -> Qc) (mu : list Qc) (sets : dict string (list Qc)) : dict string (list Qc) :=
  map (fun nv => (fst nv, map2 t_norm mu (snd nv))) sets.
Definition feature_gain (t_norm : Qc -> Qc -> Qc) (mu : list Qc) (XM : xmem) (y : list Z) (feature : string)
    : res (R * dict string (list Qc)) :=
  let f_ent := fuzzy_entropy mu y in
  do sets <- ret_opt KeyError (dget feature XM);
  let child_mu := child_mus t_norm mu sets in
  let wef := rsum (map (fun nv => qr (qsum (snd nv)) * fuzzy_entropy (snd nv) y)%R child_mu) in
  if qeqb (qsum mu) 0 then Err ZeroDivisionError else
  Ok ((f_ent - wef / qr (qsum mu))%R, child_mu).
(** fdt_tree.py:163-198 _get_max_f_gain on the features in iteration order *)
Definition max_f_gain (t_norm : Qc -> Qc -> Qc) (mu : list Qc) (features : list string) (XM : xmem) (y : list Z)
    : res (string * R * dict string (list Qc)) :=
  foldM (fun best feature =>
    do g <- feature_gain t_norm mu XM y feature;
    if Rltb (snd (fst best)) (fst g) then Ok (feature, fst g, snd g) else Ok best)
    (""%string, 0%R, []) features.

(** fdt_tree.py:200-209 _stop_met *)
Definition stop_met (cfg : fdt_cfg) (gain : R) (y_masked : list Z) (level : Z) : bool :=
  Nat.ltb (List.length (zunique y_masked)) 2
  || Z.ltb (Z.of_nat (List.length y_masked)) (f_min_examples cfg)
  || Z.leb (f_max_depth cfg) level
  || Rltb gain (f_threshold cfg).

(** fdt_tree.py:211-217 _get_class_value; a zero sum gives NaN in numpy, an error here
    (proved unreachable) *)
Definition get_class_value (mu : list Qc) (y : list Z) : res (dict Z Qc) :=
  if qeqb (qsum mu) 0 then Err ZeroDivisionError else
  Ok (map (fun c => (c, class_card mu y c / qsum mu)) (zunique y)).

(** y[mask], fdt_tree.py:229-230 *)
Definition masked (mu : list Qc) (y : list Z) : list Z :=
  map snd (filter (fun p => qltb 0 (fst p)) (zip mu y)).

(** fdt_tree.py:225-249 _partial_fit.  Returns the updated node; [fuel] bounds the depth
    (shown sufficient), [ord path s] is the iteration order of the feature set [s] at the node
    reached by [path].  The state of the tree after an exception is modelled in M_FitState. *)
Fixpoint partial_fit (fuel : nat) (cfg : fdt_cfg) (ord : list (nat * nat) -> list string -> list string)
    (XM : xmem) (y : list Z) (node : tree) (path : list (nat * nat)) (features : list string) (depth : Z)
    : res tree :=
  match fuel with
  | O => Err OutOfFuel
  | S fuel' =>
    let mu := t_mu node in
    do best <- max_f_gain qmin mu (ord path features) XM y;
    let '(att, gain, child_mu) := best in
    if stop_met cfg gain (masked mu y) depth then
      do cv <- get_class_value mu y;
      Ok (Tree true (t_children node) (Some cv) depth (t_value node) (t_var node) mu)
    else
      do sets <- ret_opt KeyError (dget att XM);
      do children <- mapM (fun iv =>
          let '(i, value) := iv in
          if negb (memb att features) then Err KeyError else        (* new_features.remove(att) *)
          do a <- ret_opt KeyError (dget att (f_positions (f_vars cfg)));
          do v <- ret_opt IndexError (nth_error (f_vars cfg) a);
          do m <- ret_opt KeyError (dget value child_mu);
          let child := new_tree (Some (a, i)) (Some v) m in
          if qltb 0 (qsum m) then
            partial_fit fuel' cfg ord XM y child (path ++ [(a, i)]) (remove string_dec att features) (depth + 1)
          else
            do cv <- get_class_value mu y;
            Ok (Tree true [] (Some cv) (-1) (Some (a, i)) (Some v) m))
        (enumerate (dkeys sets));
      Ok (Tree false (t_children node ++ children) (t_class node) depth (t_value node) (t_var node) mu)
  end.

(** fdt_tree.py:219-223 fit; [root] is the current self.tree_ (check_X_y: non-empty arrays of
    equal length, otherwise ValueError) *)
Definition fit (cfg : fdt_cfg) (ord : list (nat * nat) -> list string -> list string)
    (root : tree) (X : list (list cell)) (y : list Z) : res tree :=
  if negb (Nat.eqb (List.length X) (List.length y)) || Nat.eqb (List.length y) 0 then Err ValueError else
  do XM <- dataset_membership X (f_vars cfg);
  let root' := Tree (t_leaf root) (t_children root) (t_class root) (t_level root) (t_value root) (t_var root)
                    (repeat 1 (List.length y)) in
  partial_fit (S (List.length (f_features cfg))) cfg ord XM y root' [] (f_features cfg) 0.
(** fdt_tree.py:160: the unfitted root *)
Definition fresh_root : tree := new_tree None None [].

(** fdt_tree.py:88-102 _partial_predict: the leaves with their activations.  (The handler for
    KeyError cannot fire: neither indexing a list nor membership raises it.) *)
Fixpoint partial_predict (tn : Qc -> Qc -> Qc) (X : list (list cell)) (mu : list Qc) (t : tree)
    : res (list (option (dict Z Qc) * list Qc)) :=
  let 'Tree is_leaf children cv _ value var _ := t in
  do new_mu <-
    match value with
    | Some (att, i) =>
        do v <- ret_opt AttributeError var;
        do s <- ret_opt IndexError (nth_error (fv_sets v) i);
        do col <- column X att;
        do d <- membership_col s col;
        Ok (map2 tn mu d)
    | None => Ok mu
    end;
  if is_leaf then Ok [(cv, new_mu)]
  else match children with
       | [] => Err ValueError                                  (* np.concatenate([]) *)
       | _ => do ls <- mapM (partial_predict tn X new_mu) children; Ok (List.concat ls)
       end.

(** _voting.py:16-21 and 24-29; iterating the initial class value -1 raises TypeError *)
Definition vote_add (combine0 : list Qc -> list Qc) (combine : list Qc -> list Qc -> list Qc)
    (d : dict Z (list Qc)) (leaf : option (dict Z Qc) * list Qc) : res (dict Z (list Qc)) :=
  do cv <- ret_opt TypeError (fst leaf);
  Ok (fold_left (fun d kw =>
        let v := map (fun x => snd kw * x) (snd leaf) in
        dset (fst kw) (match dget (fst kw) d with None => combine0 v | Some old => combine old v end) d) cv d).
Definition aggregated_vote := foldM (vote_add (fun v => v) (map2 Qcplus)).
Definition maximum_matching := foldM (vote_add (map (qmax 0)) (map2 qmax)).
Definition vote (v : voting) (leaves : list (option (dict Z Qc) * list Qc)) : res (dict Z (list Qc)) :=
  match v with AggVote => aggregated_vote [] leaves | MaxMatch => maximum_matching [] leaves end.

(** fdt_tree.py:75-86 predict (BaseDecisionTree.predict wraps the list in one more axis) *)
Definition row_votes (votes : dict Z (list Qc)) (j : nat) : list (Z * Qc) :=
  map (fun kv => (fst kv, nth j (snd kv) 0)) votes.
Definition predict (cfg : fdt_cfg) (t : tree) (X : list (list cell)) : res (list Z) :=
  do leaves <- partial_predict (f_tnorm cfg) X (repeat 1 (List.length X)) t;
  do votes <- vote (f_voting cfg) leaves;
  mapM (fun j => dict_argmax (row_votes votes j)) (seq 0 (List.length X)).

(** fdt_tree.py:108-129 _get_rules *)
Fixpoint get_rules (t : tree) (prefix : list (string * string)) (th : Qc) : res (list (rule string)) :=
  let 'Tree is_leaf children cv _ value var _ := t in
  do new_rule <-
    match value with
    | Some (_, i) =>
        do v <- ret_opt AttributeError var;
        do s <- ret_opt IndexError (nth_error (fv_sets v) i);
        Ok (prefix ++ [(fv_name v, fs_name s)])
    | None => Ok prefix
    end;
  if is_leaf then
    do d <- ret_opt AttributeError cv;                          (* -1 has no .items() *)
    Ok (map (fun kw => mkR new_rule (fst kw) (snd kw)) (filter (fun kw => qltb th (snd kw)) d))
  else do ls <- mapM (fun c => get_rules c new_rule th) children; Ok (List.concat ls).
(** fdt_tree.py:104-106 TreeFDT.to_rule_based_system *)
Definition tree_rules (t : tree) (th : Qc) : res (list (rule string)) := get_rules t [] th.
(** base_decision_tree.py:96-112: to_rule_based_system(verbose, simplify) is passed
    positionally as (th, verbose); a bool is the number 0 or 1; [simplify] only prints *)
Definition to_rule_based_system (t : tree) (verbose simplify : bool) : res (list (rule string)) :=
  tree_rules t (if verbose then 1 else 0).

(** base_decision_tree.py:77-94 score (check_X_y as in [fit]) *)
Definition score (predicted : list Z) (y : list Z) : Qc :=
  qn (countb (fun p => Z.eqb (fst p) (snd p)) (zip predicted y)) / qn (List.length y).
Definition fdt_score (cfg : fdt_cfg) (t : tree) (X : list (list cell)) (y : list Z) : res Qc :=
  if negb (Nat.eqb (List.length X) (List.length y)) || Nat.eqb (List.length y) 0 then Err ValueError else
  do p <- predict cfg t X; Ok (score p y).
