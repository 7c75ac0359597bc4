(** * Model of src/teacher/tree/fdt_binary_tree.py *)
From Verif Require Import Prelude M_Fuzzy M_Discretize M_Rule M_FDT.
From Coq Require Import Reals.
Set Implicit Arguments.
Open Scope Qc_scope.

(** numpy arrays that are updated in place live in a heap; an address is an index *)
Definition heap := list (list Qc).
Definition hread (h : heap) (a : nat) : list Qc := nth a h [].
Fixpoint hwrite (h : heap) (a : nat) (v : list Qc) : heap :=
  match h, a with
  | [], _ => []
  | _ :: h', O => v :: h'
  | x :: h', S a' => x :: hwrite h' a' v
  end.
Definition halloc (h : heap) (v : list Qc) : nat * heap := (List.length h, h ++ [v]).

(** fdt_binary_tree.py:32-46 TreeFBDT: is_leaf, childlist, class_value ([None] is the initial
    -1), level, value (feature position, set positions), fuzzy_variable, mu, ignored (feature
    -> address).  t_norm and voting are read from the root only and live in the configuration *)
Inductive btree := BTree (is_leaf : bool) (childlist : list btree) (class_value : option (dict Z Qc))
    (level : Z) (value : option (nat * list nat)) (fuzzy_variable : option fvar) (mu : list Qc) (ignored : dict string nat).
Definition b_leaf (t : btree) := let 'BTree l _ _ _ _ _ _ _ := t in l.
Definition b_children (t : btree) := let 'BTree _ c _ _ _ _ _ _ := t in c.
Definition b_class (t : btree) := let 'BTree _ _ c _ _ _ _ _ := t in c.
Definition b_level (t : btree) := let 'BTree _ _ _ l _ _ _ _ := t in l.
Definition b_value (t : btree) := let 'BTree _ _ _ _ v _ _ _ := t in v.
Definition b_var (t : btree) := let 'BTree _ _ _ _ _ v _ _ := t in v.
Definition b_mu (t : btree) := let 'BTree _ _ _ _ _ _ m _ := t in m.
Definition b_ignored (t : btree) := let 'BTree _ _ _ _ _ _ _ i := t in i.

(** fdt_binary_tree.py:76-82 update_ignored: a shallow copy of the parent's dictionary (the
    arrays of other features stay shared), np.maximum allocates *)
Definition update_ignored (h : heap) (parent : dict string nat) (feature : string) (ignored : nat) : heap * dict string nat :=
  match dget feature parent with
  | Some b => let '(a, h') := halloc h (map2 qmax (hread h b) (hread h ignored)) in (h', dset feature a parent)
  | None => (h, dset feature ignored parent)
  end.

(** fdt_binary_tree.py:171-172: the features whose first set is not continuous; IndexError for a
    variable without sets.  The configuration record is that of FDT: same parameters *)
Definition categorical_features (vars : list fvar) : res (list string) :=
  do l <- mapM (fun v => match fv_sets v with
                         | [] => Err IndexError
                         | FC _ :: _ => Ok []
                         | FD _ _ :: _ => Ok [fv_name v]
                         end) vars;
  Ok (List.concat l).

(** X_membership[feature][set] *)
Definition set_column (XM : xmem) (feature set : string) : res (list Qc) :=
  do sets <- ret_opt KeyError (dget feature XM); ret_opt KeyError (dget set sets).
(** sum(a[mask]) / sum(a), fdt_binary_tree.py:184; [None] is NaN *)
Definition positive_share (col : list Qc) (y : list Z) (c : Z) : option Qc :=
  if qeqb (qsum col) 0 then None else Some (class_card col y c / qsum col).
Definition partition := (string * list string * list string)%type.
(** fdt_binary_tree.py:191-192 *)
Definition cuts (feature : string) (splits : list string) : list partition :=
  map (fun i => (feature, firstn (S i) splits, skipn (S i) splits)) (seq 0 (List.length splits - 1)).
(** fdt_binary_tree.py:178-193 _get_binary_partitions.  [psort] is list.sort by the share: with
    NaN keys its result depends on the algorithm, so it is a parameter *)
Definition binary_partitions (psort : list (string * option Qc) -> list (string * option Qc)) (cats : list string)
    (fd : dict string (list string)) (XM : xmem) (y : list Z) : res (list partition) :=
  do first <- ret_opt IndexError (nth_error (zunique y) 0);
  do ps <- mapM (fun fs =>
      if memb (fst fs) cats then
        do keyed <- mapM (fun val => do col <- set_column XM (fst fs) val; Ok (val, positive_share col y first)) (snd fs);
        Ok (cuts (fst fs) (map fst (psort keyed)))
      else Ok (cuts (fst fs) (snd fs))) fd;
  Ok (List.concat ps).

(** sum([X_membership[feature][s] for s in sets]); [n] = len(y) *)
Definition sum_sets (XM : xmem) (n : nat) (feature : string) (sets : list string) : res (list Qc) :=
  do cols <- mapM (set_column XM feature) sets; Ok (fold_left (map2 Qcplus) cols (repeat 0 n)).
(** ignored[(m > 0) & (m < 1)] = 1 *)
Definition mark (m arr : list Qc) : list Qc := map2 (fun m x => if qltb 0 m && qltb m 1 then 1 else x) m arr.
(** fdt_binary_tree.py:216-224 and 226-235: one side of a candidate split: its memberships and
    the address of its ignored array, which is the node's own array if the feature has one *)
Definition score_side (h : heap) (mu : list Qc) (ign : dict string nat) (XM : xmem) (n : nat) (feature : string) (sets : list string)
    : res (heap * list Qc * nat) :=
  do m <- sum_sets XM n feature sets;
  let '(a, h1, m1) := match dget feature ign with
                      | Some a => (a, h, map2 qmax m (hread h a))
                      | None => let '(a, h') := halloc h (repeat 0 n) in (a, h', m)
                      end in
  Ok (hwrite h1 a (mark m1 (hread h1 a)), map2 qmin mu m1, a).
(** fdt_binary_tree.py:203, 237, 241: the gain of a split *)
Definition split_gain (mu left_mu right_mu : list Qc) (y : list Z) : res R :=
  if qeqb (qsum mu) 0 then Err ZeroDivisionError else
  Ok (fuzzy_entropy mu y - (qr (qsum left_mu) * fuzzy_entropy left_mu y + qr (qsum right_mu) * fuzzy_entropy right_mu y) / qr (qsum mu))%R.
Record bsplit := mkSplit { s_att : string; s_gain : R; s_lmu : list Qc; s_rmu : list Qc;
                          s_left : list string; s_right : list string; s_lign : nat; s_rign : nat }.
(** fdt_binary_tree.py:195-250 _get_max_f_gain; [None] is the initial best ('', 0, {}, (), ()) *)
Definition best_gain (best : option bsplit) : R := match best with Some s => s_gain s | None => 0%R end.
Definition score_partition (XM : xmem) (y : list Z) (mu : list Qc) (ign : dict string nat) (hb : heap * option bsplit) (p : partition)
    : res (heap * option bsplit) :=
  let '(feature, lsets, rsets) := p in
  do l <- score_side (fst hb) mu ign XM (List.length y) feature lsets;
  let '(h1, lmu, la) := l in
  do r <- score_side h1 mu ign XM (List.length y) feature rsets;
  let '(h2, rmu, ra) := r in
  do g <- split_gain mu lmu rmu y;
  Ok (h2, if Rltb (best_gain (snd hb)) g then Some (mkSplit feature g lmu rmu lsets rsets la ra) else snd hb).
Definition max_split psort cats (h : heap) (mu : list Qc) (ign : dict string nat) (fd : dict string (list string)) (XM : xmem) (y : list Z)
    : res (heap * option bsplit) :=
  do ps <- binary_partitions psort cats fd XM y;
  foldM (score_partition XM y mu ign) (h, None) ps.

(** fdt_binary_tree.py:281-328 _partial_fit: the grown node and the heap; _stop_met and
    _get_class_value (252-269) are those of fdt_tree.py, see [stop_met], [get_class_value] in M_FDT.  [fuel] bounds the
    depth (shown sufficient).  The state after an exception is modelled in M_FitState. *)
Fixpoint bfit (fuel : nat) (cfg : fdt_cfg) psort (cats : list string) (XM : xmem) (y : list Z)
    (h : heap) (node : btree) (fd : dict string (list string)) (depth : Z) : res (heap * btree) :=
  match fuel with
  | O => Err OutOfFuel
  | S fuel' =>
    let mu := b_mu node in
    do hb <- max_split psort cats h mu (b_ignored node) fd XM y;
    let '(h1, best) := hb in
    if stop_met cfg (best_gain best) (masked mu y) depth then
      do cv <- get_class_value mu y;
      Ok (h1, BTree true (b_children node) (Some cv) depth (b_value node) (b_var node) mu (b_ignored node))
    else
      match best with
      | None => match dget ""%string (f_positions (f_vars cfg)) with None => Err KeyError | Some _ => Err IndexError end
      | Some s =>
        let att := s_att s in
        do a <- ret_opt KeyError (dget att (f_positions (f_vars cfg)));
        do v <- ret_opt IndexError (nth_error (f_vars cfg) a);
        let set_dict := dict_of (map (fun js => (fs_name (snd js), fst js)) (enumerate (fv_sets v))) in
        let grow := fun h names cmu caddr =>
          do idx <- mapM (fun n => ret_opt KeyError (dget n set_dict)) names;
          let '(h2, cign) := update_ignored h (b_ignored node) att caddr in
          do avail <- ret_opt KeyError (dget att fd);
          let cfd := dset att (filter (fun x => memb x names) avail) fd in
          if qltb 0 (qsum cmu) then
            bfit fuel' cfg psort cats XM y h2 (BTree true [] None (-1) (Some (a, idx)) (Some v) cmu cign) cfd (depth + 1)
          else
            do cv <- get_class_value mu y;
            Ok (h2, BTree true [] (Some cv) (-1) (Some (a, idx)) (Some v) cmu cign) in
        do hl <- grow h1 (s_left s) (s_lmu s) (s_lign s);
        do hr <- grow (fst hl) (s_right s) (s_rmu s) (s_rign s);
        Ok (fst hr, BTree false (b_children node ++ [snd hl; snd hr]) (b_class node) depth (b_value node) (b_var node) mu (b_ignored node))
      end
  end.

(** fdt_binary_tree.py:274-278 features_dict *)
Definition initial_sets (vars : list fvar) : dict string (list string) :=
  dict_of (map (fun v => (fv_name v, map fs_name (fv_sets v))) vars).
(** enough for any tree: every split shortens a list of sets *)
Definition fuel_for (fd : dict string (list string)) : nat := S (list_sum (map (fun fs => List.length (snd fs)) fd)).
(** fdt_binary_tree.py:271-279 fit; [root] is the current self.tree_ *)
Definition bt_fit (cfg : fdt_cfg) psort (root : btree) (X : list (list cell)) (y : list Z) : res (heap * btree) :=
  do cats <- categorical_features (f_vars cfg);
  if negb (Nat.eqb (List.length X) (List.length y)) || Nat.eqb (List.length y) 0 then Err ValueError else
  do XM <- dataset_membership X (f_vars cfg);
  let root' := BTree (b_leaf root) (b_children root) (b_class root) (b_level root) (b_value root) (b_var root)
                     (repeat 1 (List.length y)) (b_ignored root) in
  bfit (fuel_for (initial_sets (f_vars cfg))) cfg psort cats XM y [] root' (initial_sets (f_vars cfg)) 0.
(** fdt_binary_tree.py:175: the unfitted root *)
Definition fresh_broot : btree := BTree true [] None (-1) None None [] [].

(** fdt_binary_tree.py:97-113 _partial_predict (the KeyError handler cannot fire) *)
Fixpoint partial_bpredict (tn : Qc -> Qc -> Qc) (X : list (list cell)) (mu : list Qc) (t : btree)
    : res (list (option (dict Z Qc) * list Qc)) :=
  let 'BTree is_leaf children cv _ value var _ _ := t in
  do new_mu <-
    match value with
    | Some (att, vals) =>
        do v <- ret_opt AttributeError var;
        do cols <- mapM (fun i =>
            do s <- ret_opt IndexError (nth_error (fv_sets v) i);
            do col <- column X att;
            membership_col s col) vals;
        Ok (map2 tn mu (fold_left (map2 Qcplus) cols (repeat 0 (List.length X))))
    | None => Ok mu
    end;
  if is_leaf then Ok [(cv, new_mu)]
  else match children with
       | [] => Err ValueError                                  (* np.concatenate([]) *)
       | _ => do ls <- mapM (partial_bpredict tn X new_mu) children; Ok (List.concat ls)
       end.
(** fdt_binary_tree.py:84-95 predict *)
Definition bpredict (cfg : fdt_cfg) (t : btree) (X : list (list cell)) : res (list Z) :=
  do leaves <- partial_bpredict (f_tnorm cfg) X (repeat 1 (List.length X)) t;
  do votes <- vote (f_voting cfg) leaves;
  mapM (fun j => dict_argmax (row_votes votes j)) (seq 0 (List.length X)).

(** fdt_binary_tree.py:120-141 _get_rules *)
Fixpoint get_brules (t : btree) (prefix : list (string * list string)) (th : Qc) : res (list (rule (list string))) :=
  let 'BTree is_leaf children cv _ value var _ _ := t in
  do new_rule <-
    match value with
    | Some (_, vals) =>
        do v <- ret_opt AttributeError var;
        do names <- mapM (fun i => do s <- ret_opt IndexError (nth_error (fv_sets v) i); Ok (fs_name s)) vals;
        Ok (prefix ++ [(fv_name v, names)])
    | None => Ok prefix
    end;
  if is_leaf then
    do d <- ret_opt AttributeError cv;                          (* -1 has no .items() *)
    Ok (map (fun kw => mkR new_rule (fst kw) (snd kw)) (filter (fun kw => qltb th (snd kw)) d))
  else do ls <- mapM (fun c => get_brules c new_rule th) children; Ok (List.concat ls).
(** fdt_binary_tree.py:115-118 to_rule_based_system(th, simplify, verbose) *)
Definition btree_rules (t : btree) (th : Qc) (simp : bool) : res (list (rule (list string))) :=
  do rs <- get_brules t [] th;
  Ok (if simp then map (simplify (@List.length string)) rs else rs).
(** base_decision_tree.py:96-112: (verbose, simplify) passed positionally as (th, simplify) *)
Definition to_rule_based_system_b (t : btree) (verbose simp : bool) : res (list (rule (list string))) :=
  btree_rules t (if verbose then 1 else 0) simp.
(** rule.py:165-188 weighted_vote on multi-value rules *)
Definition vote_dict_multi (rules : list (rule (list string))) (m : imem) : res (dict Z Qc) :=
  foldM (fun d r => do x <- matching_multi m r; Ok (dadd (r_cons r) (x * r_weight r) d)) [] rules.
Definition weighted_vote_multi (rules : list (rule (list string))) (m : imem) : res Z :=
  do d <- vote_dict_multi rules m; dict_argmax d.
(** base_decision_tree.py:77-94 score *)
Definition bt_score (cfg : fdt_cfg) (t : btree) (X : list (list cell)) (y : list Z) : res Qc :=
  if negb (Nat.eqb (List.length X) (List.length y)) || Nat.eqb (List.length y) 0 then Err ValueError else
  do p <- bpredict cfg t X; Ok (score p y).
