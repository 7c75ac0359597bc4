(** * Model of src/teacher/tree/id3_tree.py *)
From Verif Require Import Prelude M_Fuzzy M_Discretize M_Rule.
From Coq Require Import Reals.
Set Implicit Arguments.
Open Scope Qc_scope.

(** id3_tree.py:20-30 TreeID3: var_index ([None] is -1), is_leaf, childlist, splits, class_value,
    class_count ([None] is the initial 0), level, error, num_leaf.  [features] is the same list
    in every node and lives in the configuration.  Class labels are integers (so that the
    initial class_value -1 is one) *)
Inductive itree := ITree (var_index : option nat) (is_leaf : bool) (childlist : list itree) (splits : list cell)
    (class_value : Z) (class_count : option (nat * nat)) (level : Z) (error : Qc) (num_leaf : nat).
Definition i_var (t : itree) := let 'ITree v _ _ _ _ _ _ _ _ := t in v.
Definition i_leaf (t : itree) := let 'ITree _ l _ _ _ _ _ _ _ := t in l.
Definition i_children (t : itree) := let 'ITree _ _ c _ _ _ _ _ _ := t in c.
Definition i_splits (t : itree) := let 'ITree _ _ _ s _ _ _ _ _ := t in s.
Definition i_class (t : itree) := let 'ITree _ _ _ _ c _ _ _ _ := t in c.
Definition i_count (t : itree) := let 'ITree _ _ _ _ _ c _ _ _ := t in c.
Definition i_level (t : itree) := let 'ITree _ _ _ _ _ _ l _ _ := t in l.
Definition i_error (t : itree) := let 'ITree _ _ _ _ _ _ _ e _ := t in e.
Definition i_numleaf (t : itree) := let 'ITree _ _ _ _ _ _ _ _ n := t in n.
(** TreeID3(features): id3_tree.py:20-30 *)
Definition new_itree : itree := ITree None true [] [] (-1) None (-1) 0 0.

(** id3_tree.py:92-98 ID3.__init__ *)
Record id3_cfg := mkID3 {
  i_features : list string; i_th : Qc; i_max_depth : Z; i_min_examples : Z; i_prunning : bool }.
(** features_dic, id3_tree.py:96 *)
Definition i_positions (features : list string) : dict string nat :=
  dict_of (map (fun p => (snd p, fst p)) (enumerate features)).

(** np.unique of a column of numbers or of strings; sorting a mixed column raises TypeError
    (arrays of dtype float or object, as check_array produces them; no NaN) *)
Definition cnum (c : cell) : list Qc := match c with CNum x => [x] | CStr _ => [] end.
Definition cstr (c : cell) : list string := match c with CNum _ => [] | CStr s => [s] end.
Definition np_unique (col : list cell) : res (list cell) :=
  let nums := flat_map cnum col in
  let strs := flat_map cstr col in
  match nums, strs with
  | _ :: _, _ :: _ => Err TypeError
  | _, [] => Ok (map CNum (qunique nums))
  | [], _ => Ok (map CStr (unique_by String.ltb strs))
  end.

(** np.sum(y == c) *)
Definition count_class (c : Z) (y : list Z) : nat := countb (Z.eqb c) y.
(** scipy.stats.entropy(pk, base=2): pk is normalised, 0 log 0 = 0 (a zero sum would be NaN; the
    arguments passed here sum to 1) *)
Definition scipy_entropy (pk : list Qc) : R :=
  rsum (map (fun p => let q := p / qsum pk in if qltb 0 q then (- qr q * log2 (qr q))%R else 0%R) pk).
(** class_ent, id3_tree.py:110-117, for the classes in iteration order *)
Definition class_entropy (classes : list Z) (y : list Z) (num_cases : nat) : R :=
  scipy_entropy (map (fun c => qn (count_class c y) / qn num_cases) classes).
(** id3_tree.py:173-183: the labels of the rows with value [s], and their share of the entropy *)
Definition labels_at (col : list cell) (y : list Z) (s : cell) : list Z :=
  map snd (filter (fun p => eqb (fst p) s) (zip col y)).
Definition split_term (classes : list Z) (col : list cell) (y : list Z) (num_cases : nat) (s : cell) : R :=
  let part := labels_at col y s in
  match part with
  | [] => 0%R
  | _ => (INR (List.length part) * class_entropy classes part (List.length part) / INR num_cases)%R
  end.
(** id3_tree.py:171-185: the gain of a feature with values [splits] *)
Definition id3_gain (classes : list Z) (col : list cell) (y : list Z) (splits : list cell) (num_cases : nat) : R :=
  (class_entropy classes y num_cases - rsum (map (split_term classes col y num_cases) splits))%R.

(** id3_tree.py:155-189: best_feature ([None] is -1) with its splits, over the features to test
    in iteration order; np.vstack needs equal lengths *)
Definition best_feature (positions : dict string nat) (SP : list (list cell)) (X : list (list cell)) (y : list Z)
    (classes : list Z) (to_test : list string) : res (option (nat * list cell) * R) :=
  foldM (fun best ft =>
    do i <- ret_opt KeyError (dget ft positions);
    do col <- column X i;
    do splits <- ret_opt IndexError (nth_error SP i);
    if negb (Nat.eqb (List.length col) (List.length y)) then Err ValueError else
    let gain := id3_gain classes col y splits (List.length X) in
    if Rltb (snd best) gain then Ok (Some (i, splits), gain) else Ok best) (None, (-1)%R) to_test.

(** id3_tree.py:121-152, 235-239: the updated fields of a node that becomes a leaf.  Splits,
    childlist and var_index keep their values *)
Definition ileaf (t : itree) (c : Z) (cc : nat * nat) (depth : Z) (e : Qc) : itree :=
  ITree (i_var t) true (i_children t) (i_splits t) c (Some cc) depth e 1.
(** id3_tree.py:216-222: the child of a value that no row has *)
Definition empty_child (c : Z) (depth : Z) : itree := ITree None true [] [] c (Some (0, 0)%nat) depth 0 1.

(** id3_tree.py:105-242 _partial_fit.  [cls y] is the iteration order of set(y), [fts erased]
    that of set(features) - set(erased); [SP], [yc] are features_splits and y_classes; [fuel]
    bounds the recursion depth (shown sufficient).  The state of the tree after an exception is
    modelled in M_FitState *)
Fixpoint id3_partial_fit (fuel : nat) (cfg : id3_cfg) (cls : list Z -> list Z) (fts : list string -> list string)
    (SP : list (list cell)) (yc : list Z) (X : list (list cell)) (y : list Z) (t : itree) (depth : Z) (erased : list string)
    : res itree :=
  match fuel with
  | O => Err OutOfFuel
  | S fuel' =>
    let num_cases := List.length X in
    let classes := cls y in
    match max_by (fun a b : Z * nat => Nat.ltb (snd a) (snd b)) (map (fun c => (c, count_class c y)) classes) with
    | None =>                                                                (* 121-131 *)
        do c <- ret_opt IndexError (nth_error yc 0);
        Ok (ileaf t c (0, 0)%nat depth 0)
    | Some (c, k) =>                                                         (* 133-136 *)
      if Nat.eqb num_cases 0 then Err ZeroDivisionError else
      let error_node := 1 - qn k / qn num_cases in
      let leaf := ileaf t c (num_cases, k) depth error_node in
      if Z.leb (i_max_depth cfg) depth then Ok leaf                          (* 138-146 *)
      else if Z.ltb (Z.of_nat num_cases) (i_min_examples cfg) then Ok leaf   (* 148-152 *)
      else
        do best <- best_feature (i_positions (i_features cfg)) SP X y classes (fts erased);
        let var := option_map fst (fst best) in
        let splits := match fst best with Some (_, s) => s | None => [] end in
        do name <- ret_opt IndexError                                        (* 197: features[best_feature] *)
          match var with
          | Some i => nth_error (i_features cfg) i
          | None => nth_error (i_features cfg) (List.length (i_features cfg) - 1)
          end;
        let erased' := erased ++ [name] in
        do children <- mapM (fun s =>                                        (* 204-228 *)
            do col <- match var with Some i => column X i | None => Ok [] end;
            let rows := map snd (filter (fun p => eqb (fst p) s) (zip col (zip X y))) in
            match rows with
            | [] => Ok (empty_child c (depth + 1), 0%nat)
            | _ =>
              do child <- id3_partial_fit fuel' cfg cls fts SP yc (map fst rows) (map snd rows) new_itree (depth + 1) erased';
              Ok (child, List.length rows)
            end) splits;
        let error := qsum (map (fun cn => i_error (fst cn) * (qn (snd cn) / qn (List.length y))) children) in
        let num_leaf := (i_numleaf t + List.length splits)%nat in
        let inner := ITree var false (map fst children) splits c (Some (num_cases, k)) depth error num_leaf in
        if i_prunning cfg then                                               (* 233-239 *)
          let d := qz (Z.of_nat num_leaf - 1) in
          if qeqb d 0 then Err ZeroDivisionError
          else if qltb ((error_node - error) / d) (i_th cfg)
          then Ok (ileaf inner c (num_cases, k) depth error_node)
          else Ok inner
        else Ok inner
    end
  end.

(** id3_tree.py:100-103 fit, on the current self.tree_ *)
Definition id3_fit (cfg : id3_cfg) (cls : list Z -> list Z) (fts : list string -> list string) (root : itree)
    (X : list (list cell)) (y : list Z) : res itree :=
  do SP <- mapM (fun i => do col <- column X i; np_unique col) (seq 0 (List.length (i_features cfg)));
  id3_partial_fit (S (List.length (i_features cfg))) cfg cls fts SP (zunique y) X y root 0 [].

(** id3_tree.py:63-72 TreeID3.predict; falling out of the loop returns None *)
Fixpoint id3_tree_predict (t : itree) (x : list cell) : res (option Z) :=
  let 'ITree var is_leaf children splits c _ _ _ _ := t in
  if is_leaf then Ok (Some c) else
  match splits with
  | [] => Ok None
  | _ =>
    do v <- ret_opt IndexError match var with Some i => nth_error x i | None => nth_error x (List.length x - 1) end;
    (fix go (ch : list itree) (spl : list cell) {struct ch} : res (option Z) :=
       match ch, spl with
       | _, [] => Ok None
       | [], _ => if memb v spl then Err IndexError else Ok None              (* childlist[i] *)
       | c :: ch', s :: spl' => if eqb v s then id3_tree_predict c x else go ch' spl'
       end) children splits
  end.
(** id3_tree.py:244-246 predict (check_array rejects an array without rows) *)
Definition id3_predict (t : itree) (X : list (list cell)) : res (list (option Z)) :=
  match X with [] => Err ValueError | _ => mapM (id3_tree_predict t) X end.

(** id3_tree.py:79-88 _get_rules (the printing is not modelled) *)
Fixpoint id3_get_rules (features : list string) (t : itree) (conditions : list (string * cell)) : res (list (rule cell)) :=
  let 'ITree var is_leaf children splits c _ _ _ _ := t in
  if is_leaf then Ok [mkR conditions c 1] else
  (fix go (ch : list itree) (spl : list cell) {struct ch} : res (list (rule cell)) :=
     match ch, spl with
     | _, [] => Ok []
     | [], _ => Err IndexError
     | t' :: ch', s :: spl' =>
         do f <- ret_opt IndexError match var with Some i => nth_error features i | None => nth_error features (List.length features - 1) end;
         do rs <- id3_get_rules features t' (conditions ++ [(f, s)]);
         do rs' <- go ch' spl';
         Ok (rs ++ rs')
     end) children splits.
(** id3_tree.py:74-77 TreeID3.to_rule_based_system(self, verbose=False): called with a list of
    positional arguments *)
Definition id3_tree_rules (features : list string) (t : itree) (args : list bool) : res (list (rule cell)) :=
  match args with
  | [] | [_] => id3_get_rules features t []
  | _ => Err TypeError
  end.
(** base_decision_tree.py:112: the public method passes both flags *)
Definition id3_to_rule_based_system (features : list string) (t : itree) (verbose simplify : bool) : res (list (rule cell)) :=
  id3_tree_rules features t [verbose; simplify].

(** base_decision_tree.py:77-94 score (check_X_y: non-empty arrays of equal length); None never
    equals a label *)
Definition id3_score (t : itree) (X : list (list cell)) (y : list Z) : res Qc :=
  if negb (Nat.eqb (List.length X) (List.length y)) || Nat.eqb (List.length y) 0 then Err ValueError else
  do p <- id3_predict t X;
  Ok (qn (countb (fun q => eqb (fst q) (Some (snd q))) (zip p y)) / qn (List.length y)).
