(** * Model of the printed forms: Rule.__str__, TreeFDT.__str__, TreeFBDT.__str__, TreeID3.__str__ *)
From Verif Require Import Prelude M_Fuzzy M_Discretize M_Rule M_FDT M_FBDT M_ID3.
From Coq Require DecimalString.
Set Implicit Arguments.
Open Scope string_scope.

(** the characters newline and tab; '\t' * n is empty for a negative n *)
Definition nl : string := String (Ascii.ascii_of_nat 10) "".
Definition tab : string := String (Ascii.ascii_of_nat 9) "".
Fixpoint stimes (n : nat) (s : string) : string := match n with O => "" | S n' => s ++ stimes n' s end.
Definition tabs (level : Z) : string := stimes (Z.to_nat level) tab.
Definition sconcat (l : list string) : string := fold_right append "" l.
Fixpoint sjoin (sep : string) (l : list string) : string :=
  match l with [] => "" | [x] => x | x :: l' => x ++ sep ++ sjoin sep l' end.

(** rule.py:39-41 Rule.__str__; [sv], [sc], [sw] are Python's str of a literal's value, of the
    class and of the weight *)
Definition rule_text {V} (sv : V -> string) (sc : Z -> string) (sw : Qc -> string) (r : rule V) : string :=
  sjoin " AND " (map (fun fv => fst fv ++ ": " ++ sv (snd fv)) (r_ant r)) ++ " => " ++ sc (r_cons r) ++ " (Weight: " ++ sw (r_weight r) ++ ")".
(** rule.py:41: Python's str of a list of names (the values in the rules of a binary tree), for names without quotes,
    backslashes and unprintable characters *)
Definition list_text (l : list string) : string := "[" ++ sjoin ", " (map (fun s => "'" ++ s ++ "'") l) ++ "]".

(** fdt_tree.py:47-63 TreeFDT.__str__: what follows the indentation of the first line.  A node without variable
    raises before anything is added; a failing lookup of the set comes after the feature's name.
    [sd] is Python's str of a dictionary of class weights; the initial class_value prints as -1 *)
Definition class_text (sd : dict Z Qc -> string) (cv : option (dict Z Qc)) : string :=
  match cv with Some d => sd d | None => "-1" end.
Definition head_text (value : option (nat * nat)) (var : option fvar) : string :=
  match var with
  | None => "Root " ++ nl
  | Some v => "Feature " ++ fv_name v ++ " " ++
      match value with
      | Some (_, i) => match nth_error (fv_sets v) i with Some s => fs_name s ++ nl | None => "Root " ++ nl end
      | None => "Root " ++ nl
      end
  end.
Fixpoint tree_text (sd : dict Z Qc -> string) (t : tree) : string :=
  let 'Tree leaf cs cv level value var _ := t in
  tabs level ++ head_text value var ++
  (if leaf then tabs level ++ "Class value: " ++ class_text sd cv
   else sconcat (map (tree_text sd) cs) ++ nl ++ tabs level) ++ nl.

(** fdt_binary_tree.py:48-64 TreeFBDT.__str__: here self.value[1] is a list of positions, so that
    indexing the list of sets with it raises TypeError in every node with a value *)
Definition bhead_text (value : option (nat * list nat)) (var : option fvar) : string :=
  match var with
  | None => "Root " ++ nl
  | Some v => "Feature " ++ fv_name v ++ " " ++ "Root " ++ nl
  end.
Fixpoint btree_text (sd : dict Z Qc -> string) (t : btree) : string :=
  let 'BTree leaf cs cv level value var _ _ := t in
  tabs level ++ bhead_text value var ++
  (if leaf then tabs level ++ "Class value: " ++ class_text sd cv
   else sconcat (map (btree_text sd) cs) ++ nl ++ tabs level) ++ nl.

(** id3_tree.py:32-47 TreeID3.__str__; [sc], [sx] are Python's str of a class and of a value of a feature, [sn] of the
    list class_count (the initial 0 for [None]).  A node that is no leaf has as many splits as children *)
Definition nat_text (n : nat) : string := DecimalString.NilZero.string_of_uint (Nat.to_uint n).
Fixpoint itree_text (features : list string) (sc : Z -> string) (sx : cell -> string) (sn : option (nat * nat) -> string) (t : itree) : res string :=
  let 'ITree var leaf cs splits c count level _ _ := t in
  if leaf then Ok (tabs level ++ "Class value: " ++ sc c ++ tab ++ "Counts: " ++ sn count)
  else
    do body <- (fix go (ch : list itree) (spl : list cell) {struct ch} : res string :=
      match ch, spl with
      | [], _ => Ok ""
      | _, [] => Err IndexError
      | t' :: ch', s :: spl' =>
          do f <- ret_opt IndexError match var with Some i => nth_error features i | None => nth_error features (List.length features - 1) end;
          do ct <- itree_text features sc sx sn t';
          do rest <- go ch' spl';
          Ok (nl ++ tabs level ++ f ++ " = " ++ sx s ++ nl ++ ct ++ rest)
      end) cs splits;
    Ok (tabs level ++ "Feature " ++ match var with Some i => nat_text i | None => "-1" end ++ body ++ nl ++ tabs level).
