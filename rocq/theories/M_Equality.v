(** * Model of the comparison methods: ==, hash() and < of trees, rules and fuzzy sets *)
From Verif Require Import Prelude M_Fuzzy M_Discretize M_Rule M_FDT M_FBDT M_ID3.
Set Implicit Arguments.
Open Scope string_scope. Open Scope list_scope. Open Scope Qc_scope.

(** == of Python dictionaries: the order of the entries does not matter *)
Definition dict_eqb (d e : dict Z Qc) : bool :=
  Nat.eqb (List.length d) (List.length e) && forallb (fun kv => match dget (fst kv) e with Some w => qeqb (snd kv) w | None => false end) d.
(** class_value: a dictionary, or the initial -1 ([None]) *)
Definition class_eqb (a b : option (dict Z Qc)) : bool :=
  match a, b with Some d, Some e => dict_eqb d e | None, None => true | _, _ => false end.
(** fdt_tree.py:65-73 TreeFDT.__eq__: fuzzy_variable, t_norm and voting are not compared *)
Fixpoint tree_eqb (t u : tree) : bool :=
  let 'Tree l cs cv lv va _ mu := t in
  let 'Tree l' cs' cv' lv' va' _ mu' := u in
  Bool.eqb l l' &&
  (fix go (a b : list tree) : bool := match a, b with [], [] => true | x :: a', y :: b' => tree_eqb x y && go a' b' | _, _ => false end) cs cs' &&
  class_eqb cv cv' && Z.eqb lv lv' && eqb va va' && eqb mu mu'.
(** fdt_binary_tree.py:66-74 TreeFBDT.__eq__: neither is [ignored] *)
Fixpoint btree_eqb (t u : btree) : bool :=
  let 'BTree l cs cv lv va _ mu _ := t in
  let 'BTree l' cs' cv' lv' va' _ mu' _ := u in
  Bool.eqb l l' &&
  (fix go (a b : list btree) : bool := match a, b with [], [] => true | x :: a', y :: b' => btree_eqb x y && go a' b' | _, _ => false end) cs cs' &&
  class_eqb cv cv' && Z.eqb lv lv' && eqb va va' && eqb mu mu'.
(** id3_tree.py:49-61 TreeID3.__eq__ (features, the same list in every node, are compared once) *)
Fixpoint itree_eqb_nodes (t u : itree) : bool :=
  let 'ITree v l cs sp c cc lv e n := t in
  let 'ITree v' l' cs' sp' c' cc' lv' e' n' := u in
  eqb v v' && Bool.eqb l l' &&
  (fix go (a b : list itree) : bool := match a, b with [], [] => true | x :: a', y :: b' => itree_eqb_nodes x y && go a' b' | _, _ => false end) cs cs' &&
  eqb sp sp' && Z.eqb c c' && eqb cc cc' && Z.eqb lv lv' && qeqb e e' && Nat.eqb n n'.
Definition itree_eqb (fs fs' : list string) (t u : itree) : bool := itree_eqb_nodes t u && eqb fs fs'.

(** rule.py:17-34 a Rule with its flag multiple_antecedents; the value of a literal is a name, a tuple of names or a list of names *)
Inductive lit := LName (s : string) | LTuple (l : list string) | LList (l : list string).
#[export] Instance eqd_lit : EqDec lit.
Proof. intros x y. pose proof string_dec. pose proof (list_eq_dec string_dec). decide equality. Defined.
Record prule := mkP { p_ant : list (string * lit); p_cons : Z; p_weight : Qc; p_multi : bool }.
(** rule.py:43-48 Rule.__eq__: the flag is not compared *)
Definition prule_eqb (r s : prule) : bool := eqb (p_ant r) (p_ant s) && Z.eqb (p_cons r) (p_cons s) && qeqb (p_weight r) (p_weight s).
(** rule.py:50-51 Rule.__hash__: the hash of the tuple (antecedent, consequent, weight), which is any function [h] of that tuple; a list
    inside makes it fail with TypeError *)
Definition prule_hash (h : list (string * lit) * Z * Qc -> Z) (r : prule) : res Z :=
  if existsb (fun fv : string * lit => match snd fv with LList _ => true | _ => false end) (p_ant r) then Err TypeError
  else Ok (h (p_ant r, p_cons r, p_weight r)).
(** iterating a literal value: a name yields its characters *)
Fixpoint letters (s : string) : list string := match s with EmptyString => [] | String c s' => String c EmptyString :: letters s' end.
Definition iterate (v : lit) : list string := match v with LName s => letters s | LTuple l | LList l => l end.
(** instance_membership[feature][value]: a tuple is never a key, a list cannot be one *)
Definition degree_of (m : imem) (f : string) (v : lit) : res Qc :=
  do d <- ret_opt KeyError (dget f m);
  match v with LName s => ret_opt KeyError (dget s d) | LTuple _ => Err KeyError | LList _ => Err TypeError end.
(** rule.py:65-92 Rule.matching, for both flags *)
Definition pmatching (t_norm : list Qc -> res Qc) (m : imem) (r : prule) : res Qc :=
  if p_multi r then catch_key (do ds <- mapM (fun fv => sum_degrees m (fst fv) (iterate (snd fv))) (p_ant r); t_norm ds)
  else catch_key (do ds <- mapM (fun fv => degree_of m (fst fv) (snd fv)) (p_ant r); t_norm ds).
(** the rules FDT and FBDT trees give: fdt_tree.py:104-106 (names), fdt_binary_tree.py:115-118, 124 (lists) *)
Definition plain_rule (r : rule string) : prule := mkP (map (fun fv => (fst fv, LName (snd fv))) (r_ant r)) (r_cons r) (r_weight r) false.
Definition multi_rule (r : rule (list string)) : prule := mkP (map (fun fv => (fst fv, LList (snd fv))) (r_ant r)) (r_cons r) (r_weight r) true.

(** fuzzy_set.py:89-90 FuzzyContinuousSet.__lt__: < of the lists of points *)
Definition cset_lt (s o : cset) : bool :=
  if qltb (pa s) (pa o) then true else if qltb (pa o) (pa s) then false else
  if qltb (pb s) (pb o) then true else if qltb (pb o) (pb s) then false else qltb (pc s) (pc o).
(** s < o for any two sets: a FuzzyDiscreteSet has no points and no < of its own *)
Definition fset_lt (s o : fset) : res bool :=
  match s, o with FC s, FC o => Ok (cset_lt s o) | FC _, FD _ _ => Err AttributeError | FD _ _, _ => Err TypeError end.
(** fuzzy_set.py:86-87 FuzzyContinuousSet.__hash__; a FuzzyDiscreteSet (dataclass with eq) has none.  [h] is any function of the tuple *)
Definition fset_hash (h : string * (Qc * Qc * Qc) * bool -> Z) (s : fset) : res Z :=
  match s with FC c => Ok (h (c_name c, (pa c, pb c, pc c), c_point c)) | FD _ _ => Err TypeError end.
(** the generated == of the dataclasses: same class and equal fields *)
Definition fset_eqb (s o : fset) : bool :=
  match s, o with
  | FC a, FC b => eqb (c_name a) (c_name b) && (qeqb (pa a) (pa b) && qeqb (pb a) (pb b) && qeqb (pc a) (pc b)) && Bool.eqb (c_point a) (c_point b)
  | FD n v, FD n' v' => eqb n n' && eqb v v'
  | _, _ => false
  end.
