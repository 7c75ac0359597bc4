(** * Specification vocabulary for fuzzy decision trees (statements of Properties_FDT.v) *)
From Verif Require Import Prelude M_Fuzzy M_Discretize M_Rule M_FDT S_Rule.
From Coq Require Import Reals.
Set Implicit Arguments.
Open Scope Qc_scope.

(** A path is the list of literals (feature position, set position) from the root to a node.
    [node_at t p n]: following the children of inner nodes along [p] leads from [t] to [n]. *)
Inductive node_at : tree -> list (nat * nat) -> tree -> Prop :=
| at_self t : node_at t [] t
| at_child t c l p n : t_leaf t = false -> In c (t_children t) -> t_value c = Some l ->
    node_at c p n -> node_at t (l :: p) n.

(** degree of a row in the set a literal names (0 when there is none) *)
Definition lit_degree (vars : list fvar) (row : list cell) (l : nat * nat) : Qc :=
  match nth_error vars (fst l) with
  | Some v => match nth_error (fv_sets v) (snd l), nth_error row (fst l) with
              | Some s, Some x => match membership s x with Ok d => d | Err _ => 0 end
              | _, _ => 0
              end
  | None => 0
  end.
(** degree to which a row activates a path *)
Definition activation (tn : Qc -> Qc -> Qc) (vars : list fvar) (row : list cell) (p : list (nat * nat)) : Qc :=
  fold_left (fun acc l => tn acc (lit_degree vars row l)) p 1.
(** activations of all rows, total mass, mass of one class, share of a class *)
Definition acts (vars : list fvar) (X : list (list cell)) (p : list (nat * nat)) : list Qc :=
  map (fun row => activation qmin vars row p) X.
Definition mass (vars : list fvar) (X : list (list cell)) (p : list (nat * nat)) : Qc := qsum (acts vars X p).
Definition class_mass (vars : list fvar) (X : list (list cell)) (y : list Z) (p : list (nat * nat)) (c : Z) : Qc :=
  qsum (map2 (fun m k => if Z.eqb k c then m else 0) (acts vars X p) y).
Definition share vars X y p c : Qc := class_mass vars X y p c / mass vars X p.

(** fuzzy information gain of splitting the node at [p] by the feature at position [a] *)
Definition info_gain (vars : list fvar) (X : list (list cell)) (y : list Z) (p : list (nat * nat)) (a : nat) : R :=
  (fuzzy_entropy (acts vars X p) y
   - rsum (map (fun i => qr (mass vars X (p ++ [(a, i)])) * fuzzy_entropy (acts vars X (p ++ [(a, i)])) y)
               (seq 0 (match nth_error vars a with Some v => List.length (fv_sets v) | None => 0 end)))
     / qr (mass vars X p))%R.

(** the leaves of a tree with their paths, from left to right *)
Fixpoint leaves (t : tree) : list (list (nat * nat) * tree) :=
  let 'Tree is_leaf children _ _ _ _ _ := t in
  if is_leaf then [([], t)]
  else List.concat (map (fun c => map (fun pl => (match t_value c with Some l => [l] | None => [] end ++ fst pl, snd pl)) (leaves c)) children).
(** weight of class [c] at a leaf *)
Definition leaf_weight (n : tree) (c : Z) : Qc :=
  match t_class n with Some cv => match dget c cv with Some w => w | None => 0 end | None => 0 end.
(** support of class [c] for a row: sum (or maximum) over the leaves of weight * activation *)
Definition tree_support (tn : Qc -> Qc -> Qc) (vars : list fvar) (t : tree) (row : list cell) (c : Z) : Qc :=
  qsum (map (fun pl => leaf_weight (snd pl) c * activation tn vars row (fst pl)) (leaves t)).
Definition tree_max_support (tn : Qc -> Qc -> Qc) (vars : list fvar) (t : tree) (row : list cell) (c : Z) : Qc :=
  fold_right qmax 0 (map (fun pl => leaf_weight (snd pl) c * activation tn vars row (fst pl)) (leaves t)).
Definition row_support (cfg : fdt_cfg) (t : tree) (row : list cell) (c : Z) : Qc :=
  match f_voting cfg with
  | AggVote => tree_support (f_tnorm cfg) (f_vars cfg) t row c
  | MaxMatch => tree_max_support (f_tnorm cfg) (f_vars cfg) t row c
  end.
(** [c] is the least class of [classes] with the largest support *)
Definition best_class (classes : list Z) (sup : Z -> Qc) (c : Z) : Prop :=
  In c classes /\ forall c', In c' classes -> sup c' <= sup c /\ ((c' < c)%Z -> sup c' < sup c).

(** names of variables and of the sets of each variable are distinct *)
Definition distinct_names (vars : list fvar) : Prop :=
  NoDup (map fv_name vars) /\ forall v, In v vars -> NoDup (map fs_name (fv_sets v)).

(** [t] results from training a new tree: [ord] lists each feature set in some order, names
    identify variables and sets, and (if the threshold is not positive) no variable is called
    "", the code's marker for "no feature chosen" *)
Definition trained (cfg : fdt_cfg) (ord : list (nat * nat) -> list string -> list string)
    (X : list (list cell)) (y : list Z) (t : tree) : Prop :=
  (forall p s, Permutation (ord p s) s) /\ distinct_names (f_vars cfg) /\
  ((0 < f_threshold cfg)%R \/ ~ In ""%string (map fv_name (f_vars cfg))) /\
  fit cfg ord fresh_root X y = Ok t.
(** every row has a value with a defined degree in every set of every variable *)
Definition readable (vars : list fvar) (X : list (list cell)) : Prop :=
  forall row, In row X -> forall a v s, nth_error vars a = Some v -> In s (fv_sets v) ->
    exists x d, nth_error row a = Some x /\ membership s x = Ok d.
(** [readable] also requires a column for variables without sets *)
Definition wide (vars : list fvar) (X : list (list cell)) : Prop :=
  forall row, In row X -> (List.length vars <= List.length row)%nat.
(** the classes of the training rows that activate [p] *)
Definition reaching (vars : list fvar) (X : list (list cell)) (y : list Z) (p : list (nat * nat)) : list Z :=
  map snd (filter (fun rc => qltb 0 (activation qmin vars (fst rc) p)) (zip X y)).
(** the conditions under which training does not consider a split *)
Definition limit_met (cfg : fdt_cfg) (X : list (list cell)) (y : list Z) (p : list (nat * nat)) : Prop :=
  (forall c c', In c (reaching (f_vars cfg) X y p) -> In c' (reaching (f_vars cfg) X y p) -> c = c') \/
  (Z.of_nat (List.length (reaching (f_vars cfg) X y p)) < f_min_examples cfg)%Z \/
  (f_max_depth cfg <= Z.of_nat (List.length p))%Z.
(** feature positions not tested along [p] *)
Definition untested (vars : list fvar) (p : list (nat * nat)) (a : nat) : Prop :=
  (a < List.length vars)%nat /\ ~ In a (map fst p).
(** membership of one instance as get_dataset_membership reports it *)
Definition row_membership (vars : list fvar) (row : list cell) (m : imem) : Prop :=
  forall a v i s, nth_error vars a = Some v -> nth_error (fv_sets v) i = Some s ->
    knows m (fv_name v) (fs_name s) (lit_degree vars row (a, i)).
(** the literal (variable name, set name) a path element stands for *)
Definition lit_name (vars : list fvar) (l : nat * nat) : string * string :=
  match nth_error vars (fst l) with
  | Some v => (fv_name v, match nth_error (fv_sets v) (snd l) with Some s => fs_name s | None => ""%string end)
  | None => (""%string, ""%string)
  end.
