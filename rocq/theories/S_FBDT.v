(** * Specification vocabulary for binary fuzzy decision trees (statements of Properties_FBDT.v) *)
From Verif Require Import Prelude M_Fuzzy M_Discretize M_Rule M_FDT S_Rule S_FDT M_FBDT.
From Coq Require Import Reals.
Set Implicit Arguments.
Open Scope Qc_scope.

(** A literal is (feature position, positions of a group of its sets); a path is the list of
    literals from the root to a node. *)
Definition glit := (nat * list nat)%type.
Inductive bnode_at : btree -> list glit -> btree -> Prop :=
| bat_self t : bnode_at t [] t
| bat_child t c l p n : b_leaf t = false -> In c (b_children t) -> b_value c = Some l ->
    bnode_at c p n -> bnode_at t (l :: p) n.

(** degree of a row in a group of sets, and in a path *)
Definition side_degree (vars : list fvar) (row : list cell) (l : glit) : Qc :=
  qsum (map (fun i => lit_degree vars row (fst l, i)) (snd l)).
Definition bactivation (tn : Qc -> Qc -> Qc) (vars : list fvar) (row : list cell) (p : list glit) : Qc :=
  fold_left (fun acc l => tn acc (side_degree vars row l)) p 1.

Definition nsets (vars : list fvar) (a : nat) : nat :=
  match nth_error vars a with Some v => List.length (fv_sets v) | None => 0%nat end.
(** the sets of feature [a] that lie in every group chosen for [a] along [p] *)
Definition available (vars : list fvar) (p : list glit) (a : nat) : list nat :=
  filter (fun i => forallb (fun l => negb (Nat.eqb (fst l) a) || memb i (snd l)) p) (seq 0 (nsets vars a)).
(** a variable counts as continuous if its first set is *)
Definition continuous (v : fvar) : Prop := exists c l, fv_sets v = FC c :: l.

(** [cv] is a distribution over the classes of [y] *)
Definition distribution (y : list Z) (cv : dict Z Qc) : Prop :=
  NoDup (map fst cv) /\ (forall c, In c (map fst cv) <-> In c y) /\
  (forall c w, In (c, w) cv -> 0 <= w /\ w <= 1) /\ qsum (map snd cv) = 1.

(** the leaves with their paths, from left to right *)
Fixpoint bleaves (t : btree) : list (list glit * btree) :=
  let 'BTree is_leaf children _ _ _ _ _ _ := t in
  if is_leaf then [([], t)]
  else List.concat (map (fun c => map (fun pl => (match b_value c with Some l => [l] | None => [] end ++ fst pl, snd pl)) (bleaves c)) children).
Definition bleaf_weight (n : btree) (c : Z) : Qc :=
  match b_class n with Some cv => match dget c cv with Some w => w | None => 0 end | None => 0 end.
(** support of class [c] for a row: sum (or maximum) over the leaves of weight * activation *)
Definition brow_support (cfg : fdt_cfg) (t : btree) (row : list cell) (c : Z) : Qc :=
  let votes := map (fun pl => bleaf_weight (snd pl) c * bactivation (f_tnorm cfg) (f_vars cfg) row (fst pl)) (bleaves t) in
  match f_voting cfg with AggVote => qsum votes | MaxMatch => fold_right qmax 0 votes end.
(** weighted support of class [c] by rules with matching degrees [ms] *)
Definition bsupport (rules : list (rule (list string))) (ms : list Qc) (c : Z) : Qc :=
  qsum (map2 (fun r x => if Z.eqb (r_cons r) c then x * r_weight r else 0) rules ms).

(** the literal (variable name, set names) a path element stands for *)
Definition set_name (v : fvar) (i : nat) : string := match nth_error (fv_sets v) i with Some s => fs_name s | None => ""%string end.
Definition glit_name (vars : list fvar) (l : glit) : string * list string :=
  match nth_error vars (fst l) with
  | Some v => (fv_name v, map (set_name v) (snd l))
  | None => (""%string, [])
  end.

(** [t] results from training a new tree; [psort] is the sort of categories, some permutation *)
Definition btrained (cfg : fdt_cfg) (psort : list (string * option Qc) -> list (string * option Qc))
    (X : list (list cell)) (y : list Z) (t : btree) : Prop :=
  (forall l, Permutation (psort l) l) /\ distinct_names (f_vars cfg) /\
  exists h, bt_fit cfg psort fresh_broot X y = Ok (h, t).
