(** * Specification vocabulary for how binary fuzzy decision trees choose their splits (C88, C89) *)
From Verif Require Import Prelude M_Fuzzy M_Discretize M_Rule M_FDT S_Rule S_FDT M_FBDT S_FBDT.
From Coq Require Import Reals.
Set Implicit Arguments.
Open Scope Qc_scope.

(** entropy gained by dividing the memberships [mu] into [lmu] and [rmu] *)
Definition bgain (y : list Z) (mu lmu rmu : list Qc) : R :=
  (fuzzy_entropy mu y - (qr (qsum lmu) * fuzzy_entropy lmu y + qr (qsum rmu) * fuzzy_entropy rmu y) / qr (qsum mu))%R.
(** the degrees of all rows in a group of sets of feature [a] *)
Definition degrees (vars : list fvar) (X : list (list cell)) (a : nat) (g : list nat) : list Qc := map (fun row => side_degree vars row (a, g)) X.
(** [lmu] and [rmu] are what a node with memberships [mu] gives to two groups of sets.  If the feature was used above, rows may
    be marked (1 in [A]); a marked row counts fully for a side, and rows partly in the left group are marked before the right
    group is evaluated (see C34). *)
Definition divided (vars : list fvar) (X : list (list cell)) (p : list glit) (mu : list Qc) (a : nat) (g1 g2 : list nat) (lmu rmu : list Qc) : Prop :=
  (~ In a (map fst p) -> lmu = map2 qmin mu (degrees vars X a g1) /\ rmu = map2 qmin mu (degrees vars X a g2)) /\
  (In a (map fst p) -> exists A, List.length A = List.length X /\ Forall (fun x => x = 0 \/ x = 1) A /\
     let L := map2 qmax (degrees vars X a g1) A in
     let A' := map2 (fun d x => if qltb 0 d && qltb d 1 then 1 else x) L A in
     lmu = map2 qmin mu L /\ rmu = map2 qmin mu (map2 qmax (degrees vars X a g2) A')).
(** the mass of set [i] of feature [a], the part of it in rows of class [c], and the ratio of the two *)
Definition set_mass (vars : list fvar) (X : list (list cell)) (a i : nat) : Qc := qsum (map (fun row => lit_degree vars row (a, i)) X).
Definition class_mass (vars : list fvar) (X : list (list cell)) (y : list Z) (a i : nat) (c : Z) : Qc :=
  qsum (map2 (fun row k => if Z.eqb k c then lit_degree vars row (a, i) else 0) X y).
Definition share (vars : list fvar) (X : list (list cell)) (y : list Z) (a i : nat) (c : Z) : Qc := class_mass vars X y a i c / set_mass vars X a i.
(** the least class label *)
Definition least (y : list Z) (c : Z) : Prop := In c y /\ forall c', In c' y -> (c <= c')%Z.
(** the sort of a categorical feature's sets by share works (it need not if some set has no mass: NaN) *)
Definition sorts (psort : list (string * option Qc) -> list (string * option Qc)) : Prop :=
  forall l, Forall (fun k => snd k <> None) l ->
    StronglySorted (fun k k' => match snd k, snd k' with Some s, Some s' => s <= s' | _, _ => False end) (psort l).
(** a split of the sets still available at [p]: for continuous features a cut of their sequence, for categorical features a
    separation of sets with smaller shares of the least class from sets with larger shares *)
Definition candidate (cfg : fdt_cfg) (X : list (list cell)) (y : list Z) (p : list glit) (a : nat) (g1 g2 : list nat) : Prop :=
  exists v, nth_error (f_vars cfg) a = Some v /\ g1 <> [] /\ g2 <> [] /\
    (continuous v -> g1 ++ g2 = available (f_vars cfg) p a) /\
    (~ continuous v -> Permutation (g1 ++ g2) (available (f_vars cfg) p a) /\
       (forall i, In i (g1 ++ g2) -> set_mass (f_vars cfg) X a i <> 0) /\
       forall c i j, least y c -> In i g1 -> In j g2 -> share (f_vars cfg) X y a i c < share (f_vars cfg) X y a j c).
(** the rows with positive membership do not allow a split, whatever it gains *)
Definition exhausted (cfg : fdt_cfg) (y : list Z) (mu : list Qc) (p : list glit) : Prop :=
  (forall j j' c c', nth_error y j = Some c -> nth_error y j' = Some c' -> 0 < nth j mu 0 -> 0 < nth j' mu 0 -> c = c') \/
  (Z.of_nat (countb (fun x => qltb 0 x) mu) < f_min_examples cfg)%Z \/ (f_max_depth cfg <= Z.of_nat (List.length p))%Z.
(** the class distribution of the memberships [mu] *)
Definition weighted_by (y : list Z) (mu : list Qc) (cv : dict Z Qc) : Prop :=
  map fst cv = zunique y /\ forall c w, In (c, w) cv -> w = qsum (map2 (fun m k => if Z.eqb k c then m else 0) mu y) / qsum mu.
