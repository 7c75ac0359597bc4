(** * Specification vocabulary for rules (used by the statements of Properties_Rule.v) *)
From Verif Require Import Prelude M_Fuzzy M_Rule.
Set Implicit Arguments.
Open Scope Qc_scope.

(** the instance membership [m] gives degree [d] to set [v] of feature [f] *)
Definition knows (m : imem) (f v : string) (d : Qc) : Prop :=
  exists row, dget f m = Some row /\ dget v row = Some d.
(** every set of [vs] is known and the degrees add up to [s] *)
Inductive group_degree (m : imem) (f : string) : list string -> Qc -> Prop :=
| gd_nil : group_degree m f [] 0
| gd_cons v vs d s : knows m f v d -> group_degree m f vs s -> group_degree m f (v :: vs) (d + s).
(** the features in order of first occurrence *)
Definition first_occurrences (l : list string) : list string := rev (nodup string_dec (rev l)).
(** [v] is the first of the shortest values [f] has in the antecedent *)
Definition first_shortest {V} (len : V -> nat) (ant : list (string * V)) (f : string) (v : V) : Prop :=
  exists l1 l2, ant = l1 ++ (f, v) :: l2 /\
    (forall v', In (f, v') l1 -> (len v < len v')%nat) /\ (forall v', In (f, v') l2 -> (len v <= len v')%nat).
(** the weighted support of class [c]: sum of matching * weight over the rules with consequent [c] *)
Definition support (rules : list (rule string)) (ms : list Qc) (c : Z) : Qc :=
  qsum (map2 (fun r x => if Z.eqb (r_cons r) c then x * r_weight r else 0) rules ms).
(** a literal of a crisp rule holds for an instance [x] *)
Definition crisp_holds (vars : list fvar) (x : string -> cell) (l : string * crisp) : Prop :=
  match snd l with
  | CrInterval a b => exists q, x (fst l) = CNum q /\ a <= q /\ q <= b
  | CrName n => exists v value, In v vars /\ fv_name v = fst l /\ In (FD n value) (fv_sets v) /\ x (fst l) = value
  end.
(** the overlap measure a map function stands for *)
Definition set_key (mf : map_function) (s o : fset) : res Qc :=
  match mf with MapIntersection => intersection s o | MapSimmilarity => simmilarity s o | MapOther => Err ValueError end.
(** [b] is the first set of [sets] with the largest key *)
Definition first_best (key : fset -> res Qc) (sets : list fset) (b : fset) : Prop :=
  exists kb, key b = Ok kb /\ (forall s, In s sets -> exists k, key s = Ok k /\ k <= kb) /\
    exists l1 l2, sets = l1 ++ b :: l2 /\ forall s k, In s l1 -> key s = Ok k -> k < kb.
(** variables whose sets are told apart by intersection: triangles with distinct peaks, or
    discrete sets *)
Definition separated (v : fvar) : Prop := NoDup (map fs_name (fv_sets v)) /\
  ((exists cs, fv_sets v = map FC cs /\ (forall c, In c cs -> pa c <= pb c /\ pb c <= pc c) /\ NoDup (map pb cs)) \/
   (exists ds, fv_sets v = map (fun p => FD (fst p) (snd p)) ds)).
