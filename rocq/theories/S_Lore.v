(** * Specification vocabulary for the LORE generator *)
From Verif Require Import Prelude M_Genetic M_Utils M_Lore.
Set Implicit Arguments.
Open Scope Qc_scope.

(** what a run looks for: near or far from the record, with its outcome or another *)
Inductive aim := NearSame | NearOther | FarSame | FarOther.
Definition same_wanted (a : aim) : bool := match a with NearSame | FarSame => true | NearOther | FarOther => false end.
Definition near_wanted (a : aim) : bool := match a with NearSame | NearOther => true | FarSame | FarOther => false end.
Definition fitness_of (a : aim) := match a with NearSame => fitness_sso | NearOther => fitness_sdo | FarSame => fitness_dso | FarOther => fitness_ddo end.
(** [z] has the outcome the run looks for *)
Definition wanted (bb : list Qc -> Z) (a : aim) (x z : list Qc) : Prop := if same_wanted a then bb z = bb x else bb z <> bb x.
(** the distance between two rows of numbers under the feature names *)
Definition row_distance (distance : record -> record -> res fl) (idx : dict nat string) (x z : list Qc) (d : fl) : Prop :=
  exists xd zd, keyed idx x = Ok xd /\ keyed idx z = Ok zd /\ distance xd zd = Ok d.
(** a distance at which the record similarity counts 0: too similar, or too dissimilar *)
Definition uncounted (a : aim) (eta d : Qc) : Prop := if near_wanted a then eta <= 1 - d else 1 - d <= eta.

(** every gene is that of the record or one of the values listed for that position *)
Definition bred (x : list Qc) (fv : dict nat (list Qc)) (z : list Qc) : Prop :=
  List.length z = List.length x /\
  forall j v, nth_error z j = Some v -> nth_error x j = Some v \/ exists vs, dget j fv = Some vs /\ In v vs.
(** the values listed for a record of length [n]: at least one for each position *)
Definition covers (fv : dict nat (list Qc)) (n : nat) : Prop := forall j, (j < n)%nat -> exists v vs, dget j fv = Some (v :: vs).
(** the nearest integer, and of two the even one *)
Definition nearest_even (q : Qc) (z : Z) : Prop :=
  qabs (q - qz z) <= qc 1 2 /\ (qabs (q - qz z) = qc 1 2 -> Z.even z = true).
(** all the distances are 0, as on data without a discrete feature *)
Definition blind (distance : record -> record -> res fl) : Prop := forall a b d, distance a b = Ok d -> d = Some 0.
(** the entry of neigtype for a run, and the threshold of its similarity *)
Definition key_of (a : aim) : string := match a with NearSame => "ss" | NearOther => "sd" | FarSame => "ds" | FarOther => "dd" end%string.
Definition eta_of (a : aim) (eta1 eta2 : Qc) : Qc := if near_wanted a then eta1 else eta2.
(** the values of position [i] in the rows of [X] *)
Definition column_values (X : list (list Qc)) (i : nat) (values : list Qc) : Prop := map (fun row => nth_error row i) X = map Some values.
(** [vs] are values for column [i], called [c]: the sorted distinct values of a discrete column; those of a continuous one and [size] more;
    for a column in neither list those of the column before *)
Definition listed (X : list (list Qc)) (discrete continuous : list string) (size : nat) (fv : dict nat (list Qc)) (i : nat) (c : string) (vs : list Qc) : Prop :=
  exists values, column_values X i values /\
    (In c discrete -> StronglySorted Qclt vs /\ forall v, In v vs <-> In v values) /\
    (~ In c discrete -> In c continuous -> exists drawn, List.length drawn = size /\ vs = values ++ drawn) /\
    (~ In c discrete -> ~ In c continuous -> exists j, i = S j /\ dget j fv = Some vs).
