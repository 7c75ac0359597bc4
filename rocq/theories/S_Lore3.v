(** * Specification vocabulary for neighborhoods made of real and random rows *)
From Verif Require Import Prelude M_Utils M_Lore S_Utils S_Lore S_Lore2.
Set Implicit Arguments.
Open Scope Qc_scope.

(** position [j] of the array row [z] and column [c] of row [r] of the table [df'] come from value [v] of a table: a discrete column has
    its code and [v] again, another one the number and the number stored according to the type *)
Definition copied (ds : dataset) (df' : frame) (r : nat) (z : list Qc) (j : nat) (c : string) (v : cell) : Prop :=
  exists q, nth_error z j = Some q /\
    (In c (ds_discrete ds) -> (exists classes k, dget c (ds_encoders ds) = Some classes /\ nth_error classes k = Some v /\ q = qn k) /\ value_at df' c r = Some v) /\
    (~ In c (ds_discrete ds) -> v = CNum q /\ exists t w, dget c (ds_types ds) = Some t /\ stored t q w /\ value_at df' c r = Some (CNum w)).
(** the table [df'] shows in column [cls] the label of the outcome of every row of [Z] *)
Definition labelled (bb : list Qc -> Z) (cls : string) (ds : dataset) (df' : frame) (Z : list (list Qc)) : Prop :=
  exists classes, dget cls (ds_encoders ds) = Some classes /\
    forall r z, nth_error Z r = Some z -> (0 <= bb z)%Z /\ exists label, nth_error classes (Z.to_nat (bb z)) = Some label /\ value_at df' cls r = Some label.
(** [sel] are the at most [k] rows of [n] nearest by the distances [dist], of which, if too few of them have outcome 0 or none another one,
    the last [m] are replaced by the nearest rows of that outcome ([zero i]: row [i] has outcome 0; [ratio]: the share wanted) *)
Definition nearest_mix (dist : list fl) (zero : nat -> bool) (n k m : nat) (ratio : Qc) (sel : list nat) : Prop :=
  exists all zeros others, nearest_k dist (seq 0 n) k all /\ nearest_k dist (filter zero (seq 0 n)) k zeros /\
    nearest_k dist (filter (fun i => negb (zero i)) (seq 0 n)) k others /\ all <> [] /\
    (qn (shared all zeros) < ratio * qn (List.length all) -> sel = firstn (k - m) all ++ firstn m zeros) /\
    (ratio * qn (List.length all) <= qn (shared all zeros) -> shared all others = 0%nat -> sel = firstn (k - m) all ++ firstn m others) /\
    (ratio * qn (List.length all) <= qn (shared all zeros) -> shared all others <> 0%nat -> sel = all).
(** [A] is the table [dfZ] of [n] rows as an array of numbers: the codes of the discrete columns, the other ones as they are *)
Definition encoded (ds : dataset) (features : list string) (dfZ : frame) (n : nat) (A : list (list Qc)) : Prop :=
  List.length A = n /\ forall i z, nth_error A i = Some z -> List.length z = List.length features /\
    forall j c, nth_error features j = Some c -> exists v q, value_at dfZ c i = Some v /\ nth_error z j = Some q /\
      (In c (ds_discrete ds) -> exists classes k, dget c (ds_encoders ds) = Some classes /\ nth_error classes k = Some v /\ q = qn k) /\
      (~ In c (ds_discrete ds) -> v = CNum q).
(** the columns that are not discrete hold numbers *)
Definition numeric_rest (ds : dataset) (features : list string) (dfZ : frame) : Prop :=
  forall c i v, In c features -> ~ In c (ds_discrete ds) -> value_at dfZ c i = Some v -> exists q, v = CNum q.
(** [v] may be drawn for position [j] of an individual: a number for a column of numbers, a value of the column if that has text *)
Definition drawn_cell (df : frame) (j : nat) (v : cell) : Prop :=
  exists c col, nth_error df j = Some (c, col) /\ ((forall w, In w col -> exists q, w = CNum q) -> exists q, v = CNum q) /\ ((exists s, In (CStr s) col) -> In v col).
