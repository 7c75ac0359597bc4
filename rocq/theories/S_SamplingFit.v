(** * Specification vocabulary for SamplingNeighborhood.fit *)
From Verif Require Import Prelude M_Fuzzy M_Utils S_Utils M_Sampling S_Sampling.
Set Implicit Arguments.
Open Scope Qc_scope.

(** [v] is what the code [q] in column [c] stands for: the class whose number is [q] without its fraction if the column has an encoder,
    the number itself otherwise *)
Definition stands_for (encs : encoders) (c : string) (q : Qc) (v : cell) : Prop :=
  match dget c encs with
  | Some classes => exists k, truncated q (Z.of_nat k) /\ nth_error classes k = Some v
  | None => v = CNum q
  end.
(** [cells] is the row of codes [row] in the original values *)
Definition original (encs : encoders) (names : list string) (row : list Qc) (cells : list cell) : Prop :=
  List.length row = List.length names /\ List.length cells = List.length names /\
  forall i c q v, nth_error names i = Some c -> nth_error row i = Some q -> nth_error cells i = Some v -> stands_for encs c q v.
(** [label] is the name of class number [c] *)
Definition label_of (encs : encoders) (class_name : string) (c : Z) (label : cell) : Prop :=
  exists classes k, dget class_name encs = Some classes /\ c = Z.of_nat k /\ nth_error classes k = Some label.
(** every value of every encoded feature is, without its fraction, the number of a class, and so is every outcome *)
Record encoded (encs : encoders) (names : list string) (class_name : string) (outcomes : nat) (X : list (list Qc)) : Prop := mkE {
  enc_keys : NoDup (dkeys encs);
  enc_names : forall c, In c (dkeys encs) -> c = class_name \/ In c names;
  enc_codes : forall c classes i row q, dget c encs = Some classes -> nth_error names i = Some c -> In row X -> nth_error row i = Some q ->
    exists k, truncated q (Z.of_nat k) /\ (k < List.length classes)%nat;
  enc_class : exists classes, dget class_name encs = Some classes /\ (outcomes <= List.length classes)%nat }.
(** the degrees of the last row *)
Definition last_row (xm : dict string (dict string (list Qc))) : dict string (dict string Qc) :=
  map (fun fd => (fst fd, map (fun tl : string * list Qc => (fst tl, last (snd tl) 0)) (snd fd))) xm.
