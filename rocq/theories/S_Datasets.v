(** * Specification vocabulary for the dataset loaders *)
From Verif Require Import Prelude M_Utils S_Utils.
Set Implicit Arguments.
Open Scope string_scope. Open Scope list_scope. Open Scope Qc_scope.

(** [df'] has the columns [cols] of [df], in that order, with the values they have there *)
Definition rearranged {A} (cols : list string) (df df' : dict string A) : Prop :=
  dkeys df' = cols /\ forall c, In c cols -> dget c df' = dget c df.
(** all columns but [cls], in their order *)
Definition others (cls : string) (l : list string) : list string := filter (fun c => negb (eqb c cls)) l.
Definition without (dropped l : list string) : list string := filter (fun c => negb (memb c dropped)) l.
(** how often [v] occurs *)
Definition occurrences (v : cell) (l : list cell) : nat := List.length (filter (fun w => eqb w v) l).
(** [v] is a value of [l] that no value exceeds in frequency *)
Definition a_mode (v : cell) (l : list cell) : Prop := In v l /\ forall w, (occurrences w l <= occurrences v l)%nat.
(** the oracle for value_counts().index[0] *)
Definition mode_oracle (top : list cell -> res cell) : Prop :=
  top [] = Err IndexError /\ forall l, l <> [] -> exists v, top l = Ok v /\ a_mode v l.
(** the values that are present *)
Definition present (col : list (option cell)) : list cell := flat_map (fun x => match x with Some v => [v] | None => [] end) col.
(** the absolute value of a number, if there is one *)
Definition absolute (x : option cell) : option cell := match x with Some (CNum q) => Some (CNum (qabs q)) | _ => None end.
(** the number of whole days from the time [i] to the time [o], rounded down, without its sign; none if a time is missing *)
Definition stay (parse : string -> res Z) (o i : option cell) : option cell :=
  match o, i with
  | Some (CStr s), Some (CStr t) => match parse s, parse t with Ok a, Ok b => Some (CNum (qz (Z.abs ((a - b) / 86400)))) | _, _ => None end
  | _, _ => None
  end.
(** [col'] is [col] with its missing values replaced by one most frequent of the values present, as integers *)
Definition filled_up (col col' : list (option cell)) : Prop :=
  exists m, a_mode m (present col) /\ List.length col' = List.length col /\
    forall i x, nth_error col i = Some x -> exists q z, match x with Some v => v | None => m end = CNum q /\ truncated q z /\ nth_error col' i = Some (Some (CNum (qz z))).
(** the columns of a table with missing values have [n] entries *)
Definition rows_of (n : nat) (df : dict string (list (option cell))) : Prop := NoDup (dkeys df) /\ forall c col, In (c, col) df -> List.length col = n.
(** the columns of the table load_compas prepares, and those taken over from the file unchanged *)
Definition compas_result : list string :=
  ["class"; "age"; "age_cat"; "sex"; "race"; "priors_count"; "days_b_screening_arrest"; "c_charge_degree"; "is_recid"; "is_violent_recid"; "two_year_recid"; "length_of_stay"].
Definition compas_kept : list string := ["age"; "age_cat"; "sex"; "race"; "priors_count"; "c_charge_degree"; "is_recid"; "is_violent_recid"; "two_year_recid"].
(** [df'] is the table [df], none of whose values is missing *)
Definition all_present (df : frame) : dict string (list (option cell)) := map (fun cc : string * list cell => (fst cc, map Some (snd cc))) df.
