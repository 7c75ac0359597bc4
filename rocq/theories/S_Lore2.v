(** * Specification vocabulary for the smoothed LORE neighborhood *)
From Verif Require Import Prelude M_Utils M_Lore S_Utils S_Lore.
Set Implicit Arguments.
Open Scope Qc_scope.

(** [m] is the mean of [l], [v] its variance *)
Definition mean_of (l : list Qc) (m : Qc) : Prop := l <> [] /\ qn (List.length l) * m = qsum l.
Definition variance_of (l : list Qc) (m v : Qc) : Prop := qn (List.length l) * v = qsum (map (fun x => (x - m) * (x - m)) l).
(** [x] is less than 3 standard deviations away from the mean of [l], and these are not 0 *)
Definition within_3 (l : list Qc) (x : Qc) : Prop := exists m v, mean_of l m /\ variance_of l m v /\ 0 < v /\ (x - m) * (x - m) < qz 9 * v.
(** the least and the greatest of [l] *)
Definition range_of (l : list Qc) (lo hi : Qc) : Prop := In lo l /\ In hi l /\ forall x, In x l -> lo <= x /\ x <= hi.
(** [w] is [v] moved to the nearest point between [lo] and [hi] *)
Definition clamped (lo hi v w : Qc) : Prop := (v < lo -> w = lo) /\ (hi < v -> w = hi) /\ (lo <= v -> v <= hi -> w = v).
(** [df'] is [df] with the values of the columns [continuous] clamped to the range of the observed ones *)
Definition clamped_frame (X2E : list (list Qc)) (feat_idx : dict string nat) (continuous : list string) (df df' : frame) : Prop :=
  dkeys df' = dkeys df /\ (forall c, ~ In c continuous -> dget c df' = dget c df) /\
  forall c, In c continuous -> exists i observed lo hi vs ws, dget c feat_idx = Some i /\ column_values X2E i observed /\ range_of observed lo hi /\
    dget c df = Some (map CNum vs) /\ dget c df' = Some (map CNum ws) /\ Forall2 (clamped lo hi) vs ws.
(** row [r] has no outlying value in the columns [continuous] *)
Definition inlying (df : frame) (continuous : list string) (r : nat) : Prop :=
  forall c, In c continuous -> exists vs v, dget c df = Some (map CNum vs) /\ nth_error vs r = Some v /\ within_3 vs v.
(** the code of a cell of column [c]: its position among the classes of the encoder, if there is one *)
Definition code_of (encs : encoders) (c : string) (v w : cell) : Prop :=
  match dget c encs with
  | None => w = v
  | Some classes => exists k, nth_error classes k = Some v /\ w = CNum (qn k)
  end.
(** the cells of a column in the given rows *)
Definition pick (rows : list nat) (col : list cell) : list cell := map (fun r => nth r col (CNum 0)) rows.
(** a value stored in a column of type [t]: truncated if that is integer *)
Definition stored (t : string) (v w : Qc) : Prop := (t = "integer"%string -> exists z, truncated v z /\ w = qz z) /\ (t <> "integer"%string -> w = v).
(** [w] may be drawn for position [i], column [c], of a new row: an observed value if the column is discrete, or continuous and constant; for
    a column in neither list the value of the position before *)
Definition drawn_value (X : list (list Qc)) (discrete continuous : list string) (ftype : dict string string) (row : list Qc) (i : nat) (c : string) (w : Qc) : Prop :=
  exists values t v, column_values X i values /\ dget c ftype = Some t /\ stored t v w /\
    (In c discrete -> In v values) /\ (~ In c discrete -> In c continuous -> values <> [] -> constant values -> In v values) /\
    (~ In c discrete -> ~ In c continuous -> exists j, i = S j /\ nth_error row j = Some v).
