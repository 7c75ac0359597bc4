(** * Specification vocabulary for the utility functions *)
From Verif Require Import Prelude M_Utils.
Set Implicit Arguments.
Open Scope Qc_scope.

(** the number of positions of [x] where [y] has no or another value *)
Definition mismatches (x y : list cell) : nat :=
  List.length (filter (fun i => negb (eqb (nth_error x i) (nth_error y i))) (seq 0 (List.length x))).
(** the contribution of feature [i] to the deviation-scaled distance *)
Definition scaled_gap (x y mad : list Qc) (i : nat) : Qc :=
  if eqb (nth i mad 0) 0 then 0 else qabs (nth i x 0 - nth i y 0) / nth i mad 0.
(** all values are equal *)
Definition constant (x : list Qc) : Prop := forall a b, In a x -> In b x -> a = b.
(** [y] is [x] shifted by [c] *)
Definition shifted (x y : list Qc) (c : Qc) : Prop := y = map (fun v => v + c) x.

(** the record has a value for each of the columns *)
Definition has_fields (x : record) (atts : list string) : Prop := forall a, In a atts -> exists v, dget a x = Some v.
Definition has_numbers (x : record) (atts : list string) : Prop := forall a, In a atts -> exists q, dget a x = Some (CNum q).

(** [setlist] lists the distinct elements, in any order *)
Definition set_listing (setlist : list string -> list string) : Prop := forall l, Permutation (setlist l) (nodup string_dec l).

(** numbers before numbers, text before text *)
Definition cell_lt (a b : cell) : Prop :=
  match a, b with CNum p, CNum q => p < q | CStr s, CStr t => String.ltb s t = true | _, _ => False end.
(** all numbers or all text *)
Definition uniform (col : list cell) : Prop :=
  (forall c, In c col -> exists q, c = CNum q) \/ (forall c, In c col -> exists s, c = CStr s).
(** a frame whose columns have distinct names and [n] values each *)
Definition rectangular (n : nat) (df : frame) : Prop := NoDup (dkeys df) /\ forall c col, In (c, col) df -> List.length col = n.

(** NaN after all numbers *)
Definition fl_le (a b : fl) : Prop := match a, b with _, None => True | None, Some _ => False | Some p, Some q => p <= q end.
(** [argsort] sorts positions by value *)
Definition sorts (argsort : list fl -> list nat) : Prop :=
  forall l, Permutation (argsort l) (seq 0 (List.length l)) /\ StronglySorted (fun i j => fl_le (nth i l None) (nth j l None)) (argsort l).

(** [l] lists the [k] candidates nearest by the distances [ds] (all of them if there are fewer), nearest first *)
Definition nearest_k (ds : list fl) (candidates : list nat) (k : nat) (l : list nat) : Prop :=
  NoDup l /\ incl l candidates /\ List.length l = Nat.min k (List.length candidates) /\
  StronglySorted (fun i j => fl_le (nth i ds None) (nth j ds None)) l /\
  forall i j, In i l -> In j candidates -> ~ In j l -> fl_le (nth i ds None) (nth j ds None).
(** how many elements of [a] are in [b] *)
Definition shared (a b : list nat) : nat := List.length (filter (fun i => existsb (Nat.eqb i) b) a).
(** row [i] of a table *)
Definition value_at (df : frame) (c : string) (i : nat) : option cell := match dget c df with Some col => nth_error col i | None => None end.

(** [q] rounded towards zero *)
Definition truncated (q : Qc) (z : Z) : Prop := (0 <= q -> qz z <= q /\ q < qz (z + 1)) /\ (q < 0 -> qz (z - 1) < q /\ q <= qz z).
(** row [j] of the array [y | X], position [i] *)
Definition source (y : list Z) (X : list (list Qc)) (i j : nat) : option Qc :=
  match i with
  | O => option_map qz (nth_error y j)
  | S q => match nth_error X j with Some row => nth_error row q | None => None end
  end.
(** the columns hold what their dtype says *)
Definition typed (dt : string -> dtype) (df : frame) : Prop := forall c col, In (c, col) df -> dt c <> DOther /\ forall v, In v col ->
  match dt c with
  | DInt => exists z, v = CNum (qz z)
  | DFloat => exists q, v = CNum q
  | DObject => exists s, v = CStr s
  | DOther => False
  end.
