(** * Vocabulary for fuzzy entropy and entropy discretisation (C13, C76) *)
From Verif Require Import Prelude.
From Coq Require Import Reals.
Open Scope Qc_scope.

(** rational numbers as real numbers, finite sums, entropy of a share in bits *)
Definition real (x : Qc) : R := Q2R (this x).
Definition total (l : list R) : R := fold_right Rplus 0%R l.
Definition bits (x : R) : R := (ln x / ln 2)%R.
Definition plog (p : R) : R := if Rle_dec p 0 then 0%R else (- (p * bits p))%R.

(** rows are pairs (weight or value, class) *)
Definition labels (rows : list (Qc * Z)) : list Z := nodup Z.eq_dec (map snd rows).
Definition of_label (c : Z) (rows : list (Qc * Z)) : list (Qc * Z) := filter (fun r => Z.eqb (snd r) c) rows.
Definition weight (rows : list (Qc * Z)) : R := total (map (fun r => real (fst r)) rows).
(** the entropy of weighted rows *)
Definition entropy_of (rows : list (Qc * Z)) : R :=
  total (map (fun c => plog (weight (of_label c rows) / weight rows)) (labels rows)).

(** the degree of a value in the triangle (a, b, c) *)
Definition height (abc : Qc * Qc * Qc) (x : Qc) : Qc :=
  let '(a, b, c) := abc in
  if Qc_eq_dec x b then 1
  else if Qclt_le_dec x b then (if Qclt_le_dec a x then (x - a) / (b - a) else 0)
  else (if Qclt_le_dec x c then (c - x) / (c - b) else 0).
(** the rows of a column weighted by a triangle; the triangles over two and three points *)
Definition under (abc : Qc * Qc * Qc) (data : list (Qc * Z)) : list (Qc * Z) := map (fun r => (height abc (fst r), snd r)) data.
Definition two (mn mx : Qc) : list (Qc * Qc * Qc) := [(mn, mn, mx); (mn, mx, mx)].
Definition three (mn p mx : Qc) : list (Qc * Qc * Qc) := [(mn, mn, p); (mn, p, mx); (p, mx, mx)].
(** the entropy left by a partition, each triangle counting with its share *)
Definition left_over (ts : list (Qc * Qc * Qc)) (data : list (Qc * Z)) : R :=
  (total (map (fun t => weight (under t data) * entropy_of (under t data)) ts) / INR (List.length data))%R.
(** what is gained by cutting at [p] *)
Definition gain_at (data : list (Qc * Z)) (mn p mx : Qc) : R := (left_over (two mn mx) data - left_over (three mn p mx) data)%R.
(** the number of classes with a positive degree *)
Definition classes_under (t : Qc * Qc * Qc) (data : list (Qc * Z)) : nat :=
  List.length (labels (filter (fun r => qltb 0 (fst r)) (under t data))).
(** the gain a cut at [p] has to reach: given by the caller, or by the description length *)
Definition required (th : option R) (data : list (Qc * Z)) (mn p mx : Qc) : R :=
  match th with
  | Some t => t
  | None =>
      let k := List.length (labels data) in
      let n := INR (List.length data) in
      let delta := (bits (3 ^ k - 2) - (INR k * left_over (two mn mx) data
                    - total (map (fun t => INR (classes_under t data) * entropy_of (under t data)) (three mn p mx))))%R in
      ((bits (n - 1) + delta) / n)%R
  end.
(** [p] is the least interior value of largest gain *)
Definition inside (data : list (Qc * Z)) (mn mx p : Qc) : Prop := In p (map fst data) /\ mn < p /\ p < mx.
Definition best_cut_at (data : list (Qc * Z)) (mn mx p : Qc) : Prop :=
  inside data mn mx p /\
  forall q, inside data mn mx q -> (gain_at data mn q mx <= gain_at data mn p mx)%R /\ (q < p -> (gain_at data mn q mx < gain_at data mn p mx)%R).
Definition may_cut (max_depth depth : Z) : Prop := max_depth = 0%Z \/ (depth < max_depth)%Z /\ (0 < max_depth)%Z.
Definition largest (data : list (Qc * Z)) (mx : Qc) : Prop := In mx (map fst data) /\ forall x, In x (map fst data) -> x <= mx.

(** the points a column with minimum point [mn] is divided at, at a certain depth *)
Inductive divided (max_depth : Z) (th : option R) : Z -> Qc -> list (Qc * Z) -> list Qc -> Prop :=
| d_stop depth mn mx data : largest data mx ->
    (~ may_cut max_depth depth \/ (forall p, ~ inside data mn mx p) \/
     exists p, best_cut_at data mn mx p /\ (gain_at data mn p mx < required th data mn p mx)%R) ->
    divided max_depth th depth mn data [mn; mx]
| d_cut depth mn mx data p lp rp pts : largest data mx -> may_cut max_depth depth ->
    best_cut_at data mn mx p -> (required th data mn p mx <= gain_at data mn p mx)%R ->
    divided_side max_depth th (depth + 1) mn (filter (fun r => qleb (fst r) p) data) lp ->
    divided_side max_depth th (depth + 1) p (filter (fun r => qltb p (fst r)) data) rp ->
    StronglySorted Qclt pts -> (forall x, In x pts <-> In x lp \/ In x rp) ->
    divided max_depth th depth mn data pts
with divided_side (max_depth : Z) (th : option R) : Z -> Qc -> list (Qc * Z) -> list Qc -> Prop :=
| d_one depth mn row : divided_side max_depth th depth mn [row] []
| d_more depth mn data pts : (2 <= List.length data)%nat -> divided max_depth th depth mn data pts ->
    divided_side max_depth th depth mn data pts.
