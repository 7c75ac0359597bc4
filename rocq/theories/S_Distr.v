(** * Vocabulary for C105-C108 *)
From Verif Require Import Prelude.
Open Scope Qc_scope.

Definition below (v : Qc) (x : list Qc) : nat := List.length (filter (fun u => qltb u v) x).
Definition above (v : Qc) (x : list Qc) : nat := List.length (filter (fun u => qltb v u) x).
(** [m] bins are enough for [n] numbers spread over [range] with quartiles [iqr] apart: there are at least log2(n) + 1, and none is
    wider than 2 * iqr / n^(1/3) *)
Definition enough (n : nat) (range iqr : Qc) (m : Z) : Prop :=
  (Z.of_nat n <= 2 ^ (m - 1))%Z /\ range * range * range * qn n <= (qz 2 * iqr * qz m) * (qz 2 * iqr * qz m) * (qz 2 * iqr * qz m).
(** [size] numbers from [a] to [b] in equal steps *)
Definition evenly (a b : Qc) (size : nat) (l : list Qc) : Prop :=
  List.length l = size /\ (0 < size -> nth_error l 0 = Some a)%nat /\ (1 < size -> nth_error l (size - 1) = Some b)%nat /\
  exists step, forall i u v, nth_error l i = Some u -> nth_error l (S i) = Some v -> v - u = step.
(** the winner of a contest between the names of a list: the first of the least positive error, if any error is positive *)
Definition winner (names : list string) (error : string -> option Qc) (w : option string) : Prop :=
  match w with
  | Some d => exists before after s, names = before ++ d :: after /\ error d = Some s /\ 0 < s /\
      (forall d' s', In d' before -> error d' = Some s' -> 0 < s' -> s < s') /\
      (forall d' s', In d' after -> error d' = Some s' -> 0 < s' -> s <= s')
  | None => forall d s, In d names -> error d = Some s -> s <= 0
  end.
(** the error of an attempt, if it ended with a number *)
Definition error_of (attempt : string -> option (list Qc * option Qc)) (d : string) : option Qc :=
  match attempt d with Some (_, e) => e | None => None end.
