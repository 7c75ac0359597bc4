(** * Vocabulary: positions counted from the front or from the end *)
From Verif Require Import Prelude.
(** [x] is at index [i] of [l] in Python's way of counting *)
Definition at_index {A} (l : list A) (i : Z) (x : A) : Prop :=
  (0 <= i)%Z /\ nth_error l (Z.to_nat i) = Some x \/
  (i < 0)%Z /\ exists before after, l = before ++ x :: after /\ Z.of_nat (List.length after) = (- i - 1)%Z.
