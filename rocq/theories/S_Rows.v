(** * Vocabulary: training rows in another order, or repeated (C110-C112) *)
From Verif Require Import Prelude M_FDT M_FBDT.

(** the rows (X', y') are the rows (X, y), each [k] times, in any order *)
Definition rows_times {A} (k : nat) (X : list A) (y : list Z) (X' : list A) (y' : list Z) : Prop :=
  List.length X = List.length y /\ List.length X' = List.length y' /\
  Permutation (combine X' y') (List.concat (repeat (combine X y) k)).

(** a tree without what it recorded of the single training rows *)
Fixpoint shape (t : tree) : tree :=
  let 'Tree l cs cv lv va vr _ := t in Tree l (map shape cs) cv lv va vr [].
Fixpoint bshape (t : btree) : btree :=
  let 'BTree l cs cv lv va vr _ _ := t in BTree l (map bshape cs) cv lv va vr [] [].
