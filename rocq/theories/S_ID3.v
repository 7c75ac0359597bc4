(** * Specification vocabulary for ID3 trees (statements of Properties_ID3.v) *)
From Verif Require Import Prelude M_Fuzzy M_Discretize M_Rule M_ID3.
From Coq Require Import Reals.
Set Implicit Arguments.
Open Scope Qc_scope.

(** a path is a list of tests "column [i] has value [v]" *)
Definition has_value (i : nat) (v : cell) (x : list cell) : bool := eqb (nth_error x i) (Some v).
Definition on_path (p : list (nat * cell)) (x : list cell) : bool := forallb (fun iv => has_value (fst iv) (snd iv) x) p.
(** the labelled training rows satisfying all tests of a path *)
Definition reaching (X : list (list cell)) (y : list Z) (p : list (nat * cell)) : list (list cell * Z) :=
  filter (fun xy => on_path p (fst xy)) (combine X y).
(** number of rows of class [c] *)
Definition times (c : Z) (D : list (list cell * Z)) : nat := List.length (filter (fun xy => Z.eqb (snd xy) c) D).

(** [inode_at t p n]: following the tests [p] from [t] through inner nodes leads to [n] *)
Inductive inode_at : itree -> list (nat * cell) -> itree -> Prop :=
| iat_self t : inode_at t [] t
| iat_child t i s j c p n : i_leaf t = false -> i_var t = Some i -> nth_error (i_splits t) j = Some s ->
    nth_error (i_children t) j = Some c -> inode_at c p n -> inode_at t ((i, s) :: p) n.

(** a training table: distinct feature names, at least one row, one label per row, a column for
    every feature, each column all numbers or all strings *)
Definition table (features : list string) (X : list (list cell)) (y : list Z) : Prop :=
  NoDup features /\ features <> [] /\ List.length X = List.length y /\ X <> [] /\
  (forall x, In x X -> (List.length features <= List.length x)%nat) /\
  forall i, (i < List.length features)%nat ->
    (forall x, In x X -> exists q, nth_error x i = Some (CNum q)) \/ (forall x, In x X -> exists s, nth_error x i = Some (CStr s)).
(** [cls] and [fts] list the sets set(y) and set(features) - set(erased), in any order *)
Definition set_orders (cfg : id3_cfg) (cls : list Z -> list Z) (fts : list string -> list string) : Prop :=
  (forall y, Permutation (cls y) (nodup Z.eq_dec y)) /\
  forall erased, Permutation (fts erased) (filter (fun f => negb (memb f erased)) (nodup string_dec (i_features cfg))).
(** the value [v] occurs in column [i] of the table *)
Definition occurs (X : list (list cell)) (i : nat) (v : cell) : Prop := exists x, In x X /\ nth_error x i = Some v.
(** every feature of the row has a value that occurs in its training column *)
Definition known (cfg : id3_cfg) (X : list (list cell)) (x : list cell) : Prop :=
  forall i, (i < List.length (i_features cfg))%nat -> exists v, nth_error x i = Some v /\ occurs X i v.
Definition id3_trained (cfg : id3_cfg) (cls : list Z -> list Z) (fts : list string -> list string) (root : itree)
    (X : list (list cell)) (y : list Z) (t : itree) : Prop :=
  table (i_features cfg) X y /\ set_orders cfg cls fts /\ id3_fit cfg cls fts root X y = Ok t.

(** class entropy in bits and information gain of splitting [D] by column [i] *)
Definition bits (D : list (list cell * Z)) : R :=
  rsum (map (fun c => let p := (INR (times c D) / INR (List.length D))%R in (- p * log2 p)%R) (zunique (map snd D))).
Definition having (i : nat) (v : cell) (D : list (list cell * Z)) : list (list cell * Z) :=
  filter (fun xy => has_value i v (fst xy)) D.
Definition information_gain (D : list (list cell * Z)) (i : nat) : R :=
  (bits D - rsum (map (fun v => INR (List.length (having i v D)) / INR (List.length D) * bits (having i v D))
     (nodup eq_dec (flat_map (fun xy => match nth_error (fst xy) i with Some v => [v] | None => [] end) D))))%R.

(** a rule's conditions hold for a row *)
Definition test_holds (features : list string) (x : list cell) (fv : string * cell) : Prop :=
  exists i, nth_error features i = Some (fst fv) /\ nth_error x i = Some (snd fv).
Definition applies (features : list string) (x : list cell) (r : rule cell) : Prop :=
  forall fv, In fv (r_ant r) -> test_holds features x fv.
