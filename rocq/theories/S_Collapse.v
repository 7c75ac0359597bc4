(** * Specification vocabulary for C143: what ID3's pruning removes *)
From Verif Require Import Prelude M_Fuzzy M_Rule M_ID3.
Set Implicit Arguments.

(** the same parameters without pruning *)
Definition unpruned (cfg : id3_cfg) : id3_cfg :=
  mkID3 (i_features cfg) (i_th cfg) (i_max_depth cfg) (i_min_examples cfg) false.
(** the first tree is the second one with some inner nodes turned into leaves of the same class, counts and level (the
    attributes of a leaf that prediction and rules do not look at, and the error estimates, may differ) *)
Inductive collapsed : itree -> itree -> Prop :=
| cl_leaf w w' ch ch' sp sp' c cc lev e nl nl' : collapsed (ITree w true ch sp c cc lev e nl) (ITree w' true ch' sp' c cc lev e nl')
| cl_cut w w' ch ch' sp sp' c cc lev e e' nl nl' : collapsed (ITree w true ch sp c cc lev e nl) (ITree w' false ch' sp' c cc lev e' nl')
| cl_inner ch ch' w sp c cc lev e e' nl : Forall2 collapsed ch ch' ->
    collapsed (ITree w false ch sp c cc lev e nl) (ITree w false ch' sp c cc lev e' nl).
