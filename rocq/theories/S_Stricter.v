(** * Specification vocabulary for C142: stricter stopping parameters and pruned trees *)
From Verif Require Import Prelude M_Fuzzy M_Rule M_FDT M_FBDT M_ID3.
From Coq Require Import Reals.
Set Implicit Arguments.

(** the first configuration stops no later than the second: the same fuzzy variables, max_depth at most, min_num_examples
    and fuzzy_threshold at least those of the second (t-norm and voting method are free) *)
Definition stricter (cfg cfg' : fdt_cfg) : Prop :=
  f_vars cfg = f_vars cfg' /\ (f_max_depth cfg <= f_max_depth cfg')%Z /\ (f_min_examples cfg' <= f_min_examples cfg)%Z /\
  (f_threshold cfg' <= f_threshold cfg)%R.
Definition id3_stricter (cfg cfg' : id3_cfg) : Prop :=
  i_features cfg = i_features cfg' /\ (i_max_depth cfg <= i_max_depth cfg')%Z /\ (i_min_examples cfg' <= i_min_examples cfg)%Z.

(** the first tree is the second one with leaves in the place of some inner nodes *)
Inductive fdt_pruned : tree -> tree -> Prop :=
| fp_leaf c lev v w mu : fdt_pruned (Tree true [] c lev v w mu) (Tree true [] c lev v w mu)
| fp_cut cv ch c lev v w mu : fdt_pruned (Tree true [] (Some cv) lev v w mu) (Tree false ch c lev v w mu)
| fp_inner ch ch' c lev v w mu : Forall2 fdt_pruned ch ch' -> fdt_pruned (Tree false ch c lev v w mu) (Tree false ch' c lev v w mu).
Inductive fbdt_pruned : btree -> btree -> Prop :=
| bp_leaf c lev v w mu ig ig' : fbdt_pruned (BTree true [] c lev v w mu ig) (BTree true [] c lev v w mu ig')
| bp_cut cv ch c lev v w mu ig ig' : fbdt_pruned (BTree true [] (Some cv) lev v w mu ig) (BTree false ch c lev v w mu ig')
| bp_inner ch ch' c lev v w mu ig ig' : Forall2 fbdt_pruned ch ch' ->
    fbdt_pruned (BTree false ch c lev v w mu ig) (BTree false ch' c lev v w mu ig').
Inductive id3_pruned : itree -> itree -> Prop :=
| ip_leaf c cc lev e : id3_pruned (ITree None true [] [] c cc lev e 1) (ITree None true [] [] c cc lev e 1)
| ip_cut w ch sp c cc lev e e' nl : id3_pruned (ITree None true [] [] c cc lev e 1) (ITree w false ch sp c cc lev e' nl)
| ip_inner ch ch' w sp c cc lev e e' nl : Forall2 id3_pruned ch ch' ->
    id3_pruned (ITree w false ch sp c cc lev e nl) (ITree w false ch' sp c cc lev e' nl).
