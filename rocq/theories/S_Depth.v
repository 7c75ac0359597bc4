(** * Specification vocabulary for C141: trees cut off at a depth *)
From Verif Require Import Prelude M_Fuzzy M_Rule M_FDT M_FBDT M_ID3.
Set Implicit Arguments.

(** the same parameters with another max_depth *)
Definition with_depth (cfg : fdt_cfg) (d : Z) : fdt_cfg :=
  mkFDT (f_vars cfg) (f_threshold cfg) d (f_min_examples cfg) (f_tnorm cfg) (f_voting cfg).
Definition id3_with_depth (cfg : id3_cfg) (d : Z) : id3_cfg :=
  mkID3 (i_features cfg) (i_th cfg) d (i_min_examples cfg) (i_prunning cfg).

(** the first FDT is the second one cut off [n] levels below its root: at that level a leaf stands in the place of
    each inner node, with its level, branch and training activations; everything else is the same *)
Inductive fdt_cut : nat -> tree -> tree -> Prop :=
| fc_end cv lf ch c lev v w mu : (lf = true -> ch = [] /\ c = Some cv) ->
    fdt_cut 0 (Tree true [] (Some cv) lev v w mu) (Tree lf ch c lev v w mu)
| fc_leaf n c lev v w mu : fdt_cut n (Tree true [] c lev v w mu) (Tree true [] c lev v w mu)
| fc_inner n ch ch' c lev v w mu : Forall2 (fdt_cut n) ch ch' ->
    fdt_cut (S n) (Tree false ch c lev v w mu) (Tree false ch' c lev v w mu).
(** the same for the binary tree (the addresses of the arrays of ignored examples do not matter) *)
Inductive fbdt_cut : nat -> btree -> btree -> Prop :=
| bc_end cv lf ch c lev v w mu ig ig' : (lf = true -> ch = [] /\ c = Some cv) ->
    fbdt_cut 0 (BTree true [] (Some cv) lev v w mu ig) (BTree lf ch c lev v w mu ig')
| bc_leaf n c lev v w mu ig ig' : fbdt_cut n (BTree true [] c lev v w mu ig) (BTree true [] c lev v w mu ig')
| bc_inner n ch ch' c lev v w mu ig ig' : Forall2 (fbdt_cut n) ch ch' ->
    fbdt_cut (S n) (BTree false ch c lev v w mu ig) (BTree false ch' c lev v w mu ig').
(** the same for ID3, where a node cut off keeps its class and its counts, and the error estimates of inner nodes (which
    come from their leaves) may differ *)
Inductive id3_cut : nat -> itree -> itree -> Prop :=
| ic_end w lf ch sp c cc lev e e' nl : (lf = true -> w = None /\ ch = [] /\ sp = [] /\ e' = e /\ nl = 1%nat) ->
    id3_cut 0 (ITree None true [] [] c cc lev e 1) (ITree w lf ch sp c cc lev e' nl)
| ic_leaf n c cc lev e : id3_cut n (ITree None true [] [] c cc lev e 1) (ITree None true [] [] c cc lev e 1)
| ic_inner n ch ch' w sp c cc lev e e' nl : Forall2 (id3_cut n) ch ch' ->
    id3_cut (S n) (ITree w false ch sp c cc lev e nl) (ITree w false ch' sp c cc lev e' nl).
(** number of levels below the root *)
Fixpoint fdt_height (t : tree) : nat :=
  let 'Tree lf ch _ _ _ _ _ := t in if lf then 0%nat else S (list_max (map fdt_height ch)).
Fixpoint fbdt_height (t : btree) : nat :=
  let 'BTree lf ch _ _ _ _ _ _ := t in if lf then 0%nat else S (list_max (map fbdt_height ch)).
