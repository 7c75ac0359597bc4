(** * Specification vocabulary for trees fitted several times in a row (statements of Properties_History.v) *)
From Verif Require Import Prelude M_Fuzzy M_Rule M_FDT M_FBDT S_FDT S_FBDT.
Set Implicit Arguments.
Open Scope Qc_scope.

(** a history: the data (rows and labels) of successive calls of fit on one object *)
Definition history : Type := list (list (list cell) * list Z).
Definition fits (cfg : fdt_cfg) ord (hist : history) (t : tree) : res tree :=
  foldM (fun t d => fit cfg ord t (fst d) (snd d)) t hist.
Definition bfits (cfg : fdt_cfg) psort (hist : history) (t : btree) : res btree :=
  foldM (fun t d => do ht <- bt_fit cfg psort t (fst d) (snd d); Ok (snd ht)) t hist.
(** the trees new objects would have got from each data set alone *)
Definition alone (cfg : fdt_cfg) ord (hist : history) (ts : list tree) : Prop :=
  Forall2 (fun d t => trained cfg ord (fst d) (snd d) t) hist ts.
Definition balone (cfg : fdt_cfg) psort (hist : history) (ts : list btree) : Prop :=
  Forall2 (fun d t => btrained cfg psort (fst d) (snd d) t) hist ts.
(** those of them that are split *)
Definition splits (ts : list tree) : list tree := filter (fun t => negb (t_leaf t)) ts.
Definition bsplits (ts : list btree) : list btree := filter (fun t => negb (b_leaf t)) ts.
(** support added up over several trees (or the largest one, with max_match) *)
Definition pooled (v : voting) (sups : list Qc) : Qc :=
  match v with AggVote => qsum sups | MaxMatch => fold_right qmax 0 sups end.
(** all data sets of a history have the classes [classes] *)
Definition same_classes (hist : history) (classes : list Z) : Prop :=
  forall d, In d hist -> forall c, In c (snd d) <-> In c classes.
