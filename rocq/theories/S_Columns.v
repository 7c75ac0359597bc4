(** * Vocabulary: the columns of a table in another order (C125) *)
From Verif Require Import Prelude M_Fuzzy M_FDT M_ID3.
Set Implicit Arguments.

(** [pi] sends the position of a column to its new position; [moved pi l l']: the element at
    position [a] of [l] is at position [pi a] of [l'] *)
Definition bijective (pi : nat -> nat) : Prop := exists sigma, (forall a, sigma (pi a) = a) /\ forall a, pi (sigma a) = a.
Definition moved {A} (pi : nat -> nat) (l l' : list A) : Prop := forall a, nth_error l' (pi a) = nth_error l a.
(** every row of a table has its cells moved *)
Definition moved_table (pi : nat -> nat) (X X' : list (list cell)) : Prop := Forall2 (moved pi) X X'.
(** trees mention columns by position *)
Section Columns.
  Variable pi : nat -> nat.
  Definition renumber_path (p : list (nat * nat)) : list (nat * nat) := map (fun ai => (pi (fst ai), snd ai)) p.
  Fixpoint renumber (t : tree) : tree :=
    let 'Tree l cs cv lv va vr mu := t in Tree l (map renumber cs) cv lv (option_map (fun ai => (pi (fst ai), snd ai)) va) vr mu.
  Fixpoint renumber_id3 (t : itree) : itree :=
    let 'ITree v l cs sp c cc lv er nl := t in ITree (option_map pi v) l (map renumber_id3 cs) sp c cc lv er nl.
  Definition move_vars (vars' : list fvar) (cfg : fdt_cfg) : fdt_cfg :=
    mkFDT vars' (f_threshold cfg) (f_max_depth cfg) (f_min_examples cfg) (f_tnorm cfg) (f_voting cfg).
  Definition move_features (features' : list string) (cfg : id3_cfg) : id3_cfg :=
    mkID3 features' (i_th cfg) (i_max_depth cfg) (i_min_examples cfg) (i_prunning cfg).
End Columns.
