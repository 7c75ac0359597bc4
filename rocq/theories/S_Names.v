(** * Vocabulary: calling variables and fuzzy sets by other names (C123) *)
From Verif Require Import Prelude M_Fuzzy M_Rule M_FDT M_FBDT M_ID3.
Set Implicit Arguments.

(** [f] renames the variables, [g v] the sets of the variable named [v]; different names stay different *)
Definition distinct_names_kept (f : string -> string) (g : string -> string -> string) : Prop :=
  (forall a b, f a = f b -> a = b) /\ (forall v a b, g v a = g v b -> a = b).
Section Names.
  Variable f : string -> string.
  Variable g : string -> string -> string.
  Definition rename_set (h : string -> string) (s : fset) : fset :=
    match s with FC c => FC (mkC (h (c_name c)) (pa c) (pb c) (pc c) (c_point c)) | FD n v => FD (h n) v end.
  Definition rename_var (v : fvar) : fvar := mkV (f (fv_name v)) (map (rename_set (g (fv_name v))) (fv_sets v)).
  (** a tree mentions names in the variables stored in its nodes, a binary tree also in its table of ignored memberships *)
  Fixpoint rename (t : tree) : tree :=
    let 'Tree l cs cv lv va vr mu := t in Tree l (map rename cs) cv lv va (option_map rename_var vr) mu.
  Fixpoint brename (t : btree) : btree :=
    let 'BTree l cs cv lv va vr mu ig := t in
    BTree l (map brename cs) cv lv va (option_map rename_var vr) mu (map (fun na => (f (fst na), snd na)) ig).
  Definition rename_rule (r : rule string) : rule string :=
    mkR (map (fun c => (f (fst c), g (fst c) (snd c))) (r_ant r)) (r_cons r) (r_weight r).
  Definition brename_rule (r : rule (list string)) : rule (list string) :=
    mkR (map (fun c => (f (fst c), map (g (fst c)) (snd c))) (r_ant r)) (r_cons r) (r_weight r).
  (** the degrees of one instance, and of a table *)
  Definition rename_instance (m : imem) : imem :=
    map (fun nd => (f (fst nd), map (fun sc => (g (fst nd) (fst sc), snd sc)) (snd nd))) m.
  Definition rename_degrees (XM : xmem) : xmem :=
    map (fun nd => (f (fst nd), map (fun sc => (g (fst nd) (fst sc), snd sc)) (snd nd))) XM.
  Definition rename_cfg (cfg : fdt_cfg) : fdt_cfg :=
    mkFDT (map rename_var (f_vars cfg)) (f_threshold cfg) (f_max_depth cfg) (f_min_examples cfg) (f_tnorm cfg) (f_voting cfg).
  (** ID3: names occur in the configuration and the rules, never in the tree *)
  Definition rename_id3 (cfg : id3_cfg) : id3_cfg :=
    mkID3 (map f (i_features cfg)) (i_th cfg) (i_max_depth cfg) (i_min_examples cfg) (i_prunning cfg).
  Definition rename_crisp (r : rule cell) : rule cell :=
    mkR (map (fun c => (f (fst c), snd c)) (r_ant r)) (r_cons r) (r_weight r).
End Names.
