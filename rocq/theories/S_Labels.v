(** * Vocabulary: calling the classes by other labels (C121) *)
From Verif Require Import Prelude M_Fuzzy M_Discretize M_Rule M_FDT M_FBDT M_ID3.
Set Implicit Arguments.
Open Scope Qc_scope.

(** [f] gives different labels to different classes of [y], or even keeps their order *)
Definition distinct_on (f : Z -> Z) (y : list Z) : Prop := forall a b, In a y -> In b y -> f a = f b -> a = b.
Definition increasing_on (f : Z -> Z) (y : list Z) : Prop := forall a b, In a y -> In b y -> (a < b)%Z -> (f a < f b)%Z.
(** the weights of a leaf: the labels in increasing order, each with the weight of the classes it stands for *)
Definition relabel_weights (f : Z -> Z) (cv : dict Z Qc) : dict Z Qc :=
  map (fun c' => (c', qsum (map snd (filter (fun kw => Z.eqb (f (fst kw)) c') cv)))) (zunique (map (fun kw => f (fst kw)) cv)).
(** nothing else in a tree mentions labels *)
Fixpoint relabel (f : Z -> Z) (t : tree) : tree :=
  let 'Tree l cs cv lv va vr mu := t in Tree l (map (relabel f) cs) (option_map (relabel_weights f) cv) lv va vr mu.
Fixpoint brelabel (f : Z -> Z) (t : btree) : btree :=
  let 'BTree l cs cv lv va vr mu ig := t in BTree l (map (brelabel f) cs) (option_map (relabel_weights f) cv) lv va vr mu ig.
Fixpoint irelabel (f : Z -> Z) (t : itree) : itree :=
  let 'ITree va l cs sp c cc lv e n := t in ITree va l (map (irelabel f) cs) sp (f c) cc lv e n.
Definition relabel_rule {V} (f : Z -> Z) (r : rule V) : rule V := mkR (r_ant r) (f (r_cons r)) (r_weight r).
