(** * C110: the order of the training rows, and repeating all of them, does not change what is learnt *)
From Verif Require Import Prelude M_Fuzzy M_Discretize M_Rule M_FDT S_FDT P_FDT P_FDT3 P_FDT4 Properties_FDT M_FBDT S_FBDT S_FBDTPrivate P_Entropy P_FBDT Properties_FBDT Properties_FBDT2 M_ID3 S_ID3 Properties_ID3 Properties_ID3b S_Rows P_Rows P_Rows2 P_Rows3.
From Coq Require Import Reals Lra.
Local Notation eqb := Prelude.eqb.
Open Scope string_scope. Open Scope list_scope. Open Scope Qc_scope.

(** two outcomes of training agree: both give trees with the same variables, sets, children, levels and leaf weights,
    the same predictions for every table and the same rules for every threshold *)
Definition learns_alike (cfg : fdt_cfg) (t t' : tree) : Prop :=
  shape t' = shape t /\ (forall Z, predict cfg t' Z = predict cfg t Z) /\ (forall th, tree_rules t' th = tree_rules t th).
Definition blearns_alike (cfg : fdt_cfg) (t t' : btree) : Prop :=
  bshape t' = bshape t /\ (forall Z, bpredict cfg t' Z = bpredict cfg t Z) /\ (forall th simp, btree_rules t' th simp = btree_rules t th simp).
(** the same parameters, with [k] times the least number of examples *)
Definition scaled_limit (k : nat) (cfg : fdt_cfg) : fdt_cfg :=
  mkFDT (f_vars cfg) (f_threshold cfg) (f_max_depth cfg) (Z.of_nat k * f_min_examples cfg) (f_tnorm cfg) (f_voting cfg).

Lemma scaled_limit_1 cfg : scaled_limit 1 cfg = cfg.
Proof. destruct cfg as [a b c m d e]. unfold scaled_limit. cbn [f_vars f_threshold f_max_depth f_min_examples f_tnorm f_voting]. replace (Z.of_nat 1 * m)%Z with m by lia. reflexivity. Qed.
Lemma rows_times_1 A (X X' : list A) y y' : List.length X = List.length y -> List.length X' = List.length y' -> Permutation (combine X' y') (combine X y) -> rows_times 1 X y X' y'.
Proof. intros L L' P. split; [assumption|]. split; [assumption|]. cbn [repeat List.concat]. rewrite app_nil_r. assumption. Qed.

Theorem C110_fdt_repeated_rows : forall cfg ord k X y X' y' t, (0 < k)%nat -> rows_times k X y X' y' ->
  fit cfg ord fresh_root X y = Ok t ->
  exists t', fit (scaled_limit k cfg) ord fresh_root X' y' = Ok t' /\ learns_alike cfg t t'.
Proof.
  intros cfg ord k X y X' y' t Hk R H. assert (L := proj1 R). destruct (rows_reindex _ _ _ _ _ R) as (idx & P & -> & ->).
  destruct (re_fit k _ idx Hk P cfg ord fresh_root fresh_root X y t L eq_refl eq_refl H) as (t' & H' & Sh). exists t'. split; [exact H'|].
  split; [assumption|]. split; intros; [apply same_shape_predict|apply same_shape_rules]; assumption.
Qed.
Print Assumptions C110_fdt_repeated_rows.

Theorem C110_fdt_row_order : forall cfg ord X y X' y' t, List.length X = List.length y -> List.length X' = List.length y' ->
  Permutation (combine X' y') (combine X y) -> fit cfg ord fresh_root X y = Ok t ->
  exists t', fit cfg ord fresh_root X' y' = Ok t' /\ learns_alike cfg t t'.
Proof.
  intros cfg ord X y X' y' t L L' P H. destruct (C110_fdt_repeated_rows cfg ord 1 X y X' y' t) as (t' & H' & A); [lia|apply rows_times_1; assumption|assumption|].
  rewrite scaled_limit_1 in H'. exists t'. split; assumption.
Qed.
Print Assumptions C110_fdt_row_order.

(** retraining a trained estimator: what the second training leaves does not depend on the order in which the rows came,
    in the first training or in the second *)
Theorem C110_fdt_refit_row_order : forall cfg ord X1 y1 X1' y1' X2 y2 X2' y2' t1 t2,
  List.length X1 = List.length y1 -> List.length X1' = List.length y1' -> Permutation (combine X1' y1') (combine X1 y1) ->
  List.length X2 = List.length y2 -> List.length X2' = List.length y2' -> Permutation (combine X2' y2') (combine X2 y2) ->
  fit cfg ord fresh_root X1 y1 = Ok t1 -> fit cfg ord t1 X2 y2 = Ok t2 ->
  exists t1' t2', fit cfg ord fresh_root X1' y1' = Ok t1' /\ fit cfg ord t1' X2' y2' = Ok t2' /\ learns_alike cfg t2 t2'.
Proof.
  intros cfg ord X1 y1 X1' y1' X2 y2 X2' y2' t1 t2 L1 L1' P1 L2 L2' P2 H1 H2.
  destruct (C110_fdt_row_order cfg ord X1 y1 X1' y1' t1 L1 L1' P1 H1) as (t1' & H1' & Sh1 & _).
  assert (R := rows_times_1 _ _ _ _ _ L2 L2' P2). destruct (rows_reindex _ _ _ _ _ R) as (idx & P & -> & ->).
  destruct (re_fit 1 _ idx Nat.lt_0_1 P cfg ord t1 t1' X2 y2 t2 L2 eq_refl (eq_sym Sh1) H2) as (t2' & H2' & Sh2).
  change (times 1 cfg) with (scaled_limit 1 cfg) in H2'. rewrite scaled_limit_1 in H2'. exists t1', t2'. split; [assumption|]. split; [assumption|].
  split; [assumption|]. split; intros; [apply same_shape_predict|apply same_shape_rules]; assumption.
Qed.
Print Assumptions C110_fdt_refit_row_order.

Theorem C110_fbdt_repeated_rows : forall cfg psort k X y X' y' t, (0 < k)%nat -> rows_times k X y X' y' ->
  btrained cfg psort X y t ->
  exists t', btrained (scaled_limit k cfg) psort X' y' t' /\ blearns_alike cfg t t'.
Proof.
  intros cfg psort k X y X' y' t Hk R (PS & DN & h & H). assert (L := proj1 R). destruct (rows_reindex _ _ _ _ _ R) as (idx & P & -> & ->).
  assert (F := C34_sharing_is_not_observable cfg psort X y PS DN). destruct (vt_fit cfg psort X y) as [u|e] eqn:E; [|congruence].
  destruct F as (h0 & t0 & F & Er). rewrite H in F. injection F as <- <-.
  destruct (re_vt_fit k idx cfg psort X y u Hk P L E) as (u' & E' & Sh).
  assert (F' := C34_sharing_is_not_observable (times k cfg) psort (re idx [] X) (re idx 0%Z y) PS DN). rewrite E' in F'. destruct F' as (h' & t' & F' & Er').
  exists t'. split; [split; [assumption|split; [exact DN|exists h'; exact F']]|].
  assert (B : bshape t' = bshape t) by (rewrite <- (bshape_erase t), <- (bshape_erase t'), Er, Er'; assumption).
  split; [assumption|]. split; intros; [apply same_bshape_predict|apply same_bshape_rules]; assumption.
Qed.
Print Assumptions C110_fbdt_repeated_rows.

Theorem C110_fbdt_row_order : forall cfg psort X y X' y' t, List.length X = List.length y -> List.length X' = List.length y' ->
  Permutation (combine X' y') (combine X y) -> btrained cfg psort X y t ->
  exists t', btrained cfg psort X' y' t' /\ blearns_alike cfg t t'.
Proof.
  intros cfg psort X y X' y' t L L' P H. destruct (C110_fbdt_repeated_rows cfg psort 1 X y X' y' t) as (t' & H' & A); [lia|apply rows_times_1; assumption|assumption|].
  rewrite scaled_limit_1 in H'. exists t'. split; assumption.
Qed.
Print Assumptions C110_fbdt_row_order.

(** ID3 keeps nothing of the single rows: the whole outcome, tree or exception, is the same.  [cls] is the order in
    which Python iterates the set of the labels. *)
Theorem C110_id3_row_order : forall cfg cls fts root X y X' y',
  (forall l l', Permutation l l' -> cls l = cls l') -> List.length X = List.length y -> List.length X' = List.length y' ->
  Permutation (combine X' y') (combine X y) ->
  id3_fit cfg cls fts root X' y' = id3_fit cfg cls fts root X y.
Proof.
  intros cfg cls fts root X y X' y' HC L L' P.
  assert (Q := id3_fit_perm cfg cls fts root _ _ HC P). rewrite !map_fst_combine, !map_snd_combine in Q by assumption. exact Q.
Qed.
Print Assumptions C110_id3_row_order.

(** ** instances *)
Example C110_instance : exists t t',
  fit (ex_cfg AggVote) same_order fresh_root ex_X ex_y = Ok t /\ t_leaf t = false /\
  rows_times 2 ex_X ex_y [[CNum (qz 10)]; [CNum 0]; [CNum (qz 10)]; [CNum 0]] [0; 1; 0; 1]%Z /\
  fit (scaled_limit 2 (ex_cfg AggVote)) same_order fresh_root [[CNum (qz 10)]; [CNum 0]; [CNum (qz 10)]; [CNum 0]] [0; 1; 0; 1]%Z = Ok t' /\
  learns_alike (ex_cfg AggVote) t t' /\ predict (ex_cfg AggVote) t' [[CNum (qz 2)]] = Ok [1%Z].
Proof.
  assert (T := ex_fit AggVote ex_y (or_introl eq_refl)). destruct T as (_ & _ & _ & T).
  assert (R : rows_times 2 ex_X ex_y [[CNum (qz 10)]; [CNum 0]; [CNum (qz 10)]; [CNum 0]] [0; 1; 0; 1]%Z).
  { split; [reflexivity|]. split; [reflexivity|]. cbn [ex_X ex_y combine repeat List.concat app].
    apply (perm_trans (l' := [([CNum 0], 1%Z); ([CNum (qz 10)], 0%Z); ([CNum (qz 10)], 0%Z); ([CNum 0], 1%Z)])); [constructor|].
    apply perm_skip, perm_skip, perm_swap. }
  destruct (C110_fdt_repeated_rows (ex_cfg AggVote) same_order 2 _ _ _ _ _ ltac:(lia) R T) as (t' & T' & A). exists (one_tree (ex_cfg AggVote) ex_X ex_y (ex_v "x")), t'.
  split; [assumption|]. split; [reflexivity|]. split; [assumption|]. split; [assumption|]. split; [assumption|].
  destruct A as (_ & A & _). rewrite A. reflexivity.
Qed.
Example C110_fbdt_instance : exists t', btrained (ex_cfg AggVote) no_sort [[CNum (qz 10)]; [CNum 0]] [0; 1]%Z t' /\
  blearns_alike (ex_cfg AggVote) ex_btree t' /\ bpredict (ex_cfg AggVote) t' [[CNum (qz 2)]; [CNum (qz 8)]] = Ok [1; 0]%Z.
Proof.
  destruct (C110_fbdt_row_order (ex_cfg AggVote) no_sort ex_X ex_y [[CNum (qz 10)]; [CNum 0]] [0; 1]%Z ex_btree eq_refl eq_refl (perm_swap _ _ _) (ex_btrained AggVote)) as (t' & T & A).
  exists t'. split; [assumption|]. split; [assumption|]. destruct A as (_ & A & _). rewrite A. reflexivity.
Qed.
(** with the labels in increasing order, as CPython iterates sets of small non-negative integers *)
Example C110_id3_instance :
  (forall l l', Permutation l l' -> zunique l = zunique l') /\
  Permutation (combine (xa [2; 0; 1; 0]%Z) [1; 0; 1; 0]%Z) (combine (xa [0; 0; 1; 2]%Z) [0; 0; 1; 1]%Z) /\
  id3_fit (ex_id3 (1 / qz 10) 5 true) zunique ex_fts new_itree (xa [2; 0; 1; 0]%Z) [1; 0; 1; 0]%Z = Ok ex_tree.
Proof.
  assert (C : forall l l', Permutation l l' -> zunique l = zunique l') by (intros l l' P; apply zunique_ext; intro x; split; apply Permutation_in; [|apply Permutation_sym]; assumption).
  assert (Q : Permutation (combine (xa [2; 0; 1; 0]%Z) [1; 0; 1; 0]%Z) (combine (xa [0; 0; 1; 2]%Z) [0; 0; 1; 1]%Z)).
  { cbn [xa map combine]. symmetry. eapply perm_trans; [apply perm_skip, perm_skip, perm_swap|]. eapply perm_trans; [apply perm_skip, perm_swap|]. eapply perm_trans; [apply perm_swap|]. apply perm_skip, perm_skip. apply perm_swap. }
  split; [exact C|]. split; [exact Q|].
  rewrite (C110_id3_row_order (ex_id3 (1 / qz 10) 5 true) zunique ex_fts new_itree (xa [0; 0; 1; 2]%Z) [0; 0; 1; 1]%Z (xa [2; 0; 1; 0]%Z) [1; 0; 1; 0]%Z C eq_refl eq_refl Q).
  ex_run [[CNum 0; CNum 1; CNum (qz 2)]].
Qed.
