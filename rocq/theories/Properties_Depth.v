(** * C141: what max_depth changes *)
From Verif Require Import Prelude M_Fuzzy M_Discretize M_Rule M_FDT M_FBDT M_ID3 S_Rule S_FDT S_FBDT S_FBDTPrivate P_FuzzySet P_FuzzyVar P_FBDT4 P_FBDT5 Properties_FDT Properties_FBDT P_Metrics S_ID3 P_ID3 P_ID3b P_ID3c Properties_ID3 Properties_ID3b P_Same2 S_Optimal P_Optimal Properties_Optimal S_Depth P_Depth P_Depth2.
From Coq Require Import Reals Lra.
Open Scope string_scope.
Open Scope list_scope.
Open Scope Qc_scope.
Local Notation eqb := Prelude.eqb.

Lemma ones_pos n : n <> 0%nat -> 0 < qsum (repeat 1 n).
Proof.
  destruct n as [|n]; [congruence|]. intros _. cbn [repeat]. rewrite qsum_cons.
  assert (0 <= qsum (repeat 1 n)); [|qlra]. apply qsum_nonneg. apply Forall_forall. intros x Hx. apply repeat_spec in Hx. subst. qlra.
Qed.
(** if fit succeeds with some max_depth then it succeeds with every smaller one, and the tree is the former cut off there *)
Theorem C141_fdt : forall cfg ord X y d d' t', (d <= d')%Z -> fit (with_depth cfg d') ord fresh_root X y = Ok t' ->
  exists t, fit (with_depth cfg d) ord fresh_root X y = Ok t /\ fdt_cut (Z.to_nat d) t t'.
Proof.
  intros cfg ord X y d d' t' LD H. unfold fit in *. cbn [f_vars with_depth] in *. change (f_features (with_depth cfg d)) with (f_features cfg). change (f_features (with_depth cfg d')) with (f_features cfg) in H.
  destruct (Nat.eqb_spec (List.length y) 0) as [Z|NZ]; [rewrite orb_true_r in H; discriminate|]. destruct (_ || _); [discriminate|].
  destruct (dataset_membership X (f_vars cfg)) as [XM|]; cbn [bind] in *; [|discriminate].
  destruct ((fun A B => @partial_fit_cut cfg d d' ord XM y LD _ _ _ _ _ _ A B H) eq_refl (ones_pos _ NZ)) as (t & E & C). rewrite Z.sub_0_r in C. exists t. auto.
Qed.
Theorem C141_fbdt : forall cfg psort X y d d' h' t', (forall l, Permutation (psort l) l) -> distinct_names (f_vars cfg) -> (d <= d')%Z ->
  bt_fit (with_depth cfg d') psort fresh_broot X y = Ok (h', t') ->
  exists h t, bt_fit (with_depth cfg d) psort fresh_broot X y = Ok (h, t) /\ fbdt_cut (Z.to_nat d) t t'.
Proof.
  intros cfg psort X y d d' h' t' Hp Hn LD H.
  assert (F' := @fit_private (with_depth cfg d') psort X y Hp Hn). assert (F := @fit_private (with_depth cfg d) psort X y Hp Hn).
  destruct (vt_fit (with_depth cfg d') psort X y) as [v'|] eqn:E'; [|congruence]. destruct F' as (h0 & t0 & Q & EQ). assert (t0 = t') by congruence. subst t0 v'. clear Q h0 H.
  unfold vt_fit in E', F. cbn [f_vars with_depth] in *. destruct (categorical_features (f_vars cfg)) as [cats|]; cbn [bind] in *; [|discriminate].
  destruct (Nat.eqb_spec (List.length y) 0) as [Z|NZ]; [rewrite orb_true_r in E'; discriminate|]. destruct (_ || _); [discriminate|].
  destruct (dataset_membership X (f_vars cfg)) as [XM|]; cbn [bind] in *; [|discriminate].
  destruct ((fun A B => @vfit_cut cfg d d' psort cats XM y LD _ _ _ _ _ _ A B E') eq_refl (ones_pos _ NZ)) as (u & E & C). rewrite E in F. destruct F as (h & t & Q & EQ). subst u.
  exists h, t. split; [exact Q|]. apply erase_cut. rewrite Z.sub_0_r in C. exact C.
Qed.
Theorem C141_id3 : forall cfg cls fts X y d d' t', i_prunning cfg = false -> (d <= d')%Z ->
  id3_fit (id3_with_depth cfg d') cls fts new_itree X y = Ok t' ->
  exists t, id3_fit (id3_with_depth cfg d) cls fts new_itree X y = Ok t /\ id3_cut (Z.to_nat d) t t'.
Proof.
  intros cfg cls fts X y d d' t' PR LD H. unfold id3_fit in *. cbn [i_features id3_with_depth] in *. match type of H with bind ?r _ = _ => destruct r as [SP|]; [|discriminate] end. cbn [bind] in *.
  destruct (@id3_fit_cut cfg d d' cls fts SP (zunique y) LD PR _ _ _ _ _ _ H) as (t & E & C). rewrite Z.sub_0_r in C. exists t. auto.
Qed.
(** a limit that the tree does not reach changes nothing *)
Theorem C141_fdt_unchanged : forall cfg ord X y d d' t t', (d <= d')%Z -> fit (with_depth cfg d) ord fresh_root X y = Ok t ->
  fit (with_depth cfg d') ord fresh_root X y = Ok t' -> (Z.of_nat (fdt_height t) < d)%Z -> t' = t.
Proof.
  intros cfg ord X y d d' t t' LD E E' Hh. destruct (C141_fdt _ _ _ _ _ _ _ LD E') as (t0 & E0 & C). assert (t0 = t) by congruence. subst t0. clear E E' E0.
  assert (Hn : (fdt_height t < Z.to_nat d)%nat) by lia. clear Hh LD. revert Hn C. generalize (Z.to_nat d) as n. intro n. revert t t'.
  induction n as [|n IH]; intros t t' Hn C; [lia|]. inversion C; subst; [reflexivity|]. f_equal. cbn [fdt_height] in Hn.
  assert (HM : (list_max (map fdt_height ch) < n)%nat \/ ch = []) by lia. assert (FC : Forall2 (fdt_cut n) ch ch') by assumption. clear - FC IH HM.
  induction FC as [|x z ch ch' H F IF]; [reflexivity|]. destruct HM as [HM|HM]; [|discriminate]. cbn [map list_max fold_right] in HM. f_equal.
  - apply IH; [lia|assumption].
  - apply IF. destruct ch; [right; reflexivity|left]. unfold list_max in *. lia.
Qed.
Theorem C141_fbdt_unchanged : forall cfg psort X y d d' h t h' t', (forall l, Permutation (psort l) l) -> distinct_names (f_vars cfg) -> (d <= d')%Z ->
  bt_fit (with_depth cfg d) psort fresh_broot X y = Ok (h, t) -> bt_fit (with_depth cfg d') psort fresh_broot X y = Ok (h', t') ->
  (Z.of_nat (fbdt_height t) < d)%Z -> erase t' = erase t.
Proof.
  intros cfg psort X y d d' h t h' t' Hp Hd LD E E' Hh. destruct (C141_fbdt _ _ _ _ _ _ _ _ Hp Hd LD E') as (h0 & t0 & E0 & C). assert (t0 = t) by congruence. subst t0. clear E E' E0.
  assert (Hn : (fbdt_height t < Z.to_nat d)%nat) by lia. clear Hh LD. revert Hn C. generalize (Z.to_nat d) as n. intro n. revert t t'.
  induction n as [|n IH]; intros t t' Hn C; [lia|]. inversion C; subst; [reflexivity|]. cbn [erase]. f_equal. cbn [fbdt_height] in Hn.
  assert (HM : (list_max (map fbdt_height ch) < n)%nat \/ ch = []) by lia. assert (FC : Forall2 (fbdt_cut n) ch ch') by assumption. clear - FC IH HM.
  induction FC as [|x z ch ch' H F IF]; [reflexivity|]. destruct HM as [HM|HM]; [|discriminate]. cbn [map list_max fold_right] in HM. cbn [map]. f_equal.
  - apply IH; [lia|assumption].
  - apply IF. destruct ch; [right; reflexivity|left]. unfold list_max in *. lia.
Qed.
(** a deeper unpruned ID3 tree never scores worse on the training table *)
Theorem C141_id3_score : forall cfg cls fts X y d d' t t', i_prunning cfg = false -> (d <= d')%Z -> (d' <= Z.of_nat (List.length (i_features cfg)))%Z ->
  id3_trained (id3_with_depth cfg d) cls fts new_itree X y t -> id3_trained (id3_with_depth cfg d') cls fts new_itree X y t' ->
  exists s s', id3_score t X y = Ok s /\ id3_score t' X y = Ok s' /\ s <= s'.
Proof.
  intros cfg cls fts X y d d' t t' PR LD LN HT HT'.
  assert (ML' : (i_max_depth (id3_with_depth cfg d') <= Z.of_nat (List.length (i_features (id3_with_depth cfg d'))))%Z) by (cbn; lia).
  assert (ML : (i_max_depth (id3_with_depth cfg d) <= Z.of_nat (List.length (i_features (id3_with_depth cfg d))))%Z) by (cbn; lia).
  rewrite (shallow_score HT ML), (shallow_score HT' ML'). eexists. eexists. split; [reflexivity|]. split; [reflexivity|].
  destruct (C141_id3 _ _ _ _ _ _ _ _ PR LD (proj2 (proj2 HT'))) as (t0 & E & C). assert (t0 = t) by (assert (Q := proj2 (proj2 HT)); congruence). subst t0.
  assert (Q := @cut_hits _ _ _ _ _ _ _ _ _ _ HT HT' ML' _ [] t t' (iat_self t) (iat_self t') C).
  assert (R0 : reaching X y [] = combine X y) by (unfold reaching; apply filter_keep; reflexivity). rewrite R0 in Q.
  assert (LE : List.length X = List.length y) by apply HT. assert (NE : X <> []) by apply HT.
  assert (P : 0 < qn (List.length y)) by (apply qn_pos; rewrite <- LE; destruct X; [congruence|cbn; lia]).
  unfold Qcdiv. apply Qcmult_le_compat_r; [apply qn_le; exact Q|]. apply Qclt_le_weak. assert (N : qn (List.length y) <> 0) by (intro Z; rewrite Z in P; discriminate P). assert (Q1 := Qcmult_inv_r _ N). destruct (Qclt_le_dec 0 (/ qn (List.length y))) as [G|G]; [assumption|]. exfalso. clear - P Q1 G. assert (0 * qn (List.length y) >= / qn (List.length y) * qn (List.length y)) by (apply Qcmult_le_compat_r; [assumption|apply Qclt_le_weak; assumption]). rewrite Qcmult_comm in Q1. rewrite Q1 in H. rewrite Qcmult_0_l in H. apply H. reflexivity.
Qed.
Print Assumptions C141_fdt.
Print Assumptions C141_fbdt.
Print Assumptions C141_id3.
Print Assumptions C141_fdt_unchanged.
Print Assumptions C141_fbdt_unchanged.
Print Assumptions C141_id3_score.
(** beyond the number of features this fails: there the unpruned ID3 tree ends in nodes without a prediction *)
Theorem C141_id3_score_beyond_features_refuted : exists cfg cls fts X y d d' t t', i_prunning cfg = false /\ (d <= d')%Z /\
  id3_trained (id3_with_depth cfg d) cls fts new_itree X y t /\ id3_trained (id3_with_depth cfg d') cls fts new_itree X y t' /\
  id3_score t X y = Ok 1 /\ id3_score t' X y = Ok 0.
Proof.
  destruct C39_dead_end_instance as [T' S']. set (cfg := ex_id3 (1 / qz 10) 5 false).
  destruct (C141_id3 cfg ex_cls ex_fts (xa [0; 1]%Z) [0; 1]%Z 1 5 ex_dead eq_refl ltac:(lia) (proj2 (proj2 T'))) as (t & E & _).
  assert (T : id3_trained (id3_with_depth cfg 1) ex_cls ex_fts new_itree (xa [0; 1]%Z) [0; 1]%Z t).
  { split; [apply ex_table; [reflexivity|discriminate]|]. split; [apply (ex_orders (1 / qz 10) 1 false)|exact E]. }
  exists cfg, ex_cls, ex_fts, (xa [0; 1]%Z), [0; 1]%Z, 1%Z, 5%Z, t, ex_dead. split; [reflexivity|]. split; [lia|]. split; [exact T|]. split; [exact T'|]. split; [|exact S'].
  apply (C140_consistent _ _ _ _ _ _ _ T eq_refl eq_refl); [cbn; lia|]. intros x c x' c' H H' Q. cbn in H, H'.
  destruct H as [H|[H|[]]]; destruct H' as [H'|[H'|[]]]; injection H as <- <-; injection H' as <- <-; try reflexivity; discriminate Q.
Qed.
Print Assumptions C141_id3_score_beyond_features_refuted.
(** instances: two rows that a tree of one level tells apart *)
Example C141_fdt_instance : exists t t', fit (with_depth (ex_cfg AggVote) 0) same_order fresh_root ex_X ex_y = Ok t /\ fit (with_depth (ex_cfg AggVote) 10) same_order fresh_root ex_X ex_y = Ok t' /\
  fdt_cut 0 t t' /\ t_leaf t = true /\ t_leaf t' = false /\ fdt_height t' = 1%nat.
Proof.
  assert (T := ex_fit AggVote ex_y (or_introl eq_refl)). destruct T as (_ & _ & _ & E').
  destruct (C141_fdt (ex_cfg AggVote) same_order ex_X ex_y 0 10 _ ltac:(lia) E') as (t & E & C). exists t. eexists. split; [exact E|]. split; [exact E'|]. split; [exact C|].
  split; [inversion C; reflexivity|]. split; reflexivity.
Qed.
Example C141_fbdt_instance : exists h t h' t', bt_fit (with_depth (ex_cfg AggVote) 0) no_sort fresh_broot ex_X ex_y = Ok (h, t) /\ bt_fit (with_depth (ex_cfg AggVote) 10) no_sort fresh_broot ex_X ex_y = Ok (h', t') /\
  fbdt_cut 0 t t' /\ b_leaf t = true /\ b_leaf t' = false /\ fbdt_height t' = 1%nat.
Proof.
  destruct (ex_btrained AggVote) as (Hp & Hn & h' & E').
  destruct (C141_fbdt (ex_cfg AggVote) no_sort ex_X ex_y 0 10 _ _ Hp Hn ltac:(lia) E') as (h & t & E & C). exists h, t, h'. eexists. split; [exact E|]. split; [exact E'|]. split; [exact C|].
  split; [inversion C; reflexivity|]. split; reflexivity.
Qed.
Example C141_id3_instance : exists t t', id3_trained (id3_with_depth xor_id3 1) zunique xor_fts new_itree xor_X xor_y t /\
  id3_trained (id3_with_depth xor_id3 2) zunique xor_fts new_itree xor_X xor_y t' /\ id3_cut 1 t t' /\ id3_score t' xor_X xor_y = Ok 1.
Proof.
  destruct C140_instance as (t' & T' & S'). destruct (C141_id3 xor_id3 zunique xor_fts xor_X xor_y 1 2 t' eq_refl ltac:(lia) (proj2 (proj2 T'))) as (t & E & C).
  exists t, t'. split; [split; [exact xor_table|]; split; [exact xor_orders|exact E]|]. split; [exact T'|]. split; [exact C|exact S'].
Qed.
