(** * Fuzzy trees: refitting, score and concrete executions *)
From Verif Require Import Prelude M_Fuzzy M_Discretize M_Rule M_FDT S_Rule S_FDT P_FuzzySet P_FuzzyVar P_Entropy P_Rule P_FDT P_FDT2 P_FDT3.
From Coq Require Import Reals Lra.
Set Implicit Arguments.
Open Scope Qc_scope.

(** ** fitting an already fitted tree *)
Definition merge_root (root t : tree) : tree :=
  Tree (t_leaf t) (t_children root ++ t_children t) (if t_leaf t then t_class t else t_class root) (t_level t) (t_value t) (t_var t) (t_mu t).
Lemma refit_shape cfg ord root X y t : t_value root = None -> t_var root = None ->
  fit cfg ord fresh_root X y = Ok t -> fit cfg ord root X y = Ok (merge_root root t).
Proof.
  intros V1 V2 H. unfold fit in *. destruct (_ || _); [discriminate|]. destruct (dataset_membership X (f_vars cfg)) as [XM|]; cbn [bind] in *; [|discriminate].
  rewrite V1, V2. cbn [partial_fit t_mu t_children t_class t_value t_var fresh_root new_tree] in *.
  destruct (max_f_gain _ _ _ _ _) as [[[att gain] cm]|]; cbn [bind] in *; [|discriminate].
  destruct (stop_met _ _ _ _).
  - destruct (get_class_value _ _) as [cv|]; cbn [bind] in *; [|discriminate]. injection H as <-. unfold merge_root. cbn. rewrite app_nil_r. reflexivity.
  - destruct (ret_opt KeyError _) as [sets|]; cbn [bind] in *; [|discriminate].
    destruct (mapM _ _) as [cs|]; cbn [bind] in *; [|discriminate]. injection H as <-. reflexivity.
Qed.
(** [k] further fits on the same data *)
Fixpoint refits (cfg : fdt_cfg) ord X y (k : nat) (t : tree) : res tree :=
  match k with O => Ok t | S k => do t' <- fit cfg ord t X y; refits cfg ord X y k t' end.
Definition copies (k : nat) (t : tree) : tree :=
  Tree (t_leaf t) (List.concat (repeat (t_children t) (S k))) (t_class t) (t_level t) (t_value t) (t_var t) (t_mu t).
Lemma copies_0 t : copies 0 t = t.
Proof. destruct t. unfold copies. cbn. rewrite app_nil_r. reflexivity. Qed.
Lemma refits_copies cfg ord X y t : t_value t = None -> t_var t = None -> (t_leaf t = false -> t_class t = None) ->
  fit cfg ord fresh_root X y = Ok t -> forall k, refits cfg ord X y k t = Ok (copies k t).
Proof.
  intros V1 V2 C H k.
  assert (G : forall k j, refits cfg ord X y k (copies j t) = Ok (copies (k + j) t)).
  { clear k. induction k as [|k IH]; intro j; [reflexivity|]. cbn [refits].
    rewrite (@refit_shape cfg ord (copies j t) X y t V1 V2 H). cbn [bind].
    replace (merge_root (copies j t) t) with (copies (S j) t); [rewrite IH; f_equal; f_equal; lia|].
    unfold copies, merge_root. cbn [t_leaf t_children t_class t_level t_value t_var t_mu]. f_equal.
    - change (List.concat (repeat (t_children t) (S (S j)))) with (t_children t ++ List.concat (repeat (t_children t) (S j))).
      generalize (S j) as n. clear. induction n as [|n IH]; [cbn; rewrite app_nil_r; reflexivity|]. cbn [repeat List.concat] in *. rewrite <- app_assoc, <- IH. reflexivity.
    - destruct (t_leaf t); reflexivity. }
  specialize (G k 0%nat). rewrite copies_0, Nat.add_0_r in G. exact G.
Qed.
Lemma copies_wf vars classes t k : wf vars classes t -> wf vars classes (copies k t).
Proof.
  destruct t as [lf cs cv lv va vr mu]. unfold copies. cbn [t_leaf t_children t_class t_level t_value t_var t_mu wf]. intros [O W].
  split; [assumption|]. destruct lf; [assumption|]. destruct W as [N W]. split.
  - destruct cs; [congruence|]. discriminate.
  - rewrite (@fold_and _ (fun c => t_value c <> None /\ wf vars classes c)) in *. rewrite Forall_forall in *. intros c Hc. apply W.
    apply in_concat in Hc. destruct Hc as [l [Hl Hc]]. apply repeat_spec in Hl. subst. assumption.
Qed.
Lemma copies_leaves t k : t_leaf t = false -> leaves (copies k t) = List.concat (repeat (leaves t) (S k)).
Proof.
  destruct t as [lf cs cv lv va vr mu]. cbn [t_leaf]. intros ->. unfold copies. cbn [t_leaf t_children t_class t_level t_value t_var t_mu]. rewrite !leaves_inner.
  generalize (S k) as n. induction n as [|n IH]; [reflexivity|]. cbn [repeat List.concat]. rewrite map_app, concat_app, IH. reflexivity.
Qed.
Lemma qsum_repeat (l : list Qc) n : qsum (List.concat (repeat l n)) = qn n * qsum l.
Proof. induction n as [|n IH]; cbn [repeat List.concat]; [rewrite qsum_nil, qn_0; ring|]. rewrite qsum_app, IH, qn_S. ring. Qed.
Lemma qmax_repeat (l : list Qc) n : fold_right qmax 0 (List.concat (repeat l (S n))) = fold_right qmax 0 l.
Proof.
  assert (A : forall l1 l2, fold_right qmax 0 (l1 ++ l2) = qmax (fold_right qmax 0 l1) (fold_right qmax 0 l2)).
  { clear. induction l1 as [|x l1 IH]; intro l2; cbn.
    - assert (0 <= fold_right qmax 0 l2) by (induction l2 as [|z l2 IH]; cbn; [apply Qcle_refl|eapply Qcle_trans; [exact IH|apply qmax_r]]).
      revert H. generalize (fold_right qmax 0 l2). intros q H. unfold qmax. qcase; qlra.
    - rewrite IH, qmax_assoc. reflexivity. }
  induction n as [|n IH]; cbn [repeat List.concat] in *; [rewrite app_nil_r; reflexivity|]. rewrite A, IH, qmax_idem. reflexivity.
Qed.
Lemma copies_support cfg t k row c : t_leaf t = false ->
  row_support cfg (copies k t) row c = match f_voting cfg with AggVote => qn (S k) | MaxMatch => 1 end * row_support cfg t row c.
Proof.
  intro L. unfold row_support, tree_support, tree_max_support. rewrite (@copies_leaves t k L).
  assert (E : forall f : list (nat * nat) * tree -> Qc, map f (List.concat (repeat (leaves t) (S k))) = List.concat (repeat (map f (leaves t)) (S k))).
  { intro f. generalize (S k) as n. induction n as [|n IH]; [reflexivity|]. cbn [repeat List.concat]. rewrite map_app, IH. reflexivity. }
  rewrite E. destruct (f_voting cfg); [apply qsum_repeat|]. rewrite qmax_repeat. ring.
Qed.
Lemma best_class_scale classes f g q c : 0 < q -> (forall c, g c = q * f c) -> best_class classes f c -> best_class classes g c.
Proof.
  intros Q E [A B]. split; [assumption|]. intros c' Hc'. destruct (B c' Hc') as [B1 B2]. rewrite !E. split; [|intro L; specialize (B2 L)]; qnra.
Qed.
Lemma copies_predict cfg t classes X k : wf (f_vars cfg) classes t -> t_value t = None -> StronglySorted Z.lt classes -> NoDup classes -> classes <> [] ->
  readable (f_vars cfg) X -> predict cfg (copies k t) X = predict cfg t X.
Proof.
  intros W V S N Ne R. destruct (@predict_spec cfg t classes X W V S N Ne R) as [ps [E F]].
  destruct (@predict_spec cfg (copies k t) classes X (@copies_wf _ _ t k W) V S N Ne R) as [qs [E' F']]. rewrite E, E'. apply (f_equal (@Ok _)).
  destruct (t_leaf t) eqn:L.
  - assert (LE : forall row, row_support cfg (copies k t) row = row_support cfg t row).
    { intro row. destruct t as [lf cs cv lv va vr mu]. cbn in L. subst lf. reflexivity. }
    clear E E'. revert qs F'. induction F as [|row c X ps B F IH]; intros qs F'; inversion F' as [|? c' ? qs' B' F'']; subst; [reflexivity|].
    rewrite LE in B'. rewrite (best_class_fun B' B). f_equal. apply IH; [|assumption]. intros r Hr. apply R. right. assumption.
  - clear E E'. revert qs F'. induction F as [|row c X ps B F IH]; intros qs F'; inversion F' as [|? c' ? qs' B' F'']; subst; [reflexivity|]. f_equal.
    + apply (best_class_fun B'). eapply best_class_scale; [|intro c0; apply (@copies_support cfg t k row c0 L)|exact B].
      destruct (f_voting cfg); [apply qn_pos; lia|reflexivity].
    + apply IH; [|assumption]. intros r Hr. apply R. right. assumption.
Qed.
Lemma copies_rules vars classes t th k rules : wf vars classes t -> t_value t = None -> t_leaf t = false -> tree_rules t th = Ok rules ->
  tree_rules (copies k t) th = Ok (List.concat (repeat rules (S k))).
Proof.
  intros W V L H. rewrite (@tree_rules_spec vars classes th t W V) in H. injection H as <-.
  rewrite (@tree_rules_spec vars classes th (copies k t) (@copies_wf _ _ t k W) V). apply (f_equal (@Ok _)). rewrite (@copies_leaves t k L).
  generalize (S k) as n. induction n as [|n IH]; [reflexivity|]. cbn [repeat List.concat]. rewrite map_app, concat_app, IH. reflexivity.
Qed.
Lemma trained_root cfg ord X y t : trained cfg ord X y t -> t_value t = None /\ t_var t = None /\ (t_leaf t = false -> t_class t = None).
Proof.
  intro T. destruct (trained_fitted T) as (L & _ & _ & F). destruct T as (Ho & Hn & Hth & _).
  destruct (@fitted_cases cfg ord X y Ho Hn Hth _ _ _ F) as [[-> _]|(a & v & cs & _ & _ & -> & _)]; cbn; repeat split; congruence.
Qed.

(** ** score *)
Lemma predict_length cfg t X ps : predict cfg t X = Ok ps -> List.length ps = List.length X.
Proof.
  unfold predict. destruct (partial_predict _ _ _ _) as [ls|]; cbn [bind]; [|discriminate]. destruct (vote _ _) as [vs|]; cbn [bind]; [|discriminate].
  intro H. apply mapM_length in H. rewrite seq_length in H. assumption.
Qed.
Lemma score_spec ps y : List.length ps = List.length y -> y <> [] ->
  0 <= score ps y /\ score ps y <= 1 /\ (score ps y = 1 <-> ps = y) /\
  (score ps y = 0 <-> forall i c, nth_error y i = Some c -> nth_error ps i <> Some c).
Proof.
  intros L N. unfold score. assert (P : 0 < qn (List.length y)) by (apply qn_pos; destruct y; [congruence|cbn; lia]).
  assert (P' : qn (List.length y) <> 0) by (intro E; rewrite E in P; qlra).
  assert (C := countb_le (fun p => Z.eqb (fst p) (snd p)) (zip ps y)). unfold zip in C at 2. rewrite combine_length, L, Nat.min_id in C.
  rewrite <- qn_le in C. destruct (@Qcdiv_01 _ _ (qn_nonneg _) C P) as [A B]. split; [assumption|]. split; [assumption|]. split.
  - rewrite Qcdiv_eq by assumption. rewrite Qcmult_1_l, qn_inj. clear A B C P P' N. revert y L. unfold countb, zip. induction ps as [|p ps IH]; intros [|k y] L; try discriminate; [split; reflexivity|].
    cbn [combine filter fst snd List.length]. cbn in L. injection L as L. specialize (IH y L).
    assert (Q : (List.length (filter (fun p => Z.eqb (fst p) (snd p)) (combine ps y)) <= List.length y)%nat).
    { eapply Nat.le_trans; [apply (@countb_le _ (fun p => Z.eqb (fst p) (snd p)))|]. rewrite combine_length. lia. }
    destruct (Z.eqb_spec p k) as [->|D]; cbn [List.length].
    + split; intro H; [|injection H as H]; [|rewrite (proj2 IH H); reflexivity]. injection H as H. rewrite (proj1 IH H). reflexivity.
    + split; [lia|congruence].
  - rewrite Qcdiv_eq by assumption. rewrite Qcmult_0_l. rewrite <- qn_0, qn_inj. clear A B C P P' N. revert y L. unfold countb, zip. induction ps as [|p ps IH]; intros [|k y] L; try discriminate.
    + split; [intros _ i c H; destruct i; discriminate|reflexivity].
    + cbn [combine filter fst snd]. cbn in L. injection L as L. specialize (IH y L). destruct (Z.eqb_spec p k) as [->|D]; cbn [List.length].
      * split; [discriminate|]. intro H. exfalso. apply (H 0%nat k); reflexivity.
      * rewrite IH. split; intros H i c Hi.
        -- destruct i as [|i]; cbn in *; [congruence|auto].
        -- apply (H (S i) c). assumption.
Qed.

(** ** concrete executions with one variable *)
Definition one_leaf (cfg : fdt_cfg) X y (v : fvar) (i : nat) : tree :=
  if qltb 0 (mass (f_vars cfg) X [(0%nat, i)])
  then Tree true [] (Some (class_dist cfg X y [(0%nat, i)])) 1 (Some (0%nat, i)) (Some v) (acts (f_vars cfg) X [(0%nat, i)])
  else zero_leaf cfg X y [] (0%nat, i) v.
Definition one_tree (cfg : fdt_cfg) X y (v : fvar) : tree :=
  Tree false (map (one_leaf cfg X y v) (seq 0 (List.length (fv_sets v)))) None 0 None None (acts (f_vars cfg) X []).
Lemma one_fit cfg ord X y v : f_vars cfg = [v] -> (forall p s, Permutation (ord p s) s) -> NoDup (map fs_name (fv_sets v)) ->
  List.length X = List.length y -> y <> [] -> readable [v] X -> wide [v] X -> (0 < f_threshold cfg)%R ->
  ~ limit_met cfg X y [] -> (f_threshold cfg <= info_gain [v] X y [] 0)%R ->
  fit cfg ord fresh_root X y = Ok (one_tree cfg X y v).
Proof.
  intros EV Ho Hn HL Hy HR HW Hth NL G.
  assert (DN : distinct_names (f_vars cfg)).
  { rewrite EV. split; [constructor; [intros []|constructor]|]. intros w [<-|[]]. assumption. }
  rewrite (@fit_exact cfg ord X y DN HL Hy) by (rewrite EV; assumption).
  destruct (@remaining_spec cfg []) as [N [I R]].
  assert (Hin : In (fv_name v) (remaining cfg [])).
  { apply R. rewrite EV. split; [left; reflexivity|intros l w []]. }
  assert (U : forall b w, nth_error (f_vars cfg) b = Some w -> b = 0%nat /\ w = v).
  { rewrite EV. intros [|b] w H; cbn in H; [injection H as <-; auto|destruct b; discriminate]. }
  rewrite <- EV in G.
  destruct (@partial_fit_cases cfg ord X y Ho DN (List.length (f_features cfg)) (root_of fresh_root (List.length y)) [] (remaining cfg []) (plen []) (or_introl Hth)
              (@root_mu cfg X y HL fresh_root) (@root_mass cfg X y HL Hy) N I) as [[Q F]|(a & v' & l1 & l2 & Hv & HL' & P & Q1 & Q2 & F)].
  { exfalso. assert (H := Q 0%nat v). rewrite EV in H. specialize (H eq_refl Hin). rewrite EV in G. lra. }
  destruct (U a v' Hv) as [-> ->]. rewrite F.
  assert (St : stops cfg X y [] (info_gain (f_vars cfg) X y [] 0) (plen []) = false).
  { destruct (stops _ _ _ _ _ _) eqn:S; [|reflexivity]. exfalso.
    unfold stops, stop_met in S. rewrite (masked_reaching (f_vars cfg) X y []) in S. rewrite !orb_true_iff, zunique_lt2, Z.ltb_lt, Z.leb_le, Rltb_lt in S.
    unfold limit_met, plen in *. cbn [List.length] in *. destruct S as [[[S|S]|S]|S]; [tauto|tauto|tauto|lra]. }
  rewrite St. unfold split_result.
  assert (NF : f_features cfg = [fv_name v]) by (unfold f_features; rewrite EV; reflexivity).
  assert (M : mapM (child_result cfg ord X y (List.length (f_features cfg)) [] (remaining cfg []) (plen []) 0 v) (seq 0 (List.length (fv_sets v)))
     = Ok (map (one_leaf cfg X y v) (seq 0 (List.length (fv_sets v))))).
  { rewrite <- mapM_pure. apply mapM_ext. intros i _. unfold child_result, one_leaf. cbn [app]. destruct (qltb 0 _) eqn:B; [|reflexivity].
    rewrite qltb_lt in B. rewrite NF. cbn [List.length].
    assert (RE : remove string_dec (fv_name v) (remaining cfg []) = []).
    { unfold remaining. cbn [fold_left]. rewrite NF. cbn. destruct (string_dec (fv_name v) (fv_name v)); [reflexivity|congruence]. }
    rewrite RE.
    destruct (@partial_fit_cases cfg ord X y Ho DN 0%nat (blank cfg X [] (0%nat, i) v) [(0%nat, i)] [] (plen [] + 1)%Z (or_introl Hth) eq_refl B (NoDup_nil _) (incl_nil_l _))
      as [[_ F2]|(a & v' & l1' & l2' & _ & HL2 & _)].
    - rewrite F2. assert (S2 : stops cfg X y [(0%nat, i)] 0 (plen [] + 1)%Z = true).
      { unfold stops, stop_met. rewrite !orb_true_iff. right. apply Rltb_lt. assumption. }
      rewrite S2. reflexivity.
    - exfalso. assert (PP := Ho [(0%nat, i)] []). rewrite HL2 in PP. apply Permutation_sym, Permutation_nil in PP. destruct l1'; discriminate. }
  rewrite M. reflexivity.
Qed.

(** two rows of different classes, one variable whose two sets tell them apart *)
Lemma log2_half : log2 (/ 2) = (-1)%R.
Proof. unfold log2. rewrite ln_Rinv by lra. field. assert (H := ln2_pos). lra. Qed.
Lemma entropy_two a b : a <> b -> fuzzy_entropy [1; 1] [a; b] = 1%R.
Proof.
  intro D. assert (G : forall c, c = a \/ c = b -> entropy_term [1; 1] [a; b] c = (1 / 2)%R).
  { intros c Hc. unfold entropy_term.
    assert (CC : class_card [1; 1] [a; b] c = 1).
    { unfold class_card, zip. cbn [combine filter snd]. destruct (Z.eqb_spec a c), (Z.eqb_spec b c); cbn [map fst]; rewrite ?qsum_cons, ?qsum_nil; try ring; exfalso; destruct Hc; congruence. }
    rewrite CC. assert (Q : qltb 0 1 = true) by reflexivity. rewrite Q.
    assert (E : qr (1 / qsum [1; 1]) = (/ 2)%R).
    { replace (1 / qsum [1; 1]) with (1 / (1 + 1)) by (rewrite !qsum_cons, qsum_nil; f_equal; ring). rewrite qr_div by discriminate.
      rewrite qr_plus, !qr_1. field. }
    rewrite E, log2_half. lra. }
  unfold fuzzy_entropy. assert (zunique [a; b] = if Z.ltb a b then [a; b] else [b; a]).
  { unfold zunique, unique_by. cbn. destruct (Z.ltb_spec a b); [reflexivity|]. assert (L : Z.ltb b a = true) by (apply Z.ltb_lt; lia). rewrite L. reflexivity. }
  rewrite H. destruct (Z.ltb a b); cbn; rewrite !G by auto; unfold rsum; cbn; lra.
Qed.
Lemma entropy_pure l r a b : l = 0 \/ r = 0 -> 0 <= l -> 0 <= r -> fuzzy_entropy [l; r] [a; b] = 0%R.
Proof.
  intros H Hl Hr. apply fuzzy_entropy_zero_iff; [repeat constructor; assumption|reflexivity|].
  intros i j ti tj ci cj Ti Tj Ci Cj Pi Pj.
  destruct i as [|[|i]]; cbn in Ti, Ci; [| |destruct i; discriminate]; (destruct j as [|[|j]]; cbn in Tj, Cj; [| |destruct j; discriminate]); try congruence;
    injection Ti as <-; injection Tj as <-; exfalso; destruct H; subst; qlra.
Qed.
