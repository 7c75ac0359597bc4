(** * Properties C120 and C29: fitting an already fitted binary fuzzy tree *)
From Verif Require Import Prelude M_Fuzzy M_Discretize M_Rule M_FDT M_FBDT S_Rule S_FDT S_FBDT P_FuzzySet P_FuzzyVar P_Entropy P_Rule P_FDT P_FDT2 P_FDT3 P_FDT4 P_FBDT P_FBDT2 P_FBDT3 P_FBDT7 Properties_FDT Properties_FBDT.
From Coq Require Import Reals Lra.
Open Scope string_scope.
Open Scope list_scope.
Open Scope Qc_scope.

(** the two rows of Properties_FDT with the labels swapped *)
Definition sw_y : list Z := [0; 1]%Z.
Definition sw_btree : btree :=
  BTree false [BTree true [] (Some [(0%Z, 1); (1%Z, 0)]) 1 (Some (0%nat, [0%nat])) (Some (ex_v "x")) [1; 0] [("x", 0%nat)];
               BTree true [] (Some [(0%Z, 0); (1%Z, 1)]) 1 (Some (0%nat, [1%nat])) (Some (ex_v "x")) [0; 1] [("x", 1%nat)]]
        None 0 None None [1; 1] [].
Lemma sw_btrained vt : btrained (ex_cfg vt) no_sort ex_X sw_y sw_btree.
Proof.
  assert (N : NoDup (map fs_name (fv_sets (ex_v "x")))) by (repeat constructor; cbn; [intros [H|[]]; discriminate|intros []]).
  assert (DN : distinct_names (f_vars (ex_cfg vt))) by (split; [repeat constructor; intros []|intros v [<-|[]]; assumption]).
  split; [intros; apply Permutation_refl|]. split; [assumption|]. exists [[0; 0]; [0; 0]].
  destruct (ex_readable "x" ex_X) as [R W]. { intros row [<-|[<-|[]]]; eauto. }
  unfold bt_fit. assert (C : categorical_features (f_vars (ex_cfg vt)) = Ok []) by reflexivity. rewrite C. cbn [bind]. change (negb (Nat.eqb (List.length ex_X) (List.length sw_y)) || Nat.eqb (List.length sw_y) 0) with false.
  assert (D : dataset_membership ex_X (f_vars (ex_cfg vt)) = Ok [("x", [("low", [1; 0]); ("high", [0; 1])])]) by qex. cbv iota. rewrite D. cbn [bind].
  change (fuel_for (initial_sets (f_vars (ex_cfg vt)))) with 3%nat.
  change (initial_sets (f_vars (ex_cfg vt))) with [("x", ["low"; "high"])].
  change (repeat 1 (List.length sw_y)) with [1; 1]. cbn [fresh_broot b_leaf b_children b_class b_level b_value b_var b_ignored].
  remember [("x", [("low", [1; 0]); ("high", [0; 1])])] as XM.
  assert (M1 : max_split no_sort [] [] [1; 1] [] [("x", ["low"; "high"])] XM sw_y = Ok ([[0; 0]; [0; 0]], Some (mkSplit "x" 1%R [1; 0] [0; 1] ["low"] ["high"] 0 1))).
  { subst XM. unfold max_split. assert (B : binary_partitions no_sort [] [("x", ["low"; "high"])] [("x", [("low", [1; 0]); ("high", [0; 1])])] sw_y = Ok [("x", ["low"], ["high"])]) by reflexivity.
    rewrite B. cbn [bind foldM]. unfold score_partition at 1. cbn [fst snd].
    assert (S1 : score_side [] [1; 1] [] [("x", [("low", [1; 0]); ("high", [0; 1])])] (List.length sw_y) "x" ["low"] = Ok ([[0; 0]], [1; 0], 0%nat)) by qex.
    rewrite S1. cbn [bind].
    assert (S2 : score_side [[0; 0]] [1; 1] [] [("x", [("low", [1; 0]); ("high", [0; 1])])] (List.length sw_y) "x" ["high"] = Ok ([[0; 0]; [0; 0]], [0; 1], 1%nat)) by qex.
    rewrite S2. cbn [bind]. unfold split_gain. assert (Q : qeqb (qsum [1; 1]) 0 = false) by reflexivity. rewrite Q. cbn [bind]. unfold sw_y. rewrite entropy_two by discriminate.
    rewrite !entropy_pure by (auto; qlra).
    replace (1 - (qr (qsum [1; 0]%Qc) * 0 + qr (qsum [0; 1]%Qc) * 0) / qr (qsum [1; 1]%Qc))%R with 1%R by (unfold Rdiv; ring).
    cbn [best_gain snd]. assert (L : Rltb 0 1 = true) by (apply Rltb_lt; lra). rewrite L. reflexivity. }
  assert (P : forall mu lv v, max_split no_sort [] [[0; 0]; [0; 0]] mu lv [("x", [v])] XM sw_y = Ok ([[0; 0]; [0; 0]], None)) by reflexivity.
  assert (ST : stop_met (ex_cfg vt) 1%R (masked [1; 1] sw_y) 0 = false).
  { unfold stop_met. assert (L : Rltb 1 (f_threshold (ex_cfg vt)) = false) by (apply Rltb_ge; cbn; lra). rewrite L. reflexivity. }
  assert (G0 : get_class_value [1; 0] sw_y = Ok [(0%Z, 1); (1%Z, 0)]) by qex.
  assert (G1 : get_class_value [0; 1] sw_y = Ok [(0%Z, 0); (1%Z, 1)]) by qex.
  assert (T0 : stop_met (ex_cfg vt) (best_gain None) (masked [1; 0] sw_y) 1 = true) by reflexivity.
  assert (T1 : stop_met (ex_cfg vt) (best_gain None) (masked [0; 1] sw_y) 1 = true) by reflexivity.
  cbn [bfit b_mu b_ignored]. rewrite M1. cbn [bind]. change (best_gain (Some (mkSplit "x" 1%R [1; 0] [0; 1] ["low"] ["high"] 0 1))) with 1%R. rewrite ST.
  cbn [s_att s_left s_right s_lmu s_rmu s_lign s_rign].
  change (dget "x" (f_positions (f_vars (ex_cfg vt)))) with (Some 0%nat). cbn [ret_opt bind].
  change (nth_error (f_vars (ex_cfg vt)) 0) with (Some (ex_v "x")). cbn [ret_opt bind]. cbv zeta.
  change (dict_of (map (fun js => (fs_name (snd js), fst js)) (enumerate (fv_sets (ex_v "x"))))) with [("low", 0%nat); ("high", 1%nat)].
  change (mapM (fun n => ret_opt KeyError (dget n [("low", 0%nat); ("high", 1%nat)])) ["low"]) with (@Ok (list nat) [0%nat]).
  change (mapM (fun n => ret_opt KeyError (dget n [("low", 0%nat); ("high", 1%nat)])) ["high"]) with (@Ok (list nat) [1%nat]).
  cbn [bind].
  change (update_ignored [[0; 0]; [0; 0]] [] "x" 0) with ([[0; 0]; [0; 0]], [("x", 0%nat)]). cbv iota.
  change (dget "x" [("x", ["low"; "high"])]) with (Some ["low"; "high"]). cbn [ret_opt bind].
  change (qltb 0 (qsum [1; 0])) with true. cbv iota.
  change (dset "x" (filter (fun x => memb x ["low"]) ["low"; "high"]) [("x", ["low"; "high"])]) with [("x", ["low"])].
  change (0 + 1)%Z with 1%Z. rewrite P. cbn [bind]. rewrite T0, G0. cbn [bind fst snd].
  change (update_ignored [[0; 0]; [0; 0]] [] "x" 1) with ([[0; 0]; [0; 0]], [("x", 1%nat)]). cbv iota.
  change (qltb 0 (qsum [0; 1])) with true. cbv iota.
  change (dset "x" (filter (fun x => memb x ["high"]) ["low"; "high"]) [("x", ["low"; "high"])]) with [("x", ["high"])].
  rewrite P. cbn [bind]. rewrite T1, G1. cbn [bind fst snd app b_children b_class b_value b_var]. reflexivity.
Qed.

Lemma max_app (l1 l2 : list Qc) : fold_right qmax 0 (l1 ++ l2) = qmax (fold_right qmax 0 l1) (fold_right qmax 0 l2).
Proof.
  assert (P : 0 <= fold_right qmax 0 l2) by (induction l2 as [|z l2 IH]; cbn; [apply Qcle_refl|eapply Qcle_trans; [exact IH|apply qmax_r]]).
  induction l1 as [|x l1 IH]; cbn.
  - revert P. generalize (fold_right qmax 0 l2). intros q H. unfold qmax. qcase; qlra.
  - rewrite IH, qmax_assoc. reflexivity.
Qed.

(** ** C120 *)
(** [k] further fits on the same data; the rules are those of every threshold, simplified or not *)
Theorem C120_refit_same_data : forall cfg psort X y t k, btrained cfg psort X y t ->
  exists t', brefits cfg psort X y k t = Ok t' /\
    (forall X', readable (f_vars cfg) X' -> bpredict cfg t' X' = bpredict cfg t X') /\
    (b_leaf t = false -> forall th simp rules, btree_rules t th simp = Ok rules ->
       btree_rules t' th simp = Ok (List.concat (repeat rules (S k)))).
Proof.
  intros cfg psort X y t k T. destruct (btrained_wf _ _ _ _ _ T) as [W V]. destruct (btrained_root T) as (V1 & V2 & V3 & C).
  assert (Hne := btrained_y _ _ _ _ _ T). destruct T as (_ & _ & h & T).
  exists (bcopies k t). split; [eapply brefits_copies; eauto|]. split.
  - intros X' R. apply (@bcopies_predict cfg t (zunique y) X' k W V (zunique_sorted y) (zunique_NoDup y) Hne R).
  - intros L th simp rules HT. exact (@bcopies_rules _ _ t th simp k rules W V L HT).
Qed.
Print Assumptions C120_refit_same_data.

(** fitting on other data succeeds exactly as on a new tree, and keeps the old subtrees in front *)
Theorem C120_refit_keeps_old_subtrees : forall cfg psort X y X2 y2 t t2, btrained cfg psort X y t -> btrained cfg psort X2 y2 t2 ->
  exists h t', bt_fit cfg psort t X2 y2 = Ok (h, t') /\ b_children t' = b_children t ++ b_children t2 /\ b_leaf t' = b_leaf t2 /\
    (b_leaf t2 = true -> forall X', readable (f_vars cfg) X' -> bpredict cfg t' X' = bpredict cfg t2 X').
Proof.
  intros cfg psort X y X2 y2 t t2 T T2. destruct (btrained_root T) as (V1 & V2 & V3 & _). assert (T2' := T2). destruct T2' as (_ & _ & h & F). exists h, (bmerge_root t t2).
  split; [apply brefit_shape; assumption|]. split; [reflexivity|]. split; [reflexivity|].
  intros L X' R. destruct (btrained_root T2) as (W1 & W2 & W3 & _). destruct t2 as [lf cs cv lv va vr mu ig]. cbn in L, W1, W2, W3. subst lf va vr ig. reflexivity.
Qed.
Print Assumptions C120_refit_keeps_old_subtrees.

(** what a refitted tree predicts: the supports of the two trees are added (or the larger one
    counts), so the old data still vote *)
Theorem C120_refit_votes : forall cfg psort X y X2 y2 t t2 row c, btrained cfg psort X y t -> btrained cfg psort X2 y2 t2 ->
  b_leaf t = false -> b_leaf t2 = false ->
  exists h t', bt_fit cfg psort t X2 y2 = Ok (h, t') /\
    brow_support cfg t' row c = match f_voting cfg with
                                | AggVote => brow_support cfg t row c + brow_support cfg t2 row c
                                | MaxMatch => qmax (brow_support cfg t row c) (brow_support cfg t2 row c)
                                end.
Proof.
  intros cfg psort X y X2 y2 t t2 row c T T2 L L2. destruct (btrained_root T) as (V1 & V2 & V3 & _). destruct T2 as (_ & _ & h & F). exists h, (bmerge_root t t2).
  split; [apply brefit_shape; assumption|]. 
  assert (E : bleaves (bmerge_root t t2) = bleaves t ++ bleaves t2).
  { destruct t as [lf cs cv lv va vr mu ig], t2 as [lf2 cs2 cv2 lv2 va2 vr2 mu2 ig2]. cbn in L, L2. subst lf lf2. unfold bmerge_root.
    cbn [b_leaf b_children b_class b_level b_value b_var b_mu b_ignored]. rewrite !bleaves_inner, map_app, concat_app. reflexivity. }
  unfold brow_support. cbv zeta. rewrite E, map_app. destruct (f_voting cfg); [apply qsum_app|]. apply max_app.
Qed.
Print Assumptions C120_refit_votes.

(** C29, the same for the multiway tree *)
Theorem C29_refit_votes : forall cfg ord X y X2 y2 t t2 row c, trained cfg ord X y t -> trained cfg ord X2 y2 t2 ->
  t_leaf t = false -> t_leaf t2 = false ->
  exists t', fit cfg ord t X2 y2 = Ok t' /\
    row_support cfg t' row c = match f_voting cfg with
                               | AggVote => row_support cfg t row c + row_support cfg t2 row c
                               | MaxMatch => qmax (row_support cfg t row c) (row_support cfg t2 row c)
                               end.
Proof.
  intros cfg ord X y X2 y2 t t2 row c T T2 L L2. destruct (trained_root T) as (V1 & V2 & _). exists (merge_root t t2).
  split; [apply refit_shape; try assumption; apply T2|].
  assert (E : leaves (merge_root t t2) = leaves t ++ leaves t2).
  { destruct t as [lf cs cv lv va vr mu], t2 as [lf2 cs2 cv2 lv2 va2 vr2 mu2]. cbn in L, L2. subst lf lf2. unfold merge_root.
    cbn [t_leaf t_children t_class t_level t_value t_var t_mu]. rewrite !leaves_inner, map_app, concat_app. reflexivity. }
  unfold row_support, tree_support, tree_max_support. rewrite E, map_app. destruct (f_voting cfg); [apply qsum_app|]. apply max_app.
Qed.
Print Assumptions C29_refit_votes.

(** the second data set has the labels of the first swapped *)
Theorem C120_refit_differs_from_fresh : exists cfg t t2 h t',
  btrained cfg no_sort ex_X [1; 0]%Z t /\ btrained cfg no_sort ex_X [0; 1]%Z t2 /\ bt_fit cfg no_sort t ex_X [0; 1]%Z = Ok (h, t') /\
  bpredict cfg t2 ex_X = Ok [0; 1]%Z /\ bpredict cfg t' ex_X = Ok [0; 0]%Z /\
  (exists r2 r', btree_rules t2 0 true = Ok r2 /\ btree_rules t' 0 true = Ok r' /\ List.length r2 = 2%nat /\ List.length r' = 4%nat).
Proof.
  assert (T := ex_btrained AggVote). assert (T2 := sw_btrained AggVote). exists (ex_cfg AggVote), ex_btree, sw_btree.
  assert (T2' := T2). destruct T2' as (_ & _ & h & F). exists h, (bmerge_root ex_btree sw_btree).
  split; [exact T|]. split; [exact T2|]. split; [apply brefit_shape; try reflexivity; exact F|].
  split; [vm_compute; reflexivity|]. split; [vm_compute; reflexivity|].
  eexists; eexists. split; [reflexivity|]. split; [reflexivity|]. split; reflexivity.
Qed.
Print Assumptions C120_refit_differs_from_fresh.

Example C120_instance : btrained (ex_cfg AggVote) no_sort ex_X ex_y ex_btree /\ btrained (ex_cfg AggVote) no_sort ex_X sw_y sw_btree /\
  b_leaf ex_btree = false /\ b_leaf sw_btree = false /\
  brow_support (ex_cfg AggVote) (bmerge_root ex_btree sw_btree) [CNum (qz 2)] 1 = 1.
Proof. split; [apply ex_btrained|]. split; [apply sw_btrained|]. split; [reflexivity|]. split; [reflexivity|]. qex. Qed.
