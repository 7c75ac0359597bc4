(** * Property C33: when the votes of a binary tree and of its rules agree, and when not *)
From Verif Require Import Prelude M_Fuzzy M_Discretize M_Rule M_FDT M_FBDT S_Rule S_FDT S_FBDT P_FuzzySet P_FuzzyVar P_Entropy P_Rule P_FDT P_FDT2 P_FDT3 P_FDT4 P_FBDT P_FBDT2 P_FBDT3 Properties_FDT Properties_FBDT.
From Coq Require Import Reals Lra.
Open Scope string_scope.
Open Scope list_scope.
Open Scope Qc_scope.

(** a variable as get_fuzzy_variables builds it: triangles over strictly increasing points, or
    one set for each of some distinct values *)
Definition built (v : fvar) : Prop :=
  (exists method d sets, StronglySorted Qclt (map snd d) /\ continuous_sets method d = Ok sets /\ fv_sets v = map FC sets) \/
  (exists d, NoDup (map snd d) /\ fv_sets v = discrete_sets d).

Definition deg (x : cell) (s : fset) : Qc := match membership s x with Ok d => d | Err _ => 0 end.
Lemma seq_nth_map {A} (f : option A -> Qc) (l : list A) : map (fun i => f (nth_error l i)) (seq 0 (List.length l)) = map (fun s => f (Some s)) l.
Proof.
  induction l as [|s l IH]; [reflexivity|]. cbn [List.length seq map]. f_equal. rewrite <- seq_shift, map_map. exact IH.
Qed.
Lemma deg_forall2 x sets ds : Forall2 (fun s m => membership s x = Ok m) sets ds -> map (deg x) sets = ds.
Proof. induction 1 as [|s m l l' H _ IH]; [reflexivity|]. cbn [map]. rewrite IH. unfold deg. rewrite H. reflexivity. Qed.
Lemma deg_zero x sets : (forall s, In s sets -> deg x s = 0) -> qsum (map (deg x) sets) = 0.
Proof. intro H. apply qsum_map_zero. exact H. Qed.
Lemma sorted_range (l : list Qc) v : l <> [] -> (forall p, In p l -> v < p) \/ (forall p, In p l -> p < v) \/
  ((exists p, In p l /\ p <= v) /\ (exists q, In q l /\ v <= q)).
Proof.
  intro NE. destruct (existsb (fun p => qleb p v) l) eqn:A.
  - apply existsb_exists in A. destruct A as [p [Ip Hp]]. rewrite qleb_le in Hp.
    destruct (existsb (fun p => qleb v p) l) eqn:B.
    + apply existsb_exists in B. destruct B as [q [Iq Hq]]. rewrite qleb_le in Hq. right. right. split; eauto.
    + right. left. intros q Iq. destruct (qleb v q) eqn:Q; [|apply qleb_gt; exact Q].
      assert (existsb (fun p => qleb v p) l = true) by (apply existsb_exists; eauto). congruence.
  - left. intros q Iq. destruct (qleb q v) eqn:Q; [|apply qleb_gt; exact Q].
    assert (existsb (fun p => qleb p v) l = true) by (apply existsb_exists; eauto). congruence.
Qed.
Lemma built_sum v x : built v -> qsum (map (deg x) (fv_sets v)) <= 1.
Proof.
  intros [(method & d & sets & SS & CS & ->)|(d & ND & ->)].
  - destruct x as [x|s].
    2:{ rewrite deg_zero; [discriminate|]. intros q Hq. apply in_map_iff in Hq. destruct Hq as [c [<- _]]. unfold deg. cbn [membership]. destruct (valid_points _ _ _); reflexivity. }
    destruct (Nat.leb 2 (List.length d)) eqn:L.
    + apply Nat.leb_le in L. destruct (@C02_all method d x L SS) as (sets' & ds & CS' & F & IN & _ & OUT).
      assert (sets' = sets) by congruence. subst sets'.
      assert (F' : Forall2 (fun s m => membership s (CNum x) = Ok m) (map FC sets) ds).
      { clear - F. induction F; constructor; assumption. }
      rewrite (deg_forall2 _ _ _ F'). destruct (sorted_range (map snd d) x) as [H|[H|[H H']]].
      * destruct d; [cbn in L; lia|discriminate].
      * assert (Z : Forall (fun m => m = 0) ds) by (apply OUT; auto).
        assert (E : qsum ds = 0). { clear - Z. induction Z as [|m l -> _ IH]; [reflexivity|]. cbn [qsum fold_right]. fold (qsum l). rewrite IH. ring. }
        rewrite E. discriminate.
      * assert (Z : Forall (fun m => m = 0) ds) by (apply OUT; auto).
        assert (E : qsum ds = 0). { clear - Z. induction Z as [|m l -> _ IH]; [reflexivity|]. cbn [qsum fold_right]. fold (qsum l). rewrite IH. ring. }
        rewrite E. discriminate.
      * rewrite IN by assumption. apply Qcle_refl.
    + apply Nat.leb_gt in L. destruct d as [|[n p] [|]]; cbn [List.length] in L; try lia; [discriminate|].
      unfold continuous_sets in CS. destruct (eqb method "point_set"); [|discriminate]. injection CS as <-. unfold point_set. cbn [map qsum fold_right].
      assert (G : deg (CNum x) (FC (mkC n p p p true)) <= 1); [|cbn [fst snd]; qlra].
      unfold deg. cbn [membership pa pb pc]. unfold trimf. destruct (valid_points p p p); [|discriminate].
      exact (proj2 (@tri_01 p p p x (Qcle_refl p) (Qcle_refl p))).
  - assert (F : Forall2 (fun s m => membership s x = Ok m) (discrete_sets d) (map (deg x) (discrete_sets d))).
    { unfold discrete_sets. clear ND. induction d as [|nv d IH]; [constructor|]. cbn [map]. constructor; [reflexivity|assumption]. }
    destruct (discrete_sum d _ ND F) as [A B]. destruct (in_dec eq_dec x (map snd d)) as [I|I].
    + rewrite A by assumption. apply Qcle_refl.
    + rewrite B by assumption. discriminate.
Qed.

(** every row is partitioned by variables built in the usual way *)
Theorem C33_built_variables_are_partitioned : forall vars row, (forall v, In v vars -> built v) -> partitioned vars row.
Proof.
  intros vars row B a. unfold side_degree, nsets, lit_degree. cbn [fst snd].
  destruct (nth_error vars a) as [v|] eqn:Hv; [|discriminate].
  destruct (nth_error row a) as [x|].
  - assert (E := seq_nth_map (fun o => match o with Some s => deg x s | None => 0 end) (fv_sets v)).
    change (qsum (map (fun i => match nth_error (fv_sets v) i with Some s => deg x s | None => 0 end) (seq 0 (List.length (fv_sets v)))) <= 1).
    rewrite E.
    exact (built_sum v x (B v (nth_error_In _ _ Hv))).
  - rewrite qsum_map_zero; [discriminate|]. intros i _. destruct (nth_error (fv_sets v) i); reflexivity.
Qed.
Print Assumptions C33_built_variables_are_partitioned.

Example C33_built_instance : built (ex_v "x") /\ built (mkV "k" (discrete_sets [("a", CStr "a"); ("b", CStr "b")])).
Proof.
  split; [left|right].
  - exists "point_set", [("low", 0); ("high", qz 10)], [mkC "low" 0 0 (qz 10) false; mkC "high" 0 (qz 10) (qz 10) false].
    split; [repeat constructor|]. split; reflexivity.
  - eexists. split; [|reflexivity]. cbn [map snd]. repeat constructor; cbn; intros H; repeat (destruct H as [H|H]; try discriminate); destruct H.
Qed.

(** ** Sets that overlap too much: two equal triangles and a third one *)
Definition ov_v : fvar := mkV "x" [FC (mkC "a" 0 0 (qz 10) false); FC (mkC "b" 0 0 (qz 10) false); FC (mkC "c" 0 (qz 10) (qz 10) false)].
Definition ov_cfg : fdt_cfg := mkFDT [ov_v] (1 / 10000)%R 10 1 qmin AggVote.
Definition ov_tree : btree :=
  BTree false [BTree true [] (Some [(0%Z, 0); (1%Z, 1)]) 1 (Some (0%nat, [0; 1]%nat)) (Some ov_v) [1; 0] [("x", 2%nat)];
               BTree true [] (Some [(0%Z, 1); (1%Z, 0)]) 1 (Some (0%nat, [2%nat])) (Some ov_v) [0; 1] [("x", 3%nat)]]
        None 0 None None [1; 1] [].
Definition ov_XM : xmem := [("x", [("a", [1; 0]); ("b", [1; 0]); ("c", [0; 1])])].
Lemma ov_btrained : btrained ov_cfg no_sort ex_X ex_y ov_tree.
Proof.
  assert (N : NoDup (map fs_name (fv_sets ov_v))) by (repeat constructor; cbn; intros H; repeat (destruct H as [H|H]; try discriminate); destruct H).
  assert (DN : distinct_names (f_vars ov_cfg)) by (split; [repeat constructor; intros []|intros v [<-|[]]; assumption]).
  split; [intros; apply Permutation_refl|]. split; [assumption|]. exists [[0; 0]; [0; 0]; [0; 0]; [0; 0]].
  unfold bt_fit. assert (C : categorical_features (f_vars ov_cfg) = Ok []) by reflexivity. rewrite C. cbn [bind]. change (negb (Nat.eqb (List.length ex_X) (List.length ex_y)) || Nat.eqb (List.length ex_y) 0) with false.
  assert (D : dataset_membership ex_X (f_vars ov_cfg) = Ok ov_XM) by (unfold ov_XM; qex). cbv iota. rewrite D. cbn [bind].
  change (fuel_for (initial_sets (f_vars ov_cfg))) with 4%nat.
  change (initial_sets (f_vars ov_cfg)) with [("x", ["a"; "b"; "c"])].
  change (repeat 1 (List.length ex_y)) with [1; 1]. cbn [fresh_broot b_leaf b_children b_class b_level b_value b_var b_ignored].
  pose (Z4 := [[0; 0]; [0; 0]; [0; 0]; [0; 0]]).
  assert (M1 : max_split no_sort [] [] [1; 1] [] [("x", ["a"; "b"; "c"])] ov_XM ex_y = Ok (Z4, Some (mkSplit "x" 1%R [1; 0] [0; 1] ["a"; "b"] ["c"] 2 3))).
  { unfold max_split. assert (B : binary_partitions no_sort [] [("x", ["a"; "b"; "c"])] ov_XM ex_y = Ok [("x", ["a"], ["b"; "c"]); ("x", ["a"; "b"], ["c"])]) by reflexivity.
    rewrite B. cbn [bind foldM].
    assert (P1 : score_partition ov_XM ex_y [1; 1] [] ([], None) ("x", ["a"], ["b"; "c"]) = Ok ([[0; 0]; [0; 0]], None)).
    { unfold score_partition. cbn [fst snd].
      assert (S1 : score_side [] [1; 1] [] ov_XM (List.length ex_y) "x" ["a"] = Ok ([[0; 0]], [1; 0], 0%nat)) by (unfold ov_XM; qex).
      rewrite S1. cbn [bind].
      assert (S2 : score_side [[0; 0]] [1; 1] [] ov_XM (List.length ex_y) "x" ["b"; "c"] = Ok ([[0; 0]; [0; 0]], [1; 1], 1%nat)) by (unfold ov_XM; qex).
      rewrite S2. cbn [bind]. unfold split_gain. assert (Q : qeqb (qsum [1; 1]) 0 = false) by reflexivity. rewrite Q. cbn [bind]. unfold ex_y.
      rewrite entropy_two by discriminate. rewrite entropy_pure by (auto; qlra). cbn [best_gain].
      assert (Q2 : qr (qsum [1; 1]) <> 0%R). { unfold qr. intro H0. apply RMicromega.Q2R_0 in H0 || (rewrite <- RMicromega.Q2R_0 in H0; apply Qreals.eqR_Qeq in H0; discriminate H0). }
      replace (1 - (qr (qsum [1; 0]%Qc) * 0 + qr (qsum [1; 1]%Qc) * 1) / qr (qsum [1; 1]%Qc))%R with 0%R by (field; exact Q2).
      assert (L : Rltb 0 0 = false) by (apply Rltb_ge; lra). rewrite L. reflexivity. }
    match goal with |- context [score_partition ?a ?b ?c ?d ?e ?f] => change (score_partition a b c d e f) with (score_partition ov_XM ex_y [1; 1] [] ([], None) ("x", ["a"], ["b"; "c"])) end.
    rewrite P1. cbn [bind].
    assert (P2 : score_partition ov_XM ex_y [1; 1] [] ([[0; 0]; [0; 0]], None) ("x", ["a"; "b"], ["c"]) = Ok (Z4, Some (mkSplit "x" 1%R [1; 0] [0; 1] ["a"; "b"] ["c"] 2 3))).
    { unfold score_partition. cbn [fst snd].
      assert (S1 : score_side [[0; 0]; [0; 0]] [1; 1] [] ov_XM (List.length ex_y) "x" ["a"; "b"] = Ok ([[0; 0]; [0; 0]; [0; 0]], [1; 0], 2%nat)) by (unfold ov_XM; qex).
      rewrite S1. cbn [bind].
      assert (S2 : score_side [[0; 0]; [0; 0]; [0; 0]] [1; 1] [] ov_XM (List.length ex_y) "x" ["c"] = Ok (Z4, [0; 1], 3%nat)) by (unfold ov_XM, Z4; qex).
      rewrite S2. cbn [bind]. unfold split_gain. assert (Q : qeqb (qsum [1; 1]) 0 = false) by reflexivity. rewrite Q. cbn [bind]. unfold ex_y.
      rewrite entropy_two by discriminate. rewrite !entropy_pure by (auto; qlra). cbn [best_gain].
      replace (1 - (qr (qsum [1; 0]%Qc) * 0 + qr (qsum [0; 1]%Qc) * 0) / qr (qsum [1; 1]%Qc))%R with 1%R by (unfold Rdiv; ring).
      assert (L : Rltb 0 1 = true) by (apply Rltb_lt; lra). rewrite L. reflexivity. }
    match goal with |- bind ?r _ = _ => replace r with (Ok (Z4, Some (mkSplit "x" 1%R [1; 0] [0; 1] ["a"; "b"] ["c"] 2 3))) by (symmetry; exact P2) end. reflexivity. }
  assert (ML : max_split no_sort [] Z4 [1; 0] [("x", 2%nat)] [("x", ["a"; "b"])] ov_XM ex_y = Ok (Z4, None)).
  { unfold max_split. assert (B : binary_partitions no_sort [] [("x", ["a"; "b"])] ov_XM ex_y = Ok [("x", ["a"], ["b"])]) by reflexivity.
    rewrite B. cbn [bind foldM]. unfold score_partition. cbn [fst snd].
    assert (S1 : forall s, s = "a" \/ s = "b" -> score_side Z4 [1; 0] [("x", 2%nat)] ov_XM (List.length ex_y) "x" [s] = Ok (Z4, [1; 0], 2%nat)) by (intros s [->| ->]; unfold ov_XM, Z4; qex).
    rewrite (S1 "a") by auto. cbn [bind]. rewrite (S1 "b") by auto. cbn [bind].
    unfold split_gain. assert (Q : qeqb (qsum [1; 0]) 0 = false) by reflexivity. rewrite Q. cbn [bind]. unfold ex_y.
    rewrite !entropy_pure by (auto; qlra). cbn [best_gain].
    replace (0 - (qr (qsum [1; 0]%Qc) * 0 + qr (qsum [1; 0]%Qc) * 0) / qr (qsum [1; 0]%Qc))%R with 0%R by (unfold Rdiv; ring).
    assert (L : Rltb 0 0 = false) by (apply Rltb_ge; lra). rewrite L. reflexivity. }
  assert (MR : max_split no_sort [] Z4 [0; 1] [("x", 3%nat)] [("x", ["c"])] ov_XM ex_y = Ok (Z4, None)) by reflexivity.
  assert (ST : stop_met ov_cfg 1%R (masked [1; 1] ex_y) 0 = false).
  { unfold stop_met. assert (L : Rltb 1 (f_threshold ov_cfg) = false) by (apply Rltb_ge; cbn; lra). rewrite L. reflexivity. }
  assert (G0 : get_class_value [1; 0] ex_y = Ok [(0%Z, 0); (1%Z, 1)]) by qex.
  assert (G1 : get_class_value [0; 1] ex_y = Ok [(0%Z, 1); (1%Z, 0)]) by qex.
  assert (T0 : stop_met ov_cfg (best_gain None) (masked [1; 0] ex_y) 1 = true) by reflexivity.
  assert (T1 : stop_met ov_cfg (best_gain None) (masked [0; 1] ex_y) 1 = true) by reflexivity.
  change [[0; 0]; [0; 0]; [0; 0]; [0; 0]] with Z4. clearbody Z4.
  cbn [bfit b_mu b_ignored]. rewrite M1. cbn [bind]. change (best_gain (Some (mkSplit "x" 1%R [1; 0] [0; 1] ["a"; "b"] ["c"] 2 3))) with 1%R. rewrite ST.
  cbn [s_att s_left s_right s_lmu s_rmu s_lign s_rign].
  change (dget "x" (f_positions (f_vars ov_cfg))) with (Some 0%nat). cbn [ret_opt bind].
  change (nth_error (f_vars ov_cfg) 0) with (Some ov_v). cbn [ret_opt bind]. cbv zeta.
  change (dict_of (map (fun js => (fs_name (snd js), fst js)) (enumerate (fv_sets ov_v)))) with [("a", 0%nat); ("b", 1%nat); ("c", 2%nat)].
  change (mapM (fun n => ret_opt KeyError (dget n [("a", 0%nat); ("b", 1%nat); ("c", 2%nat)])) ["a"; "b"]) with (@Ok (list nat) [0%nat; 1%nat]).
  change (mapM (fun n => ret_opt KeyError (dget n [("a", 0%nat); ("b", 1%nat); ("c", 2%nat)])) ["c"]) with (@Ok (list nat) [2%nat]).
  cbn [bind].
  change (update_ignored Z4 [] "x" 2) with (Z4, [("x", 2%nat)]). cbv iota.
  change (dget "x" [("x", ["a"; "b"; "c"])]) with (Some ["a"; "b"; "c"]). cbn [ret_opt bind].
  change (qltb 0 (qsum [1; 0])) with true. cbv iota.
  change (dset "x" (filter (fun x => memb x ["a"; "b"]) ["a"; "b"; "c"]) [("x", ["a"; "b"; "c"])]) with [("x", ["a"; "b"])].
  change (0 + 1)%Z with 1%Z. rewrite ML. cbn [bind]. rewrite T0, G0. cbn [bind fst snd].
  change (update_ignored Z4 [] "x" 3) with (Z4, [("x", 3%nat)]). cbv iota.
  change (qltb 0 (qsum [0; 1])) with true. cbv iota.
  change (dset "x" (filter (fun x => memb x ["c"]) ["a"; "b"; "c"]) [("x", ["a"; "b"; "c"])]) with [("x", ["c"])].
  rewrite MR. cbn [bind]. rewrite T1, G1. cbn [bind fst snd app b_children b_class b_value b_var]. reflexivity.
Qed.

(** the tree cuts the sum of the degrees of a group off at 1, the rule does not *)
Theorem C33_overlapping_sets_refuted : exists cfg X y t row m, btrained cfg no_sort X y t /\ b_leaf t = false /\
  f_tnorm cfg = qmin /\ f_voting cfg = AggVote /\ row_membership (f_vars cfg) row m /\ (forall f v d, knows m f v d -> 0 <= d) /\
  exists rules ms c, btree_rules t 0 true = Ok rules /\ Forall2 (fun r x => matching_multi m r = Ok x) rules ms /\
    bsupport rules ms c <> brow_support cfg t row c.
Proof.
  exists ov_cfg, ex_X, ex_y, ov_tree, [CNum 0], [("x", [("a", 1); ("b", 1); ("c", 0)])].
  split; [exact ov_btrained|]. split; [reflexivity|]. split; [reflexivity|]. split; [reflexivity|]. split; [|split].
  - intros a v i s Hv Hs. destruct a as [|[|a]]; [|discriminate|discriminate]. injection Hv as <-.
    destruct i as [|[|[|i]]]; [| | |destruct i; discriminate]; injection Hs as <-;
    (eexists; split; [reflexivity|]); qex.
  - intros f v d (e & A & B). cbn [dget] in A. destruct (eqb f "x"); [|discriminate]. injection A as <-. cbn [dget] in B.
    destruct (eqb v "a"); [injection B as <-; discriminate|]. destruct (eqb v "b"); [injection B as <-; discriminate|].
    destruct (eqb v "c"); [injection B as <-; discriminate|discriminate].
  - exists [mkR [("x", ["a"; "b"])] 1%Z 1; mkR [("x", ["c"])] 0%Z 1], [qz 2; 0], 1%Z. split; [qex|]. split.
    + repeat constructor; qex.
    + intro H. assert (A : bsupport [mkR [("x", ["a"; "b"])] 1%Z 1; mkR [("x", ["c"])] 0%Z 1] [qz 2; 0] 1 = qz 2) by qex.
      assert (B : brow_support ov_cfg ov_tree [CNum 0] 1 = 1) by qex. rewrite A, B in H. discriminate.
Qed.
Print Assumptions C33_overlapping_sets_refuted.
