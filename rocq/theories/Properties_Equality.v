(** * Properties C102-C104: comparing trees, rules and fuzzy sets *)
From Verif Require Import Prelude M_Fuzzy M_Discretize M_Rule M_FDT M_FBDT M_ID3 S_Rule S_FDT S_FBDT P_FuzzySet P_FuzzyVar P_Entropy P_FDT P_FDT2 P_FDT3 P_FDT4 P_FBDT2 P_FBDT3 P_Counterfactual Properties_FDT Properties_FBDT M_Equality P_Equality.
From Coq Require Import Reals Lra.
Unset Implicit Arguments.
Open Scope string_scope. Open Scope list_scope. Open Scope Qc_scope.

(** ** C102: == of trees *)
(** == is an equivalence on trees (dictionaries have distinct keys) *)
Theorem C102_equivalence : forall t u w, distinct_classes t -> distinct_classes u -> distinct_classes w ->
  tree_eqb t t = true /\ (tree_eqb t u = true -> tree_eqb u t = true) /\ (tree_eqb t u = true -> tree_eqb u w = true -> tree_eqb t w = true).
Proof. intros t u w T U W. split; [apply tree_eqb_refl, T|]. split; [apply tree_eqb_sym; assumption|]. apply tree_eqb_trans; assumption. Qed.
(** equal trees trained over the same variables predict alike and give the same rules, whatever they were trained on *)
Theorem C102_fdt : forall cfg1 cfg2 ord1 ord2 X1 X2 y1 y2 t1 t2, trained cfg1 ord1 X1 y1 t1 -> trained cfg2 ord2 X2 y2 t2 ->
  f_vars cfg1 = f_vars cfg2 -> (forall v, In v (f_vars cfg1) -> fv_sets v <> []) -> tree_eqb t1 t2 = true ->
  (forall th, tree_rules t1 th = tree_rules t2 th) /\
  (f_tnorm cfg1 = f_tnorm cfg2 -> f_voting cfg1 = f_voting cfg2 -> forall X, predict cfg1 t1 X = predict cfg2 t2 X).
Proof.
  intros cfg1 cfg2 ord1 ord2 X1 X2 y1 y2 t1 t2 T1 T2 EV NE E. destruct (trained_wf T1 NE) as (W1 & _). destruct (trained_wf T2) as (W2 & _); [rewrite <- EV; exact NE|]. rewrite <- EV in W2. split.
  - intro th. exact (@rules_same _ _ _ (zunique_sorted y1) (zunique_sorted y2) (zunique_NoDup y1) (zunique_NoDup y2) th t1 t2 [] W1 W2 E).
  - intros ET VT X. unfold predict. rewrite ET, VT. rewrite (@predict_same _ _ _ (zunique_sorted y1) (zunique_sorted y2) (zunique_NoDup y1) (zunique_NoDup y2) (f_tnorm cfg2) X t1 t2 _ W1 W2 E). reflexivity.
Qed.
Theorem C102_fbdt : forall cfg1 cfg2 ps1 ps2 X1 X2 y1 y2 t1 t2, btrained cfg1 ps1 X1 y1 t1 -> btrained cfg2 ps2 X2 y2 t2 ->
  f_vars cfg1 = f_vars cfg2 -> btree_eqb t1 t2 = true ->
  (forall th simp, btree_rules t1 th simp = btree_rules t2 th simp) /\
  (f_tnorm cfg1 = f_tnorm cfg2 -> f_voting cfg1 = f_voting cfg2 -> forall X, bpredict cfg1 t1 X = bpredict cfg2 t2 X).
Proof.
  intros cfg1 cfg2 ps1 ps2 X1 X2 y1 y2 t1 t2 T1 T2 EV E. destruct (btrained_wf _ _ _ _ _ T1) as (W1 & _). destruct (btrained_wf _ _ _ _ _ T2) as (W2 & _). rewrite <- EV in W2. split.
  - intros th simp. unfold btree_rules. rewrite (@brules_same _ _ _ (zunique_sorted y1) (zunique_sorted y2) (zunique_NoDup y1) (zunique_NoDup y2) th t1 t2 [] W1 W2 E). reflexivity.
  - intros ET VT X. unfold bpredict. rewrite ET, VT. rewrite (@bpredict_same _ _ _ (zunique_sorted y1) (zunique_sorted y2) (zunique_NoDup y1) (zunique_NoDup y2) (f_tnorm cfg2) X t1 t2 _ W1 W2 E). reflexivity.
Qed.
Theorem C102_id3 : forall fs fs' t u, itree_eqb fs fs' t u = true ->
  (forall X, id3_predict t X = id3_predict u X) /\ (forall args, id3_tree_rules fs t args = id3_tree_rules fs' u args) /\ (forall X y, id3_score t X y = id3_score u X y).
Proof. intros fs fs' t u H. unfold itree_eqb in H. rewrite andb_true_iff, itree_eqb_eq, eqb_eq in H. destruct H as (-> & ->). repeat split. Qed.
(** but == does not look at the fuzzy variables: equal trees trained on the same data over variables with other sets differ in a
    prediction *)
Definition other_v : fvar := mkV "x" [FC (mkC "low" 0 0 (qz 2) false); FC (mkC "high" 0 (qz 10) (qz 10) false)].
Definition other_cfg : fdt_cfg := mkFDT [other_v] (1 / 10000)%R 10 1 qmin AggVote.
Lemma other_fit : trained other_cfg same_order ex_X ex_y (one_tree other_cfg ex_X ex_y other_v).
Proof.
  assert (P : forall p s, Permutation (same_order p s) s) by (intros; apply Permutation_refl).
  assert (N : NoDup (map fs_name (fv_sets other_v))) by (repeat constructor; cbn; [intros [H|[]]; discriminate|intros []]).
  assert (R : readable [other_v] ex_X). { intros row Hr a v s Hv Hs. destruct a as [|a]; [|destruct a; discriminate]. injection Hv as <-. destruct Hr as [<-|[<-|[]]]; (eexists; destruct Hs as [<-|[<-|[]]]; eexists; (split; [reflexivity|reflexivity])). }
  split; [assumption|]. split; [split; [repeat constructor; intros []|intros v [<-|[]]; assumption]|].
  split; [left; cbn; lra|]. apply one_fit; try assumption; try reflexivity.
  - discriminate.
  - intros row [<-|[<-|[]]]; cbn; lia.
  - cbn; lra.
  - intros [H|[H|H]]; [assert (1 = 0)%Z by (apply H; vm_compute; auto); discriminate|vm_compute in H; discriminate|vm_compute in H; apply H; reflexivity].
  - assert (G : info_gain [other_v] ex_X ex_y [] 0 = 1%R); [|cbn [f_threshold other_cfg]; rewrite G; lra].
    unfold info_gain. cbn [nth_error fv_sets other_v List.length seq map app].
    assert (A0 : acts [other_v] ex_X [] = [1; 1]) by reflexivity. assert (A1 : acts [other_v] ex_X [(0, 0)%nat] = [1; 0]) by qex. assert (A2 : acts [other_v] ex_X [(0, 1)%nat] = [0; 1]) by qex.
    rewrite A0, A1, A2. unfold ex_y. rewrite entropy_two by discriminate. rewrite !entropy_pure by (auto; qlra). unfold rsum. cbn [fold_right]. unfold Rdiv. ring.
Qed.
Theorem C102_variables_refuted : exists t u X p q, trained (ex_cfg AggVote) same_order ex_X ex_y t /\ trained other_cfg same_order ex_X ex_y u /\ tree_eqb t u = true /\
  predict (ex_cfg AggVote) t X = Ok p /\ predict other_cfg u X = Ok q /\ p <> q.
Proof.
  exists (one_tree (ex_cfg AggVote) ex_X ex_y (ex_v "x")), (one_tree other_cfg ex_X ex_y other_v), [[CNum (qz 3)]], [1%Z], [0%Z]. split; [apply ex_fit; left; reflexivity|]. split; [exact other_fit|]. splits; [vm_compute; reflexivity|vm_compute; reflexivity|vm_compute; reflexivity|discriminate].
Qed.
(** a tree is unequal to one with another prediction at a leaf *)
Example C102_ex : tree_eqb (one_tree (ex_cfg AggVote) ex_X [1; 0]%Z (ex_v "x")) (one_tree (ex_cfg AggVote) ex_X [0; 1]%Z (ex_v "x")) = false /\ btree_eqb ex_btree ex_btree = true /\ distinct_classes (one_tree (ex_cfg AggVote) ex_X [1; 0]%Z (ex_v "x")).
Proof. splits; [vm_compute; reflexivity|vm_compute; reflexivity|]. vm_compute. repeat (split || constructor || (intros [H|[]]; discriminate) || intros []). Qed.
Print Assumptions C102_equivalence. Print Assumptions C102_fdt. Print Assumptions C102_fbdt. Print Assumptions C102_id3. Print Assumptions C102_variables_refuted.

(** ** C103: == and hash() of rules *)
(** equal rules have equal hashes, if they have any; rules of the same kind that are equal match every instance alike *)
Theorem C103_equal_rules : forall r s, prule_eqb r s = true -> (forall h, prule_hash h r = prule_hash h s) /\ (p_multi r = p_multi s -> forall tn m, pmatching tn m r = pmatching tn m s).
Proof.
  intros r s H. apply prule_eqb_spec in H. destruct r as [a c w mu], s as [a' c' w' mu']. cbn in H. destruct H as (-> & -> & ->). split; [reflexivity|]. cbn. intros -> tn m. reflexivity.
Qed.
(** == tells rules apart that differ in antecedent, consequent or weight *)
Theorem C103_unequal_rules : forall r s, p_ant r <> p_ant s \/ p_cons r <> p_cons s \/ p_weight r <> p_weight s -> prule_eqb r s = false.
Proof. intros r s H. destruct (prule_eqb r s) eqn:E; [|reflexivity]. apply prule_eqb_spec in E. tauto. Qed.
(** a plain rule and a rule with several values per feature may be equal and still match differently *)
Theorem C103_flag_refuted : exists r s m, prule_eqb r s = true /\ pmatching qminimum m r = Ok 1 /\ pmatching qminimum m s = Ok 0.
Proof. exists (mkP [("x", LTuple ["low"; "mid"])] 0 1 true), (mkP [("x", LTuple ["low"; "mid"])] 0 1 false), [("x", [("low", 1); ("mid", 0)])]. splits; vm_compute; reflexivity. Qed.
(** the rules of an FDT can be hashed; those of a trained FBDT that has split cannot *)
Theorem C103_fdt_hashable : forall h t th rules, tree_rules t th = Ok rules -> forall r, In r rules -> exists z, prule_hash h (plain_rule r) = Ok z.
Proof. intros h t th rules _ r _. eexists. apply plain_hash. Qed.
Theorem C103_fbdt_unhashable : forall cfg psort X y t th simp rules, btrained cfg psort X y t -> b_leaf t = false -> btree_rules t th simp = Ok rules ->
  forall h r, In r rules -> prule_hash h (multi_rule r) = Err TypeError.
Proof.
  intros cfg psort X y t th simp rules T L H h r R. apply multi_hash. destruct (btrained_wf _ _ _ _ _ T) as (W & _). unfold btree_rules in H. destruct (get_brules t [] th) as [rs|] eqn:E; [|discriminate]. cbn [bind] in H.
  assert (F := @binner_nonempty th t rs _ _ L W E). rewrite Forall_forall in F. destruct simp.
  - assert (EE : rules = map (simplify (@List.length string)) rs) by congruence. subst rules. apply in_map_iff in R. destruct R as (r0 & <- & R0). apply simplify_nonempty. exact (F r0 R0).
  - assert (EE : rules = rs) by congruence. subst rules. exact (F r R).
Qed.
(** these rules match as modelled for C16-C22 *)
Theorem C103_matching : forall tn m, (forall r, pmatching tn m (plain_rule r) = matching_tn tn m r) /\ (forall r, pmatching tn m (multi_rule r) = matching_multi_tn tn m r).
Proof. intros tn m. split; intro r; [apply plain_matching|apply multi_matching]. Qed.
(** a name where a rule of multiple antecedents has a group of names is read as the group of its letters *)
Theorem C103_name_in_multi_rule : forall tn m pre f s post c w,
  pmatching tn m (mkP (pre ++ (f, LName s) :: post) c w true) =
  pmatching tn m (mkP (pre ++ (f, LTuple (map (fun a => String a EmptyString) (list_ascii_of_string s))) :: post) c w true).
Proof.
  intros tn m pre f s post c w. unfold pmatching. cbn [p_multi p_ant].
  assert (L : iterate (LName s) = iterate (LTuple (map (fun a => String a EmptyString) (list_ascii_of_string s)))) by (cbn [iterate]; induction s as [|a s IH]; [reflexivity|]; cbn; rewrite IH; reflexivity).
  f_equal. assert (E : forall q, mapM (fun fv : string * lit => sum_degrees m (fst fv) (iterate (snd fv))) (q ++ (f, LName s) :: post) =
    mapM (fun fv : string * lit => sum_degrees m (fst fv) (iterate (snd fv))) (q ++ (f, LTuple (map (fun a => String a EmptyString) (list_ascii_of_string s))) :: post)).
  { induction q as [|x q IH]; cbn [app mapM fst snd]; [rewrite L; reflexivity|rewrite IH; reflexivity]. }
  rewrite E. reflexivity.
Qed.
Print Assumptions C103_name_in_multi_rule.
Example C103_ex : exists rules r, btrained (ex_cfg AggVote) no_sort ex_X ex_y ex_btree /\ btree_rules ex_btree 0 false = Ok rules /\ In r rules /\ r_ant r = [("x", ["low"])].
Proof. eexists. eexists. split; [apply ex_btrained|]. split; [vm_compute; reflexivity|]. split; [left; reflexivity|reflexivity]. Qed.
Print Assumptions C103_equal_rules. Print Assumptions C103_unequal_rules. Print Assumptions C103_flag_refuted. Print Assumptions C103_fdt_hashable. Print Assumptions C103_fbdt_unhashable. Print Assumptions C103_matching.

(** ** C104: ==, < and hash() of fuzzy sets *)
(** < is a strict order by the points alone: irreflexive, transitive, and two sets are incomparable exactly if their points agree *)
Theorem C104_order : forall a b c : cset, cset_lt a a = false /\ (cset_lt a b = true -> cset_lt b c = true -> cset_lt a c = true) /\
  (cset_lt a b = false /\ cset_lt b a = false <-> (pa a, pb a, pc a) = (pa b, pb b, pc b)).
Proof.
  intros a b c. assert (IR : forall s o, (pa s, pb s, pc s) = (pa o, pb o, pc o) -> cset_lt s o = false).
  { intros s o E. injection E as E1 E2 E3. destruct (cset_lt s o) eqn:L; [|reflexivity]. apply cset_lt_spec in L. rewrite E1, E2, E3 in L. exfalso. destruct L as [L|(_ & [L|(_ & L)])]; clear - L; qlra. }
  split; [apply IR; reflexivity|]. split; [apply cset_lt_trans|]. split.
  - intros (H & H'). destruct (cset_incomparable _ _ H H') as (-> & -> & ->). reflexivity.
  - intro E. split; apply IR; congruence.
Qed.
(** sets of equal points but other names are neither equal nor comparable *)
Theorem C104_names : forall a b, (pa a, pb a, pc a) = (pa b, pb b, pc b) -> c_name a <> c_name b -> fset_eqb (FC a) (FC b) = false /\ fset_lt (FC a) (FC b) = Ok false /\ fset_lt (FC b) (FC a) = Ok false.
Proof.
  intros a b E N. split.
  - destruct (fset_eqb (FC a) (FC b)) eqn:Q; [|reflexivity]. apply fset_eqb_spec in Q. congruence.
  - destruct (proj2 (proj2 (proj2 (C104_order a b a))) E) as (H & H'). cbn. rewrite H, H'. split; reflexivity.
Qed.
(** == means: same kind, name, points or value and flag; equal sets have the same degrees everywhere and the same hash *)
Theorem C104_equal : forall a b, fset_eqb a b = true -> (forall x, membership a x = membership b x) /\ (forall h, fset_hash h a = fset_hash h b) /\ fs_name a = fs_name b.
Proof. intros a b H. apply fset_eqb_spec in H. subst. auto. Qed.
Theorem C104_unequal : forall a b x, membership a x <> membership b x -> fset_eqb a b = false.
Proof. intros a b x H. destruct (fset_eqb a b) eqn:E; [|reflexivity]. apply fset_eqb_spec in E. congruence. Qed.
(** discrete sets have neither an order nor a hash *)
Theorem C104_discrete : forall n v s h c, fset_hash h (FD n v) = Err TypeError /\ fset_lt (FD n v) s = Err TypeError /\ fset_lt (FC c) (FD n v) = Err AttributeError.
Proof. intros. repeat split. Qed.
(** the sets made over ascending points are listed in ascending order, so sorting them changes nothing *)
Theorem C104_listed_in_order : forall method d sets, StronglySorted (fun a b : string * Qc => snd a < snd b) d -> continuous_sets method d = Ok sets -> StronglySorted (fun a b => cset_lt a b = true) sets.
Proof. intros method d sets. apply continuous_sorted. Qed.
Example C104_ex : exists sets, continuous_sets "point_set" [("a", 0); ("b", 1); ("c", qz 2)] = Ok sets /\ List.length sets = 3%nat /\ StronglySorted (fun a b : string * Qc => snd a < snd b) [("a", 0); ("b", 1); ("c", qz 2)].
Proof. eexists. split; [vm_compute; reflexivity|]. split; [reflexivity|]. repeat constructor. Qed.
Print Assumptions C104_order. Print Assumptions C104_names. Print Assumptions C104_equal. Print Assumptions C104_unequal. Print Assumptions C104_discrete. Print Assumptions C104_listed_in_order.
