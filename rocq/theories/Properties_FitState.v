(** * Property C124: what a call of fit that raises an exception leaves in the estimator *)
From Verif Require Import Prelude M_Fuzzy M_Discretize P_FuzzySet P_FuzzyVar P_Entropy M_Rule M_FDT S_FDT P_FDT P_FDT2 P_FDT3 P_FDT4 Properties_FDT.
From Verif Require Import M_FBDT S_FBDT P_FBDT P_FBDT2 P_FBDT7 Properties_FBDT M_ID3 S_ID3 P_ID3 P_ID3b P_ID3c Properties_ID3 Properties_ID3b M_FitState P_FitState.
From Coq Require Import Reals Lra.
Local Notation eqb := Prelude.eqb.
Open Scope string_scope.
Open Scope list_scope.
Open Scope Qc_scope.

(** ** the model with states has the results of the model without *)
Theorem C124_same_results :
  (forall cfg ord root X y, fit cfg ord root X y =
     match fit_st cfg ord root X y with (t, None) => Ok t | (_, Some e) => Err e end) /\
  (forall cfg psort root X y, bt_fit cfg psort root X y =
     match bt_fit_st cfg psort root X y with (t, Ok h) => Ok (h, t) | (_, Err e) => Err e end) /\
  (forall cfg cls fts root X y, id3_fit cfg cls fts root X y =
     match id3_fit_st cfg cls fts root X y with (t, None) => Ok t | (_, Some e) => Err e end).
Proof.
  split; [|split]; intros.
  - rewrite fit_agrees. destruct (fit_st cfg ord root X y) as [t [e|]]; reflexivity.
  - rewrite bt_fit_agrees. destruct (bt_fit_st cfg psort root X y) as [t [h|e]]; reflexivity.
  - rewrite id3_fit_agrees. destruct (id3_fit_st cfg cls fts root X y) as [t [e|]]; reflexivity.
Qed.
Print Assumptions C124_same_results.

(** ** with a positive gain threshold fit is all or nothing: it either succeeds or raises and
    leaves the tree as it was *)
Theorem C124_fdt_all_or_nothing : forall cfg ord root X y,
  (forall p s, Permutation (ord p s) s) -> distinct_names (f_vars cfg) -> (0 < f_threshold cfg)%R ->
  (exists t, fit_st cfg ord root X y = (t, None)) \/ (exists e, fit_st cfg ord root X y = (root, Some e)).
Proof.
  intros cfg ord root X y Ho Hn Hth. assert (A := fit_agrees cfg ord root X y).
  destruct (fit_st cfg ord root X y) as [t [e|]] eqn:E; cbn [fst snd] in A; [|left; eauto]. right. exists e. unfold fit_st in E.
  destruct (Nat.eqb_spec (List.length X) (List.length y)) as [HL|HL]; cbn [negb orb] in E; [|congruence].
  destruct (Nat.eqb_spec (List.length y) 0) as [L0|L0]; [congruence|].
  destruct (dataset_membership X (f_vars cfg)) as [XM|] eqn:EM; [exfalso|congruence].
  destruct (@membership_readable (f_vars cfg) X XM Hn EM) as [R W].
  destruct (@C25_training_total cfg ord X y root Ho Hn HL) as [t' Ht]; try assumption; [intros ->; apply L0; reflexivity|congruence].
Qed.
Print Assumptions C124_fdt_all_or_nothing.
Theorem C124_fbdt_all_or_nothing : forall cfg psort root X y,
  (forall l, Permutation (psort l) l) -> distinct_names (f_vars cfg) -> (0 < f_threshold cfg)%R ->
  b_value root = None -> b_var root = None -> b_ignored root = [] ->
  (exists h t, bt_fit_st cfg psort root X y = (t, Ok h)) \/ (exists e, bt_fit_st cfg psort root X y = (root, Err e)).
Proof.
  intros cfg psort root X y Hp Hn Hth V1 V2 V3. assert (A := bt_fit_agrees cfg psort root X y).
  destruct (bt_fit_st cfg psort root X y) as [t [h|e]] eqn:E; cbn [fst snd] in A; [left; eauto|]. right. exists e. unfold bt_fit_st in E.
  destruct (categorical_features (f_vars cfg)) as [cats|] eqn:EC; [|congruence].
  destruct (Nat.eqb_spec (List.length X) (List.length y)) as [HL|HL]; cbn [negb orb] in E; [|congruence].
  destruct (Nat.eqb_spec (List.length y) 0) as [L0|L0]; [congruence|].
  destruct (dataset_membership X (f_vars cfg)) as [XM|] eqn:EM; [exfalso|congruence].
  destruct (@membership_readable (f_vars cfg) X XM Hn EM) as [R W]. destruct (@categorical_spec _ _ (proj1 Hn) EC) as [Hs _].
  destruct (@C32_training_total cfg psort X y Hp Hn HL) as (h & t' & Ht); try assumption; [intros ->; apply L0; reflexivity|].
  rewrite (@brefit_shape cfg psort root X y h t' V1 V2 V3 Ht) in A. discriminate.
Qed.
Print Assumptions C124_fbdt_all_or_nothing.
(** ID3 has no threshold that matters here; without pruning it is all or nothing *)
Theorem C124_id3_all_or_nothing : forall cfg cls fts root X y,
  set_orders cfg cls fts -> NoDup (i_features cfg) -> i_features cfg <> [] -> List.length X = List.length y -> X <> [] ->
  i_prunning cfg = false ->
  (exists t, id3_fit_st cfg cls fts root X y = (t, None)) \/ (exists e, id3_fit_st cfg cls fts root X y = (root, Some e)).
Proof.
  intros cfg cls fts root X y SO ND NE HL HX PR. assert (A := id3_fit_agrees cfg cls fts root X y).
  destruct (id3_fit_st cfg cls fts root X y) as [t [e|]] eqn:E; cbn [fst snd] in A; [|left; eauto]. right. exists e. unfold id3_fit_st in E.
  destruct (mapM _ (seq 0 (List.length (i_features cfg)))) as [SP|] eqn:ES; [exfalso|congruence].
  destruct (@C39_success cfg cls fts root X y) as [t' Ht]; [eapply unique_table; eassumption|assumption|congruence|congruence].
Qed.
Print Assumptions C124_id3_all_or_nothing.

(** ** in general an exception comes either before anything was changed, or leaves an inner root
    that still has its old children, maybe followed by new ones *)
Theorem C124_fdt_failed_fit : forall cfg ord root X y t e,
  (forall p s, Permutation (ord p s) s) -> distinct_names (f_vars cfg) -> fit_st cfg ord root X y = (t, Some e) ->
  t = root \/
  exists added, t = Tree false (t_children root ++ added) (t_class root) 0 (t_value root) (t_var root) (repeat 1 (List.length y)).
Proof.
  intros cfg ord root X y t e Ho Hn H. assert (H' := H). unfold fit_st in H'.
  destruct (Nat.eqb_spec (List.length X) (List.length y)) as [HL|HL]; cbn [negb orb] in H'; [|left; congruence].
  destruct (Nat.eqb_spec (List.length y) 0) as [L0|L0]; [left; congruence|].
  destruct (dataset_membership X (f_vars cfg)) as [XM|] eqn:EM; [clear H'; right|left; congruence].
  destruct (@membership_readable (f_vars cfg) X XM Hn EM) as [R W].
  apply (@fit_st_failed cfg ord root X y t e Ho Hn HL); try assumption. intros ->; apply L0; reflexivity.
Qed.
Print Assumptions C124_fdt_failed_fit.
Theorem C124_fbdt_failed_fit : forall cfg psort root X y t e,
  (forall l, Permutation (psort l) l) -> distinct_names (f_vars cfg) -> b_ignored root = [] -> bt_fit_st cfg psort root X y = (t, Err e) ->
  t = root \/
  exists added, t = BTree false (b_children root ++ added) (b_class root) 0 (b_value root) (b_var root) (repeat 1 (List.length y)) [].
Proof.
  intros cfg psort root X y t e Hp Hn V3 H. assert (H' := H). unfold bt_fit_st in H'.
  destruct (categorical_features (f_vars cfg)) as [cats|] eqn:EC; [|left; congruence].
  destruct (Nat.eqb_spec (List.length X) (List.length y)) as [HL|HL]; cbn [negb orb] in H'; [|left; congruence].
  destruct (Nat.eqb_spec (List.length y) 0) as [L0|L0]; [left; congruence|].
  destruct (dataset_membership X (f_vars cfg)) as [XM|] eqn:EM; [clear H'; right|left; congruence].
  destruct (@membership_readable (f_vars cfg) X XM Hn EM) as [R W]. destruct (@categorical_spec _ _ (proj1 Hn) EC) as [Hs _].
  apply (@bt_fit_st_failed cfg psort root X y t e Hp Hn HL); try assumption. intros ->; apply L0; reflexivity.
Qed.
Print Assumptions C124_fbdt_failed_fit.
(** an ID3 root after a failed fit of a table tests a feature of which it lists all training
    values, but it may have fewer children than values *)
Theorem C124_id3_failed_fit : forall cfg cls fts root X y t e,
  set_orders cfg cls fts -> NoDup (i_features cfg) -> i_features cfg <> [] -> List.length X = List.length y -> X <> [] ->
  id3_fit_st cfg cls fts root X y = (t, Some e) ->
  t = root \/
  (i_prunning cfg = true /\ i_leaf t = false /\ i_level t = 0%Z /\ (List.length (i_children t) <= List.length (i_splits t))%nat /\
   exists i, i_var t = Some i /\ (i < List.length (i_features cfg))%nat /\ forall v, In v (i_splits t) <-> occurs X i v).
Proof.
  intros cfg cls fts root X y t e SO ND NE HL HX H. destruct (i_prunning cfg) eqn:PR.
  - assert (H' := H). unfold id3_fit_st in H'. destruct (mapM _ (seq 0 (List.length (i_features cfg)))) as [SP|] eqn:ES; [right|left; congruence].
    split; [reflexivity|]. eapply id3_fit_st_failed; [|eassumption|exact H]. eapply unique_table; eassumption.
  - left. destruct (C124_id3_all_or_nothing cfg cls fts root X y SO ND NE HL HX PR) as [[t' E]|[e' E]]; congruence.
Qed.
Print Assumptions C124_id3_failed_fit.

(** ** all or nothing is false with a threshold of zero: an estimator that predicted before an
    unsuccessful second fit can no longer predict after it ... *)
Theorem C124_zero_threshold_refuted : exists cfg ord X0 y0 t0 X y t,
  (forall p s, Permutation (ord p s) s) /\ distinct_names (f_vars cfg) /\ f_threshold cfg = 0%R /\
  fit cfg ord fresh_root X0 y0 = Ok t0 /\ fit_st cfg ord t0 X y = (t, Some KeyError) /\
  forall X', predict cfg t0 X' = Ok (repeat 1%Z (List.length X')) /\ predict cfg t X' = Err ValueError.
Proof.
  pose (cfg := mkFDT [ex_v "x"] 0 10 1 qmin AggVote).
  destruct (ex_readable "x" ex_same_X) as [R W]. { intros row [<-|[<-|[]]]; eauto. }
  assert (DN : distinct_names (f_vars cfg)).
  { split; [repeat constructor; intros []|]. intros v [<-|[]]. repeat constructor; cbn; [intros [H|[]]; discriminate|intros []]. }
  assert (PO : forall p s, Permutation (same_order p s) s) by (intros; apply Permutation_refl).
  pose (t0 := Tree true [] (Some [(1%Z, 1)]) 0 None None [1; 1]).
  assert (F0 : fit_st cfg same_order fresh_root ex_same_X [1; 1]%Z = (t0, None)).
  { destruct (@fit_st_root cfg same_order fresh_root ex_same_X [1; 1]%Z PO DN eq_refl ltac:(discriminate) R W) as (att & g & cm & _ & S & _).
    rewrite S; [|reflexivity]. assert (CD : class_dist cfg ex_same_X [1; 1]%Z [] = [(1%Z, 1)]) by qex. rewrite CD. reflexivity. }
  exists cfg, same_order, ex_same_X, [1; 1]%Z, t0, ex_same_X, ex_y, (Tree false [] (Some [(1%Z, 1)]) 0 None None [1; 1]).
  split; [exact PO|]. split; [exact DN|]. split; [reflexivity|]. split; [rewrite fit_agrees, F0; reflexivity|]. split.
  - rewrite (@fit_st_stuck cfg same_order t0 ex_same_X ex_y PO DN eq_refl); try assumption; try discriminate; [reflexivity| | | |].
    + intros [H|[]]. discriminate.
    + cbn. lra.
    + intros [H|[H|H]].
      * assert (1 = 0)%Z by (apply H; vm_compute; auto). discriminate.
      * vm_compute in H. discriminate.
      * vm_compute in H. apply H. reflexivity.
    + intros a Ha. cbn in Ha. assert (a = 0%nat) by lia. subst a. unfold info_gain. cbn [cfg f_vars nth_error fv_sets ex_v List.length seq map app].
      assert (A0 : acts [ex_v "x"] ex_same_X [] = [1; 1]) by reflexivity.
      assert (A1 : acts [ex_v "x"] ex_same_X [(0, 0)%nat] = [1; 1]) by qex.
      assert (A2 : acts [ex_v "x"] ex_same_X [(0, 1)%nat] = [0; 0]) by qex.
      unfold mass, ex_y. rewrite A0, A1, A2. rewrite (@entropy_two 1 0) by discriminate. rewrite (@entropy_pure 0 0) by (auto; qlra).
      unfold rsum. cbn [fold_right]. assert (S : qr (qsum [1; 1]) = 2%R) by (rewrite !qsum_cons, qsum_nil, !qr_plus, !qr_1, qr_0; lra).
      rewrite S. lra.
  - intro X'. split; [|reflexivity]. unfold predict, t0. cbn [partial_predict bind f_tnorm f_voting cfg vote aggregated_vote foldM vote_add ret_opt fst snd fold_left dget dset].
    assert (G : forall j, dict_argmax (row_votes [(1%Z, map (fun x => 1 * x) (repeat 1 (List.length X')))] j) = Ok 1%Z) by (intro; reflexivity).
    generalize dependent (map (fun x => 1 * x) (repeat 1 (List.length X'))). intros l G.
    replace (repeat 1%Z (List.length X')) with (map (fun _ => 1%Z) (seq 0 (List.length X'))); [|].
    + generalize (seq 0 (List.length X')) as js. induction js as [|j js IH]; [reflexivity|]. cbn [mapM map]. rewrite G. cbn [bind]. rewrite IH. reflexivity.
    + generalize 0%nat as k. induction (List.length X') as [|n IH]; intro k; [reflexivity|]. cbn [seq map repeat]. rewrite IH. reflexivity.
Qed.
Print Assumptions C124_zero_threshold_refuted.

(** ... and with ID3's pruning: after the exception the tree is half built, and a training row
    makes predict raise an IndexError *)
Definition two_id3 : id3_cfg := mkID3 ["a"; "b"] (1 / qz 10) 2 1 true.
Definition two_fts : list string -> list string := fun erased => filter (fun f => negb (memb f erased)) ["a"; "b"].
Definition two_X : list (list cell) := [[CNum 0; CNum (qz 3)]; [CNum 1; CNum (qz 3)]].
Definition two_half : itree :=
  ITree (Some 0%nat) false [ITree (Some 1%nat) false [ITree None true [] [] 0 (Some (1, 1)%nat) 2 0 1] [CNum (qz 3)] 0 (Some (1, 1)%nat) 1 0 1]
        [CNum 0; CNum 1] 0 (Some (2, 1)%nat) 0 0 0.
Lemma best_two positions SP X y classes f1 f2 i j col1 col2 spl1 spl2 : dget f1 positions = Some i -> dget f2 positions = Some j ->
  column X i = Ok col1 -> column X j = Ok col2 -> nth_error SP i = Some spl1 -> nth_error SP j = Some spl2 ->
  List.length col1 = List.length y -> List.length col2 = List.length y -> List.length X = List.length y ->
  NoDup classes -> incl y classes -> y <> [] -> NoDup spl1 -> incl col1 spl1 ->
  (id3_gain classes col2 y spl2 (List.length y) <= 0)%R ->
  exists g, best_feature positions SP X y classes [f1; f2] = Ok (Some (i, spl1), g).
Proof.
  intros A1 A2 B1 B2 C1 C2 D1 D2 E F G H I J K. unfold best_feature. cbn [foldM]. rewrite A1, A2. cbn [ret_opt bind]. rewrite B1, B2. cbn [bind]. rewrite C1, C2. cbn [ret_opt bind].
  rewrite D1, D2, Nat.eqb_refl. cbn [negb snd]. rewrite E. assert (L := @gain_nonneg classes col1 y spl1 F G H I J D1).
  exists (id3_gain classes col1 y spl1 (List.length y)).
  replace (Rltb (-1)%R (id3_gain classes col1 y spl1 (List.length y))) with true by (symmetry; apply Rltb_lt; lra). cbn [bind snd].
  replace (Rltb (id3_gain classes col1 y spl1 (List.length y)) (id3_gain classes col2 y spl2 (List.length y))) with false by (symmetry; apply Rltb_ge; lra). reflexivity.
Qed.
Lemma two_best : exists g, best_feature (i_positions ["a"; "b"]) [[CNum 0; CNum 1]; [CNum (qz 3)]] two_X [0; 1]%Z [0; 1]%Z ["a"; "b"] = Ok (Some (0%nat, [CNum 0; CNum 1]), g).
Proof.
  apply (@best_two _ _ _ _ _ "a" "b" 0%nat 1%nat [CNum 0; CNum 1] [CNum (qz 3); CNum (qz 3)] [CNum 0; CNum 1] [CNum (qz 3)]); try reflexivity.
  - repeat constructor; cbn; intuition discriminate.
  - intros z Hz; exact Hz.
  - discriminate.
  - repeat constructor; cbn; intuition discriminate.
  - intros z Hz; exact Hz.
  - unfold id3_gain, split_term. cbn [map].
    assert (LA : labels_at [CNum (qz 3); CNum (qz 3)] [0; 1]%Z (CNum (qz 3)) = [0; 1]%Z) by reflexivity. rewrite LA.
    unfold rsum. cbn [fold_right List.length]. assert (N : INR 2 = 2%R) by (cbn; lra). rewrite N. lra.
Qed.
Lemma two_child c : c = 0%Z -> exists g, best_feature (i_positions ["a"; "b"]) [[CNum 0; CNum 1]; [CNum (qz 3)]] [[CNum 0; CNum (qz 3)]] [c] [c] ["b"] = Ok (Some (1%nat, [CNum (qz 3)]), g).
Proof.
  intros ->. apply (@best_one _ _ _ _ _ "b" 1%nat [CNum (qz 3)] [CNum (qz 3)]); try reflexivity; try discriminate.
  - repeat constructor; intros [].
  - intros z Hz; exact Hz.
  - repeat constructor; intros [].
  - intros z Hz; exact Hz.
Qed.
Definition two_inner : itree := ITree (Some 1%nat) false [ITree None true [] [] 0 (Some (1, 1)%nat) 2 0 1] [CNum (qz 3)] 0 (Some (1, 1)%nat) 1 0 1.
Lemma two_sub : id3_partial_fit_st 2 two_id3 ex_cls two_fts [[CNum 0; CNum 1]; [CNum (qz 3)]] [0; 1]%Z [[CNum 0; CNum (qz 3)]] [0%Z] new_itree 1 ["a"] = (two_inner, Some ZeroDivisionError).
Proof.
  destruct (two_child 0%Z eq_refl) as [g E]. cbn [id3_partial_fit_st]. cbn zeta.
  match goal with |- context [best_feature ?a ?b ?c ?d ?e ?f] => change (best_feature a b c d e f) with (best_feature (i_positions ["a"; "b"]) [[CNum 0; CNum 1]; [CNum (qz 3)]] [[CNum 0; CNum (qz 3)]] [0%Z] [0%Z] ["b"]) end.
  rewrite E. clear E. unfold two_inner. qex.
Qed.
Lemma two_root : id3_partial_fit_st 3 two_id3 ex_cls two_fts [[CNum 0; CNum 1]; [CNum (qz 3)]] [0; 1]%Z two_X [0; 1]%Z new_itree 0 [] = (two_half, Some ZeroDivisionError).
Proof.
  destruct two_best as [g E]. remember 2%nat as two eqn:Et. cbn [id3_partial_fit_st]. cbn zeta.
  match goal with |- match ?m with Some _ => _ | None => _ end = _ => change m with (Some (0%Z, 1%nat)) end.
  change (Nat.eqb (List.length two_X) 0) with false. change (Z.leb (i_max_depth two_id3) 0) with false. change (Z.ltb (Z.of_nat (List.length two_X)) (i_min_examples two_id3)) with false. cbv iota beta.
  match goal with |- context [best_feature ?a ?b ?c ?d ?e ?f] => change (best_feature a b c d e f) with (best_feature (i_positions ["a"; "b"]) [[CNum 0; CNum 1]; [CNum (qz 3)]] two_X [0; 1]%Z [0; 1]%Z ["a"; "b"]) end.
  rewrite E. clear E. cbn [fst snd option_map]. change (nth_error (i_features two_id3) 0) with (Some "a"). cbv iota beta.
  match goal with |- context [run_st ?st ?l] => assert (R : run_st st l = ([(two_inner, None)], Some ZeroDivisionError)) end.
  { cbn [run_st].
    replace (column two_X 0) with (Ok [CNum 0; CNum 1]) by reflexivity.
    replace (map snd (filter (fun p => eqb (fst p) (CNum 0)) (zip [CNum 0; CNum 1] (zip two_X [0; 1]%Z)))) with [([CNum 0; CNum (qz 3)], 0%Z)] by reflexivity.
    cbn [map fst snd]. change ([] ++ ["a"]) with ["a"]. change (0 + 1)%Z with 1%Z. rewrite Et. rewrite two_sub. reflexivity. }
  rewrite R. clear R. unfold two_half. fold two_inner. subst two. qex.
Qed.
Theorem C124_id3_pruning_refuted : exists cfg cls fts X y t,
  set_orders cfg cls fts /\ table (i_features cfg) X y /\ id3_fit_st cfg cls fts new_itree X y = (t, Some ZeroDivisionError) /\ t <> new_itree /\
  exists x, In x X /\ id3_tree_predict t x = Err IndexError.
Proof.
  exists two_id3, ex_cls, two_fts, two_X, [0; 1]%Z, two_half.
  split; [split; intros; apply Permutation_refl|]. split; [|split; [|split; [discriminate|]]].
  - split; [repeat constructor; cbn; intuition discriminate|]. split; [discriminate|]. split; [reflexivity|]. split; [discriminate|]. split.
    + intros x [<-|[<-|[]]]; cbn; lia.
    + intros [|[|i]] Hi; [| |cbn in Hi; lia]; left; intros x [<-|[<-|[]]]; eexists; reflexivity.
  - unfold id3_fit_st. match goal with |- match ?m with Ok _ => _ | Err _ => _ end = _ => replace m with (Ok [[CNum 0; CNum 1]; [CNum (qz 3)]]) by (symmetry; qex) end.
    change (S (List.length (i_features two_id3))) with 3%nat. change (zunique [0; 1]%Z) with [0; 1]%Z. apply two_root.
  - exists [CNum 1; CNum (qz 3)]. split; [right; left; reflexivity|reflexivity].
Qed.
Print Assumptions C124_id3_pruning_refuted.

(** ** the cases of the theorems occur *)
Example C124_instance_fdt : forall root,
  fit_st (mkFDT [ex_v "x"] (1 / 2) 10 1 qmin AggVote) same_order root [[CNum 0]; [CNum 1]] [1]%Z = (root, Some ValueError) /\
  fit_st (mkFDT [ex_v "x"] (1 / 2) 10 1 qmin AggVote) same_order root [[]; [CNum 1]] [0; 1]%Z = (root, Some IndexError) /\
  distinct_names [ex_v "x"].
Proof.
  intro root. split; [reflexivity|]. split; [reflexivity|]. split; [repeat constructor; intros []|]. intros v [<-|[]]. repeat constructor; cbn; [intros [H|[]]; discriminate|intros []].
Qed.
Example C124_instance_id3 : forall root,
  id3_fit_st (ex_id3 (1 / qz 10) 5 false) ex_cls ex_fts root [[CNum 0]; [CStr "u"]] [0; 1]%Z = (root, Some TypeError) /\
  fst (id3_fit_st (ex_id3 (1 / qz 10) 5 true) ex_cls ex_fts new_itree (xa [0; 0; 1; 2]%Z) [0; 0; 1; 1]%Z) = ex_tree.
Proof.
  intro root. split; [reflexivity|]. destruct ex_trained as (_ & _ & H). rewrite id3_fit_agrees in H.
  destruct (id3_fit_st _ _ _ _ _ _) as [t [e|]]; cbn [fst snd] in *; congruence.
Qed.
Example C124_instance_fbdt : forall root vt,
  bt_fit_st (ex_cfg vt) no_sort root [[CNum 0]] [] = (root, Err ValueError) /\
  fst (bt_fit_st (ex_cfg vt) no_sort fresh_broot Properties_FDT.ex_X Properties_FDT.ex_y) = ex_btree.
Proof.
  intros root vt. split; [reflexivity|]. destruct (ex_btrained vt) as (_ & _ & h & H). rewrite bt_fit_agrees in H.
  destruct (bt_fit_st _ _ _ _ _) as [t [h'|e]]; cbn [fst snd] in *; congruence.
Qed.
