(** * C125: the order of the columns does not matter *)
From Verif Require Import Prelude M_Fuzzy M_Discretize P_FuzzySet P_FuzzyVar P_Entropy M_Rule M_FDT S_FDT P_FDT P_FDT3 P_FDT4 Properties_FDT P_Degrees M_FBDT S_FBDT P_FBDT2 Properties_FBDT M_ID3 S_ID3 Properties_ID3 Properties_ID3b M_FitState P_FitState Properties_FitState S_Columns P_Columns P_Columns2 P_Columns3.
From Coq Require Import Reals Lra.
Local Notation eqb := Prelude.eqb.
Open Scope string_scope. Open Scope list_scope. Open Scope Qc_scope.

(** what one learns from the table with moved columns is the same *)
Definition same_fdt (pi : nat -> nat) (cfg cfg' : fdt_cfg) (t t' : tree) : Prop :=
  (forall Z Z', moved_table pi Z Z' -> predict cfg' t' Z' = predict cfg t Z) /\ (forall th, tree_rules t' th = tree_rules t th).
Lemma same_renumbered pi cfg vars' t : same_fdt pi cfg (move_vars vars' cfg) t (renumber pi t).
Proof.
  split.
  - intros Z Z' M. unfold predict. change (f_tnorm (move_vars vars' cfg)) with (f_tnorm cfg). change (f_voting (move_vars vars' cfg)) with (f_voting cfg).
    rewrite <- (P_Degrees.Forall2_length M), (predict_moved _ M). reflexivity.
  - intro th. unfold tree_rules. apply rules_moved.
Qed.

(** Multiway trees.  The features of a node are a Python set of names: both runs list equal sets
    in the same order, whatever the order of the columns. *)
Theorem C125_fdt : forall pi cfg vars' ord ord' root X X' y,
  bijective pi -> moved pi (f_vars cfg) vars' -> distinct_names (f_vars cfg) -> moved_table pi X X' ->
  (forall p l l', Permutation l l' -> ord' (renumber_path pi p) l' = ord p l) ->
  match fit cfg ord root X y with
  | Ok t => exists t', fit (move_vars vars' cfg) ord' (renumber pi root) X' y = Ok t' /\ same_fdt pi cfg (move_vars vars' cfg) t t'
  | Err _ => exists e, fit (move_vars vars' cfg) ord' (renumber pi root) X' y = Err e
  end.
Proof.
  intros pi cfg vars' ord ord' root X X' y HB HV HN HX HO. destruct (fit cfg ord root X y) as [t|e] eqn:E.
  - exists (renumber pi t). split; [|apply same_renumbered]. exact (@fit_moved pi HB (f_vars cfg) vars' HV HN cfg eq_refl ord ord' HO root X X' y t HX E).
  - destruct (fit (move_vars vars' cfg) ord' (renumber pi root) X' y) as [t'|e'] eqn:E'; [exfalso|eauto]. destruct HB as (sigma & H1 & H2).
    assert (F := @fit_moved sigma (ex_intro _ pi (conj H2 H1)) vars' (f_vars cfg) (@moved_back _ pi sigma _ _ H2 HV) (@names_moved pi (ex_intro _ sigma (conj H1 H2)) (f_vars cfg) vars' HV HN)
      (move_vars vars' cfg) eq_refl ord' ord).
    assert (HO' : forall p l l', Permutation l l' -> ord (renumber_path sigma p) l' = ord' p l).
    { intros p l l' P. rewrite <- (HO (renumber_path sigma p) l' l (Permutation_sym P)). rewrite (@path_back sigma pi _ H2). reflexivity. }
    specialize (F HO' (renumber pi root) X' X y t' (@moved_table_back pi sigma _ _ H2 HX) E'). rewrite (@renumber_back pi sigma H1) in F. rewrite (move_back vars' cfg eq_refl) in F. congruence.
Qed.
Print Assumptions C125_fdt.

(** If no two features tie for the best gain anywhere, the listing of the sets may be arbitrary. *)
Theorem C125_fdt_without_ties : forall pi cfg vars' ord ord' root X X' y,
  bijective pi -> moved pi (f_vars cfg) vars' -> distinct_names (f_vars cfg) -> moved_table pi X X' ->
  (forall p s, Permutation (ord p s) s) -> (forall p s, Permutation (ord' p s) s) ->
  (0 < f_threshold cfg)%R \/ ~ In "" (map fv_name (f_vars cfg)) ->
  (forall p a b, untested (f_vars cfg) p a -> untested (f_vars cfg) p b -> (0 < info_gain (f_vars cfg) X y p a)%R ->
     info_gain (f_vars cfg) X y p a = info_gain (f_vars cfg) X y p b ->
     (forall c, untested (f_vars cfg) p c -> (info_gain (f_vars cfg) X y p c <= info_gain (f_vars cfg) X y p a)%R) -> a = b) ->
  match fit cfg ord root X y with
  | Ok t => exists t', fit (move_vars vars' cfg) ord' (renumber pi root) X' y = Ok t' /\ same_fdt pi cfg (move_vars vars' cfg) t t'
  | Err _ => exists e, fit (move_vars vars' cfg) ord' (renumber pi root) X' y = Err e
  end.
Proof.
  intros pi cfg vars' ord ord' root X X' y HB HV HN HX HO HO' HT HU.
  rewrite (C30_order_irrelevant_without_ties cfg ord by_name X y root HO by_name_perm HN HT HU).
  assert (E : fit (move_vars vars' cfg) ord' (renumber pi root) X' y = fit (move_vars vars' cfg) by_name (renumber pi root) X' y).
  { apply C30_order_irrelevant_without_ties; [exact HO'|exact by_name_perm|exact (@names_moved pi HB (f_vars cfg) vars' HV HN)| |].
    - destruct HT as [HT|HT]; [left; exact HT|right]. intro I. apply HT. cbn [move_vars f_vars] in I. apply (Permutation_in _ (Permutation_sym (Permutation_map fv_name (moved_perm HB HV))) I).
    - cbn [move_vars f_vars]. destruct HB as (sigma & H1 & H2). assert (HB : bijective pi) by (exists sigma; auto). intros p a b Ua Ub G T M.
      rewrite <- (@path_back sigma pi p H2) in Ua, Ub, G, T, M. rewrite <- (H2 a) in Ua, G, T, M |- *. rewrite <- (H2 b) in Ub, T |- *. f_equal.
      apply (proj1 (untested_moved HV _ _ HB)) in Ua. apply (proj1 (untested_moved HV _ _ HB)) in Ub. rewrite (gain_moved HV HX) in G. rewrite !(gain_moved HV HX) in T. apply (HU _ _ _ Ua Ub G T).
      intros c Uc. apply (proj2 (untested_moved HV _ _ HB)) in Uc. apply M in Uc. rewrite !(gain_moved HV HX) in Uc. exact Uc. }
  rewrite E. apply C125_fdt; try assumption. intros p l l' P. apply by_name_same. exact P.
Qed.
Print Assumptions C125_fdt_without_ties.

(** ID3.  Again equal sets of labels and of names are listed in the same order in both runs
    ([cls], [fts]); [root] is the new tree or one that fit has produced. *)
Theorem C125_id3 : forall pi cfg features' cls fts X X' y,
  bijective pi -> moved pi (i_features cfg) features' -> NoDup (i_features cfg) -> moved_table pi X X' ->
  match id3_fit cfg cls fts new_itree X y with
  | Ok t => exists t', id3_fit (move_features features' cfg) cls fts new_itree X' y = Ok t' /\
      (forall Z Z', moved_table pi Z Z' -> id3_predict t' Z' = id3_predict t Z) /\
      id3_tree_rules features' t' [] = id3_tree_rules (i_features cfg) t []
  | Err _ => exists e, id3_fit (move_features features' cfg) cls fts new_itree X' y = Err e
  end.
Proof.
  intros pi cfg features' cls fts X X' y HB HF HN HX. destruct (id3_fit cfg cls fts new_itree X y) as [t|e] eqn:E.
  - exists (renumber_id3 pi t). split; [exact (@id3_fit_moved pi HB cfg features' HF HN cls fts new_itree X X' y t HX E)|].
    assert (N : named t).
    { unfold id3_fit in E. match type of E with bind ?m _ = _ => destruct m as [SP|]; [|discriminate] end. cbn [bind] in E. eapply fit_named; [|exact E]. apply named_all. split; [reflexivity|constructor]. }
    split.
    + intros Z Z' M. assert (Q : mapM (id3_tree_predict (renumber_id3 pi t)) Z' = mapM (id3_tree_predict t) Z) by (induction M as [|x x' Z Z' R M IH]; [reflexivity|cbn [mapM]; rewrite (id3_predict_moved R _ N), IH; reflexivity]).
      unfold id3_predict. destruct M; [reflexivity|exact Q].
    + cbn [id3_tree_rules]. apply id3_rules_moved; assumption.
  - destruct (id3_fit (move_features features' cfg) cls fts new_itree X' y) as [t'|e'] eqn:E'; [exfalso|eauto]. destruct HB as (sigma & H1 & H2).
    assert (HB : bijective pi) by (exists sigma; auto).
    assert (F := @id3_fit_moved sigma (ex_intro _ pi (conj H2 H1)) (move_features features' cfg) (i_features cfg) (@moved_back _ pi sigma _ _ H2 HF) (Permutation_NoDup (moved_perm HB HF) HN)
      cls fts new_itree X' X y t' (@moved_table_back pi sigma _ _ H2 HX) E'). rewrite move_features_back in F. change (renumber_id3 sigma new_itree) with new_itree in F. congruence.
Qed.
Print Assumptions C125_id3.

(** the two columns "a" and "b" of ex_X2 exchanged *)
Definition swap01 (a : nat) : nat := match a with 0 => 1 | 1 => 0 | _ => a end.
Lemma swap_bij : bijective swap01.
Proof. exists swap01. split; intros [|[|a]]; reflexivity. Qed.
Lemma swap_moved A (u v : A) : moved swap01 [u; v] [v; u].
Proof. intros [|[|[|a]]]; reflexivity. Qed.

(** The binary tree tests its features in column order: with two equally good columns the
    first wins, and the predictions depend on which one is the first. *)
Definition twin_cfg (a b : string) : fdt_cfg := mkFDT [ex_v a; ex_v b] (1 / 10000)%R 10 1 qmin AggVote.
Definition twin_tree (a : string) : btree :=
  BTree false [BTree true [] (Some [(0%Z, 0); (1%Z, 1)]) 1 (Some (0%nat, [0%nat])) (Some (ex_v a)) [1; 0] [(a, 0%nat)];
               BTree true [] (Some [(0%Z, 1); (1%Z, 0)]) 1 (Some (0%nat, [1%nat])) (Some (ex_v a)) [0; 1] [(a, 1%nat)]]
        None 0 None None [1; 1] [].
Lemma twin_trained a b : (a = "a" /\ b = "b") \/ (a = "b" /\ b = "a") -> btrained (twin_cfg a b) no_sort ex_X2 ex_y (twin_tree a).
Proof.
  intro Hab. 
  assert (N : forall n, NoDup (map fs_name (fv_sets (ex_v n)))) by (intro n; repeat constructor; cbn; [intros [H|[]]; discriminate|intros []]).
  assert (DN : distinct_names (f_vars (twin_cfg a b))).
  { split; [|intros v [<-|[<-|[]]]; apply N]. destruct Hab as [[-> ->]|[-> ->]]; repeat constructor; cbn; intuition discriminate. }
  split; [intros; apply Permutation_refl|]. split; [assumption|]. exists (repeat [0; 0] 8).
  unfold bt_fit. assert (C : categorical_features (f_vars (twin_cfg a b)) = Ok []) by reflexivity. rewrite C. cbn [bind]. change (negb (Nat.eqb (List.length ex_X2) (List.length ex_y)) || Nat.eqb (List.length ex_y) 0) with false.
  pose (ds := [("low", [1; 0]); ("high", [0; 1])] : dict string (list Qc)).
  assert (D : dataset_membership ex_X2 (f_vars (twin_cfg a b)) = Ok [(a, ds); (b, ds)]) by (destruct Hab as [[-> ->]|[-> ->]]; qex). cbv iota. rewrite D. cbn [bind].
  replace (fuel_for (initial_sets (f_vars (twin_cfg a b)))) with 5%nat by (destruct Hab as [[-> ->]|[-> ->]]; reflexivity).
  replace (initial_sets (f_vars (twin_cfg a b))) with [(a, ["low"; "high"]); (b, ["low"; "high"])] by (destruct Hab as [[-> ->]|[-> ->]]; reflexivity).
  change (repeat 1 (List.length ex_y)) with [1; 1]. cbn [fresh_broot b_leaf b_children b_class b_level b_value b_var b_ignored].
  remember [(a, ds); (b, ds)] as XM.
  assert (G : forall l r, l = 0 \/ r = 0 -> 0 <= l -> 0 <= r -> fuzzy_entropy [l; r] ex_y = 0%R) by (intros; apply entropy_pure; assumption).
  assert (G1 : split_gain [1; 1] [1; 0] [0; 1] ex_y = Ok 1%R).
  { unfold split_gain. assert (Q : qeqb (qsum [1; 1]) 0 = false) by reflexivity. rewrite Q. unfold ex_y at 1. rewrite entropy_two by discriminate. rewrite !G by (auto; qlra). f_equal. unfold Rdiv. ring. }
  assert (G2 : split_gain [1; 0] [1; 0] [0; 0] ex_y = Ok 0%R).
  { unfold split_gain. assert (Q : qeqb (qsum [1; 0]) 0 = false) by reflexivity. rewrite Q. rewrite !G by (auto; qlra). f_equal. unfold Rdiv. ring. }
  assert (G3 : split_gain [0; 1] [0; 0] [0; 1] ex_y = Ok 0%R).
  { unfold split_gain. assert (Q : qeqb (qsum [0; 1]) 0 = false) by reflexivity. rewrite Q. rewrite !G by (auto; qlra). f_equal. unfold Rdiv. ring. }
  assert (L01 : Rltb 0 1 = true) by (apply Rltb_lt; lra). assert (L11 : Rltb 1 1 = false) by (apply Rltb_ge; lra). assert (L00 : Rltb 0 0 = false) by (apply Rltb_ge; lra).
  assert (M1 : max_split no_sort [] [] [1; 1] [] [(a, ["low"; "high"]); (b, ["low"; "high"])] XM ex_y =
    Ok (repeat [0; 0] 4, Some (mkSplit a 1%R [1; 0] [0; 1] ["low"] ["high"] 0 1))).
  { unfold max_split. assert (B : binary_partitions no_sort [] [(a, ["low"; "high"]); (b, ["low"; "high"])] XM ex_y = Ok [(a, ["low"], ["high"]); (b, ["low"], ["high"])]) by reflexivity.
    rewrite B. cbn [bind foldM]. unfold score_partition at 1. cbn [fst snd].
    assert (S1 : score_side [] [1; 1] [] XM (List.length ex_y) a ["low"] = Ok ([[0; 0]], [1; 0], 0%nat)) by (subst XM ds; destruct Hab as [[-> ->]|[-> ->]]; qex).
    assert (S2 : score_side [[0; 0]] [1; 1] [] XM (List.length ex_y) a ["high"] = Ok ([[0; 0]; [0; 0]], [0; 1], 1%nat)) by (subst XM ds; destruct Hab as [[-> ->]|[-> ->]]; qex).
    rewrite S1. cbn [bind]. rewrite S2. cbn [bind]. rewrite G1. cbn [bind best_gain]. rewrite L01. unfold score_partition. cbn [fst snd].
    assert (S3 : score_side [[0; 0]; [0; 0]] [1; 1] [] XM (List.length ex_y) b ["low"] = Ok ([[0; 0]; [0; 0]; [0; 0]], [1; 0], 2%nat)) by (subst XM ds; destruct Hab as [[-> ->]|[-> ->]]; qex).
    assert (S4 : score_side [[0; 0]; [0; 0]; [0; 0]] [1; 1] [] XM (List.length ex_y) b ["high"] = Ok ([[0; 0]; [0; 0]; [0; 0]; [0; 0]], [0; 1], 3%nat)) by (subst XM ds; destruct Hab as [[-> ->]|[-> ->]]; qex).
    rewrite S3. cbn [bind]. rewrite S4. cbn [bind]. rewrite G1. cbn [bind best_gain s_gain]. rewrite L11. reflexivity. }
  assert (M2 : max_split no_sort [] (repeat [0; 0] 4) [1; 0] [(a, 0%nat)] [(a, ["low"]); (b, ["low"; "high"])] XM ex_y = Ok (repeat [0; 0] 6, None)).
  { unfold max_split. assert (B : binary_partitions no_sort [] [(a, ["low"]); (b, ["low"; "high"])] XM ex_y = Ok [(b, ["low"], ["high"])]) by reflexivity.
    rewrite B. cbn [bind foldM]. unfold score_partition at 1. cbn [fst snd].
    assert (S1 : score_side (repeat [0; 0] 4) [1; 0] [(a, 0%nat)] XM (List.length ex_y) b ["low"] = Ok (repeat [0; 0] 5, [1; 0], 4%nat)) by (subst XM ds; destruct Hab as [[-> ->]|[-> ->]]; qex).
    assert (S2 : score_side (repeat [0; 0] 5) [1; 0] [(a, 0%nat)] XM (List.length ex_y) b ["high"] = Ok (repeat [0; 0] 6, [0; 0], 5%nat)) by (subst XM ds; destruct Hab as [[-> ->]|[-> ->]]; qex).
    rewrite S1. cbn [bind]. rewrite S2. cbn [bind]. rewrite G2. cbn [bind best_gain]. rewrite L00. reflexivity. }
  assert (M3 : max_split no_sort [] (repeat [0; 0] 6) [0; 1] [(a, 1%nat)] [(a, ["high"]); (b, ["low"; "high"])] XM ex_y = Ok (repeat [0; 0] 8, None)).
  { unfold max_split. assert (B : binary_partitions no_sort [] [(a, ["high"]); (b, ["low"; "high"])] XM ex_y = Ok [(b, ["low"], ["high"])]) by reflexivity.
    rewrite B. cbn [bind foldM]. unfold score_partition at 1. cbn [fst snd].
    assert (S1 : score_side (repeat [0; 0] 6) [0; 1] [(a, 1%nat)] XM (List.length ex_y) b ["low"] = Ok (repeat [0; 0] 7, [0; 0], 6%nat)) by (subst XM ds; destruct Hab as [[-> ->]|[-> ->]]; qex).
    assert (S2 : score_side (repeat [0; 0] 7) [0; 1] [(a, 1%nat)] XM (List.length ex_y) b ["high"] = Ok (repeat [0; 0] 8, [0; 1], 7%nat)) by (subst XM ds; destruct Hab as [[-> ->]|[-> ->]]; qex).
    rewrite S1. cbn [bind]. rewrite S2. cbn [bind]. rewrite G3. cbn [bind best_gain]. rewrite L00. reflexivity. }
  assert (ST : stop_met (twin_cfg a b) 1%R (masked [1; 1] ex_y) 0 = false).
  { unfold stop_met. assert (L : Rltb 1 (f_threshold (twin_cfg a b)) = false) by (apply Rltb_ge; cbn; lra). rewrite L. reflexivity. }
  assert (C0 : get_class_value [1; 0] ex_y = Ok [(0%Z, 0); (1%Z, 1)]) by qex.
  assert (C1 : get_class_value [0; 1] ex_y = Ok [(0%Z, 1); (1%Z, 0)]) by qex.
  assert (T0 : stop_met (twin_cfg a b) (best_gain None) (masked [1; 0] ex_y) 1 = true) by reflexivity.
  assert (T1 : stop_met (twin_cfg a b) (best_gain None) (masked [0; 1] ex_y) 1 = true) by reflexivity.
  clear HeqXM D G G1 G2 G3 L01 L11 L00. cbn [bfit b_mu b_ignored]. rewrite M1. cbn [bind]. change (best_gain (Some (mkSplit a 1%R [1; 0] [0; 1] ["low"] ["high"] 0 1))) with 1%R. rewrite ST.
  cbn [s_att s_left s_right s_lmu s_rmu s_lign s_rign].
  replace (dget a (f_positions (f_vars (twin_cfg a b)))) with (Some 0%nat) by (destruct Hab as [[-> ->]|[-> ->]]; reflexivity). cbn [ret_opt bind].
  change (nth_error (f_vars (twin_cfg a b)) 0) with (Some (ex_v a)). cbn [ret_opt bind]. cbv zeta.
  change (dict_of (map (fun js => (fs_name (snd js), fst js)) (enumerate (fv_sets (ex_v a))))) with [("low", 0%nat); ("high", 1%nat)].
  change (mapM (fun n => ret_opt KeyError (dget n [("low", 0%nat); ("high", 1%nat)])) ["low"]) with (@Ok (list nat) [0%nat]).
  change (mapM (fun n => ret_opt KeyError (dget n [("low", 0%nat); ("high", 1%nat)])) ["high"]) with (@Ok (list nat) [1%nat]).
  cbn [bind].
  change (update_ignored (repeat [0; 0] 4) [] a 0) with (repeat [0; 0] 4, [(a, 0%nat)]). cbv iota.
  replace (dget a [(a, ["low"; "high"]); (b, ["low"; "high"])]) with (Some ["low"; "high"]) by (destruct Hab as [[-> ->]|[-> ->]]; reflexivity). cbn [ret_opt bind].
  change (qltb 0 (qsum [1; 0])) with true. cbv iota.
  replace (dset a (filter (fun x => memb x ["low"]) ["low"; "high"]) [(a, ["low"; "high"]); (b, ["low"; "high"])]) with [(a, ["low"]); (b, ["low"; "high"])] by (destruct Hab as [[-> ->]|[-> ->]]; reflexivity).
  change (0 + 1)%Z with 1%Z. rewrite M2. cbn [bind]. rewrite T0, C0. cbn [bind fst snd].
  change (update_ignored (repeat [0; 0] 6) [] a 1) with (repeat [0; 0] 6, [(a, 1%nat)]). cbv iota.
  change (qltb 0 (qsum [0; 1])) with true. cbv iota.
  replace (dset a (filter (fun x => memb x ["high"]) ["low"; "high"]) [(a, ["low"; "high"]); (b, ["low"; "high"])]) with [(a, ["high"]); (b, ["low"; "high"])] by (destruct Hab as [[-> ->]|[-> ->]]; reflexivity).
  rewrite M3. cbn [bind]. rewrite T1, C1. cbn [bind fst snd]. reflexivity.
Qed.
Theorem C125_fbdt_refuted : exists pi cfg vars' psort X X' y t t' row row',
  bijective pi /\ moved pi (f_vars cfg) vars' /\ moved_table pi X X' /\ btrained cfg psort X y t /\ btrained (move_vars vars' cfg) psort X' y t' /\
  moved pi row row' /\ bpredict cfg t [row] = Ok [1%Z] /\ bpredict (move_vars vars' cfg) t' [row'] = Ok [0%Z].
Proof.
  exists swap01, (twin_cfg "a" "b"), [ex_v "b"; ex_v "a"], no_sort, ex_X2, ex_X2, ex_y, (twin_tree "a"), (twin_tree "b"), [CNum 0; CNum (qz 10)], [CNum (qz 10); CNum 0].
  split; [apply swap_bij|]. split; [apply swap_moved|]. split; [repeat constructor; apply swap_moved|]. split; [apply twin_trained; auto|]. split; [apply (twin_trained "b" "a"); auto|].
  split; [apply swap_moved|]. split; reflexivity.
Qed.
Print Assumptions C125_fbdt_refuted.

(** a table whose second column says nothing: the first is tested, wherever it stands *)
Definition flat_X : list (list cell) := [[CNum 0; CNum 0]; [CNum (qz 10); CNum 0]].
Definition flat_X' : list (list cell) := [[CNum 0; CNum 0]; [CNum 0; CNum (qz 10)]].
Example C125_fdt_instance : exists t t', fit ex_cfg2 by_name fresh_root flat_X ex_y = Ok t /\ fit (move_vars [ex_v "b"; ex_v "a"] ex_cfg2) by_name fresh_root flat_X' ex_y = Ok t' /\
  tree_rules t' 0 = tree_rules t 0 /\ moved_table swap01 flat_X flat_X'.
Proof.
  assert (DN : distinct_names (f_vars ex_cfg2)).
  { split; [repeat constructor; cbn; [intros [H|[]]; discriminate|intros []]|].
    intros v [<-|[<-|[]]]; repeat constructor; cbn; try (intros [H|[]]; discriminate); intros []. }
  assert (MX : moved_table swap01 flat_X flat_X') by (repeat constructor; apply swap_moved).
  assert (Q := C125_fdt swap01 ex_cfg2 [ex_v "b"; ex_v "a"] by_name by_name fresh_root flat_X flat_X' ex_y swap_bij (swap_moved _ _ _) DN MX (fun p l l' P => @by_name_same p (renumber_path swap01 p) l l' P)).
  destruct (C25_training_total ex_cfg2 by_name flat_X ex_y fresh_root by_name_perm DN eq_refl ltac:(discriminate)) as [t Ht].
  - intros row Hr a v s Hv Hs. assert (exists x z, row = [CNum x; CNum z]) as [x [z ->]] by (destruct Hr as [<-|[<-|[]]]; eauto).
    destruct a as [|[|a]]; [| |destruct a; discriminate]; injection Hv as <-; (eexists; destruct Hs as [<-|[<-|[]]]; eexists; (split; [reflexivity|reflexivity])).
  - intros row [<-|[<-|[]]]; cbn; lia.
  - cbn. lra.
  - rewrite Ht in Q. destruct Q as (t' & F & _ & R). exists t, t'. split; [exact Ht|]. split; [exact F|]. split; [apply R|exact MX].
Qed.
Definition pair_id3 : id3_cfg := mkID3 ["a"; "b"] (1 / qz 10) 1 1 false.
Definition pair_tree : itree := ITree (Some 0%nat) false [ileaf' 0 1; ileaf' 1 1] [CNum 0; CNum 1] 0 (Some (2, 1)%nat) 0 0 2.
Example C125_id3_instance : exists t', id3_fit pair_id3 ex_cls two_fts new_itree two_X [0; 1]%Z = Ok pair_tree /\
  id3_fit (move_features ["b"; "a"] pair_id3) ex_cls two_fts new_itree [[CNum (qz 3); CNum 0]; [CNum (qz 3); CNum 1]] [0; 1]%Z = Ok t' /\
  id3_tree_rules ["b"; "a"] t' [] = Ok [mkR [("a", CNum 0)] 0%Z 1; mkR [("a", CNum 1)] 1%Z 1] /\ id3_predict t' [[CNum (qz 3); CNum 1]] = Ok [Some 1%Z].
Proof.
  assert (F : id3_fit pair_id3 ex_cls two_fts new_itree two_X [0; 1]%Z = Ok pair_tree).
  { unfold id3_fit. match goal with |- bind ?m _ = _ => replace m with (Ok [[CNum 0; CNum 1]; [CNum (qz 3)]]) by (symmetry; qex) end. cbn [bind].
    change (S (List.length (i_features pair_id3))) with 3%nat. change (zunique [0; 1]%Z) with [0; 1]%Z.
    destruct two_best as [g E]. remember 2%nat as two eqn:Et. cbn [id3_partial_fit]. cbn zeta.
    match goal with |- match ?m with Some _ => _ | None => _ end = _ => change m with (Some (0%Z, 1%nat)) end.
    change (Nat.eqb (List.length two_X) 0) with false. change (Z.leb (i_max_depth pair_id3) 0) with false. change (Z.ltb (Z.of_nat (List.length two_X)) (i_min_examples pair_id3)) with false. cbv iota beta.
    match goal with |- context [best_feature ?a ?b ?c ?d ?e ?f] => change (best_feature a b c d e f) with (best_feature (i_positions ["a"; "b"]) [[CNum 0; CNum 1]; [CNum (qz 3)]] two_X [0; 1]%Z [0; 1]%Z ["a"; "b"]) end.
    rewrite E. clear E. cbn [bind fst snd option_map]. change (nth_error (i_features pair_id3) 0) with (Some "a"). subst two. unfold pair_tree. qex. }
  assert (MX : moved_table swap01 two_X [[CNum (qz 3); CNum 0]; [CNum (qz 3); CNum 1]]) by (repeat constructor; apply swap_moved).
  assert (Q := C125_id3 swap01 pair_id3 ["b"; "a"] ex_cls two_fts two_X _ [0; 1]%Z swap_bij (swap_moved _ _ _) ltac:(repeat constructor; cbn; intuition discriminate) MX).
  rewrite F in Q. destruct Q as (t' & F' & P & R). exists t'. split; [exact F|]. split; [exact F'|]. split; [rewrite R; reflexivity|].
  rewrite (P [[CNum 1; CNum (qz 3)]] [[CNum (qz 3); CNum 1]]); [reflexivity|]. repeat constructor; apply swap_moved.
Qed.
