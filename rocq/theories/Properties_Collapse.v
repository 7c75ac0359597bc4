(** * C143: ID3's pruning only turns inner nodes into leaves *)
From Verif Require Import Prelude M_Fuzzy M_Discretize M_Rule M_FDT M_FBDT M_ID3 S_Rule S_FDT S_FBDT S_FBDTPrivate P_FuzzySet P_FuzzyVar P_FBDT4 P_FBDT5 Properties_FDT Properties_FBDT P_Metrics S_ID3 P_ID3 P_ID3b P_ID3c Properties_ID3 Properties_ID3b P_Same2 S_Optimal P_Optimal Properties_Optimal S_Depth P_Depth P_Depth2 Properties_Depth S_Collapse.
From Coq Require Import Reals Lra.
Open Scope string_scope.
Open Scope list_scope.
Open Scope Qc_scope.
Local Notation eqb := Prelude.eqb.

Lemma id3_fit_collapsed cfg cls fts SP yc : forall fuel X y depth er t,
  id3_partial_fit fuel cfg cls fts SP yc X y new_itree depth er = Ok t ->
  exists t', id3_partial_fit fuel (unpruned cfg) cls fts SP yc X y new_itree depth er = Ok t' /\ collapsed t t'.
Proof.
  induction fuel as [|fuel IH]; [discriminate|]. intros X y depth er t H. cbn [id3_partial_fit] in *.
  destruct (max_by _ _) as [[c k]|] eqn:EM.
  2:{ destruct (nth_error yc 0) as [c|]; cbn [ret_opt bind] in *; [|discriminate]. injection H as <-. eexists. split; [reflexivity|]. apply cl_leaf. }
  destruct (Nat.eqb _ _); [discriminate|]. cbn [i_features i_max_depth i_min_examples i_prunning unpruned] in *.
  destruct (Z.leb _ _); [injection H as <-; eexists; split; [reflexivity|apply cl_leaf]|]. destruct (Z.ltb _ _); [injection H as <-; eexists; split; [reflexivity|apply cl_leaf]|].
  match type of H with bind ?r _ = _ => destruct r as [best|]; [|discriminate] end. cbn [bind] in *.
  match type of H with bind ?r _ = _ => destruct r as [name|]; [|discriminate] end. cbn [bind] in *.
  match type of H with bind (mapM ?f' ?l) _ = _ => destruct (mapM f' l) as [ch'|] eqn:EC; [|discriminate] end. cbn [bind] in H.
  apply (@mapM_related _ _ (fun u z => collapsed (fst z) (fst u)) (fun s =>
            do col <- match option_map fst (fst best) with Some i => column X i | None => Ok [] end;
            let rows := map snd (filter (fun p => Prelude.eqb (fst p) s) (zip col (zip X y))) in
            match rows with
            | [] => Ok (empty_child c (depth + 1), 0%nat)
            | _ =>
              do child <- id3_partial_fit fuel (unpruned cfg) cls fts SP yc (map fst rows) (map snd rows) new_itree (depth + 1) (er ++ [name]);
              Ok (child, List.length rows)
            end)) in EC.
  - destruct EC as (ch & EC & F). match goal with |- context [mapM ?g ?l] => replace (mapM g l) with (Ok (A:=list (itree * nat)) ch) by (symmetry; exact EC) end. cbn [bind]. eexists. split; [reflexivity|].
    assert (FF : Forall2 collapsed (map fst ch') (map fst ch)) by (clear - F; induction F; cbn [map]; constructor; auto).
    destruct (i_prunning cfg); [|injection H as <-; apply cl_inner; exact FF].
    destruct (qeqb _ _); [discriminate|]. destruct (qltb _ _); injection H as <-; [apply cl_cut|apply cl_inner; exact FF].
  - intros s z _ Hz. match type of Hz with bind ?r _ = _ => destruct r as [col|]; [|discriminate] end. cbn [bind] in *. cbv zeta in *.
    destruct (map snd (filter _ _)) as [|r0 rows]; [injection Hz as <-; eexists; split; [reflexivity|apply cl_leaf]|].
    match type of Hz with bind ?r _ = _ => destruct r as [child|] eqn:EX; [|discriminate] end. cbn [bind] in Hz. injection Hz as <-.
    destruct (IH _ _ _ _ _ EX) as (u & EU & CU). rewrite EU. cbn [bind]. eexists. split; [reflexivity|exact CU].
Qed.
Lemma collapsed_hits cfg cfg' cls fts root root' X y t t' : id3_trained cfg cls fts root X y t -> id3_trained cfg' cls fts root' X y t' ->
  (i_max_depth cfg' <= Z.of_nat (List.length (i_features cfg')))%Z ->
  forall k p nd nd', (List.length (i_features cfg') <= k + List.length p)%nat -> inode_at t p nd -> inode_at t' p nd' -> collapsed nd nd' ->
  (hits (answer t) (reaching X y p) <= hits (answer t') (reaching X y p))%nat.
Proof.
  intros HT HT' ML.
  assert (LEAF : forall p nd nd', inode_at t p nd -> inode_at t' p nd' -> i_leaf nd = true -> (hits (answer t) (reaching X y p) <= hits (answer t') (reaching X y p))%nat).
  { intros p nd nd' H H' L. assert (Q := @class_hits _ _ _ _ _ _ _ HT' ML (i_class nd) (List.length (i_features cfg')) p nd' ltac:(lia) H').
    rewrite (@hits_same (answer t) (fun _ => i_class nd)); [assumption|]. intros d Hd. exact (answer_at_leaf HT d H L Hd). }
  induction k as [|k IH]; intros p nd nd' Lk H H' C; inversion C; subst; try (apply (LEAF p _ _ H H'); reflexivity); destruct (inner_some HT' H' eq_refl ML) as (i & V & Lp); [lia|].
  match goal with F : Forall2 collapsed ?c1 ?c2 |- _ => rename F into FC; rename c1 into l; rename c2 into l' end.
  apply (@split_groups _ _ _ _ _ _ _ HT' p _ i _ _ H' eq_refl V). intros v ch' Hch'.
  destruct (inode_split _ _ Hch') as (par & Hp & Hc).
  destruct (C78_inner_nodes _ _ _ _ _ _ _ _ _ _ HT' H' eq_refl V) as (_ & _ & _ & _ & _ & _ & Ex & Un).
  assert (O : occurs X i v) by (apply Ex; eauto). destruct (C78_inner_nodes _ _ _ _ _ _ _ _ _ _ HT' H' eq_refl V) as (_ & _ & _ & _ & Sp & Ln & _ & _).
  apply Sp in O. apply In_nth_error in O. destruct O as [j Hj]. cbn [i_splits i_children i_var] in *.
  destruct (nth_error l' j) as [c'|] eqn:Ec'; [|apply nth_error_None in Ec'; assert (nth_error sp j <> None) as Z by congruence; apply nth_error_Some in Z; lia].
  destruct (@inner_at _ 0 _ _ _ _ _ FC Ec') as (c0 & Ec & Cc).
  apply (IH (p ++ [(i, v)]) c0 c'); [rewrite app_length; cbn [List.length]; lia| | |exact Cc].
  - apply (inode_app H). eapply iat_child with (j := j); [reflexivity|exact V|exact Hj|exact Ec|constructor].
  - apply (inode_app H'). eapply iat_child with (j := j); [reflexivity|exact V|exact Hj|exact Ec'|constructor].
Qed.
(** if fit succeeds with pruning it succeeds without, and pruning has turned some inner nodes into leaves *)
Theorem C143_pruning_prunes : forall cfg cls fts X y t, id3_fit cfg cls fts new_itree X y = Ok t ->
  exists t', id3_fit (unpruned cfg) cls fts new_itree X y = Ok t' /\ collapsed t t'.
Proof.
  intros cfg cls fts X y t H. unfold id3_fit in *. cbn [i_features unpruned]. match type of H with bind ?r _ = _ => destruct r as [SP|]; [|discriminate] end. cbn [bind] in *.
  exact (@id3_fit_collapsed cfg cls fts SP (zunique y) _ _ _ _ _ _ H).
Qed.
(** so pruning never raises the score on the training table when the depth is limited to the number of features *)
Theorem C143_score : forall cfg cls fts X y t t', (i_max_depth cfg <= Z.of_nat (List.length (i_features cfg)))%Z ->
  id3_trained cfg cls fts new_itree X y t -> id3_trained (unpruned cfg) cls fts new_itree X y t' ->
  exists s s', id3_score t X y = Ok s /\ id3_score t' X y = Ok s' /\ s <= s'.
Proof.
  intros cfg cls fts X y t t' ML HT HT'.
  assert (ML' : (i_max_depth (unpruned cfg) <= Z.of_nat (List.length (i_features (unpruned cfg))))%Z) by exact ML.
  rewrite (shallow_score HT ML), (shallow_score HT' ML'). eexists. eexists. split; [reflexivity|]. split; [reflexivity|].
  destruct (C143_pruning_prunes _ _ _ _ _ _ (proj2 (proj2 HT))) as (t0 & E & C). assert (t0 = t') by (assert (Q := proj2 (proj2 HT')); congruence). subst t0.
  assert (Q := @collapsed_hits _ _ _ _ _ _ _ _ _ _ HT HT' ML' (List.length (i_features (unpruned cfg))) [] t t' ltac:(cbn; lia) (iat_self t) (iat_self t') C).
  assert (R0 : reaching X y [] = combine X y) by (unfold reaching; apply filter_keep; reflexivity). rewrite R0 in Q.
  assert (LE : List.length X = List.length y) by apply HT. assert (NE : X <> []) by apply HT.
  assert (P : 0 < qn (List.length y)) by (apply qn_pos; rewrite <- LE; destruct X; [congruence|cbn; lia]).
  apply Qcdiv_le; [assumption|].
  match goal with |- _ <= ?a / ?b * ?b => replace (a / b * b) with a by (field; intro Z; rewrite Z in P; discriminate P) end.
  apply qn_le. exact Q.
Qed.
Print Assumptions C143_pruning_prunes.
Print Assumptions C143_score.
(** the instance of C77: with a deeper limit than features the unpruned tree ends in nodes without a prediction, which pruning removes *)
Theorem C143_score_beyond_features_refuted : exists cfg cls fts X y t t', i_prunning cfg = true /\ id3_trained cfg cls fts new_itree X y t /\
  id3_trained (unpruned cfg) cls fts new_itree X y t' /\ collapsed t t' /\ i_leaf t = false /\ id3_score t X y = Ok 1 /\ id3_score t' X y = Ok 0.
Proof.
  set (cfg := ex_id3 (1 / qz 10) 5 true). set (X := xa [0; 0; 1; 2]%Z). set (y := [0; 0; 1; 1]%Z). assert (T := ex_trained). destruct C77_instance as (L & _ & _ & S).
  destruct (C143_pruning_prunes cfg ex_cls ex_fts X y ex_tree (proj2 (proj2 T))) as (t' & E & C).
  assert (T' : id3_trained (unpruned cfg) ex_cls ex_fts new_itree X y t') by (split; [apply ex_table; [reflexivity|discriminate]|]; split; [apply (ex_orders (1 / qz 10) 5 false)|exact E]).
  exists cfg, ex_cls, ex_fts, X, y, ex_tree, t'. split; [reflexivity|]. split; [exact T|]. split; [exact T'|]. split; [exact C|]. split; [exact L|]. split; [exact S|].
  eapply C39_dead_ends; [exact T'|reflexivity|cbn; lia|cbn; lia].
Qed.
Print Assumptions C143_score_beyond_features_refuted.
