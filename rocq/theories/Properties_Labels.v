(** * Properties C121, C122: calling the classes by other labels *)
From Verif Require Import Prelude M_Fuzzy M_Discretize M_Rule M_FDT M_FBDT M_ID3 S_Rule S_FDT S_FBDT S_ID3 P_FuzzySet P_FuzzyVar P_Entropy P_Rule P_FDT P_FDT2 P_FDT3 P_FDT4 P_FBDT P_FBDT2 P_FBDT3 P_Degrees S_Labels P_Labels P_Labels2 P_Labels3 Properties_FDT Properties_FBDT Properties_ID3 Properties_ID3b.
From Coq Require Import Reals Lra.
Local Notation eqb := Prelude.eqb.
Open Scope string_scope.
Open Scope list_scope.
Open Scope Qc_scope.

(** ** C121: multiway trees *)
(** training sees labels only up to their names: tree or exception, new or fitted before *)
Theorem C121_fdt_training : forall f y cfg ord root X, distinct_on f y ->
  match fit cfg ord root X y with
  | Ok t => fit cfg ord (relabel f root) X (map f y) = Ok (relabel f t)
  | Err e => fit cfg ord (relabel f root) X (map f y) = Err e
  end.
Proof. intros f y cfg ord root X HD. rewrite (fit_relabel HD). destruct (fit cfg ord root X y); reflexivity. Qed.
Print Assumptions C121_fdt_training.

Lemma relabel_trained f y cfg ord X t : distinct_on f y -> trained cfg ord X y t -> trained cfg ord X (map f y) (relabel f t).
Proof.
  intros HD (A & B & C & F). split; [assumption|]. split; [assumption|]. split; [assumption|]. change fresh_root with (relabel f fresh_root). rewrite (fit_relabel HD), F. reflexivity.
Qed.
Lemma brelabel_trained f y cfg psort X t : distinct_on f y -> (increasing_on f y \/ categorical_features (f_vars cfg) = Ok []) ->
  btrained cfg psort X y t -> btrained cfg psort X (map f y) (brelabel f t).
Proof.
  intros HD HI (A & B & h & F). split; [assumption|]. split; [assumption|]. exists h. change fresh_broot with (brelabel f fresh_broot). rewrite (bt_fit_relabel _ _ _ _ HD HI), F. reflexivity.
Qed.
Lemma continuous_only vars : (forall v, In v vars -> continuous v) -> categorical_features vars = Ok [].
Proof.
  intro H. unfold categorical_features. induction vars as [|v vars IH]; [reflexivity|]. cbn [mapM]. destruct (H v (or_introl eq_refl)) as (c & l & E). rewrite E.
  specialize (IH (fun w Hw => H w (or_intror Hw))). destruct (mapM _ vars) as [ls|]; cbn [bind List.concat app] in *; [assumption|discriminate].
Qed.

(** an order-preserving renaming: the predictions and the rules are renamed, nothing else *)
Theorem C121_fdt_increasing : forall f y cfg ord X t, increasing_on f y -> trained cfg ord X y t ->
  (forall v, In v (f_vars cfg) -> fv_sets v <> []) ->
  (forall X', readable (f_vars cfg) X' -> exists ps, predict cfg t X' = Ok ps /\ predict cfg (relabel f t) X' = Ok (map f ps)) /\
  (forall th, exists rules, tree_rules t th = Ok rules /\ tree_rules (relabel f t) th = Ok (map (relabel_rule f) rules)).
Proof.
  intros f y cfg ord X t HI T Hs. assert (HD := increasing_distinct HI). assert (T' := relabel_trained f y cfg ord X t HD T).
  destruct (trained_wf T Hs) as [W V]. destruct (trained_wf T' Hs) as [W' V']. split.
  - intros X' R. assert (Hne : zunique y <> [] /\ zunique (map f y) <> []).
    { destruct (trained_fitted T) as (_ & Hy & _). destruct y as [|c y]; [congruence|]. split; intro E.
      - assert (Q : In c (zunique (c :: y))) by (apply zunique_In; left; reflexivity). rewrite E in Q. destruct Q.
      - assert (Q : In (f c) (zunique (map f (c :: y)))) by (apply zunique_In; left; reflexivity). rewrite E in Q. destruct Q. }
    destruct (@predict_spec cfg t (zunique y) X' W V (zunique_sorted _) (zunique_NoDup _) (proj1 Hne) R) as [ps [E F]].
    destruct (@predict_spec cfg (relabel f t) (zunique (map f y)) X' W' V' (zunique_sorted _) (zunique_NoDup _) (proj2 Hne) R) as [qs [E' F']].
    exists ps. split; [assumption|]. rewrite E'. apply (f_equal (@Ok _)). clear E E' R. revert qs F'. induction F as [|row c X' ps B F IH]; intros qs F'; inversion F' as [|? c' ? qs' B' F'']; subst; [reflexivity|].
    cbn [map]. f_equal; [|apply IH; assumption]. eapply best_relabel; [exact HI|exact (@relabel_support f y cfg t row HD W)|exact B|exact B'].
  - intro th. rewrite (@tree_rules_spec _ _ th t W V), (@tree_rules_spec _ _ th _ W' V'). eexists. split; [reflexivity|]. apply (f_equal (@Ok _)).
    rewrite relabel_leaves, map_map, concat_map, map_map. f_equal. apply map_ext_in. intros [p n] H. cbn [fst snd].
    apply (@leaf_rules_increasing f y _ _ _ _ _ HI). exact (@wf_leaves_classes _ _ _ W _ _ H).
Qed.
Print Assumptions C121_fdt_increasing.

(** any renaming: supports and rules are renamed; a row without a tie gets the renamed class *)
Theorem C121_fdt_renaming : forall f y cfg ord X t, distinct_on f y -> trained cfg ord X y t ->
  (forall v, In v (f_vars cfg) -> fv_sets v <> []) ->
  (forall row c, In c y -> row_support cfg (relabel f t) row (f c) = row_support cfg t row c) /\
  (forall row c, readable (f_vars cfg) [row] -> In c y ->
     (forall k, In k y -> k <> c -> row_support cfg t row k < row_support cfg t row c) ->
     predict cfg t [row] = Ok [c] /\ predict cfg (relabel f t) [row] = Ok [f c]) /\
  (forall th, exists rules rules', tree_rules t th = Ok rules /\ tree_rules (relabel f t) th = Ok rules' /\
     forall r, In r rules' <-> exists r0, In r0 rules /\ r = relabel_rule f r0).
Proof.
  intros f y cfg ord X t HD T Hs. assert (T' := relabel_trained f y cfg ord X t HD T).
  destruct (trained_wf T Hs) as [W V]. destruct (trained_wf T' Hs) as [W' V']. split; [intros row c Hc; apply (@relabel_support f y cfg t row HD W); assumption|]. split.
  - intros row c R Hc S.
    assert (Hne : zunique y <> [] /\ zunique (map f y) <> []).
    { split; intro E.
      - assert (Q : In c (zunique y)) by (apply zunique_In; assumption). rewrite E in Q. destruct Q.
      - assert (Q : In (f c) (zunique (map f y))) by (apply zunique_In, in_map; assumption). rewrite E in Q. destruct Q. }
    destruct (@predict_spec cfg t (zunique y) [row] W V (zunique_sorted _) (zunique_NoDup _) (proj1 Hne) R) as [ps [E F]].
    destruct (@predict_spec cfg (relabel f t) (zunique (map f y)) [row] W' V' (zunique_sorted _) (zunique_NoDup _) (proj2 Hne) R) as [qs [E' F']]. rewrite E, E'.
    inversion F as [|? c0 ? ps' B F1]; subst. inversion F1; subst. inversion F' as [|? c1 ? qs' B' F2]; subst. inversion F2; subst. split; do 2 f_equal.
    + destruct B as [B1 B2]. rewrite zunique_In in B1. destruct (Z.eq_dec c0 c) as [|N]; [assumption|]. exfalso. specialize (S c0 B1 N). destruct (B2 c) as [Q _]; [apply zunique_In; assumption|]. qlra.
    + eapply best_relabel_strict; [exact (@relabel_support f y cfg t row HD W)|exact Hc|exact S|exact B'].
  - intro th. rewrite (@tree_rules_spec _ _ th t W V), (@tree_rules_spec _ _ th _ W' V'). eexists; eexists. split; [reflexivity|]. split; [reflexivity|]. intro r.
    rewrite relabel_leaves, map_map. rewrite in_concat. split.
    + intros [l [Hl Hr]]. apply in_map_iff in Hl. destruct Hl as [[p n] [<- H]]. cbn [fst snd] in Hr.
      apply (@leaf_rules_distinct f y _ _ _ _ _ HD (@wf_leaves_classes _ _ _ W _ _ H)) in Hr. destruct Hr as [r0 [Hr ->]]. exists r0. split; [|reflexivity].
      apply in_concat. eexists. split; [apply in_map; exact H|exact Hr].
    + intros [r0 [Hr ->]]. apply in_concat in Hr. destruct Hr as [l [Hl Hr]]. apply in_map_iff in Hl. destruct Hl as [[p n] [<- H]].
      eexists. split; [apply in_map_iff; exists (p, n); split; [reflexivity|exact H]|]. cbn [fst snd]. apply (@leaf_rules_distinct f y _ _ _ _ _ HD (@wf_leaves_classes _ _ _ W _ _ H)). exists r0. auto.
Qed.
Print Assumptions C121_fdt_renaming.

(** with a tie the least label wins, so that swapping the labels does not swap the prediction *)
Definition swap01 (c : Z) : Z := (1 - c)%Z.
Theorem C121_ties_refuted : exists t, let cfg := ex_cfg AggVote in
  trained cfg same_order ex_X ex_y t /\ distinct_on swap01 ex_y /\ readable (f_vars cfg) [[CNum (qz 5)]] /\
  predict cfg t [[CNum (qz 5)]] = Ok [0%Z] /\ trained cfg same_order ex_X (map swap01 ex_y) (relabel swap01 t) /\
  predict cfg (relabel swap01 t) [[CNum (qz 5)]] = Ok [0%Z] /\ swap01 0 <> 0%Z.
Proof.
  assert (T := ex_fit AggVote ex_y (or_introl eq_refl)). assert (D : distinct_on swap01 ex_y) by (intros a b _ _; unfold swap01; lia).
  exists (one_tree (ex_cfg AggVote) ex_X ex_y (ex_v "x")). split; [exact T|]. split; [exact D|]. split; [apply ex_readable; intros row [<-|[]]; eauto|].
  split; [vm_compute; reflexivity|]. split; [apply relabel_trained; assumption|]. split; [vm_compute; reflexivity|discriminate].
Qed.
Print Assumptions C121_ties_refuted.

Example C121_instance : increasing_on (fun c => 10 * c + 3)%Z ex_y /\ map (fun c => 10 * c + 3)%Z ex_y = [13; 3]%Z /\
  (forall v, In v (f_vars (ex_cfg AggVote)) -> fv_sets v <> []) /\
  exists t, trained (ex_cfg AggVote) same_order ex_X ex_y t /\ predict (ex_cfg AggVote) t [[CNum (qz 2)]; [CNum (qz 9)]] = Ok [1; 0]%Z /\
    predict (ex_cfg AggVote) (relabel (fun c => 10 * c + 3)%Z t) [[CNum (qz 2)]; [CNum (qz 9)]] = Ok [13; 3]%Z.
Proof.
  split; [intros a b _ _; lia|]. split; [reflexivity|]. split; [apply ex_sets|]. exists (one_tree (ex_cfg AggVote) ex_X ex_y (ex_v "x")).
  split; [apply ex_fit; auto|]. split; vm_compute; reflexivity.
Qed.

(** ** C121: binary trees.  The categories are sorted by their share of the least class, so either the order of the
    labels is kept or no variable is categorical *)
Theorem C121_fbdt_training : forall f y cfg psort root X, distinct_on f y ->
  (increasing_on f y \/ forall v, In v (f_vars cfg) -> continuous v) ->
  match bt_fit cfg psort root X y with
  | Ok (h, t) => bt_fit cfg psort (brelabel f root) X (map f y) = Ok (h, brelabel f t)
  | Err e => bt_fit cfg psort (brelabel f root) X (map f y) = Err e
  end.
Proof.
  intros f y cfg psort root X HD HI. rewrite (bt_fit_relabel cfg psort root X HD). { destruct (bt_fit cfg psort root X y) as [[h t]|]; reflexivity. }
  destruct HI as [H|H]; [left; assumption|right; apply continuous_only; assumption].
Qed.
Print Assumptions C121_fbdt_training.

Theorem C121_fbdt_increasing : forall f y cfg psort X t, increasing_on f y -> btrained cfg psort X y t ->
  (forall X', readable (f_vars cfg) X' -> exists ps, bpredict cfg t X' = Ok ps /\ bpredict cfg (brelabel f t) X' = Ok (map f ps)) /\
  (forall th simp, exists rules, btree_rules t th simp = Ok rules /\ btree_rules (brelabel f t) th simp = Ok (map (relabel_rule f) rules)).
Proof.
  intros f y cfg psort X t HI T. assert (HD := increasing_distinct HI). assert (T' := brelabel_trained f y cfg psort X t HD (or_introl HI) T).
  destruct (btrained_wf _ _ _ _ _ T) as [W V]. destruct (btrained_wf _ _ _ _ _ T') as [W' V']. split.
  - intros X' R.
    destruct (@bpredict_spec cfg t (zunique y) X' W V (zunique_sorted _) (zunique_NoDup _) (btrained_y _ _ _ _ _ T) R) as [ps [E F]].
    destruct (@bpredict_spec cfg (brelabel f t) (zunique (map f y)) X' W' V' (zunique_sorted _) (zunique_NoDup _) (btrained_y _ _ _ _ _ T') R) as [qs [E' F']].
    exists ps. split; [assumption|]. rewrite E'. apply (f_equal (@Ok _)). clear E E' R. revert qs F'. induction F as [|row c X' ps B F IH]; intros qs F'; inversion F' as [|? c' ? qs' B' F'']; subst; [reflexivity|].
    cbn [map]. f_equal; [|apply IH; assumption]. eapply best_relabel; [exact HI|exact (@brelabel_support f y cfg t row HD W)|exact B|exact B'].
  - intros th simp. rewrite (@btree_rules_spec _ _ th simp t W V), (@btree_rules_spec _ _ th simp _ W' V'). eexists. split; [reflexivity|]. apply (f_equal (@Ok _)).
    rewrite brelabel_leaves, map_map.
    assert (E : List.concat (map (fun pl => bleaf_rules (f_vars cfg) [] th (fst pl, brelabel f (snd pl))) (bleaves t)) =
                map (relabel_rule f) (List.concat (map (bleaf_rules (f_vars cfg) [] th) (bleaves t)))).
    { rewrite concat_map, map_map. f_equal. apply map_ext_in. intros [p n] H. cbn [fst snd].
      apply (@bleaf_rules_increasing f y _ _ _ _ _ HI). destruct (@bwf_leaves _ _ _ W _ _ H) as ((d & Ed & K & _) & _). exists d. auto. }
    rewrite E, !map_map. destruct simp; reflexivity.
Qed.
Print Assumptions C121_fbdt_increasing.

Theorem C121_fbdt_renaming : forall f y cfg psort X t, distinct_on f y -> (forall v, In v (f_vars cfg) -> continuous v) -> btrained cfg psort X y t ->
  (forall row c, In c y -> brow_support cfg (brelabel f t) row (f c) = brow_support cfg t row c) /\
  (forall row c, readable (f_vars cfg) [row] -> In c y ->
     (forall k, In k y -> k <> c -> brow_support cfg t row k < brow_support cfg t row c) ->
     bpredict cfg t [row] = Ok [c] /\ bpredict cfg (brelabel f t) [row] = Ok [f c]) /\
  (forall th simp, exists rules rules', btree_rules t th simp = Ok rules /\ btree_rules (brelabel f t) th simp = Ok rules' /\
     forall r, In r rules' <-> exists r0, In r0 rules /\ r = relabel_rule f r0).
Proof.
  intros f y cfg psort X t HD Hc0 T. assert (T' := brelabel_trained f y cfg psort X t HD (or_intror (continuous_only _ Hc0)) T).
  destruct (btrained_wf _ _ _ _ _ T) as [W V]. destruct (btrained_wf _ _ _ _ _ T') as [W' V']. split; [intros row c Hc; apply (@brelabel_support f y cfg t row HD W); assumption|]. split.
  - intros row c R Hc S.
    destruct (@bpredict_spec cfg t (zunique y) [row] W V (zunique_sorted _) (zunique_NoDup _) (btrained_y _ _ _ _ _ T) R) as [ps [E F]].
    destruct (@bpredict_spec cfg (brelabel f t) (zunique (map f y)) [row] W' V' (zunique_sorted _) (zunique_NoDup _) (btrained_y _ _ _ _ _ T') R) as [qs [E' F']]. rewrite E, E'.
    inversion F as [|? c0 ? ps' B F1]; subst. inversion F1; subst. inversion F' as [|? c1 ? qs' B' F2]; subst. inversion F2; subst. split; do 2 f_equal.
    + destruct B as [B1 B2]. rewrite zunique_In in B1. destruct (Z.eq_dec c0 c) as [|N]; [assumption|]. exfalso. specialize (S c0 B1 N). destruct (B2 c) as [Q _]; [apply zunique_In; assumption|]. qlra.
    + eapply best_relabel_strict; [exact (@brelabel_support f y cfg t row HD W)|exact Hc|exact S|exact B'].
  - intros th simp. rewrite (@btree_rules_spec _ _ th simp t W V), (@btree_rules_spec _ _ th simp _ W' V'). eexists; eexists. split; [reflexivity|]. split; [reflexivity|].
    set (g := fun r : rule (list string) => if simp then simplify (@List.length string) r else r).
    assert (G : forall r, g (relabel_rule f r) = relabel_rule f (g r)) by (intro r; unfold g; destruct simp; reflexivity).
    assert (K : forall r, In r (List.concat (map (bleaf_rules (f_vars cfg) [] th) (bleaves (brelabel f t)))) <->
                          exists r0, In r0 (List.concat (map (bleaf_rules (f_vars cfg) [] th) (bleaves t))) /\ r = relabel_rule f r0).
    { intro r. rewrite brelabel_leaves, map_map. rewrite in_concat. split.
      + intros [l [Hl Hr]]. apply in_map_iff in Hl. destruct Hl as [[p n] [<- H]]. cbn [fst snd] in Hr.
        assert (KC : exists d, b_class n = Some d /\ map fst d = zunique y) by (destruct (@bwf_leaves _ _ _ W _ _ H) as ((d & Ed & K & _) & _); exists d; auto).
        apply (@bleaf_rules_distinct f y _ _ _ _ _ HD KC) in Hr. destruct Hr as [r0 [Hr ->]]. exists r0. split; [|reflexivity].
        apply in_concat. eexists. split; [apply in_map; exact H|exact Hr].
      + intros [r0 [Hr ->]]. apply in_concat in Hr. destruct Hr as [l [Hl Hr]]. apply in_map_iff in Hl. destruct Hl as [[p n] [<- H]].
        assert (KC : exists d, b_class n = Some d /\ map fst d = zunique y) by (destruct (@bwf_leaves _ _ _ W _ _ H) as ((d & Ed & K & _) & _); exists d; auto).
        eexists. split; [apply in_map_iff; exists (p, n); split; [reflexivity|exact H]|]. cbn [fst snd]. apply (@bleaf_rules_distinct f y _ _ _ _ _ HD KC). exists r0. auto. }
    intro r. rewrite in_map_iff. split.
    + intros [r1 [<- H]]. apply K in H. destruct H as [r0 [H ->]]. exists (g r0). split; [apply in_map_iff; exists r0; split; [reflexivity|assumption]|]. apply G.
    + intros [r0 [H ->]]. apply in_map_iff in H. destruct H as [r1 [<- H]]. exists (relabel_rule f r1). split; [apply G|]. apply K. exists r1. auto.
Qed.
Print Assumptions C121_fbdt_renaming.

Example C121_fbdt_instance : btrained (ex_cfg AggVote) no_sort ex_X ex_y ex_btree /\ increasing_on (fun c => 10 * c + 3)%Z ex_y /\
  (forall v, In v (f_vars (ex_cfg AggVote)) -> continuous v) /\
  bpredict (ex_cfg AggVote) (brelabel (fun c => 10 * c + 3)%Z ex_btree) [[CNum (qz 2)]; [CNum (qz 9)]] = Ok [13; 3]%Z.
Proof.
  split; [apply ex_btrained|]. split; [intros a b _ _; lia|]. split; [|vm_compute; reflexivity]. intros v [<-|[]]. eexists; eexists; reflexivity.
Qed.

(** ** C122: ID3 and the entropy discretisation *)
Theorem C122_id3_training : forall f y cfg cls fts root X, distinct_on f y -> (forall l, Permutation (cls l) (nodup Z.eq_dec l)) ->
  (forall l, incl l y -> cls (map f l) = map f (cls l)) ->
  match id3_fit cfg cls fts root X y with
  | Ok t => id3_fit cfg cls fts (irelabel f root) X (map f y) = Ok (irelabel f t)
  | Err e => id3_fit cfg cls fts (irelabel f root) X (map f y) = Err e
  end.
Proof. intros f y cfg cls fts root X HD HP HC. rewrite (@id3_fit_relabel f y cfg cls fts root X HD HP HC). destruct (id3_fit cfg cls fts root X y); reflexivity. Qed.
Print Assumptions C122_id3_training.

(** in particular a new tree, whose root carries no class yet *)
Theorem C122_id3_new_tree : forall f y cfg cls fts X, distinct_on f y -> (forall l, Permutation (cls l) (nodup Z.eq_dec l)) ->
  (forall l, incl l y -> cls (map f l) = map f (cls l)) ->
  match id3_fit cfg cls fts new_itree X y with
  | Ok t => id3_fit cfg cls fts new_itree X (map f y) = Ok (irelabel f t)
  | Err e => id3_fit cfg cls fts new_itree X (map f y) = Err e
  end.
Proof.
  intros f y cfg cls fts X HD HP HC. rewrite (@id3_fit_like f y cfg cls fts new_itree new_itree X HD HP HC); [destruct (id3_fit cfg cls fts new_itree X y); reflexivity|]. repeat split.
Qed.
Print Assumptions C122_id3_new_tree.

Theorem C122_id3_predictions_and_rules : forall f features t,
  (forall X, match id3_predict t X with
             | Ok ps => id3_predict (irelabel f t) X = Ok (map (option_map f) ps)
             | Err e => id3_predict (irelabel f t) X = Err e end) /\
  (forall args, match id3_tree_rules features t args with
             | Ok rs => id3_tree_rules features (irelabel f t) args = Ok (map (relabel_rule f) rs)
             | Err e => id3_tree_rules features (irelabel f t) args = Err e end).
Proof.
  intros f features t. split.
  - intro X. rewrite id3_predict_relabel. destruct (id3_predict t X); reflexivity.
  - intros [|a [|b args]]; [| |reflexivity]; cbn [id3_tree_rules]; rewrite id3_rules_relabel; destruct (id3_get_rules features t []); reflexivity.
Qed.
Print Assumptions C122_id3_predictions_and_rules.

(** the cut points depend on the classes only through which rows share one *)
Theorem C122_discretisation : forall f max_depth th data, distinct_on f (map snd data) ->
  entropy_points max_depth th (map (fun vc => (fst vc, f (snd vc))) data) = entropy_points max_depth th data.
Proof. intros f md th data HD. apply entropy_points_relabel. assumption. Qed.
Print Assumptions C122_discretisation.

Theorem C122_entropy : forall f t y, distinct_on f y -> fuzzy_entropy t (map f y) = fuzzy_entropy t y.
Proof. intros f t y HD. apply entropy_relabel. assumption. Qed.
Print Assumptions C122_entropy.

(** labels in increasing order, as CPython iterates sets of small non-negative integers *)
Lemma zunique_perm_nodup l : Permutation (zunique l) (nodup Z.eq_dec l).
Proof. apply NoDup_Permutation; [apply zunique_NoDup|apply NoDup_nodup|]. intro x. rewrite zunique_In, nodup_In. reflexivity. Qed.
Example C122_instance : distinct_on (fun c => c + 5)%Z [0; 0; 1; 1]%Z /\ (forall l, Permutation (zunique l) (nodup Z.eq_dec l)) /\
  (forall l, incl l [0; 0; 1; 1]%Z -> zunique (map (fun c => c + 5)%Z l) = map (fun c => c + 5)%Z (zunique l)) /\
  id3_fit (ex_id3 (1 / qz 10) 5 true) zunique ex_fts new_itree (xa [0; 0; 1; 2]%Z) [0; 0; 1; 1]%Z = Ok ex_tree /\
  id3_fit (ex_id3 (1 / qz 10) 5 true) zunique ex_fts new_itree (xa [0; 0; 1; 2]%Z) [5; 5; 6; 6]%Z = Ok (irelabel (fun c => c + 5)%Z ex_tree).
Proof.
  assert (D : distinct_on (fun c => c + 5)%Z [0; 0; 1; 1]%Z) by (intros a b _ _; lia).
  assert (H : forall l, incl l [0; 0; 1; 1]%Z -> zunique (map (fun c => c + 5)%Z l) = map (fun c => c + 5)%Z (zunique l)) by (intros l _; apply zunique_increasing; intros a b _ _; lia).
  assert (T : id3_fit (ex_id3 (1 / qz 10) 5 true) zunique ex_fts new_itree (xa [0; 0; 1; 2]%Z) [0; 0; 1; 1]%Z = Ok ex_tree) by (ex_run [[CNum 0; CNum 1; CNum (qz 2)]]).
  split; [exact D|]. split; [exact zunique_perm_nodup|]. split; [exact H|]. split; [exact T|].
  assert (Q := C122_id3_new_tree (fun c => c + 5)%Z [0; 0; 1; 1]%Z (ex_id3 (1 / qz 10) 5 true) zunique ex_fts (xa [0; 0; 1; 2]%Z) D zunique_perm_nodup H). rewrite T in Q. exact Q.
Qed.
