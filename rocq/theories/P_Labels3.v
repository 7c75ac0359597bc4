(** * Calling the classes by other labels: rules and ID3 *)
From Verif Require Import Prelude M_Fuzzy M_Discretize M_Rule M_FDT M_FBDT M_ID3 S_Rule S_FDT S_FBDT P_FuzzySet P_FuzzyVar P_Entropy P_Rule P_FDT P_FDT2 P_FDT3 P_FDT4 P_FBDT P_FBDT2 P_FBDT3 P_Degrees P_Equality P_Counterfactual S_Labels P_Labels P_Labels2.
From Coq Require Import Reals Lra.
Local Notation eqb := Prelude.eqb.
Set Implicit Arguments.
Open Scope Qc_scope.

(** ** rules *)
Lemma graph_filter (f : Z -> Z) th (cv : dict Z Qc) :
  filter (fun kw => qltb th (snd kw)) (map (fun kw => (f (fst kw), snd kw)) cv) = map (fun kw => (f (fst kw), snd kw)) (filter (fun kw => qltb th (snd kw)) cv).
Proof. induction cv as [|[c w] cv IH]; [reflexivity|]. cbn [map filter fst snd]. destruct (qltb th w); cbn [map fst snd]; rewrite IH; reflexivity. Qed.
Lemma leaf_rules_increasing f y vars pre th p n : increasing_on f y -> (exists d, t_class n = Some d /\ map fst d = zunique y) ->
  leaf_rules vars pre th (p, relabel f n) = map (relabel_rule f) (leaf_rules vars pre th (p, n)).
Proof.
  intros HI (d & Ed & K). unfold leaf_rules. destruct n as [nl ncs ncv nlv nva nvr nmu]. cbn [fst snd relabel t_class] in *. rewrite Ed. cbn [option_map].
  destruct (@relabel_weights_spec f y (increasing_distinct HI) d K) as (_ & _ & _ & G). rewrite (G HI), graph_filter, !map_map. reflexivity.
Qed.
Lemma leaf_rules_distinct f y vars pre th p n : distinct_on f y -> (exists d, t_class n = Some d /\ map fst d = zunique y) -> forall r,
  In r (leaf_rules vars pre th (p, relabel f n)) <-> exists r0, In r0 (leaf_rules vars pre th (p, n)) /\ r = relabel_rule f r0.
Proof.
  intros HD (d & Ed & K) r. unfold leaf_rules. destruct n as [nl ncs ncv nlv nva nvr nmu]. cbn [fst snd relabel t_class] in *. rewrite Ed. cbn [option_map].
  destruct (@relabel_weights_spec f y HD d K) as (K' & _ & G & _). rewrite in_map_iff. split.
  - intros [[c' w] [<- H]]. apply filter_In in H. cbn [fst snd] in *. destruct H as [H Hw]. assert (Hc : In c' (zunique (map f y))) by (rewrite <- K'; exact (in_map fst _ _ H)).
    apply zunique_relabel_In in Hc. destruct Hc as [c [Hc <-]]. apply G in H; [|assumption].
    exists (mkR (pre ++ map (lit_name vars) p) c w). split; [|reflexivity]. apply in_map_iff. exists (c, w). split; [reflexivity|]. apply filter_In. auto.
  - intros [r0 [H ->]]. apply in_map_iff in H. destruct H as [[c w] [<- H]]. apply filter_In in H. cbn [fst snd] in *. destruct H as [H Hw].
    exists (f c, w). split; [reflexivity|]. apply filter_In. split; [|assumption]. apply G; [|assumption]. rewrite <- zunique_In, <- K. exact (in_map fst _ _ H).
Qed.
Lemma bleaf_rules_increasing f y vars pre th p n : increasing_on f y -> (exists d, b_class n = Some d /\ map fst d = zunique y) ->
  bleaf_rules vars pre th (p, brelabel f n) = map (relabel_rule f) (bleaf_rules vars pre th (p, n)).
Proof.
  intros HI (d & Ed & K). unfold bleaf_rules. destruct n as [nl ncs ncv nlv nva nvr nmu nig]. cbn [fst snd brelabel b_class] in *. rewrite Ed. cbn [option_map].
  destruct (@relabel_weights_spec f y (increasing_distinct HI) d K) as (_ & _ & _ & G). rewrite (G HI), graph_filter, !map_map. reflexivity.
Qed.
Lemma bleaf_rules_distinct f y vars pre th p n : distinct_on f y -> (exists d, b_class n = Some d /\ map fst d = zunique y) -> forall r,
  In r (bleaf_rules vars pre th (p, brelabel f n)) <-> exists r0, In r0 (bleaf_rules vars pre th (p, n)) /\ r = relabel_rule f r0.
Proof.
  intros HD (d & Ed & K) r. unfold bleaf_rules. destruct n as [nl ncs ncv nlv nva nvr nmu nig]. cbn [fst snd brelabel b_class] in *. rewrite Ed. cbn [option_map].
  destruct (@relabel_weights_spec f y HD d K) as (K' & _ & G & _). rewrite in_map_iff. split.
  - intros [[c' w] [<- H]]. apply filter_In in H. cbn [fst snd] in *. destruct H as [H Hw]. assert (Hc : In c' (zunique (map f y))) by (rewrite <- K'; exact (in_map fst _ _ H)).
    apply zunique_relabel_In in Hc. destruct Hc as [c [Hc <-]]. apply G in H; [|assumption].
    eexists. split; [apply in_map_iff; exists (c, w); split; [reflexivity|apply filter_In; auto]|]. reflexivity.
  - intros [r0 [H ->]]. apply in_map_iff in H. destruct H as [[c w] [<- H]]. apply filter_In in H. cbn [fst snd] in *. destruct H as [H Hw].
    exists (f c, w). split; [reflexivity|]. apply filter_In. split; [|assumption]. apply G; [|assumption]. rewrite <- zunique_In, <- K. exact (in_map fst _ _ H).
Qed.
Lemma simplify_relabel V (len : V -> nat) f (r : rule V) : simplify len (relabel_rule f r) = relabel_rule f (simplify len r).
Proof. reflexivity. Qed.

(** ** ID3 *)
Section ID3.
  Variable f : Z -> Z.
  Variable y0 : list Z.
  Hypothesis HD : distinct_on f y0.
  Lemma count_relabel c y : In c y0 -> incl y y0 -> count_class (f c) (map f y) = count_class c y.
  Proof.
    intros Hc I. unfold count_class. induction y as [|k y IH]; [reflexivity|]. cbn [map countb].
    assert (E : Z.eqb (f c) (f k) = Z.eqb c k).
    { destruct (Z.eqb_spec c k) as [->|N]; [apply Z.eqb_refl|]. apply Z.eqb_neq. intro Q. apply N. apply HD; [assumption|apply I; left; reflexivity|assumption]. }
    unfold countb in *. cbn [filter]. rewrite E. assert (J : incl y y0) by (intros z Hz; apply I; right; assumption). specialize (IH J). destruct (Z.eqb c k); cbn [List.length]; [f_equal|]; assumption.
  Qed.
  Lemma class_entropy_relabel classes y n : incl classes y0 -> incl y y0 -> class_entropy (map f classes) (map f y) n = class_entropy classes y n.
  Proof.
    intros IC I. unfold class_entropy. f_equal. rewrite map_map. apply map_ext_in. intros c Hc. rewrite count_relabel by auto. reflexivity.
  Qed.
  Lemma labels_relabel col y s : labels_at col (map f y) s = map f (labels_at col y s).
  Proof.
    unfold labels_at. revert col. induction y as [|k y IH]; intros [|x col]; try reflexivity.
    change (zip (x :: col) (map f (k :: y))) with ((x, f k) :: zip col (map f y)). change (zip (x :: col) (k :: y)) with ((x, k) :: zip col y). cbn [filter fst].
    destruct (eqb x s); cbn [map snd]; rewrite IH; reflexivity.
  Qed.
  Lemma labels_incl col y s : incl (labels_at col y s) y.
  Proof. intros z Hz. unfold labels_at in Hz. apply in_map_iff in Hz. destruct Hz as [[x k] [<- Hz]]. apply filter_In in Hz. destruct Hz as [Hz _]. exact (in_combine_r _ _ _ _ Hz). Qed.
  Lemma gain_relabel classes col y sp n : incl classes y0 -> incl y y0 -> id3_gain (map f classes) col (map f y) sp n = id3_gain classes col y sp n.
  Proof.
    intros IC I. unfold id3_gain. rewrite class_entropy_relabel by assumption. f_equal. f_equal. apply map_ext. intro s. unfold split_term. rewrite labels_relabel.
    assert (J : incl (labels_at col y s) y0) by (intros z Hz; apply I; apply (@labels_incl col y s); assumption). revert J. generalize (labels_at col y s) as part. intros [|k part] J; [reflexivity|].
    cbn [map]. change (f k :: map f part) with (map f (k :: part)). rewrite map_length, class_entropy_relabel by assumption. reflexivity.
  Qed.
  Lemma best_feature_relabel pos SP X y classes fts : incl classes y0 -> incl y y0 ->
    best_feature pos SP X (map f y) (map f classes) fts = best_feature pos SP X y classes fts.
  Proof.
    intros IC I. unfold best_feature. apply foldM_ext_in. intros b ft _.
    destruct (dget ft pos) as [i|]; cbn [ret_opt bind]; [|reflexivity]. destruct (column X i) as [col|]; cbn [bind]; [|reflexivity].
    destruct (nth_error SP i) as [sp|]; cbn [ret_opt bind]; [|reflexivity]. rewrite map_length. destruct (negb _); [reflexivity|]. cbv zeta. rewrite gain_relabel by assumption. reflexivity.
  Qed.
  Lemma max_by_relabel (l : list (Z * nat)) :
    max_by (fun a b : Z * nat => Nat.ltb (snd a) (snd b)) (map (fun ck => (f (fst ck), snd ck)) l) =
    option_map (fun ck => (f (fst ck), snd ck)) (max_by (fun a b : Z * nat => Nat.ltb (snd a) (snd b)) l).
  Proof.
    destruct l as [|a l]; [reflexivity|]. cbn [map max_by option_map]. f_equal. revert a. induction l as [|b l IH]; intro a; [reflexivity|]. cbn [map max_by_aux].
    rewrite <- IH. f_equal. cbn [snd]. destruct (Nat.ltb (snd a) (snd b)); reflexivity.
  Qed.
  Variable cls : list Z -> list Z.
  Hypothesis HC : forall l, incl l y0 -> cls (map f l) = map f (cls l).
  Hypothesis HP : forall l, Permutation (cls l) (nodup Z.eq_dec l).
  Lemma cls_incl l : incl (cls l) l.
  Proof. intros c Hc. apply (nodup_In Z.eq_dec). apply (Permutation_in _ (HP l)). assumption. Qed.
  Lemma cls_nil l : cls l = [] -> l = [].
  Proof.
    intro E. destruct l as [|c l]; [reflexivity|]. exfalso. assert (H : In c (cls (c :: l))) by (apply (Permutation_in _ (Permutation_sym (HP (c :: l)))); apply nodup_In; left; reflexivity).
    rewrite E in H. destruct H.
  Qed.
  (** what the training of a node reads of the node itself *)
  Definition like (t t' : itree) : Prop :=
    i_var t' = i_var t /\ i_children t' = map (irelabel f) (i_children t) /\ i_splits t' = i_splits t /\ i_numleaf t' = i_numleaf t.
  Lemma like_self t : like t (irelabel f t).
  Proof. destruct t. repeat split. Qed.
  Lemma mapM_relate A B C (g : A -> res B) (g' : A -> res C) (h : B -> C) l : (forall x, In x l -> g' x = rmap h (g x)) -> mapM g' l = rmap (map h) (mapM g l).
  Proof.
    induction l as [|x l IH]; intro H; [reflexivity|]. cbn [mapM]. rewrite (H x) by (left; reflexivity). rewrite IH by (intros z Hz; apply H; right; assumption).
    destruct (g x); cbn [rmap bind]; [|reflexivity]. destruct (mapM g l); reflexivity.
  Qed.
  Lemma rows_at_relabel (col : list cell) s : forall (X : list (list cell)) y,
    map snd (filter (fun p => eqb (fst p) s) (zip col (zip X (map f y)))) = map (fun xy => (fst xy, f (snd xy))) (map snd (filter (fun p => eqb (fst p) s) (zip col (zip X y)))).
  Proof.
    induction col as [|v col IH]; intros X y; [reflexivity|]. destruct X as [|x X]; [reflexivity|]. destruct y as [|k y]; [reflexivity|].
    change (zip (v :: col) (zip (x :: X) (map f (k :: y)))) with ((v, (x, f k)) :: zip col (zip X (map f y))). change (zip (v :: col) (zip (x :: X) (k :: y))) with ((v, (x, k)) :: zip col (zip X y)).
    cbn [filter fst]. destruct (eqb v s); cbn [map snd fst]; rewrite IH; reflexivity.
  Qed.
  Lemma rows_at_incl (col : list cell) s (X : list (list cell)) (y : list Z) : incl (map snd (map snd (filter (fun p => eqb (fst p) s) (zip col (zip X y))))) y.
  Proof.
    intros z Hz. apply in_map_iff in Hz. destruct Hz as [[x k] [<- Hz]]. apply in_map_iff in Hz. destruct Hz as [[v xk] [E Hz]]. cbn [snd] in E. subst xk.
    apply filter_In in Hz. destruct Hz as [Hz _]. apply in_combine_r in Hz. exact (in_combine_r _ _ _ _ Hz).
  Qed.
  Lemma id3_node_relabel cfg fts SP yc yc' : forall fuel X y t t' depth erased, incl y y0 -> y <> [] -> like t t' ->
    id3_partial_fit fuel cfg cls fts SP yc' X (map f y) t' depth erased = rmap (irelabel f) (id3_partial_fit fuel cfg cls fts SP yc X y t depth erased).
  Proof.
    induction fuel as [|fuel IH]; intros X y t t' depth erased I Ny Lk; [reflexivity|]. cbn [id3_partial_fit]. cbv zeta. rewrite (HC I).
    assert (IC : incl (cls y) y0) by (intros c Hc; apply I, cls_incl; assumption).
    replace (map (fun c => (c, count_class c (map f y))) (map f (cls y))) with (map (fun ck => (f (fst ck), snd ck)) (map (fun c => (c, count_class c y)) (cls y))).
    2: { rewrite !map_map. apply map_ext_in. intros c Hc. cbn [fst snd]. rewrite count_relabel by auto. reflexivity. }
    rewrite max_by_relabel.
    destruct (max_by _ (map (fun c => (c, count_class c y)) (cls y))) as [[c k]|] eqn:M; cbn [option_map fst snd].
    2: { exfalso. apply Ny, cls_nil. destruct (cls y); [reflexivity|discriminate]. }
    destruct (Nat.eqb (List.length X) 0); [reflexivity|]. destruct Lk as (L1 & L2 & L3 & L4).
    assert (LF : forall c cc d e, ileaf t' (f c) cc d e = irelabel f (ileaf t c cc d e)) by (intros; unfold ileaf; cbn [irelabel]; rewrite L1, L2, L3; reflexivity).
    destruct (Z.leb _ _); [cbn [rmap]; rewrite LF; reflexivity|]. destruct (Z.ltb _ _); [cbn [rmap]; rewrite LF; reflexivity|].
    rewrite best_feature_relabel by assumption. destruct (best_feature _ SP X y (cls y) (fts erased)) as [best|]; cbn [bind rmap]; [|reflexivity].
    match goal with |- bind ?r _ = _ => destruct r as [name|]; cbn [bind rmap]; [|reflexivity] end.
    match goal with |- bind (mapM ?g' ?l) _ = rmap _ (bind (mapM ?g ?l) _) => rewrite (@mapM_relate _ _ _ g g' (fun cn => (irelabel f (fst cn), snd cn)) l) end.
    2: { intros s _. destruct (match option_map fst (fst best) with Some i => column X i | None => Ok [] end) as [col|]; cbn [bind rmap]; [|reflexivity].
      rewrite rows_at_relabel. assert (RI := @rows_at_incl col s X y). revert RI. generalize (map snd (filter (fun p => eqb (fst p) s) (zip col (zip X y)))) as rows. intros [|r rows] RI; [reflexivity|].
      change (map (fun xy => (fst xy, f (snd xy))) (r :: rows)) with ((fst r, f (snd r)) :: map (fun xy => (fst xy, f (snd xy))) rows).
      change ((fst r, f (snd r)) :: map (fun xy => (fst xy, f (snd xy))) rows) with (map (fun xy => (fst xy, f (snd xy))) (r :: rows)).
      replace (map fst (map (fun xy => (fst xy, f (snd xy))) (r :: rows))) with (map fst (r :: rows)) by (rewrite map_map; reflexivity).
      replace (map snd (map (fun xy => (fst xy, f (snd xy))) (r :: rows))) with (map f (map snd (r :: rows))) by (rewrite !map_map; reflexivity).
      rewrite map_length. cbn [map]. change (f (snd r) :: map f (map snd rows)) with (map f (map snd (r :: rows))). change (fst r :: map fst rows) with (map fst (r :: rows)). change (snd r :: map snd rows) with (map snd (r :: rows)).
      rewrite (IH (map fst (r :: rows)) (map snd (r :: rows)) new_itree new_itree (depth + 1)%Z (erased ++ [name])).
      - destruct (id3_partial_fit fuel cfg cls fts SP yc (map fst (r :: rows)) (map snd (r :: rows)) new_itree (depth + 1) (erased ++ [name])); reflexivity.
      - intros z Hz. apply I, RI. assumption.
      - discriminate.
      - repeat split. }
    match goal with |- bind (rmap _ ?m) _ = _ => destruct m as [children|]; cbn [rmap bind]; [|reflexivity] end.
    rewrite L4, map_length.
    replace (map (fun cn => i_error (fst cn) * (qn (snd cn) / qn (List.length y))) (map (fun cn => (irelabel f (fst cn), snd cn)) children))
      with (map (fun cn => i_error (fst cn) * (qn (snd cn) / qn (List.length y))) children).
    2: { rewrite map_map. apply map_ext. intros [[va l cs sp c0 cc lv e n] m]. reflexivity. }
    replace (map fst (map (fun cn => (irelabel f (fst cn), snd cn)) children)) with (map (irelabel f) (map fst children)) by (rewrite !map_map; reflexivity).
    destruct (i_prunning cfg); [|reflexivity]. destruct (qeqb _ 0); [reflexivity|]. destruct (qltb _ _); reflexivity.
  Qed.
End ID3.
Lemma id3_fit_like f y cfg cls fts root root' X : distinct_on f y -> (forall l, Permutation (cls l) (nodup Z.eq_dec l)) ->
  (forall l, incl l y -> cls (map f l) = map f (cls l)) -> like f root root' ->
  id3_fit cfg cls fts root' X (map f y) = rmap (irelabel f) (id3_fit cfg cls fts root X y).
Proof.
  intros HD HP HC Lk. unfold id3_fit. destruct (mapM _ _) as [SP|]; cbn [bind rmap]; [|reflexivity]. destruct y as [|c y].
  - cbn [map id3_partial_fit]. assert (E : cls [] = []) by (assert (P := HP []); apply Permutation_sym, Permutation_nil in P; exact P). rewrite E. reflexivity.
  - apply (@id3_node_relabel f (c :: y) HD cls HC HP); [apply incl_refl|discriminate|assumption].
Qed.
Lemma id3_fit_relabel f y cfg cls fts root X : distinct_on f y -> (forall l, Permutation (cls l) (nodup Z.eq_dec l)) ->
  (forall l, incl l y -> cls (map f l) = map f (cls l)) ->
  id3_fit cfg cls fts (irelabel f root) X (map f y) = rmap (irelabel f) (id3_fit cfg cls fts root X y).
Proof. intros HD HP HC. apply id3_fit_like; try assumption. apply like_self. Qed.
Lemma id3_predict_one_relabel f t x : id3_tree_predict (irelabel f t) x = rmap (option_map f) (id3_tree_predict t x).
Proof.
  induction t as [va l cs sp c cc lv e n IH] using itree_ind'. cbn [irelabel id3_tree_predict]. destruct l; [reflexivity|]. destruct sp as [|s0 sp0]; [reflexivity|]. generalize (s0 :: sp0) as sp. clear s0 sp0. intro sp.
  match goal with |- bind ?r _ = _ => destruct r as [v|]; cbn [bind rmap]; [|reflexivity] end.
  revert sp. induction IH as [|t cs Ht _ IH]; intro sp; cbn [map].
  - destruct sp; [reflexivity|]. destruct (memb v (_ :: _)); reflexivity.
  - destruct sp as [|s sp]; [reflexivity|]. destruct (eqb v s); [exact Ht|apply IH].
Qed.
Lemma id3_predict_relabel f t X : id3_predict (irelabel f t) X = rmap (map (option_map f)) (id3_predict t X).
Proof.
  unfold id3_predict. destruct X as [|x X]; [reflexivity|]. apply mapM_relate. intros z _. apply id3_predict_one_relabel.
Qed.
Lemma id3_rules_relabel f features t : forall conds, id3_get_rules features (irelabel f t) conds = rmap (map (relabel_rule f)) (id3_get_rules features t conds).
Proof.
  induction t as [va l cs sp c cc lv e n IH] using itree_ind'. intro conds. cbn [irelabel id3_get_rules]. destruct l; [reflexivity|].
  match goal with |- context [ret_opt IndexError ?m] => generalize (ret_opt IndexError m) as rf end. intros [ft|err]; cbn [bind].
  - revert sp. induction IH as [|t cs Ht _ IH]; intro sp; cbn [map]; [destruct sp; reflexivity|]. destruct sp as [|s sp]; [reflexivity|]. rewrite Ht.
    destruct (id3_get_rules features t (conds ++ [(ft, s)])) as [rs|]; cbn [bind rmap]; [|reflexivity]. rewrite IH.
    match goal with |- bind (rmap _ ?m) _ = _ => destruct m as [rs'|]; cbn [bind rmap]; [|reflexivity] end. rewrite map_app. reflexivity.
  - destruct cs as [|t cs]; destruct sp as [|s sp]; reflexivity.
Qed.
