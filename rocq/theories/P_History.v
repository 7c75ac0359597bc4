(** * Trees fitted several times in a row *)
From Verif Require Import Prelude M_Fuzzy M_Discretize M_Rule M_FDT M_FBDT S_Rule S_FDT S_FBDT S_History P_FuzzySet P_FuzzyVar P_Entropy P_Rule P_FDT P_FDT2 P_FDT3 P_FDT4 P_FBDT P_FBDT2 P_FBDT3 P_FBDT7.
From Coq Require Import Reals Lra.
Set Implicit Arguments.
Open Scope Qc_scope.

Lemma foldM_app A B (f : A -> B -> res A) l1 : forall l2 s, foldM f s (l1 ++ l2) = do s' <- foldM f s l1; foldM f s' l2.
Proof. induction l1 as [|x l1 IH]; intros l2 s; [reflexivity|]. cbn. destruct (f s x); cbn; [apply IH|reflexivity]. Qed.
Lemma foldM_one A B (f : A -> B -> res A) x s : foldM f s [x] = f s x.
Proof. cbn. destruct (f s x); reflexivity. Qed.
Lemma pooled_max_app (l1 l2 : list Qc) : fold_right qmax 0 (l1 ++ l2) = qmax (fold_right qmax 0 l1) (fold_right qmax 0 l2).
Proof.
  assert (P : 0 <= fold_right qmax 0 l2) by (induction l2 as [|z l2 IH]; cbn; [apply Qcle_refl|eapply Qcle_trans; [exact IH|apply qmax_r]]).
  induction l1 as [|x l1 IH]; cbn.
  - revert P. generalize (fold_right qmax 0 l2). intros q H. unfold qmax. qcase; qlra.
  - rewrite IH, qmax_assoc. reflexivity.
Qed.
Lemma pooled_concat v (ls : list (list Qc)) : pooled v (List.concat ls) = pooled v (map (pooled v) ls).
Proof.
  induction ls as [|l ls IH]; [reflexivity|]. destruct v; cbn [pooled] in *; cbn [List.concat map fold_right].
  - rewrite qsum_app, qsum_cons, IH. reflexivity.
  - rewrite pooled_max_app, IH. reflexivity.
Qed.
Lemma qmax_fold_perm (l l' : list Qc) : Permutation l l' -> fold_right qmax 0 l = fold_right qmax 0 l'.
Proof.
  induction 1 as [| x l l' P IH | x y l | l1 l2 l3 P1 IH1 P2 IH2]; cbn; try congruence.
  rewrite !qmax_assoc. f_equal. unfold qmax. qcase; qlra.
Qed.
Lemma qsum_perm_h (l l' : list Qc) : Permutation l l' -> qsum l = qsum l'.
Proof. induction 1 as [| x l l' P IH | x y l | l1 l2 l3 P1 IH1 P2 IH2]; rewrite ?qsum_cons; try congruence. ring. Qed.
Lemma pooled_perm v l l' : Permutation l l' -> pooled v l = pooled v l'.
Proof. intro P. destruct v; [apply qsum_perm_h|apply qmax_fold_perm]; exact P. Qed.

(** ** multiway trees *)
Lemma trained_children cfg ord X y t : trained cfg ord X y t -> t_leaf t = true -> t_children t = [].
Proof.
  intros T L. destruct (trained_fitted T) as (_ & _ & _ & F). destruct T as (Ho & Hn & Hth & _).
  destruct (@fitted_cases cfg ord X y Ho Hn Hth _ _ _ F) as [[-> _]|(a & v & cs & _ & _ & -> & _)]; [reflexivity|discriminate].
Qed.
Definition piled (ts : list tree) (last t : tree) : Prop :=
  t_leaf t = t_leaf last /\ t_children t = List.concat (map t_children ts) /\ t_value t = None /\ t_var t = None /\
  (t_leaf last = true -> t_class t = t_class last).
Lemma fits_shape cfg ord : forall hist ts, alone cfg ord hist ts -> forall pre last, ts = pre ++ [last] ->
  exists t, fits cfg ord hist fresh_root = Ok t /\ piled ts last t.
Proof.
  unfold alone. intro hist. induction hist as [|d hist IH] using rev_ind; intros ts A pre last E.
  - inversion A; subst. destruct pre; discriminate.
  - apply Forall2_app_inv_l in A. destruct A as (ts1 & ts2 & A1 & A2 & ->). inversion A2 as [|? tl ? ? T A3]; subst. inversion A3; subst. clear A2 A3.
    apply app_inj_tail in E. destruct E as [-> ->]. unfold fits. rewrite foldM_app.
    assert (F := T). destruct F as (_ & _ & _ & F). destruct (trained_root T) as (U1 & U2 & U3).
    assert (P : exists root, foldM (fun t d => fit cfg ord t (fst d) (snd d)) fresh_root hist = Ok root /\ t_value root = None /\ t_var root = None /\ t_children root = List.concat (map t_children pre)).
    { destruct hist as [|d0 hist0] eqn:Eh.
      - inversion A1; subst. exists fresh_root. repeat split; reflexivity.
      - rewrite <- Eh in *. assert (N : pre <> []) by (intros ->; inversion A1; congruence). destruct (exists_last N) as (pre' & l' & Ep).
        destruct (IH pre A1 pre' l' Ep) as (r & R1 & R2 & R3 & R4 & R5 & R6). exists r. auto. }
    destruct P as (root & R1 & R2 & R3 & R4). rewrite R1. cbn [bind]. rewrite foldM_one. exists (merge_root root last).
    split; [apply refit_shape; assumption|]. split; [reflexivity|]. split; [cbn; rewrite R4, map_app, concat_app; cbn; rewrite app_nil_r; reflexivity|].
    split; [exact U1|]. split; [exact U2|]. intro L. cbn. rewrite L. reflexivity.
Qed.
Lemma piled_leaf cfg ts last t : piled ts last t -> t_value last = None -> t_leaf last = true ->
  (forall X, predict cfg t X = predict cfg last X) /\ (forall th, tree_rules t th = tree_rules last th).
Proof.
  intros (A & B & C & D & E) V L. specialize (E L). rewrite L in A. destruct t as [lf cs cv lv va vr mu], last as [lf2 cs2 cv2 lv2 va2 vr2 mu2].
  cbn in *. subst. split; reflexivity.
Qed.
Lemma children_splits (ts : list tree) : (forall t, In t ts -> t_leaf t = true -> t_children t = []) ->
  List.concat (map t_children ts) = List.concat (map t_children (splits ts)).
Proof.
  induction ts as [|t ts IH]; intro H; [reflexivity|]. cbn [map List.concat splits filter]. rewrite IH by (intros; apply H; [right|]; assumption).
  destruct (t_leaf t) eqn:L; cbn [negb map List.concat]; [rewrite (H t (or_introl eq_refl) L)|]; reflexivity.
Qed.
Lemma piled_leaves ts last t : piled ts last t -> (forall t, In t ts -> t_leaf t = true -> t_children t = []) -> t_leaf last = false ->
  leaves t = List.concat (map leaves (splits ts)).
Proof.
  intros (A & B & _) H L. rewrite (children_splits ts H) in B. rewrite L in A. destruct t as [lf cs cv lv va vr mu]. cbn in A, B. subst lf cs. rewrite leaves_inner.
  induction ts as [|t ts IH]; [reflexivity|]. cbn [splits filter]. destruct (t_leaf t) eqn:Lt; cbn [negb].
  - apply IH. intros; apply H; [right|]; assumption.
  - cbn [map List.concat]. rewrite map_app, concat_app. fold (splits ts). rewrite IH by (intros; apply H; [right|]; assumption). f_equal.
    destruct t as [lf cs cv2 lv2 va2 vr2 mu2]. cbn in Lt. subst lf. rewrite leaves_inner. reflexivity.
Qed.
Lemma piled_support cfg ts last t row c : piled ts last t -> (forall t, In t ts -> t_leaf t = true -> t_children t = []) -> t_leaf last = false ->
  row_support cfg t row c = pooled (f_voting cfg) (map (fun t => row_support cfg t row c) (splits ts)).
Proof.
  intros P H L. unfold row_support, tree_support, tree_max_support. rewrite (piled_leaves P H L). rewrite concat_map, map_map.
  destruct (f_voting cfg) eqn:E; [change (qsum ?l) with (pooled AggVote l)|change (fold_right qmax 0 ?l) with (pooled MaxMatch l)]; rewrite pooled_concat, map_map; reflexivity.
Qed.
Lemma get_rules_list cs1 cs2 pre th : mapM (fun c => get_rules c pre th) (cs1 ++ cs2) =
  do a <- mapM (fun c => get_rules c pre th) cs1; do b <- mapM (fun c => get_rules c pre th) cs2; Ok (a ++ b).
Proof.
  induction cs1 as [|c cs1 IH]; cbn [app mapM]; [cbn [bind]; destruct (mapM _ _); reflexivity|].
  destruct (get_rules c pre th); cbn [bind]; [|reflexivity]. rewrite IH. destruct (mapM _ cs1); cbn [bind]; [|reflexivity]. destruct (mapM _ cs2); reflexivity.
Qed.
Lemma split_rules t th rs : t_leaf t = false -> t_value t = None -> tree_rules t th = Ok rs ->
  exists ls, mapM (fun c => get_rules c [] th) (t_children t) = Ok ls /\ List.concat ls = rs.
Proof.
  destruct t as [lf cs cv lv va vr mu]. cbn [t_leaf t_value t_children]. intros -> -> H. unfold tree_rules in H. cbn [get_rules bind] in H.
  destruct (mapM _ cs) as [ls|]; cbn [bind] in H; [|discriminate]. injection H as <-. eauto.
Qed.
Lemma piled_rules ts last t th rss : piled ts last t -> (forall t, In t ts -> t_leaf t = true -> t_children t = []) ->
  (forall t, In t ts -> t_value t = None) -> t_leaf last = false ->
  Forall2 (fun t rs => tree_rules t th = Ok rs) (splits ts) rss -> tree_rules t th = Ok (List.concat rss).
Proof.
  intros (A & B & C & _) H V L F. rewrite (children_splits ts H) in B. rewrite L in A. destruct t as [lf cs cv lv va vr mu]. cbn in A, B, C. subst lf cs va.
  unfold tree_rules. cbn [get_rules bind].
  assert (G : exists ls, mapM (fun c => get_rules c [] th) (List.concat (map t_children (splits ts))) = Ok ls /\ List.concat ls = List.concat rss).
  { assert (K : forall t, In t (splits ts) -> t_leaf t = false /\ t_value t = None).
    { intros t0 Ht. apply filter_In in Ht. destruct Ht as [Ht Lt]. split; [destruct (t_leaf t0); [discriminate|reflexivity]|auto]. }
    clear - F K. induction F as [|t rs l rss E F IH]; [exists []; split; reflexivity|]. destruct IH as (ls & E1 & E2); [intros; apply K; right; assumption|].
    destruct (K t (or_introl eq_refl)) as [Lt Vt]. destruct (split_rules _ _ Lt Vt E) as (l1 & E3 & E4). exists (l1 ++ ls). cbn [map List.concat]. rewrite get_rules_list, E3, E1. cbn [bind].
    split; [reflexivity|]. rewrite concat_app, E4, E2. reflexivity. }
  destruct G as (ls & E1 & E2). rewrite E1. cbn [bind]. rewrite E2. reflexivity.
Qed.
Lemma piled_wf vars classes ts last t : piled ts last t -> (forall t, In t ts -> t_leaf t = true -> t_children t = []) ->
  (forall t, In t ts -> wf vars classes t) -> In last ts -> t_leaf last = false -> wf vars classes t.
Proof.
  intros (A & B & C & _) H W I L. rewrite L in A. destruct t as [lf cs cv lv va vr mu]. cbn in A, B, C. subst lf cs va. cbn [wf]. split; [exact Logic.I|]. split.
  - intro N. assert (Q := W last I). destruct last as [lf cs cv2 lv2 va2 vr2 mu2]. cbn in L. subst lf. cbn [wf] in Q. destruct Q as [_ [Q _]]. apply Q.
    destruct cs as [|c cs]; [reflexivity|]. exfalso. assert (K : In c (List.concat (map t_children ts))) by (apply in_concat; exists (c :: cs); split; [apply in_map_iff; eexists; split; [|exact I]; reflexivity|left; reflexivity]).
    rewrite N in K. destruct K.
  - rewrite (@fold_and _ (fun c => t_value c <> None /\ wf vars classes c)). apply Forall_forall. intros c Hc. apply in_concat in Hc. destruct Hc as (l & Hl & Hc).
    apply in_map_iff in Hl. destruct Hl as (t & <- & Ht). specialize (W t Ht). destruct (t_leaf t) eqn:Lt; [rewrite (H t Ht Lt) in Hc; destruct Hc|].
    destruct t as [lf cs cv2 lv2 va2 vr2 mu2]. cbn in Lt, Hc. subst lf. cbn [wf] in W. destruct W as [_ [_ W]].
    rewrite (@fold_and _ (fun c => t_value c <> None /\ wf vars classes c)), Forall_forall in W. auto.
Qed.

(** ** binary trees *)
Lemma btrained_children cfg psort X y t : btrained cfg psort X y t -> b_leaf t = true -> b_children t = [].
Proof.
  intros (_ & _ & h & H). unfold bt_fit in H. destruct (categorical_features _) as [cats|]; cbn [bind] in *; [|discriminate].
  destruct (_ || _); [discriminate|]. destruct (dataset_membership X (f_vars cfg)) as [XM|]; cbn [bind] in *; [|discriminate].
  unfold fuel_for in H. cbn [bfit b_mu b_children b_class b_value b_var b_ignored fresh_broot] in *.
  destruct (max_split _ _ _ _ _ _ _ _) as [[h1 best]|]; cbn [bind] in *; [|discriminate].
  destruct (stop_met _ _ _ _).
  - destruct (get_class_value _ _) as [cv|]; cbn [bind] in *; [|discriminate]. injection H as <- <-. reflexivity.
  - destruct best as [s|]; [|destruct (dget _ _); discriminate].
    destruct (ret_opt KeyError _) as [a|]; cbn [bind] in *; [|discriminate].
    destruct (ret_opt IndexError _) as [v|]; cbn [bind] in *; [|discriminate]. cbv zeta in *.
    match type of H with bind ?r _ = _ => destruct r as [hl|]; [|discriminate] end. cbn [bind] in *.
    match type of H with bind ?r _ = _ => destruct r as [hr|]; [|discriminate] end. cbn [bind] in *.
    injection H as <- <-. discriminate.
Qed.
Definition bpiled (ts : list btree) (last t : btree) : Prop :=
  b_leaf t = b_leaf last /\ b_children t = List.concat (map b_children ts) /\ b_value t = None /\ b_var t = None /\
  (b_leaf last = true -> b_class t = b_class last).
Lemma bfits_shape cfg psort : forall hist ts, balone cfg psort hist ts -> forall pre last, ts = pre ++ [last] ->
  exists t, bfits cfg psort hist fresh_broot = Ok t /\ bpiled ts last t /\ b_ignored t = [].
Proof.
  unfold balone. intro hist. induction hist as [|d hist IH] using rev_ind; intros ts A pre last E.
  - inversion A; subst. destruct pre; discriminate.
  - apply Forall2_app_inv_l in A. destruct A as (ts1 & ts2 & A1 & A2 & ->). inversion A2 as [|? tl ? ? T A3]; subst. inversion A3; subst. clear A2 A3.
    apply app_inj_tail in E. destruct E as [-> ->]. unfold bfits. rewrite foldM_app.
    assert (F := T). destruct F as (_ & _ & h & F). destruct (btrained_root T) as (U1 & U2 & U3 & U4).
    assert (P : exists root, foldM (fun t d => do ht <- bt_fit cfg psort t (fst d) (snd d); Ok (snd ht)) fresh_broot hist = Ok root /\ b_value root = None /\ b_var root = None /\ b_ignored root = [] /\ b_children root = List.concat (map b_children pre)).
    { destruct hist as [|d0 hist0] eqn:Eh.
      - inversion A1; subst. exists fresh_broot. repeat split; reflexivity.
      - rewrite <- Eh in *. assert (N : pre <> []) by (intros ->; inversion A1; congruence). destruct (exists_last N) as (pre' & l' & Ep).
        destruct (IH pre A1 pre' l' Ep) as (r & R1 & (R2 & R3 & R4 & R5 & R6) & R7). exists r. auto. }
    destruct P as (root & R1 & R2 & R3 & R4 & R5). rewrite R1. cbn [bind]. rewrite foldM_one. exists (bmerge_root root last).
    rewrite (@brefit_shape cfg psort root (fst d) (snd d) h last R2 R3 R4 F). cbn [bind snd].
    split; [reflexivity|]. split; [|exact U3]. split; [reflexivity|]. split; [cbn; rewrite R5, map_app, concat_app; cbn; rewrite app_nil_r; reflexivity|].
    split; [exact U1|]. split; [exact U2|]. intro L. cbn. rewrite L. reflexivity.
Qed.
Lemma bpiled_leaf cfg ts last t : bpiled ts last t -> b_value last = None -> b_leaf last = true ->
  (forall X, bpredict cfg t X = bpredict cfg last X) /\ (forall th simp, btree_rules t th simp = btree_rules last th simp).
Proof.
  intros (A & B & C & D & E) V L. specialize (E L). rewrite L in A. destruct t as [lf cs cv lv va vr mu ig], last as [lf2 cs2 cv2 lv2 va2 vr2 mu2 ig2].
  cbn in *. subst. split; reflexivity.
Qed.
Lemma bchildren_splits (ts : list btree) : (forall t, In t ts -> b_leaf t = true -> b_children t = []) ->
  List.concat (map b_children ts) = List.concat (map b_children (bsplits ts)).
Proof.
  induction ts as [|t ts IH]; intro H; [reflexivity|]. cbn [map List.concat bsplits filter]. rewrite IH by (intros; apply H; [right|]; assumption).
  destruct (b_leaf t) eqn:L; cbn [negb map List.concat]; [rewrite (H t (or_introl eq_refl) L)|]; reflexivity.
Qed.
Lemma bpiled_leaves ts last t : bpiled ts last t -> (forall t, In t ts -> b_leaf t = true -> b_children t = []) -> b_leaf last = false ->
  bleaves t = List.concat (map bleaves (bsplits ts)).
Proof.
  intros (A & B & _) H L. rewrite (bchildren_splits ts H) in B. rewrite L in A. destruct t as [lf cs cv lv va vr mu ig]. cbn in A, B. subst lf cs. rewrite bleaves_inner.
  induction ts as [|t ts IH]; [reflexivity|]. cbn [bsplits filter]. destruct (b_leaf t) eqn:Lt; cbn [negb].
  - apply IH. intros; apply H; [right|]; assumption.
  - cbn [map List.concat]. rewrite map_app, concat_app. fold (bsplits ts). rewrite IH by (intros; apply H; [right|]; assumption). f_equal.
    destruct t as [lf cs cv2 lv2 va2 vr2 mu2 ig2]. cbn in Lt. subst lf. rewrite bleaves_inner. reflexivity.
Qed.
Lemma bpiled_support cfg ts last t row c : bpiled ts last t -> (forall t, In t ts -> b_leaf t = true -> b_children t = []) -> b_leaf last = false ->
  brow_support cfg t row c = pooled (f_voting cfg) (map (fun t => brow_support cfg t row c) (bsplits ts)).
Proof.
  intros P H L. unfold brow_support. cbv zeta. rewrite (bpiled_leaves P H L). rewrite concat_map, map_map.
  destruct (f_voting cfg) eqn:E; [change (qsum ?l) with (pooled AggVote l)|change (fold_right qmax 0 ?l) with (pooled MaxMatch l)]; rewrite pooled_concat, map_map; reflexivity.
Qed.
Lemma get_brules_list cs1 cs2 pre th : mapM (fun c => get_brules c pre th) (cs1 ++ cs2) =
  do a <- mapM (fun c => get_brules c pre th) cs1; do b <- mapM (fun c => get_brules c pre th) cs2; Ok (a ++ b).
Proof.
  induction cs1 as [|c cs1 IH]; cbn [app mapM]; [cbn [bind]; destruct (mapM _ _); reflexivity|].
  destruct (get_brules c pre th); cbn [bind]; [|reflexivity]. rewrite IH. destruct (mapM _ cs1); cbn [bind]; [|reflexivity]. destruct (mapM _ cs2); reflexivity.
Qed.
Definition simped (simp : bool) (rs : list (rule (list string))) := if simp then map (simplify (@List.length string)) rs else rs.
Lemma bsplit_rules t th simp rs : b_leaf t = false -> b_value t = None -> btree_rules t th simp = Ok rs ->
  exists ls, mapM (fun c => get_brules c [] th) (b_children t) = Ok ls /\ simped simp (List.concat ls) = rs.
Proof.
  destruct t as [lf cs cv lv va vr mu ig]. cbn [b_leaf b_value b_children]. intros -> -> H. unfold btree_rules in H. cbn [get_brules bind] in H.
  destruct (mapM _ cs) as [ls|]; cbn [bind] in H; [|discriminate]. injection H as <-. eauto.
Qed.
Lemma simped_app simp a b : simped simp (a ++ b) = simped simp a ++ simped simp b.
Proof. destruct simp; [apply map_app|reflexivity]. Qed.
Lemma bpiled_rules ts last t th simp rss : bpiled ts last t -> (forall t, In t ts -> b_leaf t = true -> b_children t = []) ->
  (forall t, In t ts -> b_value t = None) -> b_leaf last = false ->
  Forall2 (fun t rs => btree_rules t th simp = Ok rs) (bsplits ts) rss -> btree_rules t th simp = Ok (List.concat rss).
Proof.
  intros (A & B & C & _) H V L F. rewrite (bchildren_splits ts H) in B. rewrite L in A. destruct t as [lf cs cv lv va vr mu ig]. cbn in A, B, C. subst lf cs va.
  unfold btree_rules. cbn [get_brules bind].
  assert (G : exists ls, mapM (fun c => get_brules c [] th) (List.concat (map b_children (bsplits ts))) = Ok ls /\ simped simp (List.concat ls) = List.concat rss).
  { assert (K : forall t, In t (bsplits ts) -> b_leaf t = false /\ b_value t = None).
    { intros t0 Ht. apply filter_In in Ht. destruct Ht as [Ht Lt]. split; [destruct (b_leaf t0); [discriminate|reflexivity]|auto]. }
    clear - F K. induction F as [|t rs l rss E F IH]; [exists []; split; [reflexivity|destruct simp; reflexivity]|]. destruct IH as (ls & E1 & E2); [intros; apply K; right; assumption|].
    destruct (K t (or_introl eq_refl)) as [Lt Vt]. destruct (bsplit_rules _ _ _ Lt Vt E) as (l1 & E3 & E4). exists (l1 ++ ls). cbn [map List.concat]. rewrite get_brules_list, E3, E1. cbn [bind].
    split; [reflexivity|]. rewrite concat_app, simped_app, E4, E2. reflexivity. }
  destruct G as (ls & E1 & E2). rewrite E1. cbn [bind]. fold (simped simp (List.concat ls)). rewrite E2. reflexivity.
Qed.
Lemma bpiled_wf vars classes ts last t : bpiled ts last t -> (forall t, In t ts -> b_leaf t = true -> b_children t = []) ->
  (forall t, In t ts -> bwf vars classes t) -> In last ts -> b_leaf last = false -> bwf vars classes t.
Proof.
  intros (A & B & C & _) H W I L. rewrite L in A. destruct t as [lf cs cv lv va vr mu ig]. cbn in A, B, C. subst lf cs va. cbn [bwf]. split; [exact Logic.I|]. split.
  - intro N. assert (Q := W last I). destruct last as [lf cs cv2 lv2 va2 vr2 mu2 ig2]. cbn in L. subst lf. cbn [bwf] in Q. destruct Q as [_ [Q _]]. apply Q.
    destruct cs as [|c cs]; [reflexivity|]. exfalso. assert (K : In c (List.concat (map b_children ts))) by (apply in_concat; exists (c :: cs); split; [apply in_map_iff; eexists; split; [|exact I]; reflexivity|left; reflexivity]).
    rewrite N in K. destruct K.
  - rewrite (@fold_and _ (fun c => b_value c <> None /\ bwf vars classes c)). apply Forall_forall. intros c Hc. apply in_concat in Hc. destruct Hc as (l & Hl & Hc).
    apply in_map_iff in Hl. destruct Hl as (t & <- & Ht). specialize (W t Ht). destruct (b_leaf t) eqn:Lt; [rewrite (H t Ht Lt) in Hc; destruct Hc|].
    destruct t as [lf cs cv2 lv2 va2 vr2 mu2 ig2]. cbn in Lt, Hc. subst lf. cbn [bwf] in W. destruct W as [_ [_ W]].
    rewrite (@fold_and _ (fun c => b_value c <> None /\ bwf vars classes c)), Forall_forall in W. auto.
Qed.
