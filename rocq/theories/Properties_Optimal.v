(** * C140: ID3 of full depth on its training table *)
From Verif Require Import Prelude M_Fuzzy M_Discretize M_Rule M_FDT M_ID3 S_Rule S_FDT S_Crisp P_FuzzySet P_FuzzyVar P_Entropy P_FDT P_FDT2 P_FDT3 P_FDT4 P_Crisp P_Crisp2 P_FBDT3 P_Metrics Properties_FDT Properties_Crisp S_ID3 P_ID3 P_ID3b P_ID3c Properties_ID3 Properties_ID3b S_Same P_Same P_Same2 S_Optimal P_Optimal.
From Coq Require Import Reals Lra.
Open Scope string_scope.
Open Scope list_scope.
Open Scope Qc_scope.
Local Notation eqb := Prelude.eqb.

Lemma filter_all A (b : A -> bool) l : List.length (filter b l) = List.length l -> forall a, In a l -> b a = true.
Proof.
  induction l as [|z l IH]; [intros _ a []|]. cbn [filter]. assert (Q := filter_len b l). destruct (b z) eqn:E; cbn [List.length]; intros H a [<-|Ha]; try lia; [assumption|]. apply IH; [lia|assumption].
Qed.
Lemma filter_keep A (b : A -> bool) l : (forall a, In a l -> b a = true) -> filter b l = l.
Proof. induction l as [|z l IH]; intro H; [reflexivity|]. cbn [filter]. rewrite (H z) by (left; reflexivity). f_equal. apply IH. intros a Ha. apply H. right. assumption. Qed.
(** without pruning, with as many levels as features and no minimum of examples, the score on the training table is
    the best that any classifier looking at the feature columns can have *)
Theorem C140_optimal : forall cfg cls fts root X y t, id3_trained cfg cls fts root X y t -> i_prunning cfg = false ->
  i_max_depth cfg = Z.of_nat (List.length (i_features cfg)) -> (i_min_examples cfg <= 1)%Z ->
  exists s, id3_score t X y = Ok s /\
    (forall g, qn (correct (fun x => g (firstn (List.length (i_features cfg)) x)) X y) / qn (List.length y) <= s) /\
    exists g, qn (correct (fun x => g (firstn (List.length (i_features cfg)) x)) X y) / qn (List.length y) = s.
Proof.
  intros cfg cls fts root X y t HT PR MD ME. rewrite (score_hits HT PR MD ME). eexists. split; [reflexivity|]. split.
  2:{ exists (fun k => match find (fun e : list cell * Z => eqb (firstn (List.length (i_features cfg)) (fst e)) k) (combine X y) with Some e => answer t (fst e) | None => 0%Z end).
      do 2 f_equal. unfold correct. f_equal. apply filter_ext_in. intros [x c] Hx. cbn [fst snd]. f_equal.
      destruct (find _ _) as [[x' c']|] eqn:F.
      - apply find_some in F. destruct F as [F1 F2]. apply eqb_eq in F2. cbn [fst] in *. apply (answer_columns HT MD); eauto using in_combine_l.
      - exfalso. assert (Q := find_none _ _ F _ Hx). cbn [fst] in Q. rewrite eqb_refl in Q. discriminate. }
  assert (LE : List.length X = List.length y) by apply HT. assert (NE : X <> []) by apply HT.
  assert (P : 0 < qn (List.length y)) by (apply qn_pos; rewrite <- LE; destruct X; [congruence|cbn; lia]).
  intro g. apply Qcdiv_le; [assumption|].
  match goal with |- _ <= ?a / ?b * ?b => replace (a / b * b) with a by (field; intro Q; rewrite Q in P; discriminate P) end.
  apply qn_le. apply (optimal HT PR MD ME).
Qed.
Print Assumptions C140_optimal.
(** so the table is learned without error exactly when equal rows have equal labels *)
Theorem C140_consistent : forall cfg cls fts root X y t, id3_trained cfg cls fts root X y t -> i_prunning cfg = false ->
  i_max_depth cfg = Z.of_nat (List.length (i_features cfg)) -> (i_min_examples cfg <= 1)%Z ->
  (id3_score t X y = Ok 1 <-> consistent (List.length (i_features cfg)) X y).
Proof.
  intros cfg cls fts root X y t HT PR MD ME. rewrite (score_hits HT PR MD ME).
  assert (LE : List.length X = List.length y) by apply HT. assert (NE : X <> []) by apply HT.
  assert (P : 0 < qn (List.length y)) by (apply qn_pos; rewrite <- LE; destruct X; [congruence|cbn; lia]).
  assert (LC : List.length (combine X y) = List.length y) by (rewrite combine_length; lia). split.
  - intro E. assert (E2 : qn (correct (answer t) X y) / qn (List.length y) = 1) by (apply (f_equal (fun r => match r with Ok v => v | Err _ => 0 end)) in E; exact E).
    assert (E' : qn (correct (answer t) X y) = qn (List.length y)).
    { transitivity (qn (correct (answer t) X y) / qn (List.length y) * qn (List.length y)); [field; intro Q; rewrite Q in P; discriminate P|]. rewrite E2. ring. }
    apply qn_inj in E'. rewrite <- LC in E'. assert (A := filter_all _ _ _ E').
    intros x c x' c' H H' Q. assert (B := A _ H). assert (B' := A _ H'). cbn [fst snd] in B, B'. apply Z.eqb_eq in B, B'. rewrite <- B, <- B'.
    apply (answer_columns HT MD); eauto using in_combine_l.
  - intro C. set (n := List.length (i_features cfg)) in *.
    set (g := fun k => match find (fun e : list cell * Z => eqb (firstn n (fst e)) k) (combine X y) with Some e => snd e | None => 0%Z end).
    assert (H := optimal HT PR MD ME g). fold n in H.
    assert (G : correct (fun x => g (firstn n x)) X y = List.length y).
    { unfold correct. rewrite <- LC. f_equal. apply filter_keep. intros [x c] Hx. cbn [fst snd]. apply Z.eqb_eq. unfold g.
      destruct (find _ _) as [[x' c']|] eqn:F.
      - apply find_some in F. destruct F as [F1 F2]. apply eqb_eq in F2. cbn [fst] in F2. cbn [snd]. exact (C _ _ _ _ F1 Hx F2).
      - exfalso. assert (Q := find_none _ _ F _ Hx). cbn [fst] in Q. rewrite eqb_refl in Q. discriminate. }
    assert (U : (correct (answer t) X y <= List.length y)%nat) by (rewrite <- LC; apply filter_len).
    replace (correct (answer t) X y) with (List.length y) by lia. f_equal. field. intro Q. rewrite Q in P. discriminate P.
Qed.
Print Assumptions C140_consistent.

(** ** Instance: exclusive or. ID3 learns it; the FDT stops at the root, since neither column alone has a gain *)
Definition xor_X : list (list cell) := [[CNum 0; CNum 0]; [CNum 0; CNum 1]; [CNum 1; CNum 0]; [CNum 1; CNum 1]].
Definition xor_y : list Z := [0; 1; 1; 0]%Z.
Definition xor_v (n : string) : fvar := mkV n [FD "zero" (CNum 0); FD "one" (CNum 1)].
Definition xor_cfg : fdt_cfg := mkFDT [xor_v "a"; xor_v "b"] (1 / 10000)%R 2 1 qmin AggVote.
Definition xor_id3 : id3_cfg := mkID3 ["a"; "b"] 0 2 1 false.
Definition xor_fts (erased : list string) : list string := filter (fun f => negb (memb f erased)) ["a"; "b"].
Lemma xor_table : table ["a"; "b"] xor_X xor_y.
Proof.
  split; [repeat constructor; cbn; intuition discriminate|]. split; [discriminate|]. split; [reflexivity|]. split; [discriminate|]. split.
  - intros x Hx. destruct Hx as [<-|[<-|[<-|[<-|[]]]]]; cbn; lia.
  - intros i Hi. left. intros x Hx. destruct i as [|[|i]]; [| |cbn in Hi; lia]; destruct Hx as [<-|[<-|[<-|[<-|[]]]]]; eexists; reflexivity.
Qed.
Lemma xor_orders : set_orders xor_id3 zunique xor_fts.
Proof.
  split; [|intros; apply Permutation_refl]. intro z. apply NoDup_Permutation; [apply zunique_NoDup|apply NoDup_nodup|].
  intro c. rewrite zunique_In, nodup_In. reflexivity.
Qed.
Lemma xor_consistent : consistent 2 xor_X xor_y.
Proof.
  intros x c x' c' H H' E. cbn in H, H'.
  destruct H as [H|[H|[H|[H|[]]]]]; destruct H' as [H'|[H'|[H'|[H'|[]]]]]; injection H as <- <-; injection H' as <- <-; try reflexivity; discriminate E.
Qed.
Example C140_instance : exists t, id3_trained xor_id3 zunique xor_fts new_itree xor_X xor_y t /\ id3_score t xor_X xor_y = Ok 1.
Proof.
  destruct (@C39_success xor_id3 zunique xor_fts new_itree xor_X xor_y xor_table xor_orders) as [t Ht]; [discriminate|].
  assert (T : id3_trained xor_id3 zunique xor_fts new_itree xor_X xor_y t) by (split; [exact xor_table|]; split; [exact xor_orders|exact Ht]).
  exists t. split; [assumption|]. apply (C140_consistent _ _ _ _ _ _ _ T); [reflexivity|reflexivity|reflexivity|exact xor_consistent].
Qed.
Lemma half_entropy A : class_card A xor_y 0 = class_card A xor_y 1 -> 0 < class_card A xor_y 0 -> qsum A = class_card A xor_y 0 + class_card A xor_y 1 -> fuzzy_entropy A xor_y = 1%R.
Proof.
  intros E P S. unfold fuzzy_entropy. change (zunique xor_y) with [0; 1]%Z. unfold rsum. cbn [map fold_right]. unfold entropy_term. cbv zeta.
  rewrite S, <- E. assert (P' := P). apply qltb_lt in P'. rewrite P'. set (m := class_card A xor_y 0) in *.
  assert (N : m <> 0) by (intro Q; rewrite Q in P; discriminate P).
  assert (H : qr (m / (m + m)) = (/ 2)%R).
  { assert (MM : m + m <> 0) by (intro Q; assert (m = 0) by qlra; contradiction).
    replace (m / (m + m)) with (1 / (1 + 1)) by (field; repeat split; try assumption; discriminate). rewrite qr_div by discriminate. rewrite qr_plus, !qr_1. field. }
  rewrite H, log2_half. lra.
Qed.
Lemma xor_gain a : (a < 2)%nat -> info_gain (f_vars xor_cfg) xor_X xor_y [] a = 0%R.
Proof.
  intro Ha. unfold info_gain.
  assert (S2 : seq 0 (match nth_error (f_vars xor_cfg) a with Some v => List.length (fv_sets v) | None => 0%nat end) = [0; 1]%nat) by (destruct a as [|[|a]]; [reflexivity|reflexivity|lia]).
  rewrite S2. cbn [map app]. unfold mass.
  assert (A0 : acts (f_vars xor_cfg) xor_X [] = [1; 1; 1; 1]) by reflexivity.
  assert (E0 : fuzzy_entropy [1; 1; 1; 1] xor_y = 1%R) by (apply half_entropy; qex).
  assert (G : forall i, (i < 2)%nat -> qsum (acts (f_vars xor_cfg) xor_X [(a, i)]) = 1 + 1 /\ fuzzy_entropy (acts (f_vars xor_cfg) xor_X [(a, i)]) xor_y = 1%R).
  { intros i Hi. destruct a as [|[|a]]; [| |lia]; destruct i as [|[|i]]; try lia; (split; [qex|apply half_entropy; qex]). }
  rewrite A0, E0. destruct (G 0%nat ltac:(lia)) as [-> ->]. destruct (G 1%nat ltac:(lia)) as [-> ->].
  rewrite !qsum_cons, qsum_nil. unfold rsum. cbn [fold_right]. rewrite !qr_plus, !qr_1, qr_0. field.
Qed.
Theorem C139_stopping_differs : exists cfg ord icfg cls fts X y t it,
  trained cfg ord X y t /\ id3_trained icfg cls fts new_itree X y it /\ i_prunning icfg = false /\ (forall z, cls z = zunique z) /\
  f_tnorm cfg = qmin /\ column_variables X (f_vars cfg) /\ List.length (i_features icfg) = List.length (f_vars cfg) /\
  i_max_depth icfg = f_max_depth cfg /\ f_max_depth cfg = Z.of_nat (List.length (f_vars cfg)) /\ i_min_examples icfg = f_min_examples cfg /\
  id3_score it X y = Ok 1 /\ fdt_score cfg t X y = Ok (1 / (1 + 1)).
Proof.
  destruct C140_instance as (it & HI & SI).
  assert (Ho : forall p s, Permutation (same_order p s) s) by (intros; apply Permutation_refl).
  assert (DN : distinct_names (f_vars xor_cfg)).
  { split; [repeat constructor; cbn; intuition discriminate|]. intros v [<-|[<-|[]]]; repeat constructor; cbn; intuition discriminate. }
  assert (CV : column_variables xor_X (f_vars xor_cfg)).
  { intros a v Hv. exists [("zero", CNum 0); ("one", CNum 1)].
    assert (EV : fv_sets v = [FD "zero" (CNum 0); FD "one" (CNum 1)]) by (destruct a as [|[|a]]; [injection Hv as <-; reflexivity|injection Hv as <-; reflexivity|destruct a; discriminate]).
    split; [exact EV|]. split; [repeat constructor; cbn; intuition discriminate|]. intro x. cbn [map snd In]. destruct a as [|[|a]]; [| |destruct a; discriminate].
    - split; [intros [<-|[<-|[]]]; [exists [CNum 0; CNum 0]|exists [CNum 1; CNum 0]]; (split; [cbn; tauto|reflexivity])|].
      intros [r [Hr Hx]]. destruct Hr as [<-|[<-|[<-|[<-|[]]]]]; injection Hx as <-; tauto.
    - split; [intros [<-|[<-|[]]]; [exists [CNum 0; CNum 0]|exists [CNum 0; CNum 1]]; (split; [cbn; tauto|reflexivity])|].
      intros [r [Hr Hx]]. destruct Hr as [<-|[<-|[<-|[<-|[]]]]]; injection Hx as <-; tauto. }
  assert (W : wide (f_vars xor_cfg) xor_X) by (intros x Hx; destruct Hx as [<-|[<-|[<-|[<-|[]]]]]; cbn; lia).
  assert (CX : forall r, In r xor_X -> crisp (f_vars xor_cfg) r) by (intros r Hr; apply (@training_crisp _ xor_X xor_y CV W eq_refl r Hr)).
  assert (RX : forall r, In r xor_X -> readable (f_vars xor_cfg) [r]).
  { intros r Hr. apply (@column_known _ xor_X CV). intros a La. destruct (nth_error r a) as [v|] eqn:E; [exists v; split; [reflexivity|exists r; auto]|].
    apply nth_error_None in E. assert (Q := W r Hr). lia. }
  assert (R : readable (f_vars xor_cfg) xor_X) by (intros r Hr; apply (RX r Hr); left; reflexivity).
  assert (Th : (0 < f_threshold xor_cfg)%R) by (cbn; lra).
  destruct (@C25_training_total xor_cfg same_order xor_X xor_y fresh_root Ho DN eq_refl ltac:(discriminate) R W Th) as [t Ht].
  assert (T : trained xor_cfg same_order xor_X xor_y t) by (split; [assumption|]; split; [assumption|]; split; [left; assumption|assumption]).
  assert (L : t_leaf t = true).
  { destruct (t_leaf t) eqn:L; [reflexivity|exfalso]. destruct (C30_gain_optimal_choice _ _ _ _ _ _ _ T (at_self t) L) as (a & v & Hv & _ & [La _] & G0 & _).
    rewrite xor_gain in G0 by (cbn in La; lia). lra. }
  exists xor_cfg, same_order, xor_id3, zunique, xor_fts, xor_X, xor_y, t, it.
  split; [assumption|]. split; [assumption|]. split; [reflexivity|]. split; [reflexivity|]. split; [reflexivity|]. split; [assumption|].
  split; [reflexivity|]. split; [reflexivity|]. split; [reflexivity|]. split; [reflexivity|]. split; [assumption|].
  assert (N : crisp_norm qmin) by (repeat split; qex).
  assert (Hs : forall v, In v (f_vars xor_cfg) -> fv_sets v <> []) by (intros v [<-|[<-|[]]]; discriminate).
  destruct (@C27_predict_maximal_vote xor_cfg same_order xor_X xor_y t xor_X T Hs R) as (ps & EP & FP).
  assert (A : forall r c, In r xor_X -> best_class (zunique xor_y) (row_support xor_cfg t r) c -> c = 0%Z).
  { intros r c Hr Hc. destruct (C137_majority _ _ _ _ _ _ T N CX (CX r Hr) (RX r Hr)) as (p & n & q & c' & Hin & _ & _ & Q & Ep & B).
    assert (Ep' : p = []). { destruct t as [lf ch a b c0 d e]. cbn in L. subst lf. cbn [leaves In] in Hin. destruct Hin as [Hin|[]]. congruence. }
    subst p. destruct Q as [->|[_ [l Q]]]; [|destruct q; discriminate].
    assert (c' = 0%Z). { apply (best_class_fun B). split; [vm_compute; auto|]. intros k Hk. vm_compute in Hk. destruct Hk as [<-|[<-|[]]]; (split; [vm_compute; discriminate|lia]). }
    subst c'. destruct (@C27_predict_maximal_vote xor_cfg same_order xor_X xor_y t [r] T Hs (RX r Hr)) as (ps' & EP' & FP').
    assert (ps' = [0]%Z) by congruence. subst ps'. inversion FP' as [|? ? ? ? B' _]; subst. exact (best_class_fun Hc B'). }
  assert (Eps : ps = [0; 0; 0; 0]%Z).
  { unfold xor_X in FP at 1. inversion FP as [|? c1 ? ? B1 F1]; subst. inversion F1 as [|? c2 ? ? B2 F2]; subst. inversion F2 as [|? c3 ? ? B3 F3]; subst. inversion F3 as [|? c4 ? ? B4 F4]; subst. inversion F4; subst.
    apply A in B1, B2, B3, B4; try (cbn; tauto). subst. reflexivity. }
  unfold fdt_score. rewrite EP, Eps. qex.
Qed.
Print Assumptions C139_stopping_differs.
(** ... and so it is without pruning (or with a threshold that is not positive), when the tree has at most as many levels as features *)
Theorem C36_known_rows_classified_shallow : forall cfg cls fts root X y t x, id3_trained cfg cls fts root X y t ->
  (i_max_depth cfg <= Z.of_nat (List.length (i_features cfg)))%Z -> known cfg X x ->
  exists c, id3_tree_predict t x = Ok (Some c) /\ In c y.
Proof.
  intros cfg cls fts root X y t x HT ML K. set (n := List.length (i_features cfg)) in *.
  assert (G : forall m p nd, (n <= m + List.length p)%nat -> inode_at t p nd -> on_path p x = true ->
    exists p' nd', inode_at t p' nd' /\ on_path p' x = true /\ i_leaf nd' = true).
  { induction m as [|m IH]; intros p nd Lm H O; (destruct (i_leaf nd) eqn:L; [exists p, nd; auto|]).
    - destruct (inner_some HT H L ML) as (i & _ & D). unfold n in *. lia.
    - destruct (inner_some HT H L ML) as (i & V & D). destruct (C78_inner_nodes _ _ _ _ _ _ _ _ _ _ HT H L V) as (_ & _ & _ & _ & _ & _ & Ex & _).
      destruct (inner_var HT H L V) as (Li & _). destruct (K i Li) as (v & Hv & Ov). destruct (proj1 (Ex v) Ov) as [ch Hch].
      apply (IH (p ++ [(i, v)]) ch); [rewrite app_length; cbn; lia|assumption|].
      unfold on_path in *. rewrite forallb_app, O. cbn [forallb fst snd]. unfold has_value. rewrite Hv, eqb_refl. reflexivity. }
  destruct (G n [] t) as (p & nd & H & O & L); [cbn; lia|constructor|reflexivity|].
  exists (i_class nd). assert (E : id3_tree_predict t x = Ok (Some (i_class nd))) by (rewrite (predict_path HT x H O); apply predict_leaf; assumption).
  split; [assumption|]. exact (C36_only_training_labels _ _ _ _ _ _ _ _ _ HT E).
Qed.
Print Assumptions C36_known_rows_classified_shallow.
