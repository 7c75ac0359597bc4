(** * Property C130: when FBDTExplainer.fit succeeds *)
From Verif Require Import Prelude M_Fuzzy M_Discretize M_Rule S_Rule P_Rule M_FDT S_FDT P_FDT P_FDT2 P_FDT3 P_FDT4 M_FBDT M_ID3 M_Metrics M_Factual S_Factual P_Factual
  M_Counterfactual S_Counterfactual P_Counterfactual M_Explainer S_Explainer P_Explainer S_FBDT S_FBDT2 S_FBDTPrivate P_FBDT P_FBDT2 P_FBDT3 P_FBDT4 P_FBDT5 P_FBDT6
  Properties_FDT Properties_FBDT Properties_FBDT2 Properties_FBDT3 Properties_Factual Properties_Counterfactual Properties_Explainer S_Success P_Success Properties_Success.
From Coq Require Import Reals Lra.
Open Scope string_scope.
Open Scope list_scope.
Open Scope Qc_scope.
Local Notation eqb := Prelude.eqb.

(** ** the rules of a binary tree *)
Lemma bleaf_rule_form vars classes t r : NoDup classes -> bwf vars classes t -> In r (List.concat (map (bleaf_rules vars [] 0) (bleaves t))) ->
  exists p n, In (p, n) (bleaves t) /\ In (r_cons r) classes /\ r_weight r = bleaf_weight n (r_cons r) /\ 0 < r_weight r /\ r = mkR (map (glit_name vars) p) (r_cons r) (r_weight r).
Proof.
  intros ND W I. apply in_concat in I. destruct I as (l & Hl & Hr). apply in_map_iff in Hl. destruct Hl as ([p n] & <- & Hin). destruct (@bwf_leaves _ _ _ W _ _ Hin) as ((d & Ed & K & _) & _).
  unfold bleaf_rules in Hr. cbn [fst snd app] in Hr. rewrite Ed in Hr. apply in_map_iff in Hr. destruct Hr as ([c w] & <- & Hr). apply filter_In in Hr. destruct Hr as [Hr Hw]. cbn [fst snd r_cons r_weight] in *.
  rewrite qltb_lt in Hw. exists p, n. split; [assumption|]. split; [rewrite <- K; exact (in_map fst _ _ Hr)|]. split; [|split; [assumption|reflexivity]].
  unfold bleaf_weight. rewrite Ed. rewrite (@dget_nodup Z Qc _ c w d); [reflexivity|unfold dkeys; rewrite K; assumption|assumption].
Qed.
Lemma bleaf_rule_in vars classes t p n c : NoDup classes -> bwf vars classes t -> In (p, n) (bleaves t) -> 0 < bleaf_weight n c ->
  In (mkR (map (glit_name vars) p) c (bleaf_weight n c)) (List.concat (map (bleaf_rules vars [] 0) (bleaves t))).
Proof.
  intros ND W I P. apply in_concat. exists (bleaf_rules vars [] 0 (p, n)). split; [exact (in_map _ _ _ I)|]. destruct (@bwf_leaves _ _ _ W _ _ I) as ((d & Ed & K & _) & _).
  unfold bleaf_rules. cbn [fst snd app]. rewrite Ed. apply in_map_iff. exists (c, bleaf_weight n c). split; [reflexivity|]. apply filter_In. cbn [snd]. split; [|apply qltb_lt; assumption].
  unfold bleaf_weight in *. rewrite Ed in *. destruct (dget c d) as [w|] eqn:E; [apply dget_In; assumption|exfalso; qlra].
Qed.
Lemma bmatching_ok vars row m p c w : row_membership vars row m -> p <> [] -> glits_ok vars p ->
  exists x, matching_multi m (mkR (map (glit_name vars) p) c w) = Ok x /\ bactivation qmin vars row p <= x.
Proof.
  intros R N H. unfold matching_multi, matching_multi_tn. cbn [r_ant].
  assert (M : mapM (fun fv => sum_degrees m (fst fv) (snd fv)) (map (glit_name vars) p) = Ok (map (side_degree vars row) p)).
  { clear N. induction p as [|[a g] p IH]; [reflexivity|]. cbn [map mapM]. destruct (H a g (or_introl eq_refl)) as (v & Hv & _ & _ & Hs).
    unfold glit_name at 1 2. cbn [fst snd]. rewrite Hv. cbn [fst snd].
    rewrite (proj2 (sum_degrees_iff m (fv_name v) (map (set_name v) g) _) (@group_side vars row m a v g R Hv Hs)). cbn [bind].
    rewrite IH by (intros a' g' I; apply H; right; assumption). reflexivity. }
  rewrite M. cbn [bind]. destruct (@qminimum_ok (map (side_degree vars row) p)) as [x E]; [destruct p; [congruence|discriminate]|].
  rewrite E. cbn. exists x. split; [reflexivity|]. apply qminimum_spec in E. destruct E as [E1 _]. apply in_map_iff in E1. destruct E1 as (l & <- & I). unfold bactivation.
  assert (G : forall p z, In l p -> fold_left (fun acc l => qmin acc (side_degree vars row l)) p z <= side_degree vars row l).
  { clear. assert (G0 : forall p z, fold_left (fun acc l => qmin acc (side_degree vars row l)) p z <= z).
    { induction p as [|k p IH]; intro z; [apply Qcle_refl|]. cbn [fold_left]. eapply Qcle_trans; [apply IH|apply qmin_l]. }
    induction p as [|k p IH]; intros z [].
    - subst k. cbn [fold_left]. eapply Qcle_trans; [apply G0|apply qmin_r].
    - cbn [fold_left]. apply IH. assumption. }
  apply G. assumption.
Qed.

(** ** rows covered by the sets of every variable *)
Lemma bnode_extend t p n c l : bnode_at t p n -> b_leaf n = false -> In c (b_children n) -> b_value c = Some l -> bnode_at t (p ++ [l]) c.
Proof.
  intro H. induction H as [t|t c' l' p n L I V H IH]; intros Ln Ic Vc; cbn [app].
  - eapply bat_child; try eassumption. constructor.
  - eapply bat_child; eauto.
Qed.
Lemma available_snoc vars p b g a i : In i (available vars (p ++ [(b, g)]) a) <-> In i (available vars p a) /\ (b = a -> In i g).
Proof.
  unfold available. rewrite !filter_In, forallb_app. cbn [forallb fst snd]. rewrite andb_true_r, andb_true_iff, orb_true_iff, negb_true_iff, Nat.eqb_neq. split.
  - intros (A & B & C). split; [auto|]. intros ->. destruct C as [C|C]; [congruence|]. apply (proj1 (@memb_In _ _ i g)). assumption.
  - intros ((A & B) & C). split; [assumption|]. split; [assumption|]. destruct (Nat.eq_dec b a) as [E|E]; [right; apply (proj2 (@memb_In _ _ i g)); auto|left; assumption].
Qed.
(** going down to a leaf along sets with degree at least [d]; [Inv] is kept on the way *)
Lemma descend cfg psort X y t row d (Inv : list glit -> btree -> Prop) : btrained cfg psort X y t -> covered (f_vars cfg) row d ->
  (forall p n a g1 g2 c1 c2 i, bnode_at t p n -> b_leaf n = false -> b_children n = [c1; c2] -> b_value c1 = Some (a, g1) -> b_value c2 = Some (a, g2) -> d <= lit_degree (f_vars cfg) row (a, i) -> Inv p n ->
     (In i g1 -> Inv (p ++ [(a, g1)]) c1) /\ (In i g2 -> Inv (p ++ [(a, g2)]) c2)) ->
  Inv [] t -> exists p n, bnode_at t p n /\ b_leaf n = true /\ Inv p n.
Proof.
  intros T CV STEP I0.
  assert (G : forall n p, bnode_at t p n -> Inv p n -> (forall a v, nth_error (f_vars cfg) a = Some v -> exists i, In i (available (f_vars cfg) p a) /\ d <= lit_degree (f_vars cfg) row (a, i)) ->
    exists p' n', bnode_at t p' n' /\ b_leaf n' = true /\ Inv p' n').
  { induction n as [lf cs cv lv va vr mu ig IH] using btree_ind'. intros p H J C. destruct lf; [exists p; eexists; split; [exact H|]; split; [reflexivity|exact J]|].
    destruct (C31_split cfg psort X y t p _ T H eq_refl) as (a & v & g1 & g2 & Hv & VS & _ & _ & _ & PM & _). cbn [b_children] in VS. destruct cs as [|c1 [|c2 [|c3 cs]]]; try discriminate. cbn [map] in VS. injection VS as V1 V2.
    destruct (C a v Hv) as (i & Ii & Di). destruct (STEP p _ a g1 g2 c1 c2 i H eq_refl eq_refl V1 V2 Di J) as [S1 S2]. rewrite Forall_forall in IH.
    apply (Permutation_in _ (Permutation_sym PM)) in Ii. apply in_app_or in Ii.
    assert (NX : forall g, In i g -> incl g (available (f_vars cfg) p a) -> forall b w, nth_error (f_vars cfg) b = Some w -> exists k, In k (available (f_vars cfg) (p ++ [(a, g)]) b) /\ d <= lit_degree (f_vars cfg) row (b, k)).
    { intros g Ig Sg b w Hw. destruct (Nat.eq_dec a b) as [<-|N].
      - exists i. split; [|assumption]. apply available_snoc. auto.
      - destruct (C b w Hw) as (k & Ik & Dk). exists k. split; [|assumption]. apply available_snoc. split; [assumption|congruence]. }
    assert (IN : forall k, In k g1 \/ In k g2 -> In k (available (f_vars cfg) p a)) by (intros k K; apply (Permutation_in _ PM); apply in_or_app; assumption).
    destruct Ii as [Ii|Ii].
    - apply (IH c1 (or_introl eq_refl) (p ++ [(a, g1)])); [eapply bnode_extend; [exact H|reflexivity|left; reflexivity|assumption]|auto|apply NX; [assumption|intros k K; auto]].
    - apply (IH c2 (or_intror (or_introl eq_refl)) (p ++ [(a, g2)])); [eapply bnode_extend; [exact H|reflexivity|right; left; reflexivity|assumption]|auto|apply NX; [assumption|intros k K; auto]]. }
  apply (G t [] (bat_self t) I0). intros a v Hv. destruct (CV a v Hv) as (i & s & Hs & D). exists i. split; [|assumption]. unfold available. apply filter_In. split; [|reflexivity].
  unfold nsets. rewrite Hv. apply in_seq. assert (i < List.length (fv_sets v))%nat by (apply nth_error_Some; congruence). lia.
Qed.
Lemma side_ge vars row a g i : In i g -> lit_degree vars row (a, i) <= side_degree vars row (a, g).
Proof.
  intro I. eapply Qcle_trans; [|apply (side_degree_sub vars row a [i] g)].
  - unfold side_degree. cbn [fst snd map]. rewrite qsum_cons, qsum_nil. apply Qcle_refl || qlra.
  - repeat constructor. intros [].
  - intros k [<-|[]]. assumption.
Qed.
Lemma bactivation_snoc tn vars row p l : bactivation tn vars row (p ++ [l]) = tn (bactivation tn vars row p) (side_degree vars row l).
Proof. unfold bactivation. rewrite fold_left_app. reflexivity. Qed.
Lemma bcovered_leaf cfg psort X y t row d : btrained cfg psort X y t -> covered (f_vars cfg) row d -> d <= 1 ->
  exists p n, In (p, n) (bleaves t) /\ d <= bactivation qmin (f_vars cfg) row p.
Proof.
  intros T CV D1. destruct (descend cfg psort X y t row d (fun p _ => d <= bactivation qmin (f_vars cfg) row p) T CV) as (p & n & H & L & A).
  - intros p n a g1 g2 c1 c2 i _ _ _ _ _ D A. split; intro I; rewrite bactivation_snoc; (apply qmin_glb; [assumption|]); (eapply Qcle_trans; [exact D|apply side_ge; assumption]).
  - exact D1.
  - exists p, n. split; [|assumption]. apply (C33_leaves_are_leaf_nodes cfg psort X y t p n T). auto.
Qed.
(** a training row with positive degree in some set of every variable keeps a positive membership down to some leaf *)
Lemma root_mu cfg psort X y t : btrained cfg psort X y t -> b_mu t = repeat 1 (List.length y).
Proof.
  intro T. destruct (trained_vfitted T) as (cats & HC & F). destruct F as (_ & _ & _ & _ & fuel & H). destruct (@vfit_mu cfg psort X y cats fuel _ _ _ _ H) as (M & _). destruct (erase_fields t) as (EM & _). rewrite <- EM, M. reflexivity.
Qed.
Lemma qmin_pos a b : 0 < a -> 0 < b -> 0 < qmin a b.
Proof. unfold qmin. destruct (qltb b a); auto. Qed.
Lemma qmax_ge_l a b : a <= qmax a b.
Proof. unfold qmax. destruct (qltb_spec a b); [|apply Qcle_refl]. apply Qclt_le_weak. assumption. Qed.
Definition nonneg (l : list Qc) : Prop := Forall (fun x => 0 <= x) l.
Lemma map2_nonneg (f : Qc -> Qc -> Qc) l m : (forall a b, In a l -> In b m -> 0 <= f a b) -> nonneg (map2 f l m).
Proof.
  revert m. induction l as [|a l IH]; intros [|b m] H; cbn [map2]; constructor.
  - apply H; left; reflexivity.
  - apply IH. intros; apply H; right; assumption.
Qed.
Lemma nonneg_in l x : nonneg l -> In x l -> 0 <= x.
Proof. unfold nonneg. rewrite Forall_forall. auto. Qed.
Lemma side_nonneg vars row l : 0 <= side_degree vars row l.
Proof. apply qsum_nonneg. apply Forall_forall. intros x Hx. apply in_map_iff in Hx. destruct Hx as [j [<- _]]. apply lit_degree_01. Qed.
Lemma degrees_nonneg vars X a g : nonneg (degrees vars X a g).
Proof. apply Forall_forall. intros x Hx. apply in_map_iff in Hx. destruct Hx as (row & <- & _). apply side_nonneg. Qed.
Lemma max_nonneg l m : nonneg l -> nonneg (map2 qmax l m).
Proof. intro N. apply map2_nonneg. intros a b Ia _. eapply Qcle_trans; [exact (nonneg_in _ _ N Ia)|apply qmax_ge_l]. Qed.
Lemma min_nonneg l m : nonneg l -> nonneg m -> nonneg (map2 qmin l m).
Proof. intros N M. apply map2_nonneg. intros a b Ia Ib. apply qmin_glb; [exact (nonneg_in _ _ N Ia)|exact (nonneg_in _ _ M Ib)]. Qed.
Lemma children_nonneg cfg psort X y t p n c : btrained cfg psort X y t -> bnode_at t p n -> b_leaf n = false -> In c (b_children n) -> nonneg (b_mu n) -> nonneg (b_mu c).
Proof.
  intros T N Lf Ic NN. destruct (trained_vfitted T) as (cats & HC & F). assert (Lm' : b_leaf (erase n) = false) by (rewrite erase_leaf; assumption).
  destruct (@vnodes cfg psort X y cats HC (erase t) p (erase n) (erase_node N) [] (broot y) [] F eq_refl Lm') as (_ & _ & a & v & g1 & g2 & c1 & c2 & _ & Ch & _ & _ & SH & _). cbn [app] in *.
  destruct (erase_fields n) as (EM & EC & _). rewrite EM in *. rewrite EC in Ch. destruct (b_children n) as [|d1 [|d2 [|d3 ds]]]; try discriminate. cbn [map] in Ch. injection Ch as <- <-.
  destruct (erase_fields d1) as (M1 & _). destruct (erase_fields d2) as (M2 & _). rewrite M1, M2 in SH. apply (@shares_divided cfg psort X y cats HC) in SH. destruct SH as [S1 S2].
  destruct (in_dec Nat.eq_dec a (map fst p)) as [IP|IP].
  - destruct (S2 IP) as (A & _ & _ & E1 & E2). destruct Ic as [<-|[<-|[]]]; [rewrite E1|rewrite E2]; (apply min_nonneg; [assumption|]); apply max_nonneg, degrees_nonneg.
  - destruct (S1 IP) as (E1 & E2). destruct Ic as [<-|[<-|[]]]; [rewrite E1|rewrite E2]; (apply min_nonneg; [assumption|apply degrees_nonneg]).
Qed.
Lemma reaches_leaf cfg psort X y t j row d : btrained cfg psort X y t -> nth_error X j = Some row -> covered (f_vars cfg) row d -> 0 < d ->
  exists p n, bnode_at t p n /\ b_leaf n = true /\ 0 < nth j (b_mu n) 0 /\ nonneg (b_mu n).
Proof.
  intros T HX CV PD. assert (LXY : List.length X = List.length y) by (destruct (btrained_fitted T) as (cats & (_ & _ & L & _) & _); exact L).
  apply (descend cfg psort X y t row d (fun _ n => 0 < nth j (b_mu n) 0 /\ nonneg (b_mu n)) T CV).
  - intros p n a g1 g2 c1 c2 i H L Ch V1 V2 D (P & NN).
    assert (N1 : nonneg (b_mu c1)) by (apply (children_nonneg cfg psort X y t p n c1 T H L); [rewrite Ch; left; reflexivity|assumption]).
    assert (N2 : nonneg (b_mu c2)) by (apply (children_nonneg cfg psort X y t p n c2 T H L); [rewrite Ch; right; left; reflexivity|assumption]).
    assert (G : (In i g1 -> 0 < nth j (b_mu c1) 0) /\ (In i g2 -> 0 < nth j (b_mu c2) 0)); [|tauto]. destruct (in_dec Nat.eq_dec a (map fst p)) as [IP|IP].
    + destruct (C34_reuse_marks_before_the_right_side cfg psort X y t p n T H L) as (a' & g1' & g2' & c1' & c2' & Ch' & V1' & V2' & Q). rewrite Ch in Ch'. injection Ch' as <- <-. rewrite V1 in V1'. injection V1' as <- <-. rewrite V2 in V2'. injection V2' as <-.
      destruct (Q IP) as (A & QA). destruct (QA j row HX) as (_ & Q1 & Q2 & Q3). clear QA Q. split; intro I.
      * rewrite Q1. apply qmin_pos; [assumption|]. eapply Qclt_le_trans; [exact PD|]. eapply Qcle_trans; [exact D|]. eapply Qcle_trans; [apply side_ge; exact I|apply qmax_ge_l].
      * assert (R0 : 0 < qmin (nth j (b_mu n) 0) (qmax (side_degree (f_vars cfg) row (a, g2)) (nth j A 0))).
        { apply qmin_pos; [assumption|]. eapply Qclt_le_trans; [exact PD|]. eapply Qcle_trans; [exact D|]. eapply Qcle_trans; [apply side_ge; exact I|apply qmax_ge_l]. }
        destruct (qltb 0 (qmax (side_degree (f_vars cfg) row (a, g1)) (nth j A 0))) eqn:K0; [destruct (qltb (qmax (side_degree (f_vars cfg) row (a, g1)) (nth j A 0)) 1) eqn:K1|].
        -- rewrite qltb_lt in K0. rewrite qltb_lt in K1. rewrite Q2 by assumption. assumption.
        -- rewrite qltb_ge in K1. rewrite Q3; [exact R0|]. intros [_ W]. exact (Qclt_not_le _ _ W K1).
        -- rewrite qltb_ge in K0. rewrite Q3; [exact R0|]. intros [W _]. exact (Qclt_not_le _ _ W K0).
    + destruct (C34_first_use_shares_exactly cfg psort X y t p n T H L) as (a' & g1' & g2' & c1' & c2' & Ch' & V1' & V2' & Q). rewrite Ch in Ch'. injection Ch' as <- <-. rewrite V1 in V1'. injection V1' as <- <-. rewrite V2 in V2'. injection V2' as <-.
      destruct (Q IP j row HX) as [Q1 Q2]. split; intro I; [rewrite Q1|rewrite Q2]; (apply qmin_pos; [assumption|]); (eapply Qclt_le_trans; [exact PD|]); (eapply Qcle_trans; [exact D|apply side_ge; exact I]).
  - rewrite (root_mu cfg psort X y t T). assert (j < List.length y)%nat by (rewrite <- LXY; apply nth_error_Some; congruence). split.
    + rewrite (nth_indep _ 0 1) by (rewrite repeat_length; assumption). rewrite nth_repeat. reflexivity.
    + apply Forall_forall. intros x Ix. apply repeat_spec in Ix. subst x. discriminate.
Qed.
(** If every training row belongs to some set of every variable, every class has a rule. *)
Theorem C130_every_class_has_a_rule : forall cfg psort X y t rules, btrained cfg psort X y t -> btree_rules t 0 false = Ok rules ->
  (forall row, In row X -> exists d, 0 < d /\ covered (f_vars cfg) row d) ->
  forall c, In c y -> exists r, In r rules /\ r_cons r = c.
Proof.
  intros cfg psort X y t rules T TR CV c I. destruct (btrained_wf _ _ _ _ _ T) as [W V]. assert (LXY : List.length X = List.length y) by (destruct (btrained_fitted T) as (cats & (_ & _ & L & _) & _); exact L).
  rewrite (@btree_rules_spec _ _ 0 false t W V), map_id in TR. injection TR as <-. apply In_nth_error in I. destruct I as [j Hj].
  destruct (nth_error X j) as [row|] eqn:HX. 2:{ apply nth_error_None in HX. assert (j < List.length y)%nat by (apply nth_error_Some; congruence). lia. }
  destruct (CV row (nth_error_In _ _ HX)) as (d & Pd & Cd). destruct (reaches_leaf cfg psort X y t j row d T HX Cd Pd) as (p & n & Hn & Ln & Pn & NN).
  assert (Lj : (j < List.length (b_mu n))%nat). { destruct (Nat.lt_ge_cases j (List.length (b_mu n))) as [|G]; [assumption|]. rewrite nth_overflow in Pn by assumption. exfalso. qlra. }
  assert (SP : 0 < qsum (b_mu n)) by (apply (qsum_pos _ (nth j (b_mu n) 0)); [intros z Iz; exact (nonneg_in _ _ NN Iz)|apply nth_In; assumption|assumption]).
  assert (WB : exists cv, b_class n = Some cv /\ weighted_by y (b_mu n) cv).
  { destruct (trained_vfitted T) as (cats & HC & F). assert (Lm' : b_leaf (erase n) = true) by (rewrite erase_leaf; assumption). destruct (erase_fields n) as (EM & _ & ECl & _).
    destruct (@vleaves cfg psort X y cats HC (erase t) p (erase n) (erase_node Hn) [] (broot y) [] F eq_refl Lm') as [(_ & _ & (cv & GV & CV') & _)|(Z & _)].
    - rewrite EM, ECl in *. exists cv. split; [assumption|apply weighted_value; assumption].
    - rewrite EM in Z. rewrite Z in SP. exfalso. qlra. }
  destruct WB as (cv & Ec & Kc & Wc).
  assert (CM : 0 < qsum (map2 (fun m k => if Z.eqb k c then m else 0) (b_mu n) y)).
  { apply (qsum_pos _ (nth j (b_mu n) 0)); [| |assumption].
    - intros z Iz. assert (Q : nonneg (map2 (fun m k => if Z.eqb k c then m else 0) (b_mu n) y)); [|exact (nonneg_in _ _ Q Iz)]. clear - NN. revert y. induction NN as [|m mu P NN IH]; intros [|k y]; cbn [map2]; constructor; [destruct (Z.eqb k c); [assumption|apply Qcle_refl]|apply IH].
    - clear - Lj Hj. revert y Hj Lj. revert j. induction (b_mu n) as [|m mu IH]; intros [|j] [|k y] Hj Lj; cbn in Lj; try lia; try discriminate; cbn in Hj.
      + injection Hj as ->. cbn. rewrite Z.eqb_refl. left. reflexivity.
      + cbn [map2 nth]. right. apply IH; [assumption|lia]. }
  assert (LW : 0 < bleaf_weight n c).
  { unfold bleaf_weight. rewrite Ec. destruct (@dget_ex _ _ _ c cv) as [w Ew]; [unfold dkeys; rewrite Kc; apply zunique_In; exact (nth_error_In _ _ Hj)|]. rewrite Ew. rewrite (Wc c w (dget_In _ _ Ew)).
    apply Qclt_div; [assumption|]. rewrite Qcmult_0_l. assumption. }
  exists (mkR (map (glit_name (f_vars cfg)) p) c (bleaf_weight n c)). split; [|reflexivity]. apply (@bleaf_rule_in (f_vars cfg) (zunique y)); [apply zunique_NoDup|exact W| |assumption].
  apply (C33_leaves_are_leaf_nodes cfg psort X y t p n T). auto.
Qed.
Print Assumptions C130_every_class_has_a_rule.

Lemma bleaf_weight_01 vars classes t p n c : bwf vars classes t -> In (p, n) (bleaves t) -> 0 <= bleaf_weight n c /\ bleaf_weight n c <= 1.
Proof.
  intros W I. destruct (@bwf_leaves _ _ _ W _ _ I) as ((d & Ed & _ & B & _) & _). unfold bleaf_weight. rewrite Ed. destruct (dget c d) as [w|] eqn:E; [exact (B c w (dget_In _ _ E))|]. split; discriminate.
Qed.
Lemma bleaf_total vars classes t p n : NoDup classes -> bwf vars classes t -> In (p, n) (bleaves t) -> qsum (map (bleaf_weight n) classes) = 1.
Proof.
  intros ND W I. destruct (@bwf_leaves _ _ _ W _ _ I) as ((d & Ed & K & _ & S) & _). rewrite <- S, <- K. rewrite map_map. f_equal. apply map_ext_in. intros [c w] J. cbn [fst snd].
  unfold bleaf_weight. rewrite Ed. rewrite (@dget_nodup Z Qc _ c w d); [reflexivity|unfold dkeys; rewrite K; assumption|assumption].
Qed.
(** the rules in terms of the leaves *)
Lemma brule_path cfg psort X y t p n : btrained cfg psort X y t -> b_leaf t = false -> In (p, n) (bleaves t) -> p <> [] /\ glits_ok (f_vars cfg) p.
Proof.
  intros T L I. apply (C33_leaves_are_leaf_nodes cfg psort X y t p n T) in I. destruct I as [Hn Ln]. destruct (btrained_node _ _ _ _ _ _ _ T Hn) as (PO & _).
  split; [intros ->; inversion Hn; subst; congruence|exact (@path_valid cfg p PO)].
Qed.
(** If the instance belongs to some set of every variable with degree at least [d], and 1000 d exceeds the number of leaves times the number of classes, a rule of
    the explained class fires. *)
Theorem C130_explained_class_fires : forall cfg psort X y t row m d c rules,
  btrained cfg psort X y t -> b_leaf t = false -> f_tnorm cfg = qmin -> f_voting cfg = AggVote ->
  readable (f_vars cfg) [row] -> row_membership (f_vars cfg) row m -> btree_rules t 0 false = Ok rules -> bpredict cfg t [row] = Ok [c] ->
  covered (f_vars cfg) row d -> qn (List.length (bleaves t)) * qn (List.length (zunique y)) < qz 1000 * d ->
  exists r x, In r rules /\ r_cons r = c /\ matching_multi m r = Ok x /\ qc 1 1000 < x.
Proof.
  intros cfg psort X y t row m d c rules T L TN VT RD RM TR PR CV SZ. destruct (btrained_wf _ _ _ _ _ T) as [W V].
  assert (D1 : d <= 1). { destruct (C31_split cfg psort X y t [] t T (bat_self t) L) as (a & v & g1 & g2 & Hv & _). destruct (CV a v Hv) as (i & s & _ & D). eapply Qcle_trans; [exact D|]. apply lit_degree_01. }
  destruct (bcovered_leaf cfg psort X y t row d T CV D1) as (p0 & n0 & I0 & A0).
  destruct (C33_predict_maximal_vote cfg psort X y t [row] T RD) as (ps & P1 & P2). rewrite PR in P1. injection P1 as <-. inversion P2 as [|? ? ? ? [B1 B2] _ E1 E2]. clear P2.
  pose (ts := fun k => qsum (map (fun pl => bleaf_weight (snd pl) k * bactivation qmin (f_vars cfg) row (fst pl)) (bleaves t))).
  assert (RS : forall k, brow_support cfg t row k = ts k) by (intro k; unfold brow_support; rewrite VT, TN; reflexivity).
  assert (TOT : qsum (map ts (zunique y)) = qsum (map (fun pl => bactivation qmin (f_vars cfg) row (fst pl)) (bleaves t))).
  { unfold ts. rewrite qsum_swap. f_equal. apply map_ext_in. intros [p n] I. cbn [fst snd].
    rewrite (map_ext _ (fun k => bactivation qmin (f_vars cfg) row p * bleaf_weight n k)) by (intro; ring). rewrite qsum_map_mult, (bleaf_total _ _ _ _ _ (zunique_NoDup y) W I). ring. }
  assert (LOW : d <= qsum (map (fun pl => bactivation qmin (f_vars cfg) row (fst pl)) (bleaves t))).
  { eapply Qcle_trans; [exact A0|]. clear - I0. induction (bleaves t) as [|pl L IH]; [destruct I0|]. cbn [map]. rewrite qsum_cons.
    assert (P : 0 <= qsum (map (fun pl => bactivation qmin (f_vars cfg) row (fst pl)) L)) by (apply qsum_nonneg, Forall_forall; intros z Iz; apply in_map_iff in Iz; destruct Iz as (q & <- & _); apply bactivation_nonneg).
    destruct I0 as [->|I0]; [cbn [fst]; qlra|]. specialize (IH I0). assert (Q := bactivation_nonneg (f_vars cfg) row (fst pl)). qlra. }
  assert (UP : qsum (map ts (zunique y)) <= qn (List.length (zunique y)) * ts c).
  { rewrite <- qsum_const. apply qsum_map_le. intros k I. rewrite <- !RS. apply (B2 k I). }
  destruct (existsb (fun pl : list glit * btree => qltb 0 (bleaf_weight (snd pl) c) && qltb (qc 1 1000) (bactivation qmin (f_vars cfg) row (fst pl))) (bleaves t)) eqn:EX.
  - apply existsb_exists in EX. destruct EX as ([p n] & I & B). apply andb_true_iff in B. destruct B as [Bw Ba]. cbn [fst snd] in *. rewrite qltb_lt in Bw. rewrite qltb_lt in Ba.
    rewrite (@btree_rules_spec _ _ 0 false t W V), map_id in TR. injection TR as <-. destruct (brule_path cfg psort X y t p n T L I) as [Np Gp].
    destruct (bmatching_ok (f_vars cfg) row m p c (bleaf_weight n c) RM Np Gp) as (z & MX & GX).
    exists (mkR (map (glit_name (f_vars cfg)) p) c (bleaf_weight n c)), z.
    split; [apply (@bleaf_rule_in (f_vars cfg) (zunique y)); [apply zunique_NoDup|exact W|assumption|assumption]|]. split; [reflexivity|]. split; [assumption|]. eapply Qclt_le_trans; eassumption.
  - exfalso. assert (S : ts c <= qn (List.length (bleaves t)) * qc 1 1000).
    { unfold ts. rewrite <- qsum_const. apply qsum_map_le. intros [p n] I. cbn [fst snd]. destruct (bleaf_weight_01 _ _ _ _ _ c W I) as [W0 W1]. assert (A1 := bactivation_nonneg (f_vars cfg) row p).
      assert (B : qltb 0 (bleaf_weight n c) && qltb (qc 1 1000) (bactivation qmin (f_vars cfg) row p) = false).
      { destruct (qltb 0 (bleaf_weight n c) && qltb (qc 1 1000) (bactivation qmin (f_vars cfg) row p)) eqn:B; [|reflexivity]. rewrite <- EX. symmetry. apply existsb_exists. exists (p, n). split; assumption. }
      apply andb_false_iff in B. destruct B as [B|B]; rewrite qltb_ge in B.
      - assert (Z0 : bleaf_weight n c = 0) by qlra. rewrite Z0, Qcmult_0_l. discriminate.
      - eapply Qcle_trans; [|exact B]. clear - W1 A1. generalize dependent (bleaf_weight n c). generalize dependent (bactivation qmin (f_vars cfg) row p). intros x X w W1. assert (0 <= x * (1 - w)) by (apply Qcmult_nonneg; [assumption|qlra]). assert (x * (1 - w) = x - w * x) by ring. qlra. }
    assert (N0 : 0 <= qn (List.length (zunique y))) by apply qn_nonneg.
    assert (S2 : qn (List.length (zunique y)) * ts c <= qn (List.length (zunique y)) * (qn (List.length (bleaves t)) * qc 1 1000)).
    { rewrite !(Qcmult_comm (qn (List.length (zunique y)))). apply Qcmult_le_compat_r; assumption. }
    rewrite TOT in UP. assert (F : d <= qn (List.length (zunique y)) * (qn (List.length (bleaves t)) * qc 1 1000)) by (eapply Qcle_trans; [exact LOW|]; eapply Qcle_trans; [exact UP|exact S2]).
    assert (F2 : qz 1000 * d <= qz 1000 * (qn (List.length (zunique y)) * (qn (List.length (bleaves t)) * qc 1 1000))).
    { rewrite !(Qcmult_comm (qz 1000)). apply Qcmult_le_compat_r; [exact F|discriminate]. }
    assert (E3 : qz 1000 * (qn (List.length (zunique y)) * (qn (List.length (bleaves t)) * qc 1 1000)) = qn (List.length (bleaves t)) * qn (List.length (zunique y))).
    { assert (E4 : qz 1000 * qc 1 1000 = 1) by (apply Qc_is_canon; reflexivity). transitivity (qz 1000 * qc 1 1000 * (qn (List.length (bleaves t)) * qn (List.length (zunique y)))); [ring|rewrite E4; ring]. }
    rewrite E3 in F2. exact (Qclt_not_le _ _ SZ F2).
Qed.
Print Assumptions C130_explained_class_fires.

(** the leaves divide the combinations of sets (one set of every variable) between them: there are at most as many, and at most 2^max_depth *)
Fixpoint product (l : list nat) : nat := match l with [] => 1%nat | k :: l' => (k * product l')%nat end.
Lemma product_split (f g h : nat -> nat) a : forall l, NoDup l -> In a l -> (f a = g a + h a)%nat -> (forall b, In b l -> b <> a -> f b = g b /\ f b = h b) ->
  (product (map f l) = product (map g l) + product (map h l))%nat.
Proof.
  induction l as [|b l IH]; intros ND I E O; [destruct I|]. inversion ND as [|? ? N1 N2]; subst. cbn [map product]. destruct (Nat.eq_dec b a) as [->|N].
  - assert (G : forall k : nat -> nat, (forall b, In b l -> f b = k b) -> product (map f l) = product (map k l)) by (intros k K; f_equal; apply map_ext_in; exact K).
    rewrite <- (G g), <- (G h), E; [lia| |]; intros b J; destruct (O b (or_intror J)) as [A B]; auto; intros ->; contradiction.
  - destruct I as [->|I]; [congruence|]. destruct (O b (or_introl eq_refl) N) as [A B]. rewrite (IH N2 I E); [|intros c J; apply O; right; assumption]. rewrite <- A, <- B. lia.
Qed.
Lemma available_NoDup vars p a : NoDup (available vars p a).
Proof. apply NoDup_filter, seq_NoDup. Qed.
Definition combos (vars : list fvar) (p : list glit) : nat := product (map (fun a => List.length (available vars p a)) (seq 0 (List.length vars))).
Theorem C130_leaf_count : forall cfg psort X y t, btrained cfg psort X y t ->
  (List.length (bleaves t) <= product (map (fun v => List.length (fv_sets v)) (f_vars cfg)))%nat /\ (List.length (bleaves t) <= 2 ^ Z.to_nat (f_max_depth cfg))%nat.
Proof.
  intros cfg psort X y t T. split.
  - assert (G : forall n p, bnode_at t p n -> (forall a, (a < List.length (f_vars cfg))%nat -> available (f_vars cfg) p a <> []) -> (List.length (bleaves n) <= combos (f_vars cfg) p)%nat).
    { induction n as [lf cs cv lv va vr mu ig IH] using btree_ind'. intros p H NE. destruct lf.
      - cbn [bleaves List.length]. assert (Q : forall l, (forall a, In a l -> available (f_vars cfg) p a <> []) -> (1 <= product (map (fun a => List.length (available (f_vars cfg) p a)) l))%nat).
        { clear. induction l as [|a l IH]; intro N; [cbn; lia|]. cbn [map product]. assert (N1 := N a (or_introl eq_refl)). assert (N2 := IH (fun b J => N b (or_intror J))). destruct (available (f_vars cfg) p a); [congruence|]. cbn [List.length]. lia. }
        apply Q. intros b I. apply NE. apply in_seq in I. lia.
      - destruct (C31_split cfg psort X y t p _ T H eq_refl) as (a & v & g1 & g2 & Hv & VS & _ & N1 & N2 & PM & _). cbn [b_children] in VS. destruct cs as [|c1 [|c2 [|c3 cs]]]; try discriminate. cbn [map] in VS. injection VS as V1 V2.
        assert (La : (a < List.length (f_vars cfg))%nat) by (apply nth_error_Some; congruence).
        assert (ND : NoDup (g1 ++ g2)) by (apply (Permutation_NoDup (Permutation_sym PM)), available_NoDup).
        assert (IN : forall k, In k g1 \/ In k g2 -> In k (available (f_vars cfg) p a)) by (intros k K; apply (Permutation_in _ PM); apply in_or_app; assumption).
        assert (NDg : NoDup g1 /\ NoDup g2). { clear - ND. split; [induction g1 as [|x g IHg]; [constructor|]; cbn in ND; inversion ND; subst; constructor; [intro J; apply H1; apply in_or_app; auto|auto]|induction g1 as [|x g IHg]; [exact ND|]; cbn in ND; inversion ND; auto]. }
        assert (AV : forall g, NoDup g -> incl g (available (f_vars cfg) p a) -> List.length (available (f_vars cfg) (p ++ [(a, g)]) a) = List.length g).
        { intros g Ng Ig. apply Permutation_length. apply NoDup_Permutation; [apply available_NoDup|assumption|]. intro i. rewrite available_snoc. split; [intros [_ Q]; auto|intro J; auto]. }
        assert (AO : forall g b, b <> a -> available (f_vars cfg) (p ++ [(a, g)]) b = available (f_vars cfg) p b).
        { intros g b N. unfold available. apply filter_ext. intro i. rewrite forallb_app. cbn [forallb fst snd]. destruct (Nat.eqb_spec a b) as [E|E]; [congruence|]. cbn. apply andb_true_r. }
        assert (NX : forall g, NoDup g -> incl g (available (f_vars cfg) p a) -> g <> [] -> forall b, (b < List.length (f_vars cfg))%nat -> available (f_vars cfg) (p ++ [(a, g)]) b <> []).
        { intros g Ng Ig Gg b Lb. destruct (Nat.eq_dec b a) as [->|N]; [|rewrite AO by assumption; apply NE; assumption]. intro Z. assert (Q := AV g Ng Ig). rewrite Z in Q. destruct g; [congruence|discriminate]. }
        rewrite Forall_forall in IH. destruct NDg as [ND1 ND2].
        assert (B1 := IH c1 (or_introl eq_refl) (p ++ [(a, g1)]) (bnode_extend _ _ _ _ _ H eq_refl (or_introl eq_refl) V1) (NX g1 ND1 (fun k K => IN k (or_introl K)) N1)).
        assert (B2 := IH c2 (or_intror (or_introl eq_refl)) (p ++ [(a, g2)]) (bnode_extend _ _ _ _ _ H eq_refl (or_intror (or_introl eq_refl)) V2) (NX g2 ND2 (fun k K => IN k (or_intror K)) N2)).
        rewrite bleaves_inner. cbn [map List.concat]. rewrite app_nil_r, app_length, !map_length.
        assert (PS : (combos (f_vars cfg) p = combos (f_vars cfg) (p ++ [(a, g1)]) + combos (f_vars cfg) (p ++ [(a, g2)]))%nat); [|lia].
        unfold combos. apply (product_split _ _ _ a); [apply seq_NoDup|apply in_seq; lia| |].
        + rewrite !AV by (try assumption; intros k K; auto). rewrite <- (Permutation_length PM). apply app_length.
        + intros b _ N. rewrite !AO by assumption. auto. }
    assert (A0 : forall a v, nth_error (f_vars cfg) a = Some v -> available (f_vars cfg) [] a = seq 0 (List.length (fv_sets v))).
    { intros a v Hv. unfold available. cbn [forallb]. unfold nsets. rewrite Hv. clear. induction (seq 0 (List.length (fv_sets v))) as [|x l IH]; [reflexivity|]. cbn. rewrite IH. reflexivity. }
    etransitivity; [apply (G t [] (bat_self t))|].
    + intros a La. destruct (nth_error (f_vars cfg) a) as [v|] eqn:Hv; [|apply nth_error_None in Hv; lia]. rewrite (A0 a v Hv).
      destruct (btrained_fitted T) as (cats & _ & _ & NS & _). assert (N := NS v (nth_error_In _ _ Hv)). destruct (fv_sets v); [congruence|discriminate].
    + apply Nat.eq_le_incl. unfold combos. f_equal. clear - A0. assert (Q : forall k vs, (forall a v, nth_error vs a = Some v -> available (f_vars cfg) [] (k + a) = seq 0 (List.length (fv_sets v))) ->
        map (fun a => List.length (available (f_vars cfg) [] a)) (seq k (List.length vs)) = map (fun v => List.length (fv_sets v)) vs).
      { intros k vs. revert k. induction vs as [|v vs IH]; intros k H; [reflexivity|]. cbn [List.length seq map]. f_equal.
        - assert (E := H 0%nat v eq_refl). rewrite Nat.add_0_r in E. rewrite E. apply seq_length.
        - apply IH. intros a w Hw. assert (E := H (S a) w Hw). rewrite <- E. f_equal. lia. }
      apply (Q 0%nat). exact A0.
  - assert (G : forall n p, bnode_at t p n -> (List.length (bleaves n) <= 2 ^ (Z.to_nat (f_max_depth cfg) - List.length p))%nat).
    { induction n as [lf cs cv lv va vr mu ig IH] using btree_ind'. intros p H. destruct lf; [cbn [bleaves List.length]; assert (2 ^ (Z.to_nat (f_max_depth cfg) - List.length p) <> 0)%nat by (apply Nat.pow_nonzero; lia); lia|].
      destruct (C31_split cfg psort X y t p _ T H eq_refl) as (a & v & g1 & g2 & Hv & VS & _). cbn [b_children] in VS. destruct cs as [|c1 [|c2 [|c3 cs]]]; try discriminate. cbn [map] in VS. injection VS as V1 V2.
      rewrite Forall_forall in IH. assert (E1 := bnode_extend _ _ _ _ _ H eq_refl (or_introl eq_refl) V1). assert (E2 := bnode_extend _ _ _ _ _ H eq_refl (or_intror (or_introl eq_refl)) V2).
      assert (B1 := IH c1 (or_introl eq_refl) _ E1). assert (B2 := IH c2 (or_intror (or_introl eq_refl)) _ E2). assert (DP := C32_depth cfg psort X y t _ _ T E1). rewrite app_length in *. cbn [List.length] in *.
      rewrite bleaves_inner. cbn [map List.concat]. rewrite app_nil_r, app_length, !map_length.
      replace (Z.to_nat (f_max_depth cfg) - List.length p)%nat with (S (Z.to_nat (f_max_depth cfg) - (List.length p + 1)))%nat by lia. rewrite Nat.pow_succ_r'. lia. }
    assert (Q := G t [] (bat_self t)). cbn [List.length] in Q. rewrite Nat.sub_0_r in Q. exact Q.
Qed.
Print Assumptions C130_leaf_count.

Lemma f1_binary_iff y p : incl p y -> (exists q, f1_binary y p = Ok q) <-> binary_labels y.
Proof.
  intro I. split.
  - intros [q Q]. destruct (f1_binary_spec _ _ _ Q) as (_ & L & N). split; assumption.
  - intros [L S]. unfold f1_binary. rewrite (zunique_sub I). cbv zeta. destruct (Nat.ltb_spec 2 (List.length (zunique y))) as [K|_]; [lia|].
    destruct (negb (memb 1%Z (zunique y)) && Nat.leb 2 (List.length (zunique y))) eqn:B; [|eauto]. exfalso. apply andb_true_iff in B. destruct B as [B1 B2]. apply Nat.leb_le in B2. apply negb_true_iff in B1.
    assert (J : In 1%Z y) by (apply S; lia). apply zunique_In in J. apply (proj2 (@memb_In _ _ 1%Z (zunique y))) in J. congruence.
Qed.
(** Everything up to the choice of the explanation works for a prepared call; then fit succeeds exactly when the arguments are valid and accepted, there are at most
    two classes (and of two one is 1), the tree has a split, and: for mr_factual, some rule of another class exists; for m_factual and c_factual, a rule of the
    explained class fires with degree above 0.001.  The counterfactual argument only has to be one of the known names. *)
Theorem C130_exactly_when : forall psort s a vars m X y, bprepared psort a vars m X y ->
  exists h t rules c, let cfg := fdt_config vars (ba_kw a) in
    bt_fit cfg psort fresh_broot X y = Ok (h, t) /\ btree_rules t 0 false = Ok rules /\ bpredict cfg t [List.concat (ba_instance a)] = Ok [c] /\
    ((exists s', fbdt_fit psort s a = (s', None)) <->
     valid_arguments (ba_instance a) (ba_factual a) (ba_counterfactual a) (ba_kw a) /\ accepted (ba_kw a) (ba_factual a) /\ binary_labels y /\
     b_leaf t = false /\
     (ba_factual a = "mr_factual" -> exists r, In r rules /\ r_cons r <> c) /\
     (ba_factual a <> "mr_factual" -> exists r d, In r rules /\ r_cons r = c /\ matching_multi m r = Ok d /\ qc 1 1000 < d)).
Proof.
  intros psort s a vars m X y (HV & HM & HX & HY & Ho & DN & NE & HL & Hy & RX & RI & RM & TH).
  set (cfg := fdt_config vars (ba_kw a)). assert (Hth : (0 < f_threshold cfg)%R).
  { unfold cfg, fdt_config. cbn [f_threshold]. destruct (k_threshold (ba_kw a)) as [th|]; cbn [or_default]; [apply TH; reflexivity|lra]. }
  destruct (C32_training_total cfg psort X y Ho DN HL Hy NE RX (wide_of_readable _ _ NE RX) Hth) as (h & t & FT).
  assert (T : btrained cfg psort X y t) by (split; [assumption|]; split; [assumption|]; exists h; assumption).
  destruct (btrained_wf _ _ _ _ _ T) as [W V]. assert (TR := @btree_rules_spec _ _ 0 false t W V). rewrite map_id in TR.
  set (rules := List.concat (map (bleaf_rules (f_vars cfg) [] 0) (bleaves t))) in *.
  destruct (C33_predict_maximal_vote cfg psort X y t [List.concat (ba_instance a)] T RI) as (ps & P1 & P2). inversion P2 as [|row0 c X0 ps0 B P3 EQ1 EQ2]; clear EQ1 P2; subst ps. inversion P3; subst ps0. clear P3.
  exists h, t, rules, c. cbv zeta. fold cfg. split; [exact FT|]. split; [exact TR|]. split; [exact P1|].
  destruct (C33_predict_maximal_vote cfg psort X y t X T RX) as (px & PX & PB).
  assert (PI : incl px y). { intros k I. clear - PB I. induction PB as [|r k' X' p' H R IH]; [destruct I|]. destruct I as [<-|I]; [apply zunique_In; apply H|auto]. }
  assert (RF := fun r => @bleaf_rule_form (f_vars cfg) (zunique y) t r (zunique_NoDup y) W).
  assert (WP : forall r, In r rules -> 0 < r_weight r) by (intros r I; destruct (RF r I) as (p & n & _ & _ & _ & Q & _); exact Q).
  assert (LM : (exists x, Forall2 (fun r d => matching_multi m r = Ok d) rules x) -> b_leaf t = false).
  { intros [ms F]. destruct (b_leaf t) eqn:L; [|reflexivity]. exfalso. destruct (C33_root_leaf_rules_fail _ _ _ _ _ m false rules T L TR) as [RN WV].
    assert (R0 : exists r0, In r0 rules) by (destruct rules as [|r0 rl]; [congruence|exists r0; left; reflexivity]). destruct R0 as [r0 I0]. destruct (RF r0 I0) as (p & n & Ip & _ & _ & _ & E). assert (F1 : exists d, matching_multi m r0 = Ok d). { clear - F I0. induction F as [|r d rs ds F1 F2 IH]; [destruct I0|]. destruct I0 as [<-|I0]; eauto. } destruct F1 as [d F1].
    apply (C33_leaves_are_leaf_nodes cfg psort X y t p n T) in Ip. destruct Ip as [Hn _]. assert (p = []) by (inversion Hn; subst; [reflexivity|congruence]). subst p. rewrite E in F1. cbn in F1. discriminate. }
  split.
  - intros [s' E]. destruct (check_methods_spec (ba_instance a) (ba_factual a) (ba_counterfactual a) (ba_kw a)) as [(VA & fm & cm & CH & HF & HC)|(_ & CH)]; [|unfold fbdt_fit in E; rewrite CH in E; discriminate].
    unfold fbdt_fit in E. rewrite CH in E. cbn [tryS fst snd] in E. rewrite HV, HM, HX, HY in E. cbn [tryS] in E. fold cfg in E. rewrite FT in E. cbn [tryS snd] in E. rewrite PX in E. cbn [tryS] in E.
    destruct (f1_binary y px) as [q|] eqn:FD; [|discriminate]. cbn [tryS] in E. assert (SC : binary_labels y) by (apply (f1_binary_iff _ _ PI); eauto).
    change (to_rule_based_system_b t false false) with (btree_rules t 0 false) in E. rewrite TR in E. cbn [tryS] in E. rewrite P1 in E. cbn [tryS nth_error ret_opt] in E.
    match type of E with context[tryS ?r _ _] => destruct r as [fact|] eqn:CF; [|discriminate] end.
    destruct (@call_factual_sound _ _ _ _ _ _ _ _ CF) as (_ & deg & D & _).
    assert (AC : accepted (ba_kw a) (ba_factual a) /\ given (k_cont (ba_kw a)) || given (k_disc (ba_kw a)) || given (k_mad (ba_kw a)) || given (k_dist (ba_kw a)) = false).
    { clear - CF HF. unfold accepted, fmethod_of, Prelude.eqb in *. unfold call_factual in CF.
      destruct (k_cont (ba_kw a)), (k_disc (ba_kw a)), (k_mad (ba_kw a)), (k_dist (ba_kw a)); cbn [given orb] in CF; try (destruct fm; discriminate CF).
      split; [|reflexivity]. destruct (k_other (ba_kw a)) as [|o os]; [|destruct fm; discriminate CF]. cbn [List.length Nat.eqb negb] in CF.
      split; [reflexivity|]. split; [reflexivity|]. split; [reflexivity|]. split; [reflexivity|]. split; [reflexivity|]. intro N.
      destruct (eq_dec (ba_factual a) "m_factual"); [injection HF as <-|destruct (eq_dec (ba_factual a) "mr_factual"); [injection HF as <-|destruct (eq_dec (ba_factual a) "c_factual"); [congruence|discriminate]]];
        (destruct (k_lam (ba_kw a)); [discriminate CF|]); (destruct (k_beta (ba_kw a)); [discriminate CF|]); split; reflexivity. }
    destruct AC as [AC AE]. rewrite AE in CF.
    assert (L : b_leaf t = false). { apply LM. exists (map deg rules). clear - D. induction rules as [|r l IH]; constructor; [apply D; left; reflexivity|]. apply IH. intros; apply D; right; assumption. }
    split; [assumption|]. split; [assumption|]. split; [assumption|]. split; [assumption|].
    destruct VA as (_ & _ & VL & _). destruct (proj1 (call_factual_iff (matching_multi m) deg fm (ba_kw a) (ba_factual a) rules c HF AC VL D WP) (ex_intro _ fact CF)) as [G1 G2]. split; [exact G1|].
    intro N. destruct (G2 N) as (r & I & C & Q). exists r, (deg r). auto.
  - intros (VA & AC & SC & L & F1 & F2). destruct (check_methods_spec (ba_instance a) (ba_factual a) (ba_counterfactual a) (ba_kw a)) as [(_ & fm & cm & CH & HF & HC)|(N & _)]; [|contradiction].
    unfold fbdt_fit. rewrite CH. cbn [tryS fst snd]. rewrite HV, HM, HX, HY. cbn [tryS]. fold cfg. rewrite FT. cbn [tryS snd]. rewrite PX. cbn [tryS].
    destruct (proj2 (f1_binary_iff _ _ PI) SC) as [q ->]. cbn [tryS]. change (to_rule_based_system_b t false false) with (btree_rules t 0 false). rewrite TR. cbn [tryS]. rewrite P1. cbn [tryS nth_error ret_opt].
    set (deg := fun r => match matching_multi m r with Ok d => d | Err _ => 0 end).
    assert (D : forall r, In r rules -> matching_multi m r = Ok (deg r)).
    { intros r I. unfold deg. destruct (RF r I) as (p & n & Ip & _ & _ & _ & ->). destruct (brule_path cfg psort X y t p n T L Ip) as [Np Gp]. cbn [r_cons r_weight].
      destruct (bmatching_ok (f_vars cfg) (List.concat (ba_instance a)) m p (r_cons r) (r_weight r) RM Np Gp) as (x & -> & _). reflexivity. }
    assert (AC' := AC). destruct AC' as (_ & K1 & K2 & K3 & K4 & _). rewrite K1, K2, K3, K4. cbn [given orb].
    destruct VA as (_ & _ & VL & _). destruct (proj2 (call_factual_iff (matching_multi m) deg fm (ba_kw a) (ba_factual a) rules c HF AC VL D WP)) as [fact CF].
    { split; [exact F1|]. intro N. destruct (F2 N) as (r & d & I & C & MT & Q). exists r. split; [assumption|]. split; [assumption|]. rewrite (D r I) in MT. injection MT as <-. assumption. }
    rewrite CF. cbn [tryS]. eauto.
Qed.
Print Assumptions C130_exactly_when.

(** what dividing the whole table by two groups of sets of variable [a] gains *)
Definition root_gain (vars : list fvar) (X : list (list cell)) (y : list Z) (a : nat) (g1 g2 : list nat) : R :=
  bgain y (map (fun _ => 1) y) (map (fun row => qmin 1 (side_degree vars row (a, g1))) X) (map (fun row => qmin 1 (side_degree vars row (a, g2))) X).
(** the tree has a split when no limit is met at the root and some division reaches the threshold *)
Theorem C130_root_splits : forall cfg psort X y t a g1 g2, btrained cfg psort X y t -> sorts psort ->
  ~ exhausted cfg y (map (fun _ => 1) y) [] -> candidate cfg X y [] a g1 g2 -> (f_threshold cfg <= root_gain (f_vars cfg) X y a g1 g2)%R ->
  b_leaf t = false.
Proof.
  intros cfg psort X y t a g1 g2 T SO NX C G. destruct (b_leaf t) eqn:L; [|reflexivity]. exfalso. assert (RM := root_mu cfg psort X y t T).
  destruct (btrained_fitted T) as (cats & (_ & _ & LXY & Hy & _) & _).
  assert (E1 : repeat 1 (List.length y) = map (fun _ => 1) y) by (clear; induction y as [|k y IH]; [reflexivity|]; cbn; rewrite <- IH; reflexivity).
  assert (NZ : qsum (b_mu t) <> 0). { rewrite RM, E1. assert (P : 0 < qsum (map (fun _ : Z => 1) y)); [|intro Z; rewrite Z in P; qlra]. apply (qsum_pos _ 1); [intros z I; apply in_map_iff in I; destruct I as (? & <- & _); discriminate|destruct y; [congruence|left; reflexivity]|reflexivity]. }
  destruct (C88_leaf_reason_and_weights cfg psort X y t [] t T SO (bat_self t) L NZ) as [_ [K|[_ K]]]; [rewrite RM, E1 in K; contradiction|].
  destruct (K a g1 g2 C) as (lmu & rmu & [DV _] & GL). destruct (DV (fun z : In a (map fst []) => z)) as [-> ->]. rewrite RM in GL.
  assert (E2 : forall g, map2 qmin (repeat 1 (List.length y)) (degrees (f_vars cfg) X a g) = map (fun row => qmin 1 (side_degree (f_vars cfg) row (a, g))) X).
  { intro g. rewrite <- LXY. clear. unfold degrees. induction X as [|r X IH]; [reflexivity|]. cbn [List.length repeat map map2]. f_equal. exact IH. }
  rewrite !E2, E1 in GL. unfold root_gain in G. lra.
Qed.
Print Assumptions C130_root_splits.

(** sufficient conditions in terms of the data only *)
Theorem C130_succeeds : forall psort s a vars m X y d b g1 g2,
  bprepared psort a vars m X y -> sorts psort ->
  valid_arguments (ba_instance a) (ba_factual a) (ba_counterfactual a) (ba_kw a) -> accepted (ba_kw a) (ba_factual a) -> binary_labels y ->
  let cfg := fdt_config vars (ba_kw a) in
  ~ exhausted cfg y (map (fun _ => 1) y) [] -> candidate cfg X y [] b g1 g2 -> (f_threshold cfg <= root_gain vars X y b g1 g2)%R ->
  (forall row, In row X -> exists e, 0 < e /\ covered vars row e) ->
  (ba_factual a <> "mr_factual" -> covered vars (List.concat (ba_instance a)) d /\
     qn (product (map (fun v => List.length (fv_sets v)) vars)) * qz 2 < qz 1000 * d) ->
  exists s', fbdt_fit psort s a = (s', None).
Proof.
  intros psort s a vars m X y d b g1 g2 P SO VA AC BL cfg NX CD G CV CI.
  destruct (C130_exactly_when psort s a vars m X y P) as (h & t & rules & c & FT & TR & PR & IFF). apply IFF. fold cfg in FT, PR.
  destruct P as (HV & HM & HX & HY & Ho & DN & NE & HL & Hy & RX & RI & RM & TH).
  assert (T : btrained cfg psort X y t) by (split; [assumption|]; split; [assumption|]; exists h; assumption).
  assert (L : b_leaf t = false) by exact (C130_root_splits cfg psort X y t b g1 g2 T SO NX CD G).
  split; [assumption|]. split; [assumption|]. split; [assumption|]. split; [assumption|]. split.
  - intros _. assert (TWO : exists k, In k y /\ k <> c).
    { destruct (existsb (fun k => negb (Z.eqb k c)) y) eqn:B; [apply existsb_exists in B; destruct B as (k & I & B); apply negb_true_iff, Z.eqb_neq in B; eauto|]. exfalso. apply NX. left.
      assert (AL : forall k, In k y -> k = c). { intros k I. destruct (Z.eq_dec k c) as [|N]; [assumption|]. exfalso. assert (existsb (fun k => negb (Z.eqb k c)) y = true); [|congruence]. apply existsb_exists. exists k. split; [assumption|]. apply negb_true_iff, Z.eqb_neq. assumption. }
      intros j j' k k' E E' _ _. rewrite (AL _ (nth_error_In _ _ E)), (AL _ (nth_error_In _ _ E')). reflexivity. }
    destruct TWO as (k & Ik & Nk). destruct (C130_every_class_has_a_rule cfg psort X y t rules T TR CV k Ik) as (r & Ir & Er). exists r. split; [assumption|congruence].
  - intro N. destruct (CI N) as [CDi SZ]. apply (C130_explained_class_fires cfg psort X y t (List.concat (ba_instance a)) m d c rules T L eq_refl eq_refl RI RM TR PR CDi).
    eapply Qcle_lt_trans; [|exact SZ]. destruct (C130_leaf_count cfg psort X y t T) as [LC _]. change (f_vars cfg) with vars in LC. destruct BL as [B2 _].
    assert (Q1 : qn (List.length (bleaves t)) <= qn (product (map (fun v => List.length (fv_sets v)) vars))) by (apply qn_le; assumption).
    assert (Q2 : qn (List.length (zunique y)) <= qz 2) by (change (qz 2) with (qn 2); apply qn_le; assumption).
    eapply Qcle_trans; [apply Qcmult_le_compat_r; [exact Q1|apply qn_nonneg]|]. rewrite !(Qcmult_comm (qn (product _))). apply Qcmult_le_compat_r; [exact Q2|apply qn_nonneg].
Qed.
Print Assumptions C130_succeeds.

(** *** the two rows of Properties_FDT meet the hypotheses *)
Definition ex_bcall : fbdt_args := mkBA [[CNum (qz 2)]] [1%Z] ex_nb "m_factual" "i_counterfactual" no_kwargs.
Lemma ex_root_gain : root_gain [ex_v "x"] ex_X ex_y 0 [0]%nat [1]%nat = 1%R.
Proof.
  unfold root_gain. assert (E1 : map (fun row => qmin 1 (side_degree [ex_v "x"] row (0%nat, [0%nat]))) ex_X = [1; 0]) by qex.
  assert (E2 : map (fun row => qmin 1 (side_degree [ex_v "x"] row (0%nat, [1%nat]))) ex_X = [0; 1]) by qex. rewrite E1, E2. change (map (fun _ => 1) ex_y) with [1; 1].
  unfold bgain, ex_y. rewrite entropy_two by discriminate. rewrite !entropy_pure by (auto; qlra). unfold Rdiv. ring.
Qed.
Example C130_instance : bprepared share_sort ex_bcall [ex_v "x"] ex_m ex_X ex_y /\ sorts share_sort /\
  valid_arguments (ba_instance ex_bcall) (ba_factual ex_bcall) (ba_counterfactual ex_bcall) (ba_kw ex_bcall) /\ accepted (ba_kw ex_bcall) (ba_factual ex_bcall) /\ binary_labels ex_y /\
  ~ exhausted (fdt_config [ex_v "x"] no_kwargs) ex_y (map (fun _ => 1) ex_y) [] /\ candidate (fdt_config [ex_v "x"] no_kwargs) ex_X ex_y [] 0 [0]%nat [1]%nat /\
  (f_threshold (fdt_config [ex_v "x"] no_kwargs) <= root_gain [ex_v "x"] ex_X ex_y 0 [0]%nat [1]%nat)%R /\
  (forall row, In row ex_X -> exists e, 0 < e /\ covered [ex_v "x"] row e) /\ covered [ex_v "x"] (List.concat (ba_instance ex_bcall)) (qc 4 5) /\
  qn (product (map (fun v => List.length (fv_sets v)) [ex_v "x"])) * qz 2 < qz 1000 * qc 4 5.
Proof.
  destruct (ex_btrained AggVote) as (_ & DN & _).
  split.
  { split; [reflexivity|]. split; [reflexivity|]. split; [reflexivity|]. split; [reflexivity|]. split; [exact share_sort_perm|]. split; [exact DN|].
    split; [intros v [<-|[]]; discriminate|]. split; [reflexivity|]. split; [discriminate|].
    split; [apply (proj1 (ex_readable "x" ex_X ltac:(intros row [<-|[<-|[]]]; eexists; reflexivity)))|]. split; [exact (proj1 C81_instance)|]. split; [exact ex_row_membership|]. intros th E. discriminate. }
  split; [exact share_sort_sorts|]. split. { split; [exists [CNum (qz 2)], (CNum (qz 2)); split; left; reflexivity|]. split; [left; reflexivity|]. split; [discriminate|left; reflexivity]. }
  split; [repeat split; reflexivity|]. split; [split; [cbn; lia|intros _; left; reflexivity]|].
  split.
  { intros [K|[K|K]].
    - assert (Q : 1%Z = 0%Z) by (apply (K 0%nat 1%nat); reflexivity). discriminate.
    - vm_compute in K. discriminate.
    - vm_compute in K. apply K. reflexivity. }
  split. { exists (ex_v "x"). split; [reflexivity|]. split; [discriminate|]. split; [discriminate|]. split; [intros _; reflexivity|]. intro N. exfalso. apply N. do 2 eexists. reflexivity. }
  split; [rewrite ex_root_gain; cbn; lra|]. split; [intros row [<-|[<-|[]]]; exists (qc 4 5); (split; [reflexivity|]); apply ex_cover; auto|]. split; [apply ex_cover; auto|]. reflexivity.
Qed.
Example C130_runs : exists s', fbdt_fit share_sort new_explainer ex_bcall = (s', None).
Proof.
  destruct C130_instance as (A & B & C & D & E & F & G & H & I & J & K). apply (C130_succeeds share_sort new_explainer ex_bcall [ex_v "x"] ex_m ex_X ex_y (qc 4 5) 0 [0]%nat [1]%nat); auto.
Qed.
