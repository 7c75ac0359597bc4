(** * Property C129: when FDTExplainer.fit succeeds *)
From Verif Require Import Prelude M_Fuzzy M_Discretize M_Rule S_Rule P_Rule M_FDT S_FDT P_FDT P_FDT2 P_FDT3 P_FDT4 M_FBDT M_ID3 M_Metrics M_Factual S_Factual P_Factual
  M_Counterfactual S_Counterfactual P_Counterfactual M_Explainer S_Explainer P_Explainer Properties_FDT Properties_Factual Properties_Counterfactual Properties_Explainer S_Success P_Success.
From Coq Require Import Reals Lra.
Open Scope string_scope.
Open Scope list_scope.
Open Scope Qc_scope.
Local Notation eqb := Prelude.eqb.

Lemma class_fired_ne V (deg : rule V -> Qc) c rules : class_fired deg c rules <> [] <-> exists r, In r rules /\ r_cons r = c /\ qc 1 1000 < deg r.
Proof.
  assert (G : forall r, In r (class_fired deg c rules) <-> In r rules /\ r_cons r = c /\ qc 1 1000 < deg r).
  { intro r. unfold class_fired. rewrite filter_In, andb_true_iff, Z.eqb_eq. rewrite qltb_lt. tauto. }
  split.
  - destruct (class_fired deg c rules) as [|r l] eqn:E; [congruence|]. intros _. exists r. apply G. left. reflexivity.
  - intros (r & H) E. apply G in H. rewrite E in H. destruct H.
Qed.
(** when the factual method returns *)
Lemma call_factual_iff {V} (mt : rule V -> res Qc) deg fm kw f rules c :
  fmethod_of f = Some fm -> accepted kw f -> (f = "c_factual" -> exists lam, k_lam kw = Some lam) ->
  (forall r, In r rules -> mt r = Ok (deg r)) -> (forall r, In r rules -> 0 < r_weight r) ->
  (exists fact, call_factual mt fm kw false rules c = Ok fact) <->
  ((f = "mr_factual" -> exists r, In r rules /\ r_cons r <> c) /\ (f <> "mr_factual" -> exists r, In r rules /\ r_cons r = c /\ qc 1 1000 < deg r)).
Proof.
  intros FM (AO & _ & _ & _ & _ & AL) LAM D WP.
  assert (FF : (f = "m_factual" /\ fm = MFactual) \/ (f = "mr_factual" /\ fm = MRFactual) \/ (f = "c_factual" /\ fm = CFactual)).
  { unfold fmethod_of, Prelude.eqb in FM. destruct (eq_dec f "m_factual"); [injection FM as <-; auto|]. destruct (eq_dec f "mr_factual"); [injection FM as <-; auto|].
    destruct (eq_dec f "c_factual"); [injection FM as <-; auto|discriminate]. }
  destruct FF as [[-> ->]|[[-> ->]|[-> ->]]]; unfold call_factual; rewrite AO.
  - destruct AL as [A1 A2]; [discriminate|]. rewrite A1, A2. cbn [orb negb Nat.eqb List.length given]. split.
    + intros [fact E]. split; [discriminate|]. intros _. apply class_fired_ne. intro Z. rewrite (C48_nothing_fired _ mt deg rules c D Z) in E. discriminate.
    + intros [_ H]. specialize (H ltac:(discriminate)). apply class_fired_ne in H. destruct (C48_m_factual _ mt deg rules c D H) as (g & E & _). eauto.
  - destruct AL as [A1 A2]; [discriminate|]. rewrite A1, A2. cbn [orb negb Nat.eqb List.length given]. split.
    + intros [fact E]. split; [|congruence]. intros _.
      destruct (existsb (fun r : rule V => negb (Z.eqb (r_cons r) c)) rules) eqn:B.
      * apply existsb_exists in B. destruct B as (r & I & B). apply negb_true_iff, Z.eqb_neq in B. eauto.
      * exfalso. rewrite (C49_single_class _ mt deg rules c D) in E; [discriminate|]. intros r I. destruct (Z.eq_dec (r_cons r) c) as [|N]; [assumption|]. exfalso.
        assert (existsb (fun r : rule V => negb (Z.eqb (r_cons r) c)) rules = true); [|congruence]. apply existsb_exists. exists r. split; [assumption|]. apply negb_true_iff, Z.eqb_neq. assumption.
    + intros [H _]. destruct (C49_mr_factual _ mt deg rules c D (H eq_refl)) as (T & s & k & _ & _ & _ & E & _). eauto.
  - destruct (LAM eq_refl) as [lam L]. rewrite L. cbn [orb negb Nat.eqb List.length ret_opt bind]. split.
    + intros [fact E]. split; [discriminate|]. intros _. apply class_fired_ne. intro Z. rewrite (C50_nothing_fired _ mt deg rules c lam _ D Z) in E. discriminate.
    + intros [_ H]. specialize (H ltac:(discriminate)). apply class_fired_ne in H. destruct (C50_c_factual _ mt deg rules c lam (or_default None (k_beta kw)) D H) as (s & k & _ & _ & E & _); [|eauto].
      intros r I. unfold class_fired in I. apply filter_In in I. destruct I as [I J]. apply andb_true_iff in J. destruct J as [J _]. rewrite qltb_lt in J. specialize (WP r I). unfold ad.
      assert (P0 : 0 < deg r) by (apply Qclt_trans with (qc 1 1000); [reflexivity|assumption]). assert (0 < deg r * r_weight r) by (apply Qcmult_pos; assumption). intro Z. rewrite Z in *. qlra.
Qed.

Lemma wide_of_readable vars X : (forall v, In v vars -> fv_sets v <> []) -> readable vars X -> wide vars X.
Proof.
  intros NE R row I. destruct (Nat.le_gt_cases (List.length vars) (List.length row)) as [|L]; [assumption|]. exfalso.
  destruct (nth_error vars (List.length row)) as [v|] eqn:Hv; [|apply nth_error_None in Hv; lia]. assert (N := NE v (nth_error_In _ _ Hv)). destruct (fv_sets v) as [|s l] eqn:S; [congruence|].
  destruct (R row I (List.length row) v s Hv) as (x & d & E & _); [rewrite S; left; reflexivity|]. assert (List.length row < List.length row)%nat by (apply nth_error_Some; congruence). lia.
Qed.

(** Everything up to the choice of the explanation works for a prepared call; then fit succeeds exactly when the arguments are valid and accepted, the
    labels can be scored, the tree has a split, and: for mr_factual, some rule of another class exists; for m_factual and c_factual, a rule of the
    explained class fires with degree above 0.001.  (d_counterfactual depends on further arguments and is left to C55.) *)
Theorem C129_exactly_when : forall ord same parse mixed s a vars m X y,
  prepared ord a vars m X y -> a_counterfactual a <> "d_counterfactual" ->
  exists t rules c, let cfg := fdt_config vars (a_kw a) in
    fit cfg ord fresh_root X y = Ok t /\ tree_rules t 0 = Ok rules /\ predict cfg t [List.concat (a_instance a)] = Ok [c] /\
    ((exists s', fdt_fit ord same parse mixed s a = (s', None)) <->
     valid_arguments (a_instance a) (a_factual a) (a_counterfactual a) (a_kw a) /\ accepted (a_kw a) (a_factual a) /\ scorable y /\
     t_leaf t = false /\
     (a_factual a = "mr_factual" -> exists r, In r rules /\ r_cons r <> c) /\
     (a_factual a <> "mr_factual" -> exists r d, In r rules /\ r_cons r = c /\ matching m r = Ok d /\ qc 1 1000 < d)).
Proof.
  intros ord same parse mixed s a vars m X y (HV & HM & (dec & HD) & HX & HY & Ho & DN & NE & N2 & HL & Hy & RX & RI & RM & PM & TH) ND.
  set (cfg := fdt_config vars (a_kw a)). assert (Hth : (0 < f_threshold cfg)%R).
  { unfold cfg, fdt_config. cbn [f_threshold]. destruct (k_threshold (a_kw a)) as [th|]; cbn [or_default]; [apply TH; reflexivity|lra]. }
  destruct (C25_training_total cfg ord X y fresh_root Ho DN HL Hy RX (wide_of_readable _ _ NE RX) Hth) as [t FT].
  assert (T : trained cfg ord X y t) by (split; [assumption|]; split; [assumption|]; split; [left; assumption|assumption]).
  destruct (@trained_wf cfg ord X y t T NE) as [W V]. assert (TR : tree_rules t 0 = Ok (List.concat (map (leaf_rules vars [] 0) (leaves t)))) by exact (@tree_rules_spec _ _ 0 t W V).
  set (rules := List.concat (map (leaf_rules vars [] 0) (leaves t))) in *.
  destruct (C27_predict_maximal_vote cfg ord X y t [List.concat (a_instance a)] T NE RI) as (ps & P1 & P2). inversion P2 as [|row0 c X0 ps0 B P3 EQ1 EQ2]; clear EQ1 P2; subst ps. inversion P3; subst ps0. clear P3.
  exists t, rules, c. cbv zeta. fold cfg. split; [exact FT|]. split; [exact TR|]. split; [exact P1|].
  destruct (C27_predict_maximal_vote cfg ord X y t X T NE RX) as (px & PX & _).
  assert (PI : incl px y). { assert (R := C27_predict_rowwise cfg ord X y t X px T NE RX PX). intros k I. clear - R I. induction R as [|r k' X' p' H R IH]; [destruct I|]. destruct I as [<-|I]; [apply H|auto]. }
  assert (RF := @leaf_rule_form vars (zunique y) t). assert (RN : rules <> []) by (apply (@rules_nonempty vars (zunique y)); [apply zunique_NoDup|exact W]).
  assert (US : forall r, In r rules -> usable m (a_num a) r).
  { intros r I. destruct (RF r (zunique_NoDup y) W I) as (p & n & Ip & _ & _ & _ & ->). destruct (@wf_leaves _ _ _ W _ _ Ip) as (_ & _ & PL). eapply rules_usable; eassumption. }
  assert (WP : forall r, In r rules -> 0 < r_weight r) by (intros r I; destruct (RF r (zunique_NoDup y) W I) as (p & n & _ & _ & _ & Q & _); exact Q).
  split.
  - intros [s' E]. assert (SU := C80_superfluous_arguments ord same parse mixed s a s' E). destruct SU as (S1 & S2 & S3). destruct (S3 ND) as (K1 & K2 & K3 & K4).
    assert (AC : accepted (a_kw a) (a_factual a)) by (repeat split; try assumption; apply S2; assumption).
    destruct (check_methods_spec (a_instance a) (a_factual a) (a_counterfactual a) (a_kw a)) as [(VA & fm & cm & CH & HF & HC)|(_ & CH)]; [|unfold fdt_fit in E; rewrite CH in E; discriminate].
    unfold fdt_fit in E. rewrite CH in E. cbn [tryS fst snd] in E. rewrite HV, HM, HD, HX, HY in E. cbn [tryS] in E.
    destruct (d_args cm (a_kw a)) as [da|]; [|discriminate]. cbn [tryS] in E. fold cfg in E. rewrite FT in E. cbn [tryS] in E. rewrite PX in E. cbn [tryS] in E.
    destruct (fdt_fidelity y px) as [q|] eqn:FD; [|discriminate]. cbn [tryS] in E. assert (SC : scorable y) by (apply (fidelity_iff PI); eauto).
    change (to_rule_based_system t false false) with (tree_rules t 0) in E. rewrite TR in E. cbn [tryS] in E. rewrite P1 in E. cbn [tryS nth_error ret_opt] in E.
    match type of E with context[tryS ?r _ _] => destruct r as [fact|] eqn:CF; [|discriminate] end. 
    destruct (@call_factual_sound _ _ _ _ _ _ _ _ CF) as (_ & deg & D & _).
    assert (L : t_leaf t = false).
    { destruct (t_leaf t) eqn:L; [|reflexivity]. exfalso. assert (WV := C26_root_leaf_rules_fail _ _ _ _ _ m rules T NE L TR).
      destruct (@vote_total rules m RN) as [k K]; [|congruence]. intros r I Z. specialize (D r I). unfold matching, matching_tn in D. rewrite Z in D. discriminate. }
    split; [assumption|]. split; [assumption|]. split; [assumption|]. split; [assumption|].
    rewrite K1, K2, K3, K4 in CF. replace (match cm with DCf => false | _ => given (@None (list nat)) || given (@None (list nat)) || given (@None (dict nat Qc)) || given (@None string) end) with false in CF by (destruct cm; reflexivity).
    destruct VA as (_ & _ & VL & _). destruct (proj1 (call_factual_iff (matching m) deg fm (a_kw a) (a_factual a) rules c HF AC VL D WP) (ex_intro _ fact CF)) as [G1 G2]. split; [exact G1|].
    intro N. destruct (G2 N) as (r & I & C & Q). exists r, (deg r). auto.
  - intros (VA & AC & SC & L & F1 & F2). destruct (check_methods_spec (a_instance a) (a_factual a) (a_counterfactual a) (a_kw a)) as [(_ & fm & cm & CH & HF & HC)|(N & _)]; [|contradiction].
    unfold fdt_fit. rewrite CH. cbn [tryS fst snd]. rewrite HV, HM, HD, HX, HY. cbn [tryS].
    assert (NCM : cm <> DCf). { intros ->. apply ND. clear - HC. unfold cmethod_of, Prelude.eqb in HC. destruct (eq_dec (a_counterfactual a) "i_counterfactual"); [discriminate|]. destruct (eq_dec (a_counterfactual a) "f_counterfactual"); [discriminate|]. destruct (eq_dec (a_counterfactual a) "d_counterfactual"); [assumption|discriminate]. }
    assert (DA : exists da, d_args cm (a_kw a) = Ok da) by (destruct cm; [eexists; reflexivity|eexists; reflexivity|congruence]). destruct DA as [da ->]. cbn [tryS]. fold cfg. rewrite FT. cbn [tryS]. rewrite PX. cbn [tryS].
    destruct (proj2 (fidelity_iff PI) SC) as [q ->]. cbn [tryS]. change (to_rule_based_system t false false) with (tree_rules t 0). rewrite TR. cbn [tryS]. rewrite P1. cbn [tryS nth_error ret_opt].
    assert (NA : forall r, In r rules -> r_ant r <> []).
    { intros r I. destruct (RF r (zunique_NoDup y) W I) as (p & n & Ip & _ & _ & _ & ->). cbn [r_ant]. intro Z. apply map_eq_nil in Z. exact (@leaves_paths _ _ t W L p n Ip Z). }
    set (deg := fun r => match matching m r with Ok d => d | Err _ => 0 end).
    assert (D : forall r, In r rules -> matching m r = Ok (deg r)) by (intros r I; unfold deg; destruct (@matching_total m r (NA r I)) as [x ->]; reflexivity).
    assert (AC' := AC). destruct AC' as (_ & K1 & K2 & K3 & K4 & _). rewrite K1, K2, K3, K4.
    replace (match cm with DCf => false | _ => given (@None (list nat)) || given (@None (list nat)) || given (@None (dict nat Qc)) || given (@None string) end) with false by (destruct cm; reflexivity).
    destruct VA as (_ & _ & VL & _). destruct (proj2 (call_factual_iff (matching m) deg fm (a_kw a) (a_factual a) rules c HF AC VL D WP)) as [fact CF].
    { split; [exact F1|]. intro N. destruct (F2 N) as (r & d & I & C & MT & Q). exists r. split; [assumption|]. split; [assumption|]. rewrite (D r I) in MT. injection MT as <-. assumption. }
    rewrite CF. cbn [tryS]. destruct (@call_factual_sound _ _ _ _ _ _ _ _ CF) as (_ & deg' & _ & SF).
    assert (CC : exists cf, call_counterfactual same parse mixed cm fact m rules c (a_num a) dec da = Ok cf).
    { destruct cm; cbn [call_counterfactual]; [|apply f_counterfactual_ok; try assumption; intros r I; apply (SF r I)|congruence]. apply i_counterfactual_ok; assumption. }
    destruct CC as [cf ->]. cbn [tryS]. eauto.
Qed.
Print Assumptions C129_exactly_when.

(** the tree has a split exactly when no limit is met at the root and some variable's gain reaches the threshold *)
Theorem C129_root_splits : forall cfg ord X y t, trained cfg ord X y t -> (0 < f_threshold cfg)%R ->
  (t_leaf t = false <-> ~ limit_met cfg X y [] /\ exists a, (a < List.length (f_vars cfg))%nat /\ (f_threshold cfg <= info_gain (f_vars cfg) X y [] a)%R).
Proof.
  intros cfg ord X y t T TH. split.
  - intro L. destruct (C30_gain_optimal_choice cfg ord X y t [] t T (at_self t) L) as (a & v & _ & _ & [U _] & _ & G & NL & _). split; [assumption|]. exists a. auto.
  - intros (NL & a & U & G). destruct (t_leaf t) eqn:L; [|reflexivity]. exfalso. destruct (trained_fitted T) as (HL & Hy & _).
    assert (UT : untested (f_vars cfg) [] a) by (split; [assumption|intros []]).
    destruct (node_leaf T (at_self t) L) as [Q|[Q|[Q _]]]; [apply (@root_mass cfg X y); assumption|contradiction|specialize (Q a UT); lra|specialize (Q a UT); lra].
Qed.
Print Assumptions C129_root_splits.

(** ** rows covered by the sets of every variable *)
Lemma node_at_extend t p n c l : node_at t p n -> t_leaf n = false -> In c (t_children n) -> t_value c = Some l -> node_at t (p ++ [l]) c.
Proof.
  intro H. induction H as [t|t c' l' p n L I V H IH]; intros Ln Ic Vc; cbn [app].
  - eapply at_child; try eassumption. constructor.
  - eapply at_child; eauto.
Qed.
Lemma covered_leaf cfg ord X y t row d : trained cfg ord X y t -> covered (f_vars cfg) row d ->
  forall n p, node_at t p n -> d <= activation qmin (f_vars cfg) row p ->
  exists p' n', node_at t p' n' /\ t_leaf n' = true /\ d <= activation qmin (f_vars cfg) row p'.
Proof.
  intros T CV. induction n as [lf cs cv lv va vr mu IH] using tree_ind'. intros p H A. destruct lf; [exists p; eexists; split; [exact H|]; split; [reflexivity|assumption]|].
  destruct (C24_children cfg ord X y t p _ T H eq_refl) as (a & v & Hv & _ & VS & _). cbn [t_children] in VS. destruct (CV a v Hv) as (i & s & Hs & D).
  assert (Li : (i < List.length (fv_sets v))%nat) by (apply nth_error_Some; congruence).
  assert (E : nth_error (map t_value cs) i = Some (Some (a, i))). { rewrite VS, nth_error_map. rewrite (nth_error_nth' _ 0%nat) by (rewrite seq_length; assumption). rewrite seq_nth by assumption. reflexivity. }
  rewrite nth_error_map in E. destruct (nth_error cs i) as [c|] eqn:Ec; [|discriminate]. injection E as E. assert (Ic := nth_error_In _ _ Ec).
  rewrite Forall_forall in IH. apply (IH c Ic (p ++ [(a, i)])).
  - eapply node_at_extend; [exact H|reflexivity|exact Ic|exact E].
  - rewrite activation_snoc. apply qmin_glb; assumption.
Qed.
Lemma covered_leaf_root cfg ord X y t row d : trained cfg ord X y t -> (forall v, In v (f_vars cfg) -> fv_sets v <> []) -> covered (f_vars cfg) row d -> d <= 1 ->
  exists p n, In (p, n) (leaves t) /\ d <= activation qmin (f_vars cfg) row p.
Proof.
  intros T NE CV D1. destruct (covered_leaf cfg ord X y t row d T CV t [] (at_self t)) as (p & n & H & L & A).
  - change (activation qmin (f_vars cfg) row []) with 1. assumption.
  - exists p, n. split; [|assumption]. apply (C27_leaves_are_leaf_nodes cfg ord X y t p n T NE). auto.
Qed.
Lemma qsum_pos (l : list Qc) x : (forall z, In z l -> 0 <= z) -> In x l -> 0 < x -> 0 < qsum l.
Proof.
  induction l as [|z l IH]; intros N I P; [destruct I|]. rewrite qsum_cons. assert (0 <= z) by (apply N; left; reflexivity).
  assert (0 <= qsum l). { clear - N. induction l as [|w l IH]; [rewrite qsum_nil; apply Qcle_refl|]. rewrite qsum_cons. assert (0 <= w) by (apply N; right; left; reflexivity). assert (0 <= qsum l) by (apply IH; intros z' [<-|J]; apply N; [left; reflexivity|right; right; assumption]). qlra. }
  destruct I as [->|I]; [qlra|]. assert (0 < qsum l) by (apply IH; [intros; apply N; right; assumption|assumption|assumption]). qlra.
Qed.
(** If every training row belongs to some set of every variable, every class has a rule. *)
Theorem C129_every_class_has_a_rule : forall cfg ord X y t rules, trained cfg ord X y t -> (forall v, In v (f_vars cfg) -> fv_sets v <> []) ->
  tree_rules t 0 = Ok rules -> (forall row, In row X -> exists d, 0 < d /\ covered (f_vars cfg) row d) ->
  forall c, In c y -> exists r, In r rules /\ r_cons r = c.
Proof.
  intros cfg ord X y t rules T NE TR CV c I. destruct (@trained_wf cfg ord X y t T NE) as [W V]. destruct (trained_fitted T) as (HL & _).
  rewrite (@tree_rules_spec _ _ 0 t W V) in TR. injection TR as <-. apply In_nth_error in I. destruct I as [j Hj].
  destruct (nth_error X j) as [row|] eqn:HX. 2:{ apply nth_error_None in HX. assert (j < List.length y)%nat by (apply nth_error_Some; congruence). lia. }
  destruct (CV row (nth_error_In _ _ HX)) as (d & Pd & Cd).
  assert (C1 : covered (f_vars cfg) row (qmin d 1)). { intros a v Hv. destruct (Cd a v Hv) as (i & s & Hs & D). exists i, s. split; [assumption|]. eapply Qcle_trans; [apply qmin_l|assumption]. }
  destruct (covered_leaf_root cfg ord X y t row (qmin d 1) T NE C1 (qmin_r d 1)) as (p & n & Ip & A).
  assert (PA : 0 < activation qmin (f_vars cfg) row p) by (eapply Qclt_le_trans; [|exact A]; unfold qmin; destruct (qltb 1 d); [qlra|assumption]).
  apply (C27_leaves_are_leaf_nodes cfg ord X y t p n T NE) in Ip. destruct Ip as [Hn Ln]. destruct (C23_leaf_distribution cfg ord X y t p n T Hn Ln) as (cv & q & Ec & Kc & Wc & _ & M).
  assert (MP : 0 < mass (f_vars cfg) X p).
  { unfold mass, acts. apply (qsum_pos _ (activation qmin (f_vars cfg) row p)); [|apply in_map_iff; exists row; split; [reflexivity|exact (nth_error_In _ _ HX)]|assumption].
    intros z Iz. apply in_map_iff in Iz. destruct Iz as (r & <- & _). apply activation_01. }
  destruct M as [[_ ->]|[M _]]; [|rewrite M in MP; exfalso; qlra].
  assert (CM : 0 < class_mass (f_vars cfg) X y p c).
  { unfold class_mass. apply (qsum_pos _ (activation qmin (f_vars cfg) row p)); [| |assumption].
    - intros z Iz. unfold acts in Iz. clear - Iz. revert y Iz. induction X as [|r X IH]; intros [|k y] Iz; cbn in Iz; try contradiction. destruct Iz as [<-|Iz]; [|eauto]. destruct (Z.eqb k c); [apply activation_01|apply Qcle_refl].
    - unfold acts. clear - HX Hj. revert X y HX Hj. induction j as [|j IH]; intros [|r X] [|k y] HX Hj; try discriminate; cbn in HX, Hj.
      + injection HX as ->. injection Hj as ->. cbn. rewrite Z.eqb_refl. left. reflexivity.
      + cbn [map map2]. right. apply IH; assumption. }
  assert (LW : 0 < leaf_weight n c).
  { unfold leaf_weight. rewrite Ec. destruct (@dget_ex _ _ _ c cv) as [w Ew]; [unfold dkeys; rewrite Kc; apply zunique_In; exact (nth_error_In _ _ Hj)|]. rewrite Ew. destruct (Wc c w (dget_In _ _ Ew)) as (_ & _ & ->).
    unfold share. apply Qclt_div; [assumption|]. rewrite Qcmult_0_l. assumption. }
  exists (mkR (map (lit_name (f_vars cfg)) p) c (leaf_weight n c)). split; [|reflexivity]. apply (@leaf_rule_in (f_vars cfg) (zunique y)); [apply zunique_NoDup|exact W| |assumption].
  apply (C27_leaves_are_leaf_nodes cfg ord X y t p n T NE). auto.
Qed.
Print Assumptions C129_every_class_has_a_rule.

Lemma qsum_swap A B (f : A -> B -> Qc) (C : list A) (L : list B) :
  qsum (map (fun c => qsum (map (fun l => f c l) L)) C) = qsum (map (fun l => qsum (map (fun c => f c l) C)) L).
Proof.
  induction C as [|c C IH]; cbn [map]; [rewrite qsum_nil; symmetry; apply qsum_map_zero; intros; apply qsum_nil|].
  rewrite qsum_cons, IH, <- qsum_map_plus. reflexivity.
Qed.
Lemma leaf_total vars classes t p n : NoDup classes -> wf vars classes t -> In (p, n) (leaves t) -> qsum (map (leaf_weight n) classes) = 1.
Proof.
  intros ND W I. destruct (@wf_leaves _ _ _ W _ _ I) as ((d & Ed & K & _ & S) & _). rewrite <- S, <- K. rewrite map_map. f_equal. apply map_ext_in. intros [c w] J. cbn [fst snd].
  unfold leaf_weight. rewrite Ed. rewrite (@dget_nodup Z Qc _ c w d); [reflexivity|unfold dkeys; rewrite K; assumption|assumption].
Qed.
(** If the instance belongs to some set of every variable with degree at least [d], and 1000 d exceeds the number of leaves times the number of classes, a rule of
    the explained class fires. *)
Theorem C129_explained_class_fires : forall cfg ord X y t row m d c rules,
  trained cfg ord X y t -> (forall v, In v (f_vars cfg) -> fv_sets v <> []) -> t_leaf t = false -> f_tnorm cfg = qmin -> f_voting cfg = AggVote ->
  readable (f_vars cfg) [row] -> row_membership (f_vars cfg) row m -> tree_rules t 0 = Ok rules -> predict cfg t [row] = Ok [c] ->
  covered (f_vars cfg) row d -> qn (List.length (leaves t)) * qn (List.length (zunique y)) < qz 1000 * d ->
  exists r x, In r rules /\ r_cons r = c /\ matching m r = Ok x /\ qc 1 1000 < x.
Proof.
  intros cfg ord X y t row m d c rules T NE L TN VT RD RM TR PR CV SZ. destruct (@trained_wf cfg ord X y t T NE) as [W V]. destruct (trained_fitted T) as (_ & Hy & _).
  assert (D1 : d <= 1). { destruct (C24_children cfg ord X y t [] t T (at_self t) L) as (a & v & Hv & _). destruct (CV a v Hv) as (i & s & _ & D). eapply Qcle_trans; [exact D|]. apply lit_degree_01. }
  destruct (covered_leaf_root cfg ord X y t row d T NE CV D1) as (p0 & n0 & I0 & A0).
  destruct (C27_predict_maximal_vote cfg ord X y t [row] T NE RD) as (ps & P1 & P2). rewrite PR in P1. injection P1 as <-. inversion P2 as [|? ? ? ? [B1 B2] _ E1 E2]. clear P2.
  assert (RS : forall k, row_support cfg t row k = tree_support qmin (f_vars cfg) t row k) by (intro k; unfold row_support; rewrite VT, TN; reflexivity).
  assert (TOT : qsum (map (fun k => tree_support qmin (f_vars cfg) t row k) (zunique y)) = qsum (map (fun pl => activation qmin (f_vars cfg) row (fst pl)) (leaves t))).
  { unfold tree_support. rewrite qsum_swap. f_equal. apply map_ext_in. intros [p n] I. cbn [fst snd].
    rewrite (map_ext _ (fun k => activation qmin (f_vars cfg) row p * leaf_weight n k)) by (intro; ring). rewrite qsum_map_mult, (leaf_total _ _ _ _ _ (zunique_NoDup y) W I). ring. }
  assert (LOW : d <= qsum (map (fun pl => activation qmin (f_vars cfg) row (fst pl)) (leaves t))).
  { eapply Qcle_trans; [exact A0|]. clear - I0. induction (leaves t) as [|pl L IH]; [destruct I0|]. cbn [map]. rewrite qsum_cons.
    assert (P : 0 <= qsum (map (fun pl => activation qmin (f_vars cfg) row (fst pl)) L)) by (apply qsum_nonneg, Forall_forall; intros z Iz; apply in_map_iff in Iz; destruct Iz as (q & <- & _); apply activation_01).
    destruct I0 as [->|I0]; [cbn [fst]; qlra|]. specialize (IH I0). destruct (activation_01 (f_vars cfg) row (fst pl)) as [Q _]. qlra. }
  assert (UP : qsum (map (fun k => tree_support qmin (f_vars cfg) t row k) (zunique y)) <= qn (List.length (zunique y)) * tree_support qmin (f_vars cfg) t row c).
  { rewrite <- qsum_const. apply qsum_map_le. intros k I. rewrite <- !RS. apply (B2 k I). }
  destruct (existsb (fun pl : list (nat * nat) * tree => qltb 0 (leaf_weight (snd pl) c) && qltb (qc 1 1000) (activation qmin (f_vars cfg) row (fst pl))) (leaves t)) eqn:EX.
  - apply existsb_exists in EX. destruct EX as ([p n] & I & B). apply andb_true_iff in B. destruct B as [Bw Ba]. cbn [fst snd] in *. rewrite qltb_lt in Bw. rewrite qltb_lt in Ba.
    exists (mkR (map (lit_name (f_vars cfg)) p) c (leaf_weight n c)), (activation qmin (f_vars cfg) row p). rewrite (@tree_rules_spec _ _ 0 t W V) in TR. injection TR as <-.
    split; [apply (@leaf_rule_in (f_vars cfg) (zunique y)); [apply zunique_NoDup|exact W|assumption|assumption]|]. split; [reflexivity|]. split; [|assumption].
    apply matching_activation; [assumption|exact (@leaves_paths _ _ t W L p n I)|apply (@wf_leaves _ _ _ W _ _ I)].
  - exfalso. assert (S : tree_support qmin (f_vars cfg) t row c <= qn (List.length (leaves t)) * qc 1 1000).
    { unfold tree_support. rewrite <- qsum_const. apply qsum_map_le. intros [p n] I. cbn [fst snd]. destruct (@leaf_weight_01 _ _ _ _ _ c W I) as [W0 W1]. destruct (activation_01 (f_vars cfg) row p) as [A1 A2].
      assert (B : qltb 0 (leaf_weight n c) && qltb (qc 1 1000) (activation qmin (f_vars cfg) row p) = false).
      { destruct (qltb 0 (leaf_weight n c) && qltb (qc 1 1000) (activation qmin (f_vars cfg) row p)) eqn:B; [|reflexivity]. rewrite <- EX. symmetry. apply existsb_exists. exists (p, n). split; assumption. }
      apply andb_false_iff in B. destruct B as [B|B]; rewrite qltb_ge in B.
      - assert (Z0 : leaf_weight n c = 0) by qlra. rewrite Z0, Qcmult_0_l. discriminate.
      - eapply Qcle_trans; [|exact B]. clear - W1 A1. generalize dependent (leaf_weight n c). generalize dependent (activation qmin (f_vars cfg) row p). intros x X w W1. assert (0 <= x * (1 - w)) by (apply Qcmult_nonneg; [assumption|qlra]). assert (x * (1 - w) = x - w * x) by ring. qlra. }
    assert (N0 : 0 <= qn (List.length (zunique y))) by apply qn_nonneg.
    assert (S2 : qn (List.length (zunique y)) * tree_support qmin (f_vars cfg) t row c <= qn (List.length (zunique y)) * (qn (List.length (leaves t)) * qc 1 1000)).
    { rewrite !(Qcmult_comm (qn (List.length (zunique y)))). apply Qcmult_le_compat_r; assumption. }
    rewrite TOT in UP. assert (F : d <= qn (List.length (zunique y)) * (qn (List.length (leaves t)) * qc 1 1000)) by (eapply Qcle_trans; [exact LOW|]; eapply Qcle_trans; [exact UP|exact S2]).
    assert (F2 : qz 1000 * d <= qz 1000 * (qn (List.length (zunique y)) * (qn (List.length (leaves t)) * qc 1 1000))).
    { rewrite !(Qcmult_comm (qz 1000)). apply Qcmult_le_compat_r; [exact F|discriminate]. }
    assert (E3 : qz 1000 * (qn (List.length (zunique y)) * (qn (List.length (leaves t)) * qc 1 1000)) = qn (List.length (leaves t)) * qn (List.length (zunique y))).
    { assert (E4 : qz 1000 * qc 1 1000 = 1) by (apply Qc_is_canon; reflexivity). transitivity (qz 1000 * qc 1 1000 * (qn (List.length (leaves t)) * qn (List.length (zunique y)))); [ring|rewrite E4; ring]. }
    rewrite E3 in F2. exact (Qclt_not_le _ _ SZ F2).
Qed.
Print Assumptions C129_explained_class_fires.

(** a tree over variables of at most [k] sets has at most k^(number of variables) and at most k^max_depth leaves *)
Lemma leaf_count cfg ord X y t k (U : list (nat * nat) -> nat) : trained cfg ord X y t -> (1 <= k)%nat -> (forall v, In v (f_vars cfg) -> (List.length (fv_sets v) <= k)%nat) ->
  (forall p n, node_at t p n -> t_leaf n = false -> (1 <= U p)%nat) -> (forall p l, (U p <= S (U (p ++ [l])))%nat) ->
  (forall p l, (U (p ++ [l]) <= U p - 1)%nat) ->
  forall n p, node_at t p n -> (List.length (leaves n) <= k ^ U p)%nat.
Proof.
  intros T K1 KS U1 U2 U3. induction n as [lf cs cv lv va vr mu IH] using tree_ind'. intros p H. destruct lf; [cbn; assert (k ^ U p <> 0)%nat by (apply Nat.pow_nonzero; lia); lia|].
  destruct (C24_children cfg ord X y t p _ T H eq_refl) as (a & v & Hv & _ & VS & _). cbn [t_children] in VS.
  assert (LC : (List.length cs <= k)%nat). { apply (f_equal (@List.length _)) in VS. rewrite !map_length, seq_length in VS. rewrite VS. apply KS. exact (nth_error_In _ _ Hv). }
  assert (U1p := U1 _ _ H eq_refl). rewrite leaves_inner.
  assert (B : forall c, In c cs -> (List.length (leaves c) <= k ^ (U p - 1))%nat).
  { intros c Ic. assert (Iv : In (t_value c) (map t_value cs)) by (apply in_map; assumption). rewrite VS in Iv. apply in_map_iff in Iv. destruct Iv as (i & E & _).
    rewrite Forall_forall in IH. etransitivity; [apply (IH c Ic (p ++ [(a, i)])); eapply node_at_extend; [exact H|reflexivity|exact Ic|symmetry; exact E]|]. apply Nat.pow_le_mono_r; [lia|apply U3]. }
  assert (G : (List.length (List.concat (map (fun c => map (extend c) (leaves c)) cs)) <= List.length cs * k ^ (U p - 1))%nat).
  { clear - B. induction cs as [|c cs IH]; [cbn; lia|]. cbn [map List.concat List.length]. rewrite app_length, map_length. assert (B1 := B c (or_introl eq_refl)). assert (B2 := IH (fun c' I => B c' (or_intror I))). lia. }
  etransitivity; [exact G|]. replace (k ^ U p)%nat with (k * k ^ (U p - 1))%nat by (rewrite <- Nat.pow_succ_r'; f_equal; lia). apply Nat.mul_le_mono_r. assumption.
Qed.
Theorem C129_leaf_count : forall cfg ord X y t k, trained cfg ord X y t -> (1 <= k)%nat -> (forall v, In v (f_vars cfg) -> (List.length (fv_sets v) <= k)%nat) ->
  (List.length (leaves t) <= k ^ List.length (f_vars cfg))%nat /\ (List.length (leaves t) <= k ^ Z.to_nat (f_max_depth cfg))%nat.
Proof.
  intros cfg ord X y t k T K1 KS. split.
  - rewrite <- (Nat.sub_0_r (List.length (f_vars cfg))). apply (leaf_count cfg ord X y t k (fun p => List.length (f_vars cfg) - List.length p)%nat T K1 KS) with (p := []); [| | |constructor].
    + intros p n H L. destruct (C30_gain_optimal_choice cfg ord X y t p n T H L) as (a & v & _ & _ & [Ua Up] & _). destruct (node_path T H) as (ND & PV & _).
      assert (S (List.length p) <= List.length (f_vars cfg))%nat; [|lia]. replace (S (List.length p)) with (List.length (a :: map fst p)) by (cbn; rewrite map_length; reflexivity). rewrite <- (seq_length (List.length (f_vars cfg)) 0).
      apply NoDup_incl_length; [constructor; assumption|]. intros b [<-|I]; apply in_seq; [lia|]. apply in_map_iff in I. destruct I as (l & <- & I). destruct (PV l I) as (w & s & Hw & _). assert (fst l < List.length (f_vars cfg))%nat by (apply nth_error_Some; congruence). lia.
    + intros p l. rewrite app_length. cbn. lia.
    + intros p l. rewrite app_length. cbn. lia.
  - replace (Z.to_nat (f_max_depth cfg)) with (Z.to_nat (f_max_depth cfg) - 0)%nat by lia. apply (leaf_count cfg ord X y t k (fun p => Z.to_nat (f_max_depth cfg) - List.length p)%nat T K1 KS) with (p := []); [| | |constructor].
    + intros p n H L. destruct (C30_gain_optimal_choice cfg ord X y t p n T H L) as (a & v & _ & _ & _ & _ & _ & NL & _). assert (~ (f_max_depth cfg <= Z.of_nat (List.length p))%Z) by (intro; apply NL; right; right; assumption). lia.
    + intros p l. rewrite app_length. cbn. lia.
    + intros p l. rewrite app_length. cbn. lia.
Qed.
Print Assumptions C129_leaf_count.

Lemma qsum_lt_const A (f : A -> Qc) c l : l <> [] -> (forall x, In x l -> f x < c) -> qsum (map f l) < qn (List.length l) * c.
Proof.
  intros N LT. rewrite <- qsum_const. destruct l as [|i l]; [congruence|]. cbn [map]. rewrite !qsum_cons. assert (f i < c) by (apply LT; left; reflexivity).
  assert (qsum (map f l) <= qsum (map (fun _ => c) l)) by (apply qsum_map_le; intros j J; assert (f j < c) by (apply LT; right; assumption); qlra). qlra.
Qed.
(** if the degrees of a row in the sets of every variable add up to at least 1 and no variable has more than [k] sets, some degree of every variable is at least 1/k *)
Theorem C129_sum_covers : forall vars row k, (1 <= k)%nat -> (forall v, In v vars -> (List.length (fv_sets v) <= k)%nat) ->
  (forall a v, nth_error vars a = Some v -> 1 <= qsum (map (fun i => lit_degree vars row (a, i)) (seq 0 (List.length (fv_sets v))))) ->
  covered vars row (1 / qn k).
Proof.
  intros vars row k K1 KS SM a v Hv. assert (PK : 0 < qn k) by (apply qn_pos; lia).
  destruct (existsb (fun i => qleb (1 / qn k) (lit_degree vars row (a, i))) (seq 0 (List.length (fv_sets v)))) eqn:E.
  - apply existsb_exists in E. destruct E as (i & I & B). apply in_seq in I. apply qleb_le in B. destruct (nth_error (fv_sets v) i) as [s|] eqn:Hs; [|apply nth_error_None in Hs; lia]. eauto.
  - exfalso. assert (LT : forall i, In i (seq 0 (List.length (fv_sets v))) -> lit_degree vars row (a, i) < 1 / qn k).
    { intros i I. destruct (qleb (1 / qn k) (lit_degree vars row (a, i))) eqn:B; [|rewrite qleb_gt in B; assumption]. exfalso.
      assert (existsb (fun i => qleb (1 / qn k) (lit_degree vars row (a, i))) (seq 0 (List.length (fv_sets v))) = true); [|congruence]. apply existsb_exists. eauto. }
    specialize (SM a v Hv). assert (KV := KS v (nth_error_In _ _ Hv)). assert (LS := seq_length (List.length (fv_sets v)) 0).
    assert (NS : seq 0 (List.length (fv_sets v)) <> []) by (intro Z; rewrite Z in SM; cbn [map] in SM; rewrite qsum_nil in SM; exact (Qcle_not_lt _ _ SM eq_refl)).
    assert (Q := qsum_lt_const _ _ _ _ NS LT). rewrite LS in Q. assert (R : qn (List.length (fv_sets v)) * (1 / qn k) <= 1).
    { apply Qcle_trans with (qn k * (1 / qn k)); [apply Qcmult_le_compat_r; [apply qn_le; assumption|apply Qcle_div; [assumption|rewrite Qcmult_0_l; discriminate]]|].
      rewrite (Qcmult_comm (qn k)), Qcdiv_mult; [apply Qcle_refl|]. intro Z. rewrite Z in PK. qlra. }
    qlra.
Qed.
Print Assumptions C129_sum_covers.

(** Sufficient conditions that can be read off the data: valid and accepted arguments, labels that can be scored, a variable whose gain reaches the threshold, no limit
    met at the root, training rows with a positive degree in some set of every variable and an instance with degree at least [d], where 1000 d exceeds the
    number of leaves times the number of classes.  For mr_factual the condition on the instance is not needed. *)
Theorem C129_succeeds : forall ord same parse mixed s a vars m X y d b,
  prepared ord a vars m X y -> a_counterfactual a <> "d_counterfactual" ->
  valid_arguments (a_instance a) (a_factual a) (a_counterfactual a) (a_kw a) -> accepted (a_kw a) (a_factual a) -> scorable y ->
  let cfg := fdt_config vars (a_kw a) in
  ~ limit_met cfg X y [] -> (b < List.length vars)%nat -> (f_threshold cfg <= info_gain vars X y [] b)%R ->
  (forall row, In row X -> exists e, 0 < e /\ covered vars row e) ->
  (a_factual a <> "mr_factual" -> covered vars (List.concat (a_instance a)) d /\
     forall t, fit cfg ord fresh_root X y = Ok t -> qn (List.length (leaves t)) * qn (List.length (zunique y)) < qz 1000 * d) ->
  exists s', fdt_fit ord same parse mixed s a = (s', None).
Proof.
  intros ord same parse mixed s a vars m X y d b P ND VA AC SC cfg NL Lb G CV CI.
  destruct (C129_exactly_when ord same parse mixed s a vars m X y P ND) as (t & rules & c & FT & TR & PR & IFF). apply IFF. fold cfg in FT, PR.
  destruct P as (HV & HM & _ & HX & HY & Ho & DN & NE & N2 & HL & Hy & RX & RI & RM & PM & TH).
  assert (Hth : (0 < f_threshold cfg)%R). { unfold cfg, fdt_config. cbn [f_threshold]. destruct (k_threshold (a_kw a)) as [th|]; cbn [or_default]; [apply TH; reflexivity|lra]. }
  assert (T : trained cfg ord X y t) by (split; [assumption|]; split; [assumption|]; split; [left; assumption|assumption]).
  assert (L : t_leaf t = false) by (apply (C129_root_splits cfg ord X y t T Hth); split; [assumption|]; exists b; auto).
  split; [assumption|]. split; [assumption|]. split; [assumption|]. split; [assumption|]. split.
  - intros _. assert (TWO : exists k, In k y /\ k <> c).
    { destruct (existsb (fun k => negb (Z.eqb k c)) y) eqn:B; [apply existsb_exists in B; destruct B as (k & I & B); apply negb_true_iff, Z.eqb_neq in B; eauto|]. exfalso. apply NL. left.
      assert (AL : forall k, In k y -> k = c). { intros k I. destruct (Z.eq_dec k c) as [|N]; [assumption|]. exfalso. assert (existsb (fun k => negb (Z.eqb k c)) y = true); [|congruence]. apply existsb_exists. exists k. split; [assumption|]. apply negb_true_iff, Z.eqb_neq. assumption. }
      intros k k' I I'. unfold reaching in I, I'. apply in_map_iff in I. destruct I as ([r1 k1] & <- & I). apply in_map_iff in I'. destruct I' as ([r2 k2] & <- & I'). apply filter_In in I. apply filter_In in I'. cbn [snd].
      destruct I as [I _]. destruct I' as [I' _]. apply in_combine_r in I. apply in_combine_r in I'. rewrite (AL _ I), (AL _ I'). reflexivity. }
    destruct TWO as (k & Ik & Nk). destruct (C129_every_class_has_a_rule cfg ord X y t rules T NE TR CV k Ik) as (r & Ir & Er). exists r. split; [assumption|congruence].
  - intro N. destruct (CI N) as [CD SZ]. exact (C129_explained_class_fires cfg ord X y t (List.concat (a_instance a)) m d c rules T NE L eq_refl eq_refl RI RM TR PR CD (SZ t FT)).
Qed.
Print Assumptions C129_succeeds.

(** *** the example of Properties_Explainer meets the hypotheses *)
Lemma ex_cover x : (x = 0 \/ x = qz 2 \/ x = qz 10) -> covered [ex_v "x"] [CNum x] (qc 4 5).
Proof.
  intros Hx a v Hv. destruct a as [|a]; [|destruct a; discriminate]. injection Hv as <-. destruct Hx as [->|[->| ->]].
  - exists 0%nat. eexists. split; [reflexivity|]. unfold lit_degree. cbn [nth_error fst snd]. vm_compute. discriminate.
  - exists 0%nat. eexists. split; [reflexivity|]. vm_compute. discriminate.
  - exists 1%nat. eexists. split; [reflexivity|]. vm_compute. discriminate.
Qed.
Example C129_instance : prepared same_order ex_call [ex_v "x"] ex_m ex_X ex_y /\ valid_arguments (a_instance ex_call) (a_factual ex_call) (a_counterfactual ex_call) (a_kw ex_call) /\
  accepted (a_kw ex_call) (a_factual ex_call) /\ scorable ex_y /\ ~ limit_met (fdt_config [ex_v "x"] (a_kw ex_call)) ex_X ex_y [] /\
  (f_threshold (fdt_config [ex_v "x"] (a_kw ex_call)) <= info_gain [ex_v "x"] ex_X ex_y [] 0)%R /\
  (forall row, In row ex_X -> exists e, 0 < e /\ covered [ex_v "x"] row e) /\ covered [ex_v "x"] (List.concat (a_instance ex_call)) (qc 4 5) /\
  (forall t, fit (fdt_config [ex_v "x"] (a_kw ex_call)) same_order fresh_root ex_X ex_y = Ok t -> qn (List.length (leaves t)) * qn (List.length (zunique ex_y)) < qz 1000 * qc 4 5) /\
  (exists s', ex_fdt new_explainer ex_call = (s', None)).
Proof.
  destruct (ex_fit AggVote ex_y (or_introl eq_refl)) as (T1 & T2 & T3 & F). assert (T : trained (ex_cfg AggVote) same_order ex_X ex_y (one_tree (ex_cfg AggVote) ex_X ex_y (ex_v "x"))) by exact (conj T1 (conj T2 (conj T3 F))).
  split.
  { split; [reflexivity|]. split; [reflexivity|]. split; [eexists; reflexivity|]. split; [reflexivity|]. split; [reflexivity|]. split; [exact T1|]. split; [exact T2|].
    split; [intros v [<-|[]]; discriminate|]. split; [intros v [<-|[]] _; cbn; lia|]. split; [reflexivity|]. split; [discriminate|].
    split; [apply (proj1 (ex_readable "x" ex_X ltac:(intros row [<-|[<-|[]]]; eexists; reflexivity)))|]. split; [exact (proj1 C81_instance)|]. split; [exact ex_row_membership|]. split; [destruct C80_instance as (? & _ & Q & _); exact Q|].
    intros th E. discriminate. }
  split. { split; [exists [CNum (qz 2)], (CNum (qz 2)); split; left; reflexivity|]. split; [left; reflexivity|]. split; [discriminate|left; reflexivity]. }
  split; [repeat split; reflexivity|]. split; [intros _; left; reflexivity|].
  destruct (proj1 (C129_root_splits (ex_cfg AggVote) same_order ex_X ex_y _ T ltac:(cbn; lra)) eq_refl) as (NL & a & La & G).
  assert (a = 0%nat) by (cbn in La; lia). subst a.
  split; [exact NL|]. split; [exact G|]. split; [intros row [<-|[<-|[]]]; exists (qc 4 5); (split; [reflexivity|]); apply ex_cover; auto|]. split; [apply ex_cover; auto|].
  split; [|eexists; apply ex_succeeds]. intros t E. change (fdt_config [ex_v "x"] (a_kw ex_call)) with (ex_cfg AggVote) in E. rewrite F in E. injection E as <-. vm_compute. reflexivity.
Qed.
