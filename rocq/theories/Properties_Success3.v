(** * Property C132: when FDTExplainer.fit with d_counterfactual succeeds *)
From Verif Require Import Prelude M_Fuzzy M_Discretize M_Rule S_Rule P_Rule M_FDT S_FDT P_FDT P_FDT2 P_FDT3 P_FDT4 M_FBDT M_ID3 M_Metrics M_Factual S_Factual P_Factual
  M_Counterfactual S_Counterfactual P_Counterfactual M_Explainer S_Explainer P_Explainer Properties_FDT Properties_Factual Properties_Counterfactual Properties_Explainer S_Success P_Success
  S_Success2 P_Success2 Properties_Success.
From Coq Require Import Reals Lra.
Open Scope string_scope.
Open Scope list_scope.
Open Scope Qc_scope.
Local Notation eqb := Prelude.eqb.

(** as [call_factual_iff]: the arguments of d_counterfactual do not reach the factual method *)
Lemma call_factual_d_iff {V} (mt : rule V -> res Qc) deg fm kw f rules c :
  fmethod_of f = Some fm -> accepted_d kw f -> (f = "c_factual" -> exists lam, k_lam kw = Some lam) ->
  (forall r, In r rules -> mt r = Ok (deg r)) -> (forall r, In r rules -> 0 < r_weight r) ->
  (exists fact, call_factual mt fm kw false rules c = Ok fact) <->
  ((f = "mr_factual" -> exists r, In r rules /\ r_cons r <> c) /\ (f <> "mr_factual" -> exists r, In r rules /\ r_cons r = c /\ qc 1 1000 < deg r)).
Proof.
  intros FM [AO AL] LAM D WP. set (kw' := mkK (k_depth kw) (k_min kw) (k_threshold kw) (k_lam kw) (k_beta kw) None None None None (k_other kw)).
  change (call_factual mt fm kw false rules c) with (call_factual mt fm kw' false rules c). apply (call_factual_iff mt deg fm kw' f rules c FM); try assumption.
  repeat split; try assumption; apply AL; assumption.
Qed.

(** For a prepared call with the arguments d_counterfactual needs, whose distances are defined, fit succeeds exactly when the methods and arguments are
    valid and accepted, the labels can be scored, the tree has a split, and the factual method finds its rules. *)
Theorem C132_exactly_when : forall ord same parse mixed s a vars m X y decoded co di mad,
  prepared ord a vars m X y -> follows vars m -> a_counterfactual a = "d_counterfactual" ->
  k_cont (a_kw a) = Some co -> k_disc (a_kw a) = Some di -> k_mad (a_kw a) = Some mad -> (k_dist (a_kw a) = None \/ k_dist (a_kw a) = Some "moth") ->
  n_decoded (a_nb a) = Ok decoded -> measurable vars decoded co di mad parse ->
  exists t rules c, let cfg := fdt_config vars (a_kw a) in
    fit cfg ord fresh_root X y = Ok t /\ tree_rules t 0 = Ok rules /\ predict cfg t [List.concat (a_instance a)] = Ok [c] /\
    ((exists s', fdt_fit ord same parse mixed s a = (s', None)) <->
     valid_arguments (a_instance a) (a_factual a) (a_counterfactual a) (a_kw a) /\ accepted_d (a_kw a) (a_factual a) /\ scorable y /\
     t_leaf t = false /\
     (a_factual a = "mr_factual" -> exists r, In r rules /\ r_cons r <> c) /\
     (a_factual a <> "mr_factual" -> exists r d, In r rules /\ r_cons r = c /\ matching m r = Ok d /\ qc 1 1000 < d)).
Proof.
  intros ord same parse mixed s a vars m X y dec co di ma (HV & HM & _ & HX & HY & Ho & DN & NE & N2 & HL & Hy & RX & RI & RM & PM & TH) FO CD Kc Kd Km KD HD MS.
  set (cfg := fdt_config vars (a_kw a)). assert (Hth : (0 < f_threshold cfg)%R).
  { unfold cfg, fdt_config. cbn [f_threshold]. destruct (k_threshold (a_kw a)) as [th|]; cbn [or_default]; [apply TH; reflexivity|lra]. }
  destruct (C25_training_total cfg ord X y fresh_root Ho DN HL Hy RX (wide_of_readable _ _ NE RX) Hth) as [t FT].
  assert (T : trained cfg ord X y t) by (split; [assumption|]; split; [assumption|]; split; [left; assumption|assumption]).
  destruct (@trained_wf cfg ord X y t T NE) as [W V]. assert (TR : tree_rules t 0 = Ok (List.concat (map (leaf_rules vars [] 0) (leaves t)))) by exact (@tree_rules_spec _ _ 0 t W V).
  set (rules := List.concat (map (leaf_rules vars [] 0) (leaves t))) in *.
  destruct (C27_predict_maximal_vote cfg ord X y t [List.concat (a_instance a)] T NE RI) as (ps & P1 & P2). inversion P2 as [|row0 c X0 ps0 B P3 EQ1 EQ2]; clear EQ1 P2; subst ps. inversion P3; subst ps0. clear P3.
  exists t, rules, c. cbv zeta. fold cfg. split; [exact FT|]. split; [exact TR|]. split; [exact P1|].
  destruct (C27_predict_maximal_vote cfg ord X y t X T NE RX) as (px & PX & _).
  assert (PI : incl px y). { assert (R := C27_predict_rowwise cfg ord X y t X px T NE RX PX). intros k I. clear - R I. induction R as [|r k' X' p' H R IH]; [destruct I|]. destruct I as [<-|I]; [apply H|auto]. }
  assert (RF := @leaf_rule_form vars (zunique y) t). assert (RN : rules <> []) by (apply (@rules_nonempty vars (zunique y)); [apply zunique_NoDup|exact W]).
  assert (US : forall r, In r rules -> usable m (a_num a) r).
  { intros r I. destruct (RF r (zunique_NoDup y) W I) as (p & n & Ip & _ & _ & _ & ->). destruct (@wf_leaves _ _ _ W _ _ Ip) as (_ & _ & PL). eapply rules_usable; eassumption. }
  assert (WP : forall r, In r rules -> 0 < r_weight r) by (intros r I; destruct (RF r (zunique_NoDup y) W I) as (p & n & _ & _ & _ & Q & _); exact Q).
  split.
  - intros [s' E]. assert (SU := C80_superfluous_arguments ord same parse mixed s a s' E). destruct SU as (S1 & S2 & _).
    assert (AC : accepted_d (a_kw a) (a_factual a)) by (split; assumption).
    destruct (check_methods_spec (a_instance a) (a_factual a) (a_counterfactual a) (a_kw a)) as [(VA & fm & cm & CH & HF & HC)|(_ & CH)]; [|unfold fdt_fit in E; rewrite CH in E; discriminate].
    assert (cm = DCf) by (rewrite CD in HC; injection HC as <-; reflexivity). subst cm.
    unfold fdt_fit in E. rewrite CH in E. cbn [tryS fst snd] in E. rewrite HV, HM, HD, HX, HY in E. cbn [tryS] in E.
    cbn [d_args] in E. rewrite Kc, Kd, Km in E. cbn [ret_opt bind tryS] in E. fold cfg in E. rewrite FT in E. cbn [tryS] in E. rewrite PX in E. cbn [tryS] in E.
    destruct (fdt_fidelity y px) as [q|] eqn:FD; [|discriminate]. cbn [tryS] in E. assert (SC : scorable y) by (apply (fidelity_iff PI); eauto).
    change (to_rule_based_system t false false) with (tree_rules t 0) in E. rewrite TR in E. cbn [tryS] in E. rewrite P1 in E. cbn [tryS nth_error ret_opt] in E.
    match type of E with context[tryS ?r _ _] => destruct r as [fact|] eqn:CF; [|discriminate] end. 
    destruct (@call_factual_sound _ _ _ _ _ _ _ _ CF) as (_ & deg & D & _).
    assert (L : t_leaf t = false).
    { destruct (t_leaf t) eqn:L; [|reflexivity]. exfalso. assert (WV := C26_root_leaf_rules_fail _ _ _ _ _ m rules T NE L TR).
      destruct (@vote_total rules m RN) as [k K]; [|congruence]. intros r I Z. specialize (D r I). unfold matching, matching_tn in D. rewrite Z in D. discriminate. }
    split; [assumption|]. split; [assumption|]. split; [assumption|]. split; [assumption|].
    destruct VA as (_ & _ & VL & _). destruct (proj1 (call_factual_d_iff (matching m) deg fm (a_kw a) (a_factual a) rules c HF AC VL D WP) (ex_intro _ fact CF)) as [G1 G2]. split; [exact G1|].
    intro N. destruct (G2 N) as (r & I & C & Q). exists r, (deg r). auto.
  - intros (VA & AC & SC & L & F1 & F2). destruct (check_methods_spec (a_instance a) (a_factual a) (a_counterfactual a) (a_kw a)) as [(_ & fm & cm & CH & HF & HC)|(N & _)]; [|contradiction].
    unfold fdt_fit. rewrite CH. cbn [tryS fst snd]. rewrite HV, HM, HD, HX, HY. cbn [tryS].
    assert (cm = DCf) by (rewrite CD in HC; injection HC as <-; reflexivity). subst cm. cbn [d_args]. rewrite Kc, Kd, Km. cbn [ret_opt bind]. cbn [tryS]. fold cfg. rewrite FT. cbn [tryS]. rewrite PX. cbn [tryS].
    destruct (proj2 (fidelity_iff PI) SC) as [q ->]. cbn [tryS]. change (to_rule_based_system t false false) with (tree_rules t 0). rewrite TR. cbn [tryS]. rewrite P1. cbn [tryS nth_error ret_opt].
    assert (NA : forall r, In r rules -> r_ant r <> []).
    { intros r I. destruct (RF r (zunique_NoDup y) W I) as (p & n & Ip & _ & _ & _ & ->). cbn [r_ant]. intro Z. apply map_eq_nil in Z. exact (@leaves_paths _ _ t W L p n Ip Z). }
    set (deg := fun r => match matching m r with Ok d => d | Err _ => 0 end).
    assert (D : forall r, In r rules -> matching m r = Ok (deg r)) by (intros r I; unfold deg; destruct (@matching_total m r (NA r I)) as [x ->]; reflexivity).
    destruct VA as (_ & _ & VL & _). destruct (proj2 (call_factual_d_iff (matching m) deg fm (a_kw a) (a_factual a) rules c HF AC VL D WP)) as [fact CF].
    { split; [exact F1|]. intro N. destruct (F2 N) as (r & d & I & C & MT & Q). exists r. split; [assumption|]. split; [assumption|]. rewrite (D r I) in MT. injection MT as <-. assumption. }
    rewrite CF. cbn [tryS]. destruct (@call_factual_sound _ _ _ _ _ _ _ _ CF) as (_ & deg' & _ & SF).
    assert (CC : exists cf, call_counterfactual same parse mixed DCf fact m rules c (a_num a) dec (co, di, ma, or_default "moth" (k_dist (a_kw a))) = Ok cf).
    { cbn [call_counterfactual]. assert (DM : or_default "moth" (k_dist (a_kw a)) = "moth") by (destruct KD as [-> | ->]; reflexivity). rewrite DM.
      exact (@d_counterfactual_by_ok vars dec co di ma parse m rules c PM FO MS RN NA). }
    destruct CC as [cf ->]. cbn [tryS]. eauto.
Qed.
Print Assumptions C132_exactly_when.

(** Conditions that can be read off the data, as in C129_succeeds. *)
Theorem C132_succeeds : forall ord same parse mixed s a vars m X y decoded co di mad d b,
  prepared ord a vars m X y -> follows vars m -> a_counterfactual a = "d_counterfactual" ->
  k_cont (a_kw a) = Some co -> k_disc (a_kw a) = Some di -> k_mad (a_kw a) = Some mad -> (k_dist (a_kw a) = None \/ k_dist (a_kw a) = Some "moth") ->
  n_decoded (a_nb a) = Ok decoded -> measurable vars decoded co di mad parse ->
  valid_arguments (a_instance a) (a_factual a) (a_counterfactual a) (a_kw a) -> accepted_d (a_kw a) (a_factual a) -> scorable y ->
  let cfg := fdt_config vars (a_kw a) in
  ~ limit_met cfg X y [] -> (b < List.length vars)%nat -> (f_threshold cfg <= info_gain vars X y [] b)%R ->
  (forall row, In row X -> exists e, 0 < e /\ covered vars row e) ->
  (a_factual a <> "mr_factual" -> covered vars (List.concat (a_instance a)) d /\
     forall t, fit cfg ord fresh_root X y = Ok t -> qn (List.length (leaves t)) * qn (List.length (zunique y)) < qz 1000 * d) ->
  exists s', fdt_fit ord same parse mixed s a = (s', None).
Proof.
  intros ord same parse mixed s a vars m X y decoded co di mad d b P FO CD0 Kc Kd Km KD HD MS VA AC SC cfg NL Lb G CV CI.
  destruct (C132_exactly_when ord same parse mixed s a vars m X y decoded co di mad P FO CD0 Kc Kd Km KD HD MS) as (t & rules & c & FT & TR & PR & IFF). apply IFF. fold cfg in FT, PR.
  destruct P as (HV & HM & _ & HX & HY & Ho & DN & NE & N2 & HL & Hy & RX & RI & RM & PM & TH).
  assert (Hth : (0 < f_threshold cfg)%R). { unfold cfg, fdt_config. cbn [f_threshold]. destruct (k_threshold (a_kw a)) as [th|]; cbn [or_default]; [apply TH; reflexivity|lra]. }
  assert (T : trained cfg ord X y t) by (split; [assumption|]; split; [assumption|]; split; [left; assumption|assumption]).
  assert (L : t_leaf t = false) by (apply (C129_root_splits cfg ord X y t T Hth); split; [assumption|]; exists b; auto).
  split; [assumption|]. split; [assumption|]. split; [assumption|]. split; [assumption|]. split.
  - intros _. assert (TWO : exists k, In k y /\ k <> c).
    { destruct (existsb (fun k => negb (Z.eqb k c)) y) eqn:B; [apply existsb_exists in B; destruct B as (k & I & B); apply negb_true_iff, Z.eqb_neq in B; eauto|]. exfalso. apply NL. left.
      assert (AL : forall k, In k y -> k = c). { intros k I. destruct (Z.eq_dec k c) as [|N]; [assumption|]. exfalso. assert (existsb (fun k => negb (Z.eqb k c)) y = true); [|congruence]. apply existsb_exists. exists k. split; [assumption|]. apply negb_true_iff, Z.eqb_neq. assumption. }
      intros k k' I I'. unfold reaching in I, I'. apply in_map_iff in I. destruct I as ([r1 k1] & <- & I). apply in_map_iff in I'. destruct I' as ([r2 k2] & <- & I'). apply filter_In in I. apply filter_In in I'. cbn [snd].
      destruct I as [I _]. destruct I' as [I' _]. apply in_combine_r in I. apply in_combine_r in I'. rewrite (AL _ I), (AL _ I'). reflexivity. }
    destruct TWO as (k & Ik & Nk). destruct (C129_every_class_has_a_rule cfg ord X y t rules T NE TR CV k Ik) as (r & Ir & Er). exists r. split; [assumption|congruence].
  - intro N. destruct (CI N) as [CD SZ]. exact (C129_explained_class_fires cfg ord X y t (List.concat (a_instance a)) m d c rules T NE L eq_refl eq_refl RI RM TR PR CD (SZ t FT)).
Qed.
Print Assumptions C132_succeeds.

(** ** the other distances *)
(** With a distance that is not 'moth' -- an unknown name, or 'mixed', which cannot measure a list -- fit succeeds only if no rule of another class exists. *)
Theorem C132_other_distances : forall ord same parse mixed s a s' d,
  a_counterfactual a = "d_counterfactual" -> k_dist (a_kw a) = Some d -> d <> "moth" ->
  (d = "mixed" -> forall u w co di mad, exists e, mixed u w co di mad = Err e) ->
  fdt_fit ord same parse mixed s a = (s', None) ->
  exists vars X y t rules c, n_vars (a_nb a) = Ok vars /\ n_X (a_nb a) = Ok X /\ n_y (a_nb a) = Ok y /\
    fit (fdt_config vars (a_kw a)) ord fresh_root X y = Ok t /\ tree_rules t 0 = Ok rules /\ e_value s' = Some c /\ forall r, In r rules -> r_cons r = c.
Proof.
  intros ord same parse mixed s a s' d CD KD N MX E.
  destruct (check_methods_spec (a_instance a) (a_factual a) (a_counterfactual a) (a_kw a)) as [(VA & fm & cm & CH & HF & HC)|(_ & CH)]; [|unfold fdt_fit in E; rewrite CH in E; discriminate].
  assert (cm = DCf) by (rewrite CD in HC; injection HC as <-; reflexivity). subst cm.
  unfold fdt_fit in E. rewrite CH in E. cbn [tryS fst snd] in E.
  destruct (n_vars (a_nb a)) as [vars|]; [|discriminate]. destruct (n_instance (a_nb a)) as [m|]; [|discriminate]. destruct (n_decoded (a_nb a)) as [dec|]; [|discriminate].
  destruct (n_X (a_nb a)) as [X|]; [|discriminate]. destruct (n_y (a_nb a)) as [y|]; [|discriminate]. cbn [tryS d_args] in E.
  destruct (k_cont (a_kw a)) as [co|]; [|discriminate]. destruct (k_disc (a_kw a)) as [di|]; [|discriminate]. destruct (k_mad (a_kw a)) as [ma|]; [|discriminate]. rewrite KD in E. cbn [ret_opt bind tryS or_default] in E.
  destruct (fit (fdt_config vars (a_kw a)) ord fresh_root X y) as [t|] eqn:FT; [|discriminate]. cbn [tryS] in E.
  destruct (predict (fdt_config vars (a_kw a)) t X) as [p|]; [|discriminate]. cbn [tryS] in E. destruct (fdt_fidelity y p) as [q|]; [|discriminate]. cbn [tryS] in E.
  change (to_rule_based_system t false false) with (tree_rules t 0) in E. destruct (tree_rules t 0) as [rules|] eqn:TR; [|discriminate]. cbn [tryS] in E.
  destruct (predict (fdt_config vars (a_kw a)) t [List.concat (a_instance a)]) as [cs|]; [|discriminate]. cbn [tryS] in E. destruct (nth_error cs 0) as [c|]; [|discriminate]. cbn [ret_opt tryS] in E.
  match type of E with context[tryS ?r _ _] => destruct r as [fact|] eqn:CF; [|discriminate] end. cbn [tryS] in E.
  match type of E with context[tryS ?r _ _] => destruct r as [cf|] eqn:CC; [|discriminate] end. cbn [tryS] in E. injection E as <-.
  exists vars, X, y, t, rules, c. repeat (split; [reflexivity || assumption|]).
  assert (DE : forall cells, exists e, d_distance_of mixed d dec cells co di ma = Err e).
  { intro cells. unfold d_distance_of. assert (Q : eqb d "moth" = false) by (apply eqb_neq; assumption). rewrite Q. destruct (eqb d "mixed") eqn:Q2; [apply eqb_eq in Q2; apply MX; assumption|eauto]. }
  intros r I. destruct (Z.eq_dec (r_cons r) c) as [|NC]; [assumption|]. exfalso. cbn [call_counterfactual] in CC. unfold d_counterfactual_by in CC.
  match type of CC with bind ?x _ = _ => destruct x as [cfs|] eqn:EM; [|discriminate] end.
  assert (IO : In r (other_class c rules)) by (apply filter_In; split; [assumption|apply negb_true_iff, Z.eqb_neq; assumption]).
  match type of EM with mapM ?f _ = _ => assert (G : forall e, f r = Err e -> False) by (intros e W; destruct (@mapM_some_err _ _ f _ r e IO W) as [e' W']; congruence); destruct (f r) as [z|e] eqn:EZ; [|exact (G e eq_refl)] end.
  cbn beta in EZ. clear - EZ DE.
  repeat match type of EZ with bind ?x _ = _ => let Q := fresh "Q" in destruct x eqn:Q; [|discriminate]; cbn [bind] in EZ end.
  match goal with Q : d_distance_of _ _ _ ?l _ _ _ = Ok _ |- _ => destruct (DE l) as [e W]; congruence end.
Qed.
Print Assumptions C132_other_distances.
(** On training rows of two or more classes, covered by the sets, it never succeeds. *)
Theorem C132_mixed_never_succeeds : forall ord same parse mixed s a vars m X y d,
  prepared ord a vars m X y -> a_counterfactual a = "d_counterfactual" -> k_dist (a_kw a) = Some d -> d <> "moth" ->
  (d = "mixed" -> forall u w co di mad, exists e, mixed u w co di mad = Err e) ->
  (forall row, In row X -> exists e, 0 < e /\ covered vars row e) -> (exists k k', In k y /\ In k' y /\ k <> k') ->
  exists s' e, fdt_fit ord same parse mixed s a = (s', Some e).
Proof.
  intros ord same parse mixed s a vars m X y d P CD KD N MX CV (k & k' & Ik & Ik' & NK).
  destruct (fdt_fit ord same parse mixed s a) as [s' [e|]] eqn:E; [eauto|]. exfalso.
  destruct (C132_other_distances ord same parse mixed s a s' d CD KD N MX E) as (vars' & X' & y' & t & rules & c & HV' & HX' & HY' & FT & TR & _ & AL).
  destruct P as (HV & HM & _ & HX & HY & Ho & DN & NE & N2 & HL & Hy & RX & RI & RM & PM & TH). rewrite HV in HV'. rewrite HX in HX'. rewrite HY in HY'. injection HV' as <-. injection HX' as <-. injection HY' as <-.
  set (cfg := fdt_config vars (a_kw a)) in *. assert (Hth : (0 < f_threshold cfg)%R). { unfold cfg, fdt_config. cbn [f_threshold]. destruct (k_threshold (a_kw a)) as [th|]; cbn [or_default]; [apply TH; reflexivity|lra]. }
  assert (T : trained cfg ord X y t) by (split; [assumption|]; split; [assumption|]; split; [left; assumption|assumption]).
  destruct (C129_every_class_has_a_rule cfg ord X y t rules T NE TR CV k Ik) as (r & Ir & Er). destruct (C129_every_class_has_a_rule cfg ord X y t rules T NE TR CV k' Ik') as (r' & Ir' & Er').
  apply NK. rewrite <- Er, <- Er', (AL r Ir), (AL r' Ir'). reflexivity.
Qed.
Print Assumptions C132_mixed_never_succeeds.

(** *** the example of Properties_Explainer, with d_counterfactual *)
Definition d_kwargs (d : option string) : kwargs := mkK None None None None None (Some [0%nat]) (Some []) (Some [(0%nat, 1)]) d [].
Definition ex_dcall (d : option string) : fdt_args := mkFA [[CNum (qz 2)]] [1%Z] ex_nb ["x"] "m_factual" "d_counterfactual" (d_kwargs d).
Definition ex_dparse (s : string) : res Qc := if eqb s "low" then Ok 0 else if eqb s "high" then Ok (qz 10) else Err ValueError.
Example C132_instance : prepared same_order (ex_dcall None) [ex_v "x"] ex_m ex_X ex_y /\ follows [ex_v "x"] ex_m /\ measurable [ex_v "x"] [CNum (qz 2)] [0%nat] [] [(0%nat, 1)] ex_dparse /\
  (exists s', fdt_fit same_order ex_same ex_dparse ex_mixed new_explainer (ex_dcall None) = (s', None)) /\
  (exists s' e, fdt_fit same_order ex_same ex_dparse (fun _ _ _ _ _ => Err AttributeError) new_explainer (ex_dcall (Some "mixed")) = (s', Some e)).
Proof.
  destruct C129_instance as (P & VA & AC & SC & NL & G & CV & CI & SZ & _).
  assert (FO : follows [ex_v "x"] ex_m) by reflexivity.
  assert (MS : measurable [ex_v "x"] [CNum (qz 2)] [0%nat] [] [(0%nat, 1)] ex_dparse).
  { split.
    - intros i v Hv [<-|[]]. injection Hv as <-. split; [eexists; reflexivity|]. split; [exists 1; split; [reflexivity|discriminate]|]. intros s [<-|[<-|[]]]; eexists; reflexivity.
    - intros i L N. exfalso. apply N. left. cbn in L. lia. }
  assert (P' : forall d, prepared same_order (ex_dcall d) [ex_v "x"] ex_m ex_X ex_y) by (intro d; exact P).
  split; [apply P'|]. split; [exact FO|]. split; [exact MS|]. split.
  - apply (C132_succeeds same_order ex_same ex_dparse ex_mixed new_explainer (ex_dcall None) [ex_v "x"] ex_m ex_X ex_y [CNum (qz 2)] [0%nat] [] [(0%nat, 1)] (qc 4 5) 0); try assumption; try reflexivity.
    + left. reflexivity.
    + destruct VA as (A1 & A2 & A3 & _). split; [exact A1|]. split; [exact A2|]. split; [discriminate|right; right; left; reflexivity].
    + split; [reflexivity|]. intros _. split; reflexivity.
    + cbn. lia.
    + intros _. split; [exact CI|exact SZ].
  - apply (C132_mixed_never_succeeds same_order ex_same ex_dparse _ new_explainer (ex_dcall (Some "mixed")) [ex_v "x"] ex_m ex_X ex_y "mixed" (P' _)); try reflexivity; try assumption.
    + discriminate.
    + intros _ u w co di mad. exists AttributeError. reflexivity.
    + exists 1%Z, 0%Z. split; [left; reflexivity|]. split; [right; left; reflexivity|discriminate].
Qed.
