(** * Properties C59-C61, C80-C82: explainers *)
From Verif Require Import Prelude M_Fuzzy M_Discretize M_Rule S_Rule P_Rule M_FDT S_FDT P_FDT3 P_FDT4 M_FBDT M_ID3 M_Metrics M_Factual S_Factual P_Factual
  M_Counterfactual S_Counterfactual P_Counterfactual M_Explainer S_Explainer P_Explainer Properties_FDT.
From Coq Require Import Reals Lra.
Open Scope string_scope.
Open Scope list_scope.
Open Scope Qc_scope.

(** ** C59 *)
(** For every series of fit calls on one explainer, of which any may raise: explain raises NotFittedError while all of them
    failed, and otherwise returns what a new explainer given only the last successful call returns. *)
Theorem C59_explain_fdt : forall ord same parse mixed calls,
  let fitting := fdt_fit ord same parse mixed in
  (explain (after fitting new_explainer calls) = Err NotFitted /\ Forall (fails fitting) calls) \/
  (exists earlier a later e, calls = earlier ++ a :: later /\ succeeds fitting a /\ Forall (fails fitting) later /\
     explain (after fitting new_explainer calls) = Ok e /\ explain (after fitting new_explainer [a]) = Ok e).
Proof. intros ord same parse mixed calls fitting. apply explain_history; [apply fdt_fit_override|apply fdt_stores]. Qed.
Print Assumptions C59_explain_fdt.
Theorem C59_explain_fbdt : forall psort calls,
  let fitting := fbdt_fit psort in
  (explain (after fitting new_explainer calls) = Err NotFitted /\ Forall (fails fitting) calls) \/
  (exists earlier a later e, calls = earlier ++ a :: later /\ succeeds fitting a /\ Forall (fails fitting) later /\
     explain (after fitting new_explainer calls) = Ok e /\ explain (after fitting new_explainer [a]) = Ok e).
Proof. intros psort calls fitting. apply explain_history; [apply fbdt_fit_override|apply fbdt_stores]. Qed.
Print Assumptions C59_explain_fbdt.

(** hit: NotFittedError until a fit has got as far as a prediction; then the last prediction made is compared with the last
    target recorded, even if the two come from different calls *)
Lemma last_some_spec A B (f : A -> option B) l :
  (last_some (map f l) = None /\ forall a, In a l -> f a = None) \/
  (exists l1 a l2 b, l = l1 ++ a :: l2 /\ f a = Some b /\ (forall x, In x l2 -> f x = None) /\ last_some (map f l) = Some b).
Proof.
  induction l as [|a l IH] using rev_ind; [left; split; [reflexivity|intros ? []]|]. rewrite map_app. cbn [map]. rewrite last_some_snoc. destruct (f a) as [b|] eqn:E; cbn [orelse].
  - right. exists l, a, [], b. split; [reflexivity|]. split; [assumption|]. split; [intros ? []|reflexivity].
  - destruct IH as [[H1 H2]|(l1 & x & l2 & b & -> & H2 & H3 & H4)].
    + left. split; [assumption|]. intros y I. apply in_app_or in I. destruct I as [I|[<-|[]]]; auto.
    + right. exists l1, x, (l2 ++ [a]), b. split; [rewrite <- app_assoc; reflexivity|]. split; [assumption|]. split; [|assumption]. intros y I. apply in_app_or in I. destruct I as [I|[<-|[]]]; auto.
Qed.
Lemma fdt_target ord same parse mixed a :
  (valid_arguments (a_instance a) (a_factual a) (a_counterfactual a) (a_kw a) /\ e_target (left_by (fdt_fit ord same parse mixed) a) = Some (a_target a)) \/
  (~ valid_arguments (a_instance a) (a_factual a) (a_counterfactual a) (a_kw a) /\ fdt_fit ord same parse mixed new_explainer a = (new_explainer, Some ValueError)).
Proof.
  destruct (check_methods_spec (a_instance a) (a_factual a) (a_counterfactual a) (a_kw a)) as [(V & fm & cm & E & _)|(V & E)].
  - left. split; [assumption|]. unfold left_by, fdt_fit. rewrite E. cbn [tryS]. repeat match goal with |- context[tryS ?r _ _] => destruct r; cbn [tryS]; [|reflexivity] end. reflexivity.
  - right. split; [assumption|]. unfold fdt_fit. rewrite E. reflexivity.
Qed.
Theorem C59_hit : forall ord same parse mixed calls,
  let fitting := fdt_fit ord same parse mixed in
  let valid a := valid_arguments (a_instance a) (a_factual a) (a_counterfactual a) (a_kw a) in
  let predicts a c := e_value (after fitting new_explainer [a]) = Some c in
  (hit (after fitting new_explainer calls) = Err NotFitted /\ forall a c, In a calls -> ~ predicts a c) \/
  (exists l1 a l2 c l3 b l4,
     calls = l1 ++ a :: l2 /\ predicts a c /\ (forall x k, In x l2 -> ~ predicts x k) /\
     calls = l3 ++ b :: l4 /\ valid b /\ (forall x, In x l4 -> ~ valid x) /\
     hit (after fitting new_explainer calls) = Ok (map (Z.eqb c) (a_target b))).
Proof.
  intros ord same parse mixed calls fitting valid predicts. rewrite (after_last _ (fdt_fit_override ord same parse mixed)). unfold hit. cbn [e_value e_target].
  destruct (last_some_spec _ _ (fun a => e_value (left_by fitting a)) calls) as [[H1 H2]|(l1 & a & l2 & c & S & H2 & H3 & H4)].
  - left. unfold fitting in *. rewrite H1. split; [reflexivity|]. intros a c I P. unfold predicts in P. cbn in P. specialize (H2 a I). cbn beta in H2. unfold left_by in H2. congruence.
  - right. unfold fitting in *. rewrite H4.
    destruct (last_some_spec _ _ (fun a => e_target (left_by (fdt_fit ord same parse mixed) a)) calls) as [[T1 T2]|(l3 & b & l4 & t & T & T2 & T3 & T4)].
    + exfalso. assert (I : In a calls) by (rewrite S; apply in_or_app; right; left; reflexivity). specialize (T2 a I). cbn beta in T2.
      destruct (fdt_target ord same parse mixed a) as [[_ V]|[_ V]]; [congruence|]. unfold left_by in H2. rewrite V in H2. discriminate.
    + rewrite T4. exists l1, a, l2, c, l3, b, l4. split; [assumption|]. split; [exact H2|]. split; [intros x k I P; specialize (H3 x I); unfold predicts in P; cbn in P; unfold left_by in H3; congruence|].
      split; [assumption|]. destruct (fdt_target ord same parse mixed b) as [[V E]|[_ E]]; [|unfold left_by in T2; rewrite E in T2; discriminate].
      split; [exact V|]. split.
      * intros x I V'. specialize (T3 x I). cbn beta in T3. destruct (fdt_target ord same parse mixed x) as [[_ E']|[N _]]; [congruence|contradiction].
      * rewrite E in T2. injection T2 as <-. reflexivity.
Qed.
Print Assumptions C59_hit.

(** ** C60 *)
Theorem C60_argument_errors_change_nothing : forall ord same parse mixed s a,
  ~ valid_arguments (a_instance a) (a_factual a) (a_counterfactual a) (a_kw a) -> fdt_fit ord same parse mixed s a = (s, Some ValueError).
Proof.
  intros ord same parse mixed s a N. destruct (check_methods_spec (a_instance a) (a_factual a) (a_counterfactual a) (a_kw a)) as [(V & _)|(_ & E)]; [contradiction|].
  unfold fdt_fit. rewrite E. reflexivity.
Qed.
Print Assumptions C60_argument_errors_change_nothing.
(** a fit that fails later has already replaced the target; explain is unchanged; the prediction is the old one, or
    that of the new tree if the failure came after it *)
Theorem C60_failed_fit : forall ord same parse mixed s a s' e,
  valid_arguments (a_instance a) (a_factual a) (a_counterfactual a) (a_kw a) ->
  fdt_fit ord same parse mixed s a = (s', Some e) ->
  explain s' = explain s /\ e_target s' = Some (a_target a) /\
  (e_value s' = e_value s \/
   exists vars X y t c cs, n_vars (a_nb a) = Ok vars /\ n_X (a_nb a) = Ok X /\ n_y (a_nb a) = Ok y /\
     fit (fdt_config vars (a_kw a)) ord fresh_root X y = Ok t /\
     predict (fdt_config vars (a_kw a)) t [List.concat (a_instance a)] = Ok (c :: cs) /\ e_value s' = Some c).
Proof.
  intros ord same parse mixed s a s' e V. destruct (check_methods_spec (a_instance a) (a_factual a) (a_counterfactual a) (a_kw a)) as [(_ & fm & cm & E & _)|(N & _)]; [|contradiction].
  unfold fdt_fit. rewrite E. cbn [tryS e_target e_value e_explanation e_fidelity].
  do 6 (match goal with |- context[tryS ?r _ _] => let Q := fresh "Q" in destruct r eqn:Q; cbn [tryS]; [|intro H; injection H as <- <-; cbn; auto] end).
  match goal with |- context[tryS ?r _ _] => let Q := fresh "Q" in destruct r eqn:Q; cbn [tryS]; [|intro H; injection H as <- <-; cbn; auto] end.
  do 5 (match goal with |- context[tryS ?r _ _] => let Q := fresh "Q" in destruct r eqn:Q; cbn [tryS]; [|intro H; injection H as <- <-; cbn; auto] end).
  match goal with |- context[tryS ?r ?s3 _] => set (st := s3); destruct r; cbn [tryS] end.
  - match goal with |- context[tryS ?r _ _] => destruct r; cbn [tryS]; [discriminate|] end.
    intro H; injection H as <- <-. cbn. split; [reflexivity|]. split; [reflexivity|]. right. match goal with H : ret_opt IndexError (nth_error ?cs 0) = Ok ?c |- _ => destruct cs as [|c0 cs']; [discriminate|injection H as ->] end.
    repeat (eexists; try eassumption); eauto.
  - intro H; injection H as <- <-. cbn. split; [reflexivity|]. split; [reflexivity|]. right. match goal with H : ret_opt IndexError (nth_error ?cs 0) = Ok ?c |- _ => destruct cs as [|c0 cs']; [discriminate|injection H as ->] end.
    repeat (eexists; try eassumption); eauto.
Qed.
Print Assumptions C60_failed_fit.
(** in particular, with a neighbourhood that has not been fuzzified, hit compares the old prediction with the new target *)
Theorem C60_stale_prediction : forall ord same parse mixed s a c e,
  valid_arguments (a_instance a) (a_factual a) (a_counterfactual a) (a_kw a) -> n_vars (a_nb a) = Err e -> e_value s = Some c ->
  let s' := fst (fdt_fit ord same parse mixed s a) in
  snd (fdt_fit ord same parse mixed s a) = Some e /\ explain s' = explain s /\ hit s' = Ok (map (Z.eqb c) (a_target a)).
Proof.
  intros ord same parse mixed s a c e V N C s'. destruct (check_methods_spec (a_instance a) (a_factual a) (a_counterfactual a) (a_kw a)) as [(_ & fm & cm & E & _)|(X & _)]; [|contradiction].
  unfold s', fdt_fit. rewrite E. cbn [tryS]. rewrite N. cbn [tryS fst snd]. split; [reflexivity|]. split; [reflexivity|]. unfold hit. cbn [e_value e_target]. rewrite C. reflexivity.
Qed.
Print Assumptions C60_stale_prediction.

(** *** examples: the tree of Properties_FDT (x low -> 1, x high -> 0) and the instance x = 2 *)
Definition ex_m : imem := [("x", [("low", qc 4 5); ("high", qc 1 5)])].
Definition ex_nb : nview := mkN (Ok [ex_v "x"]) (Ok ex_m) (Ok [CNum (qz 2)]) (Ok ex_X) (Ok ex_y) (Err NotFuzzified).
Definition no_nb : nview := mkN (Err NotFuzzified) (Err NotFuzzified) (Err NotFitted) (Err NotFitted) (Err NotFitted) (Err NotFuzzified).
Definition ex_call : fdt_args := mkFA [[CNum (qz 2)]] [1%Z] ex_nb ["x"] "m_factual" "i_counterfactual" no_kwargs.
Definition ex_bad_call : fdt_args := mkFA [[CNum (qz 2)]] [0%Z] no_nb ["x"] "m_factual" "i_counterfactual" no_kwargs.
Definition ex_same : string -> string -> string -> bool := fun _ => eqb.
Definition ex_parse : string -> res Qc := fun _ => Err ValueError.
Definition ex_mixed : list cell -> list cell -> list nat -> list nat -> dict nat Qc -> res Qc := fun _ _ _ _ _ => Err ValueError.
Definition ex_fdt := fdt_fit same_order ex_same ex_parse ex_mixed.
Definition ex_low : rule string := mkR [("x", "low")] 1 1.
Lemma ex_succeeds s : ex_fdt s ex_call = (mkE (Some [1%Z]) (Some 1%Z) (Some ([ex_low], Some [("x", "high")])) (Some 1), None).
Proof.
  unfold ex_fdt, fdt_fit. cbn [a_instance a_factual a_counterfactual a_kw a_nb ex_call ex_nb n_vars n_instance n_decoded n_X n_y a_num a_target].
  assert (C : check_methods [[CNum (qz 2)]] "m_factual" "i_counterfactual" no_kwargs = Ok (MFactual, ICf)) by reflexivity. rewrite C. cbn [tryS snd fst].
  cbn [d_args tryS]. change (fdt_config [ex_v "x"] no_kwargs) with (ex_cfg AggVote). destruct (ex_fit AggVote ex_y (or_introl eq_refl)) as (_ & _ & _ & F). rewrite F. cbn [tryS].
  set (t := one_tree (ex_cfg AggVote) ex_X ex_y (ex_v "x")).
  assert (P : predict (ex_cfg AggVote) t ex_X = Ok [1; 0]%Z) by (vm_compute; reflexivity). rewrite P. cbn [tryS].
  assert (FD : fdt_fidelity ex_y [1; 0]%Z = Ok 1) by (unfold fdt_fidelity; vm_compute; apply (f_equal (@Ok _)); apply Qc_is_canon; reflexivity). rewrite FD. cbn [tryS].
  assert (R : to_rule_based_system t false false = Ok [ex_low; mkR [("x", "high")] 0 1]) by (vm_compute; reflexivity). rewrite R. cbn [tryS].
  assert (P2 : predict (ex_cfg AggVote) t [List.concat [[CNum (qz 2)]]] = Ok [1]%Z) by (vm_compute; reflexivity). rewrite P2. cbn [tryS nth_error ret_opt].
  assert (FA : call_factual (matching ex_m) MFactual no_kwargs false [ex_low; mkR [("x", "high")] 0 1] 1 = Ok [ex_low]) by (vm_compute; reflexivity). cbn [k_cont k_disc k_mad k_dist no_kwargs given orb]. fold no_kwargs. rewrite FA. cbn [tryS].
  assert (CF : call_counterfactual ex_same ex_parse ex_mixed ICf [ex_low] ex_m [ex_low; mkR [("x", "high")] 0 1] 1 ["x"] [CNum (qz 2)] ([], [], [], "") = Ok (Some [("x", "high")])) by (vm_compute; reflexivity). rewrite CF. reflexivity.
Qed.
Example C59_instance :
  explain (after ex_fdt new_explainer [ex_bad_call]) = Err NotFitted /\ hit (after ex_fdt new_explainer [ex_bad_call]) = Err NotFitted /\
  explain (after ex_fdt new_explainer [ex_bad_call; ex_call; ex_bad_call]) = Ok ([ex_low], Some [("x", "high")]).
Proof. split; [reflexivity|]. split; [reflexivity|]. cbn [after]. rewrite ex_succeeds. reflexivity. Qed.
(** the prediction was a hit; a failing second fit turns hit into a miss while the explanation stays *)
Theorem C60_mixed_state : exists calls1 calls2,
  hit (after ex_fdt new_explainer calls1) = Ok [true] /\ explain (after ex_fdt new_explainer calls1) = Ok ([ex_low], Some [("x", "high")]) /\
  (exists a e, calls2 = calls1 ++ [a] /\ raises ex_fdt a e) /\
  explain (after ex_fdt new_explainer calls2) = Ok ([ex_low], Some [("x", "high")]) /\ hit (after ex_fdt new_explainer calls2) = Ok [false].
Proof.
  exists [ex_call], [ex_call; ex_bad_call]. cbn [after]. rewrite ex_succeeds. cbn [fst]. split; [reflexivity|]. split; [reflexivity|].
  split; [exists ex_bad_call, NotFuzzified; split; reflexivity|]. split; reflexivity.
Qed.
Print Assumptions C60_mixed_state.
Example C60_instance : valid_arguments (a_instance ex_bad_call) (a_factual ex_bad_call) (a_counterfactual ex_bad_call) (a_kw ex_bad_call) /\
  ~ valid_arguments (a_instance ex_call) "c_factual" "i_counterfactual" no_kwargs.
Proof.
  split.
  - split; [exists [CNum (qz 2)], (CNum (qz 2)); split; left; reflexivity|]. split; [left; reflexivity|]. split; [discriminate|left; reflexivity].
  - intros (_ & _ & H & _). destruct (H eq_refl) as [lam L]. discriminate.
Qed.

(** ** C61 *)
(** For every history: the text can be written exactly when explain gives a set of changes; with None, or before any successful fit,
    TypeError is raised.  The class in the text is the last prediction made (that of a later failed fit, if there was one). *)
Theorem C61_write_explanation_fdt : forall ord same parse mixed calls,
  let s := after (fdt_fit ord same parse mixed) new_explainer calls in
  (forall fact ch, explain s = Ok (fact, Some ch) -> exists c, e_value s = Some c /\ write_explanation fdt_pairs s = Ok (c, fact, ch)) /\
  (forall fact, explain s = Ok (fact, None) -> write_explanation fdt_pairs s = Err TypeError) /\
  (forall e, explain s = Err e -> e = NotFitted /\ write_explanation fdt_pairs s = Err TypeError).
Proof.
  intros ord same parse mixed calls s.
  assert (EV := explained_value _ (fdt_fit_override ord same parse mixed) (fdt_value ord same parse mixed) calls). change (after _ new_explainer calls) with s in EV.
  unfold explain, write_explanation. destruct (e_explanation s) as [[f o]|] eqn:E; cbn [ret_opt].
  - destruct (e_value s) as [c|]; [|exfalso; apply EV; congruence]. cbn [ret_opt bind fst snd]. split; [|split].
    + intros fact ch H. injection H as -> ->. exists c. split; reflexivity.
    + intros fact H. injection H as -> ->. reflexivity.
    + discriminate.
  - split; [|split]; try discriminate. intros e H. injection H as <-. split; [reflexivity|]. destruct (e_value s); reflexivity.
Qed.
Print Assumptions C61_write_explanation_fdt.
Theorem C61_write_explanation_fbdt_never : forall psort calls,
  let s := after (fbdt_fit psort) new_explainer calls in
  (forall e, explain s = Ok e -> write_explanation string_pairs s = Err IndexError) /\
  (forall e, explain s = Err e -> e = NotFitted /\ write_explanation string_pairs s = Err TypeError).
Proof.
  intros psort calls s. assert (EV := explained_value _ (fbdt_fit_override psort) (fbdt_value psort) calls). change (after _ new_explainer calls) with s in EV.
  assert (T : forall e, e_explanation s = Some e -> snd e = no_counterfactual).
  { unfold s. rewrite (after_last _ (fbdt_fit_override psort)). cbn [e_explanation]. intros e H.
    destruct (last_some_spec _ _ (fun a => e_explanation (left_by (fbdt_fit psort) a)) calls) as [[H1 _]|(l1 & a & l2 & b & _ & H2 & _ & H4)]; [congruence|].
    rewrite H4 in H. injection H as <-. exact (@fbdt_text psort a b H2). }
  unfold explain, write_explanation. destruct (e_explanation s) as [e|] eqn:E; cbn [ret_opt].
  - destruct (e_value s) as [c|]; [|exfalso; apply EV; congruence]. cbn [ret_opt bind fst snd]. split; [|discriminate]. intros e' H. injection H as <-. rewrite (T e eq_refl). reflexivity.
  - split; [discriminate|]. intros e H. injection H as <-. split; [reflexivity|]. destruct (e_value s); reflexivity.
Qed.
Print Assumptions C61_write_explanation_fbdt_never.
Example C61_instance : write_explanation fdt_pairs (after ex_fdt new_explainer [ex_call]) = Ok (1%Z, [ex_low], [("x", "high")]).
Proof. cbn [after]. rewrite ex_succeeds. reflexivity. Qed.

(** ** C80 *)
Lemma search_sound m c rules (cfs : list (rule string * Qc)) cf (sub : list (rule string)) :
  proper m -> rules <> [] -> (forall r, In r rules -> r_ant r <> []) -> map fst cfs = sub -> search_counterfactual m c rules cfs = Ok cf ->
  match cf with
  | Some ch => exists r k, In r sub /\ changes r m ch /\ leads_to (weighted_vote rules) r m k /\ k <> c
  | None => forall r k, In r sub -> leads_to (weighted_vote rules) r m k -> k = c
  end.
Proof.
  intros PM N A <- E. unfold search_counterfactual in E.
  destruct (@search_spec m c (weighted_vote rules) PM) with (l := sort_asc (@snd (rule string) Qc) cfs) as [[E1 F]|(l1 & rd & l2 & ch & k & E1 & S & C & L & K & _)]; [intro; apply vote_total; assumption| |].
  - rewrite E1 in E. injection E as <-. intros r k I. apply in_map_iff in I. destruct I as (rd & <- & I). apply F. apply sort_by_In. assumption.
  - rewrite E1 in E. injection E as <-. exists (fst rd), k. split; [|auto]. apply in_map. assert (J : In rd (sort_asc (@snd (rule string) Qc) cfs)) by (rewrite S; apply in_or_app; right; left; reflexivity). unfold sort_asc in J. apply sort_by_In in J. exact J.
Qed.
(** the d-method with the 'moth' distance is the d_counterfactual of C55 *)
Lemma d_counterfactual_moth mixed parse decoded m rules c co di ma :
  d_counterfactual_by (fun cells => d_distance_of mixed "moth" decoded cells co di ma) parse m rules c co = d_counterfactual parse decoded m rules c co di ma.
Proof.
  unfold d_counterfactual_by, d_counterfactual. f_equal. apply mapM_ext. intros r _. unfold d_distance. destruct (apply_changes r m) as [mc|]; [|reflexivity]. cbn [bind].
  destruct (mapM (fun fr => strongest_set (snd fr)) (fst mc)) as [names|]; [|reflexivity]. cbn [bind].
  destruct (mapM _ (enumerate names)) as [cells|]; reflexivity.
Qed.
(** A successful fit of an FDTExplainer: the explained class is the one the local tree predicts for the given instance; every
    factual rule is a rule of the local tree for that class, fired with degree above 0.001; the factual and the counterfactual are
    what the chosen methods return (C48-C50, C53-C55 apply to them); a set of changes comes from a rule of another class and
    applying it makes the rules vote for another class; None from the i- and d-methods means that no rule of another class does. *)
Theorem C80_successful_fit : forall ord same parse mixed s a s',
  fdt_fit ord same parse mixed s a = (s', None) -> (forall m, n_instance (a_nb a) = Ok m -> proper m) ->
  exists vars m X y t rules c fact cf deg,
    let cfg := fdt_config vars (a_kw a) in
    n_vars (a_nb a) = Ok vars /\ n_instance (a_nb a) = Ok m /\ n_X (a_nb a) = Ok X /\ n_y (a_nb a) = Ok y /\
    fit cfg ord fresh_root X y = Ok t /\ tree_rules t 0 = Ok rules /\
    (exists cs, predict cfg t [List.concat (a_instance a)] = Ok (c :: cs)) /\
    explain s' = Ok (fact, cf) /\ hit s' = Ok (map (Z.eqb c) (a_target a)) /\ rules <> [] /\
    (forall r, In r rules -> r_ant r <> [] /\ matching m r = Ok (deg r)) /\
    (forall r, In r fact -> In r rules /\ r_cons r = c /\ qc 1 1000 < deg r) /\
    (a_factual a = "m_factual" -> m_factual (matching m) rules c = Ok fact) /\
    (a_factual a = "mr_factual" -> mr_factual (matching m) rules c = Ok fact) /\
    (a_factual a = "c_factual" -> exists lam, k_lam (a_kw a) = Some lam /\ c_factual (matching m) rules c lam (or_default None (k_beta (a_kw a))) = Ok fact) /\
    (a_counterfactual a = "i_counterfactual" -> i_counterfactual same m rules c (a_num a) = Ok cf) /\
    (a_counterfactual a = "f_counterfactual" -> f_counterfactual same fact m rules c (a_num a) (qc 1 2) = Ok cf) /\
    (a_counterfactual a = "d_counterfactual" -> exists decoded co di ma, n_decoded (a_nb a) = Ok decoded /\ k_cont (a_kw a) = Some co /\ k_disc (a_kw a) = Some di /\ k_mad (a_kw a) = Some ma /\
       (k_dist (a_kw a) = None \/ k_dist (a_kw a) = Some "moth" -> d_counterfactual parse decoded m rules c co di ma = Ok cf) /\
       (k_dist (a_kw a) = Some "mixed" -> d_counterfactual_by (fun cells => mixed decoded cells co di ma) parse m rules c co = Ok cf)) /\
    (forall ch, cf = Some ch -> exists r k, In r rules /\ r_cons r <> c /\ changes r m ch /\ leads_to (weighted_vote rules) r m k /\ k <> c) /\
    (weighted_vote rules m = Ok c -> cf <> Some []) /\
    (cf = None -> a_counterfactual a <> "f_counterfactual" ->
       forall r k, In r rules -> r_cons r <> c -> leads_to (weighted_vote rules) r m k -> k = c).
Proof.
  intros ord same parse mixed s a s' E PM. destruct (check_methods_spec (a_instance a) (a_factual a) (a_counterfactual a) (a_kw a)) as [(_ & fm & cm & CH & HF & HC)|(_ & CH)]; [|unfold fdt_fit in E; rewrite CH in E; discriminate].
  unfold fdt_fit in E. rewrite CH in E. cbn [tryS fst snd] in E.
  repeat match type of E with context[tryS ?r _ _] => let Q := fresh "Q" in destruct r eqn:Q; cbn [tryS] in E; [|discriminate] end.
  injection E as <-.
  match goal with H : n_vars _ = Ok ?x |- _ => rename x into vars end. match goal with H : n_instance _ = Ok ?x |- _ => rename x into m end.
  match goal with H : n_X _ = Ok ?x |- _ => rename x into X end. match goal with H : n_y _ = Ok ?x |- _ => rename x into y end.
  match goal with H : fit _ _ _ _ _ = Ok ?x |- _ => rename x into t end. match goal with H : to_rule_based_system _ _ _ = Ok ?x |- _ => rename x into rules; rename H into HR end.
  match goal with H : ret_opt IndexError _ = Ok ?x |- _ => rename x into c; rename H into HI end. match goal with H : call_factual _ _ _ _ _ _ = Ok ?x |- _ => rename x into fact; rename H into HFA end.
  match goal with H : call_counterfactual _ _ _ _ _ _ _ _ _ _ _ = Ok ?x |- _ => rename x into cf; rename H into HCF end.
  destruct (@call_factual_sound _ _ _ _ _ _ _ _ HFA) as (NR & deg & D & S). specialize (PM m eq_refl).
  assert (NA : forall r, In r rules -> r_ant r <> []).
  { intros r I Z. specialize (D r I). unfold matching, matching_tn in D. rewrite Z in D. discriminate. }
  exists vars, m, X, y, t, rules, c, fact, cf, deg. cbn zeta.
  do 5 (split; [first [assumption|reflexivity]|]). split; [exact HR|].
  split. { match type of HI with ret_opt _ (nth_error ?cs 0) = _ => destruct cs as [|c0 cs]; [discriminate|injection HI as ->] end. eauto. }
  split; [reflexivity|]. split; [reflexivity|]. split; [assumption|]. split; [intros r I; split; [apply NA; assumption|apply D; assumption]|].
  split; [intros r I; destruct (S r I) as (S1 & S2 & S3); auto|].
  split. { intro F. rewrite F in HF. injection HF as <-. unfold call_factual in HFA. match type of HFA with (if ?b then _ else _) = _ => destruct b; [discriminate|exact HFA] end. }
  split. { intro F. rewrite F in HF. injection HF as <-. unfold call_factual in HFA. match type of HFA with (if ?b then _ else _) = _ => destruct b; [discriminate|exact HFA] end. }
  split. { intro F. rewrite F in HF. injection HF as <-. unfold call_factual in HFA. match type of HFA with (if ?b then _ else _) = _ => destruct b; [discriminate|] end. destruct (k_lam (a_kw a)) as [lam|]; [|discriminate]. exists lam. split; [reflexivity|exact HFA]. }
  split. { intro F. rewrite F in HC. injection HC as <-. exact HCF. }
  split. { intro F. rewrite F in HC. injection HC as <-. exact HCF. }
  split. { intro F. rewrite F in HC. injection HC as <-. match goal with H : d_args _ _ = Ok ?x |- _ => rename H into HD end. cbn [d_args] in HD.
    destruct (k_cont (a_kw a)) as [co|]; [|discriminate]. destruct (k_disc (a_kw a)) as [di|]; [|discriminate]. destruct (k_mad (a_kw a)) as [ma|]; [|discriminate]. cbn [ret_opt bind] in HD. injection HD as <-. cbn [call_counterfactual] in HCF.
    match goal with H : n_decoded _ = Ok ?x |- _ => exists x, co, di, ma; split; [first [exact H|reflexivity]|] end. do 3 (split; [reflexivity|]). split.
    - intros [K|K]; rewrite K in HCF; cbn [or_default] in HCF; rewrite <- HCF; symmetry; apply d_counterfactual_moth.
    - intro K. rewrite K in HCF. exact HCF. }
  assert (OT : forall r, In r (other_class c rules) <-> In r rules /\ r_cons r <> c).
  { intro r. unfold other_class. rewrite filter_In, negb_true_iff, Z.eqb_neq. reflexivity. }
  assert (W : exists cfs, search_counterfactual m c rules cfs = Ok cf /\ incl (map fst cfs) (other_class c rules) /\ (a_counterfactual a <> "f_counterfactual" -> map fst cfs = other_class c rules)).
  { destruct cm; cbn [call_counterfactual] in HCF.
    - unfold i_counterfactual in HCF. destruct (i_candidates same m rules c (a_num a)) as [cfs|] eqn:M; [|discriminate]. cbn [bind] in HCF. apply mapM_tag in M. exists cfs. rewrite M. split; [assumption|]. split; [apply incl_refl|auto].
    - unfold f_counterfactual in HCF. destruct (mapM _ (other_class c rules)) as [cfs|] eqn:M in HCF; [|discriminate]. cbn [bind] in HCF. apply mapM_tag in M. eexists. split; [exact HCF|]. split.
      + intros r I. apply in_map_iff in I. destruct I as (x & <- & I). apply filter_In in I. rewrite <- M. apply in_map. apply I.
      + intro F. exfalso. apply F. clear - HC. unfold cmethod_of, eqb in HC. destruct (eq_dec (a_counterfactual a) "i_counterfactual"); [discriminate|]. destruct (eq_dec (a_counterfactual a) "f_counterfactual"); [assumption|]. destruct (eq_dec (a_counterfactual a) "d_counterfactual"); discriminate.
    - match type of HCF with (let '(_, _) := ?d in _) = _ => destruct d as [[[co di] ma] dn] end. unfold d_counterfactual_by in HCF. destruct (mapM _ (other_class c rules)) as [cfs|] eqn:M in HCF; [|discriminate]. cbn [bind] in HCF. exists cfs. split; [exact HCF|].
      assert (map fst cfs = other_class c rules) as ->; [|split; [apply incl_refl|auto]]. clear - M. apply mapM_ok in M. induction M as [|r x l l' H _ IH]; [reflexivity|]. cbn. rewrite IH. f_equal.
      repeat (match type of H with bind ?q _ = _ => destruct q; cbn [bind] in H; [|discriminate] end). injection H as <-. reflexivity. }
  destruct W as (cfs & HS & I1 & I2). assert (SS := @search_sound m c rules cfs cf _ PM NR NA eq_refl HS). split; [|split].
  - intros ch ->. destruct SS as (r & k & I & C1 & C2 & C3). exists r, k. apply I1, OT in I. destruct I. auto.
  - intros V ->. destruct SS as (r & k & _ & C1 & (m' & C2 & C4) & C3). rewrite (applied_no_change C2 C1), V in C4. congruence.
  - intros -> F r k I J. apply SS. rewrite (I2 F). apply OT. auto.
Qed.
Print Assumptions C80_successful_fit.
(** Keyword arguments the chosen methods do not take: no fit succeeds with them. *)
Theorem C80_superfluous_arguments : forall ord same parse mixed s a s', fdt_fit ord same parse mixed s a = (s', None) ->
  k_other (a_kw a) = [] /\
  (a_factual a <> "c_factual" -> k_lam (a_kw a) = None /\ k_beta (a_kw a) = None) /\
  (a_counterfactual a <> "d_counterfactual" -> k_cont (a_kw a) = None /\ k_disc (a_kw a) = None /\ k_mad (a_kw a) = None /\ k_dist (a_kw a) = None).
Proof.
  intros ord same parse mixed s a s' E. destruct (check_methods_spec (a_instance a) (a_factual a) (a_counterfactual a) (a_kw a)) as [(_ & fm & cm & CH & HF & HC)|(_ & CH)]; [|unfold fdt_fit in E; rewrite CH in E; discriminate].
  unfold fdt_fit in E. rewrite CH in E. cbn [tryS fst snd] in E.
  repeat match type of E with context[tryS ?r _ _] => let Q := fresh "Q" in destruct r eqn:Q; cbn [tryS] in E; [|discriminate] end.
  match goal with H : call_factual _ _ _ _ _ _ = Ok _ |- _ => rename H into HFA end. clear E CH. unfold call_factual in HFA.
  assert (G : forall A (o : option A), given o = false -> o = None) by (intros A [x|]; [discriminate|reflexivity]).
  assert (O : negb (Nat.eqb (List.length (k_other (a_kw a))) 0) = false -> k_other (a_kw a) = []) by (destruct (k_other (a_kw a)); [reflexivity|discriminate]).
  assert (NF : fm = CFactual -> a_factual a = "c_factual").
  { intros ->. unfold fmethod_of, Prelude.eqb in HF. repeat match type of HF with context[eq_dec ?x ?y] => destruct (eq_dec x y); [try discriminate; try assumption|] end. discriminate. }
  assert (NC : cm = DCf -> a_counterfactual a = "d_counterfactual").
  { intros ->. unfold cmethod_of, Prelude.eqb in HC. repeat match type of HC with context[eq_dec ?x ?y] => destruct (eq_dec x y); [try discriminate; try assumption|] end. discriminate. }
  assert (B : (match cm with DCf => false | _ => given (k_cont (a_kw a)) || given (k_disc (a_kw a)) || given (k_mad (a_kw a)) || given (k_dist (a_kw a)) end) = false /\
              negb (Nat.eqb (List.length (k_other (a_kw a))) 0) = false /\ (fm <> CFactual -> given (k_lam (a_kw a)) = false /\ given (k_beta (a_kw a)) = false)).
  { destruct fm; match type of HFA with (if ?b then _ else _) = _ => destruct b eqn:U; [discriminate|] end; repeat rewrite orb_false_iff in U.
    - destruct U as (((U1 & U2) & U3) & U4). split; [exact U1|]. split; [exact U2|]. intros _. split; [exact U3|exact U4].
    - destruct U as (((U1 & U2) & U3) & U4). split; [exact U1|]. split; [exact U2|]. intros _. split; [exact U3|exact U4].
    - destruct U as (U1 & U2). split; [exact U1|]. split; [exact U2|]. congruence. }
  destruct B as (B1 & B2 & B3). split; [apply O; exact B2|]. split.
  - intro N. destruct B3 as [B3 B4]; [intro W; apply N, NF, W|]. split; apply G; assumption.
  - intro N. assert (U : given (k_cont (a_kw a)) || given (k_disc (a_kw a)) || given (k_mad (a_kw a)) || given (k_dist (a_kw a)) = false) by (destruct cm; try exact B1; exfalso; apply N, NC; reflexivity).
    rewrite !orb_false_iff in U. destruct U as (((U1 & U2) & U3) & U4). splits; apply G; assumption.
Qed.
Print Assumptions C80_superfluous_arguments.
Example C80_instance : exists s', ex_fdt new_explainer ex_call = (s', None) /\ proper ex_m /\ n_instance (a_nb ex_call) = Ok ex_m.
Proof.
  eexists. split; [apply ex_succeeds|]. split; [|reflexivity]. split; [repeat constructor; intros []|]. intros f row [H|[]]. injection H as <- <-. split; [discriminate|]. repeat constructor; cbn; [intros [H|[]]; discriminate|intros []].
Qed.

(** ** C81 *)
(** If the memberships of the neighbourhood's instance are those of the [instance] argument (as on data without encoded columns), the
    explained class is a class of largest total rule support, and if it is the only one, the rules vote for it and a set of changes is not empty. *)
Theorem C81_explained_class_is_supported : forall ord same parse mixed s a s' vars m,
  fdt_fit ord same parse mixed s a = (s', None) -> n_vars (a_nb a) = Ok vars -> n_instance (a_nb a) = Ok m -> proper m ->
  (forall p l, Permutation (ord p l) l) -> distinct_names vars -> (forall v, In v vars -> fv_sets v <> []) ->
  (0 < f_threshold (fdt_config vars (a_kw a)))%R \/ ~ In "" (map fv_name vars) ->
  readable vars [List.concat (a_instance a)] -> row_membership vars (List.concat (a_instance a)) m ->
  exists X y t rules ms c,
    n_X (a_nb a) = Ok X /\ n_y (a_nb a) = Ok y /\ fit (fdt_config vars (a_kw a)) ord fresh_root X y = Ok t /\ tree_rules t 0 = Ok rules /\
    Forall2 (fun r x => matching m r = Ok x) rules ms /\ In c y /\ hit s' = Ok (map (Z.eqb c) (a_target a)) /\
    (forall k, In k y -> support rules ms k <= support rules ms c /\ ((k < c)%Z -> support rules ms k < support rules ms c)) /\
    ((forall k, In k y -> k <> c -> support rules ms k < support rules ms c) ->
       weighted_vote rules m = Ok c /\ forall fact cf, explain s' = Ok (fact, cf) -> cf <> Some []).
Proof.
  intros ord same parse mixed s a s' vars m E HV HM PM Ho DN NE TH RD RM.
  destruct (C80_successful_fit ord same parse mixed s a s' E) as (vars' & m' & X & y & t & rules & c & fact & cf & deg & H). { intros m' Q. congruence. }
  cbn zeta in H. destruct H as (H1 & H2 & H3 & H4 & H5 & H6 & (cs & H7) & H8 & H9 & H10 & H11 & _ & _ & _ & _ & _ & _ & _ & _ & H12 & _).
  rewrite HV in H1. injection H1 as <-. rewrite HM in H2. injection H2 as <-.
  assert (T : trained (fdt_config vars (a_kw a)) ord X y t) by (split; [assumption|split; [assumption|split; assumption]]).
  assert (L : t_leaf t = false).
  { destruct (t_leaf t) eqn:L; [|reflexivity]. exfalso. assert (W := C26_root_leaf_rules_fail _ _ _ _ _ m rules T NE L H6).
    destruct (@vote_total rules m) as [k K]; [assumption|intros r I; apply (H11 r I)|congruence]. }
  destruct (C26_votes_equal_rule_totals _ _ _ _ _ (List.concat (a_instance a)) m T NE L RM) as (rules' & ms & R1 & R2 & R3). rewrite H6 in R1. injection R1 as <-.
  destruct (C27_predict_maximal_vote _ _ _ _ _ [List.concat (a_instance a)] T NE RD) as (ps & P1 & P2). rewrite H7 in P1. injection P1 as <-. inversion P2 as [|? ? ? ? [B1 B2] _]; subst. rewrite zunique_In in B1.
  exists X, y, t, rules, ms, c. split; [assumption|]. split; [assumption|]. split; [assumption|]. split; [assumption|]. split; [assumption|]. split; [assumption|]. split; [assumption|]. split.
  - intros k I. rewrite !R3. apply B2. apply zunique_In. assumption.
  - intro W. assert (V : weighted_vote rules m = Ok c).
    { apply (C26_strict_winner (fdt_config vars (a_kw a)) ord X y t (List.concat (a_instance a)) m c rules T NE L eq_refl eq_refl RD RM H6 B1). intros k I D. rewrite <- !R3. auto. }
    split; [assumption|]. intros fact' cf' X'. rewrite H8 in X'. injection X' as <- <-. auto.
Qed.
Print Assumptions C81_explained_class_is_supported.
Lemma ex_row_membership : row_membership [ex_v "x"] [CNum (qz 2)] ex_m.
Proof.
  intros a v i s Hv Hs. destruct a as [|[|a]]; [|discriminate|discriminate]. injection Hv as <-.
  destruct i as [|[|i]]; [| |destruct i; discriminate]; injection Hs as <-; eexists; (split; [reflexivity|]); cbn [dget fs_name c_name ex_m].
  - assert (E : eqb "low" "low" = true) by reflexivity. rewrite E. f_equal. qex.
  - assert (E : eqb "high" "low" = false) by reflexivity. rewrite E, eqb_refl. f_equal. qex.
Qed.
Example C81_instance : readable [ex_v "x"] [List.concat (a_instance ex_call)] /\ row_membership [ex_v "x"] (List.concat (a_instance ex_call)) ex_m /\
  exists s', ex_fdt new_explainer ex_call = (s', None) /\ explain s' = Ok ([ex_low], Some [("x", "high")]).
Proof.
  split; [refine (proj1 (ex_readable "x" _ _)); intros row [<-|[]]; eexists; reflexivity|]. split; [exact ex_row_membership|]. eexists. split; [apply ex_succeeds|reflexivity].
Qed.

(** With an encoded categorical column the tree is asked about the code, which belongs to no set: every support is 0 and the least class is
    predicted, whatever the rules say about the decoded value.  Here the decoded value "a" means class 1, and 0 is explained: m_factual fails, and
    mr_factual gives an empty factual with an empty set of changes, or no counterfactual at all. *)
Definition cat_v : fvar := mkV "x" [FD "a" (CStr "a"); FD "b" (CStr "b")].
Definition cat_X : list (list cell) := [[CStr "a"]; [CStr "b"]].
Definition cat_m : imem := [("x", [("a", 1); ("b", 0)])].
Definition cat_nb : nview := mkN (Ok [cat_v]) (Ok cat_m) (Ok [CStr "a"]) (Ok cat_X) (Ok ex_y) (Err NotFuzzified).
Definition cat_call (f g : string) : fdt_args := mkFA [[CNum 0]] [1%Z] cat_nb [] f g no_kwargs.
Lemma cat_fit : trained (fdt_config [cat_v] no_kwargs) same_order cat_X ex_y (one_tree (fdt_config [cat_v] no_kwargs) cat_X ex_y cat_v).
Proof.
  assert (P : forall p s, Permutation (same_order p s) s) by (intros; apply Permutation_refl).
  assert (N : NoDup (map fs_name (fv_sets cat_v))) by (repeat constructor; cbn; [intros [H|[]]; discriminate|intros []]).
  split; [assumption|]. split; [split; [repeat constructor; intros []|intros v [<-|[]]; assumption]|].
  split; [left; cbn; lra|]. apply one_fit; try assumption; try reflexivity.
  - discriminate.
  - intros row Hr a v s Hv Hs. destruct a as [|a]; [|destruct a; discriminate]. injection Hv as <-. destruct Hr as [<-|[<-|[]]]; (eexists; destruct Hs as [<-|[<-|[]]]; eexists; (split; [reflexivity|reflexivity])).
  - intros row [<-|[<-|[]]]; cbn; lia.
  - cbn. lra.
  - intros [H|[H|H]].
    + assert (1 = 0)%Z by (apply H; vm_compute; auto). discriminate.
    + vm_compute in H. discriminate.
    + vm_compute in H. apply H. reflexivity.
  - unfold info_gain. cbn [nth_error fv_sets cat_v List.length seq map app].
    assert (A0 : acts [cat_v] cat_X [] = [1; 1]) by reflexivity. assert (A1 : acts [cat_v] cat_X [(0, 0)%nat] = [1; 0]) by qex. assert (A2 : acts [cat_v] cat_X [(0, 1)%nat] = [0; 1]) by qex.
    fold cat_v. rewrite A0, A1, A2. unfold ex_y. rewrite (@entropy_two 1 0) by discriminate. rewrite !entropy_pure by (auto; qlra). unfold rsum. cbn [fold_right]. cbn. lra.
Qed.
Lemma cat_run f g : (f = "m_factual" \/ f = "mr_factual") -> (g = "i_counterfactual" \/ g = "f_counterfactual") ->
  ex_fdt new_explainer (cat_call f g) =
  if eqb f "m_factual" then (mkE (Some [1%Z]) (Some 0%Z) None (Some 1), Some ZeroDivisionError)
  else (mkE (Some [1%Z]) (Some 0%Z) (Some ([], if eqb g "i_counterfactual" then Some [] else None)) (Some 1), None).
Proof.
  intros Hf Hg. unfold ex_fdt, fdt_fit. cbn [a_instance a_factual a_counterfactual a_kw a_nb cat_call cat_nb n_vars n_instance n_decoded n_X n_y a_num a_target].
  set (fm := if eqb f "m_factual" then MFactual else MRFactual). set (cm := if eqb g "i_counterfactual" then ICf else FCf).
  assert (C : check_methods [[CNum 0]] f g no_kwargs = Ok (fm, cm)) by (destruct Hf as [-> | ->], Hg as [-> | ->]; reflexivity). rewrite C. cbn [tryS snd fst].
  assert (DA : d_args cm no_kwargs = Ok ([], [], [], "")) by (unfold cm; destruct (eqb g "i_counterfactual"); reflexivity). rewrite DA. cbn [tryS].
  destruct cat_fit as (_ & _ & _ & F). rewrite F. cbn [tryS]. set (t := one_tree (fdt_config [cat_v] no_kwargs) cat_X ex_y cat_v).
  assert (P : predict (fdt_config [cat_v] no_kwargs) t cat_X = Ok [1; 0]%Z) by (vm_compute; reflexivity). rewrite P. cbn [tryS].
  assert (FD : fdt_fidelity ex_y [1; 0]%Z = Ok 1) by (unfold fdt_fidelity; vm_compute; apply (f_equal (@Ok _)); apply Qc_is_canon; reflexivity). rewrite FD. cbn [tryS].
  set (rules := [mkR [("x", "a")] 1 1; mkR [("x", "b")] 0 1]).
  assert (R : to_rule_based_system t false false = Ok rules) by (vm_compute; reflexivity). rewrite R. cbn [tryS].
  assert (P2 : predict (fdt_config [cat_v] no_kwargs) t [List.concat [[CNum 0]]] = Ok [0]%Z) by (vm_compute; reflexivity). rewrite P2. cbn [tryS nth_error ret_opt].
  replace (match cm with DCf => false | _ => given (k_cont no_kwargs) || given (k_disc no_kwargs) || given (k_mad no_kwargs) || given (k_dist no_kwargs) end) with false by (unfold cm; destruct (eqb g "i_counterfactual"); reflexivity).
  destruct Hf as [-> | ->].
  - assert (FA : call_factual (matching cat_m) fm no_kwargs false rules 0 = Err ZeroDivisionError) by (vm_compute; reflexivity). rewrite FA. reflexivity.
  - assert (FA : call_factual (matching cat_m) fm no_kwargs false rules 0 = Ok []) by (vm_compute; reflexivity). rewrite FA. cbn [tryS].
    assert (CF : call_counterfactual ex_same ex_parse ex_mixed cm [] cat_m rules 0 [] [CStr "a"] ([], [], [], "") = Ok (if eqb g "i_counterfactual" then Some [] else None)) by (destruct Hg as [-> | ->]; vm_compute; reflexivity).
    rewrite CF. reflexivity.
Qed.
Theorem C81_encoded_instance_refuted :
  (* the rules vote for class 1 on the decoded instance *)
  (exists t rules, trained (fdt_config [cat_v] no_kwargs) same_order cat_X ex_y t /\ tree_rules t 0 = Ok rules /\ weighted_vote rules cat_m = Ok 1%Z) /\
  (* the true class 1 is missed *)
  (forall f g, f = "m_factual" \/ f = "mr_factual" -> g = "i_counterfactual" \/ g = "f_counterfactual" -> hit (after ex_fdt new_explainer [cat_call f g]) = Ok [false]) /\
  raises ex_fdt (cat_call "m_factual" "i_counterfactual") ZeroDivisionError /\
  explain (after ex_fdt new_explainer [cat_call "mr_factual" "i_counterfactual"]) = Ok ([], Some []) /\
  explain (after ex_fdt new_explainer [cat_call "mr_factual" "f_counterfactual"]) = Ok ([], None) /\
  write_explanation fdt_pairs (after ex_fdt new_explainer [cat_call "mr_factual" "f_counterfactual"]) = Err TypeError.
Proof.
  split; [|split; [|split; [|split; [|split]]]].
  - eexists. eexists. split; [exact cat_fit|]. split; vm_compute; reflexivity.
  - intros f g Hf Hg. cbn [after]. rewrite (cat_run f g Hf Hg). destruct (eqb f "m_factual"); reflexivity.
  - unfold raises. rewrite cat_run by auto. reflexivity.
  - cbn [after]. rewrite cat_run by auto. reflexivity.
  - cbn [after]. rewrite cat_run by auto. reflexivity.
  - cbn [after]. rewrite cat_run by auto. reflexivity.
Qed.
Print Assumptions C81_encoded_instance_refuted.

(** ** C82 *)
Lemma fid3_raises cls fts s a : exists e, snd (fid3_fit cls fts s a) = Some e /\ e_explanation (fst (fid3_fit cls fts s a)) = e_explanation s /\ e_value (fst (fid3_fit cls fts s a)) = e_value s.
Proof.
  unfold fid3_fit. repeat match goal with |- context[tryS ?r _ _] => match r with id3_to_rule_based_system _ _ _ _ => fail 1 | _ => destruct r; cbn [tryS]; [|eexists; split; [reflexivity|split; reflexivity]] end end.
  eexists. split; [reflexivity|split; reflexivity].
Qed.
(** FID3Explainer.fit never succeeds, so that explain and hit never answer *)
Theorem C82_fid3_never_explains : forall cls fts calls,
  Forall (fails (fid3_fit cls fts)) calls /\
  explain (after (fid3_fit cls fts) new_explainer calls) = Err NotFitted /\ hit (after (fid3_fit cls fts) new_explainer calls) = Err NotFitted.
Proof.
  intros cls fts calls. split; [apply Forall_forall; intros a _; destruct (fid3_raises cls fts new_explainer a) as (e & E & _); exists e; exact E|].
  assert (H : forall s, e_explanation (after (fid3_fit cls fts) s calls) = e_explanation s /\ e_value (after (fid3_fit cls fts) s calls) = e_value s).
  { induction calls as [|a calls IH]; intro s; [split; reflexivity|]. destruct (IH (fst (fid3_fit cls fts s a))) as [I1 I2]. destruct (fid3_raises cls fts s a) as (e & _ & R1 & R2). split; [exact (eq_trans I1 R1)|exact (eq_trans I2 R2)]. }
  unfold explain, hit. destruct (H new_explainer) as [-> ->]. split; reflexivity.
Qed.
Print Assumptions C82_fid3_never_explains.
(** on a data set where everything else works the exception is the TypeError of to_rule_based_system *)
Definition id3_nb : nview := mkN (Ok [cat_v]) (Ok cat_m) (Ok [CStr "a"]) (Ok cat_X) (Ok [1; 1]%Z) (Ok [("x", [("a", [1; 0]); ("b", [0; 1])])]).
Example C82_fid3_instance : raises (fid3_fit (fun l => l) (fun l => l)) (mkIA [1%Z] id3_nb ["x"]) TypeError.
Proof. unfold raises, fid3_fit. vm_compute. reflexivity. Qed.

Lemma zunique_incl_length y p : (List.length (zunique y) <= List.length (zunique (y ++ p)))%nat.
Proof. apply NoDup_incl_length; [apply zunique_NoDup|]. intros c I. rewrite zunique_In in *. apply in_or_app. left. assumption. Qed.
Lemma f1_binary_spec y p q : f1_binary y p = Ok q -> q = f1_of y p 1 /\ (List.length (zunique y) <= 2)%nat /\ (List.length (zunique y) = 2%nat -> In 1%Z y).
Proof.
  unfold f1_binary. destruct (Nat.ltb_spec 2 (List.length (zunique (y ++ p)))) as [L|L]; [discriminate|]. assert (H := zunique_incl_length y p).
  destruct (negb (memb 1%Z (zunique (y ++ p))) && Nat.leb 2 (List.length (zunique (y ++ p)))) eqn:B; [discriminate|]. intro Q. injection Q as <-. split; [reflexivity|]. split; [lia|].
  intro E. apply andb_false_iff in B. destruct B as [B|B]; [|apply Nat.leb_gt in B; lia]. apply negb_false_iff, memb_In in B.
  destruct (in_dec Z.eq_dec 1%Z y) as [|N]; [assumption|]. exfalso.
  assert (3 <= List.length (zunique (y ++ p)))%nat; [|lia]. rewrite <- E at 1. change (S (List.length (zunique y)))%nat with (List.length (1%Z :: zunique y)).
  apply NoDup_incl_length; [constructor; [rewrite zunique_In; assumption|apply zunique_NoDup]|]. intros c [<-|I]; [assumption|]. rewrite zunique_In in *. apply in_or_app. left. assumption.
Qed.
(** the rows the FID3 explainer trains on: in a column with memberships, the name of the first set of largest degree; other columns as they were *)
Lemma categorical_spec (sets : dict string (list Qc)) n : sets <> [] -> exists col, categorical_fuzzy sets n = Ok col /\ List.length col = n /\
  forall j, (j < n)%nat -> exists s, strongest (map (fun nv => (fst nv, nth j (snd nv) 0)) sets) s /\ nth_error col j = Some (CStr s).
Proof.
  intro NE. unfold categorical_fuzzy. assert (T : forall j, exists s, (do b <- ret_opt ValueError (max_by (fun a b : string * Qc => qltb (snd a) (snd b)) (map (fun nv => (fst nv, nth j (snd nv) 0)) sets)); Ok (CStr (fst b))) = Ok (CStr s) /\ strongest (map (fun nv => (fst nv, nth j (snd nv) 0)) sets) s).
  { intro j. destruct (@strongest_ex (map (fun nv => (fst nv, nth j (snd nv) 0)) sets)) as (s & S); [destruct sets; [contradiction|discriminate]|]. exists s. split; [|assumption]. apply strongest_iff in S. unfold strongest_set in S. destruct (max_by _ _) as [b|]; [|discriminate]. cbn [ret_opt bind] in *. injection S as ->. reflexivity. }
  assert (G : forall k, exists col, mapM (fun j => do b <- ret_opt ValueError (max_by (fun a b : string * Qc => qltb (snd a) (snd b)) (map (fun nv => (fst nv, nth j (snd nv) 0)) sets)); Ok (CStr (fst b))) (seq k n) = Ok col /\ List.length col = n /\
     forall j, (j < n)%nat -> exists s, strongest (map (fun nv => (fst nv, nth (k + j) (snd nv) 0)) sets) s /\ nth_error col j = Some (CStr s)); [|exact (G 0%nat)].
  induction n as [|n IH]; intro k; [exists []; split; [reflexivity|split; [reflexivity|intros; lia]]|]. cbn [seq mapM]. destruct (T k) as (s & -> & St). cbn [bind]. destruct (IH (S k)) as (col & -> & L & N). exists (CStr s :: col). split; [reflexivity|]. split; [cbn; congruence|].
  intros [|j] J; [exists s; rewrite Nat.add_0_r; split; [assumption|reflexivity]|]. destruct (N j) as (s' & S' & E); [lia|]. exists s'. rewrite Nat.add_succ_r. split; assumption.
Qed.
Lemma replaced_nth (row : list cell) i v p : (i < List.length row)%nat -> nth_error (firstn i row ++ v :: skipn (S i) row) p = if Nat.eqb p i then Some v else nth_error row p.
Proof.
  revert i p. induction row as [|x row IH]; intros i p L; [cbn in L; lia|]. destruct i as [|i]; destruct p as [|p]; try reflexivity. cbn [List.length] in L. change (nth_error (firstn i row ++ v :: skipn (S i) row) p = if Nat.eqb p i then Some v else nth_error row p). apply IH. lia.
Qed.
Lemma zipped_nth A B C (f : A -> B -> C) l m i a b : nth_error l i = Some a -> nth_error m i = Some b -> nth_error (map2 f l m) i = Some (f a b).
Proof. revert l m. induction i as [|i IH]; intros [|x l] [|y m] H K; try discriminate; cbn in *; [congruence|]. apply IH; assumption. Qed.
Lemma zipped_In A B C (f : A -> B -> C) l m x : In x (map2 f l m) -> exists a b, In a l /\ In b m /\ x = f a b.
Proof. revert m. induction l as [|a l IH]; intros [|b m] H; try destruct H as [].  - exists a, b. cbn. auto. - destruct (IH m H) as (a' & b' & A1 & B1 & E). exists a', b'. cbn. auto. Qed.
Theorem C82_fid3_training_rows : forall columns X XM, NoDup columns -> NoDup (map fst XM) -> incl (map fst XM) columns -> (forall f sets, In (f, sets) XM -> sets <> []) ->
  (forall row, In row X -> List.length row = List.length columns) ->
  exists X', fuzzify_dataset columns X XM = Ok X' /\ List.length X' = List.length X /\
    forall j row row', nth_error X j = Some row -> nth_error X' j = Some row' -> List.length row' = List.length columns /\
      forall i f, nth_error columns i = Some f ->
        (forall sets, In (f, sets) XM -> exists s, strongest (map (fun nv => (fst nv, nth j (snd nv) 0)) sets) s /\ nth_error row' i = Some (CStr s)) /\
        (~ In f (map fst XM) -> nth_error row' i = nth_error row i).
Proof.
  intros columns X XM NC. revert X. unfold fuzzify_dataset. induction XM as [|[f sets] XM IH]; intros X NX IN NE W.
  - exists X. split; [reflexivity|]. split; [reflexivity|]. intros j row row' A B. rewrite A in B. injection B as <-. split; [apply W; apply (nth_error_In _ _ A)|]. intros i f F. split; [intros sets []|reflexivity].
  - cbn [foldM fst snd]. destruct (@categorical_spec sets (List.length X)) as (col & -> & LC & CC); [apply (NE f); left; reflexivity|]. cbn [bind].
    assert (IF : In f columns) by (apply IN; left; reflexivity). apply In_nth_error in IF. destruct IF as (p & P). rewrite (index_of_spec _ NC P). cbn [bind].
    set (X1 := map2 (fun row v => firstn p row ++ v :: skipn (S p) row) X col). assert (LP : (p < List.length columns)%nat) by (apply nth_error_Some; congruence).
    assert (L1 : List.length X1 = List.length X) by (unfold X1; rewrite map2_length; rewrite LC; lia).
    assert (W1 : forall row, In row X1 -> List.length row = List.length columns). { intros row R. apply zipped_In in R. destruct R as (a & b & A & _ & ->). specialize (W a A). rewrite app_length, firstn_length. cbn [List.length]. rewrite skipn_length. lia. }
    inversion NX as [|? ? NF NX']; subst. destruct (IH X1 NX') as (X' & E & L & Q); [intros x I; apply IN; right; assumption|intros g s I; apply (NE g); right; assumption|assumption|].
    exists X'. split; [exact E|]. split; [congruence|]. intros j row row' A B. assert (J : (j < List.length X)%nat) by (apply nth_error_Some; congruence). destruct (CC j J) as (s & S & Cj).
    assert (A1 : nth_error X1 j = Some (firstn p row ++ CStr s :: skipn (Datatypes.S p) row)) by (apply (@zipped_nth _ _ _ (fun row v => firstn p row ++ v :: skipn (Datatypes.S p) row) _ _ _ _ _ A Cj)). destruct (Q j _ row' A1 B) as (LR & QQ). split; [assumption|]. intros i g G. destruct (QQ i g G) as (Q1 & Q2).
    assert (LRow : (p < List.length row)%nat) by (rewrite (W row (nth_error_In _ _ A)); assumption). split.
    + intros sets' [I|I].
      * injection I as <- <-. exists s. split; [assumption|]. rewrite Q2 by assumption. rewrite replaced_nth by assumption. assert (i = p). { apply (proj1 (NoDup_nth_error columns) NC); [apply nth_error_Some; congruence|congruence]. } subst i. rewrite Nat.eqb_refl. reflexivity.
      * apply Q1. assumption.
    + intro NI. rewrite Q2 by (intro; apply NI; right; assumption). rewrite replaced_nth by assumption. destruct (Nat.eqb_spec i p) as [->|_]; [|reflexivity]. exfalso. apply NI. left. cbn. congruence.
Qed.
Example C82_training_ex : fuzzify_dataset ["a"; "b"] [[CNum 1; CStr "x"]; [CNum (qz 5); CStr "y"]] [("a", [("low", [1; qc 1 4]); ("high", [0; qc 3 4])])] = Ok [[CStr "low"; CStr "x"]; [CStr "high"; CStr "y"]].
Proof. qex. Qed.
Print Assumptions C82_fid3_training_rows.
(** FBDTExplainer only handles labels with at most two classes, and then only if 1 is among them; FDTExplainer handles more than two classes, but
    has the same restriction on two *)
Theorem C82_fbdt_needs_binary_labels : forall psort a y, n_y (ba_nb a) = Ok y ->
  (2 < List.length (zunique y))%nat \/ (List.length (zunique y) = 2%nat /\ ~ In 1%Z y) -> fails (fbdt_fit psort) a.
Proof.
  intros psort a y HY H. unfold fails, raises. destruct (snd (fbdt_fit psort new_explainer a)) as [e|] eqn:E; [eauto|exfalso]. unfold fbdt_fit in E. rewrite HY in E.
  repeat match type of E with context[tryS ?r _ _] => let Q := fresh "Q" in destruct r eqn:Q; cbn [tryS] in E; [|discriminate] end.
  repeat match goal with Q : Ok _ = Ok _ |- _ => injection Q as <- end.
  match goal with Q : f1_binary _ _ = Ok _ |- _ => destruct (f1_binary_spec _ _ _ Q) as (_ & L & I) end. destruct H as [H|[H N]]; [lia|auto].
Qed.
Print Assumptions C82_fbdt_needs_binary_labels.
Theorem C82_fdt_two_classes_need_one : forall ord same parse mixed a y, n_y (a_nb a) = Ok y ->
  List.length (zunique y) = 2%nat -> ~ In 1%Z y -> fails (fdt_fit ord same parse mixed) a.
Proof.
  intros ord same parse mixed a y HY H N. unfold fails, raises. destruct (snd (fdt_fit ord same parse mixed new_explainer a)) as [e|] eqn:E; [eauto|exfalso]. unfold fdt_fit in E. rewrite HY in E.
  repeat match type of E with context[tryS ?r _ _] => let Q := fresh "Q" in destruct r eqn:Q; cbn [tryS] in E; [|discriminate] end.
  repeat match goal with Q : Ok _ = Ok _ |- _ => injection Q as <- end.
  match goal with Q : fdt_fidelity _ _ = Ok _ |- _ => unfold fdt_fidelity in Q; rewrite H in Q; cbn in Q; destruct (f1_binary_spec _ _ _ Q) as (_ & _ & I) end. auto.
Qed.
Print Assumptions C82_fdt_two_classes_need_one.
(** the fidelity of a fitted FDTExplainer lies in [0,1], and with more than two classes it is 1 exactly when the tree reproduces all the labels *)
Theorem C82_fidelity : forall ord same parse mixed s a s',
  fdt_fit ord same parse mixed s a = (s', None) ->
  exists vars X y t p q, n_vars (a_nb a) = Ok vars /\ n_X (a_nb a) = Ok X /\ n_y (a_nb a) = Ok y /\
    fit (fdt_config vars (a_kw a)) ord fresh_root X y = Ok t /\ predict (fdt_config vars (a_kw a)) t X = Ok p /\ e_fidelity s' = Some q /\
    (y <> [] -> 0 <= q /\ q <= 1 /\
       ((2 < List.length (zunique y))%nat -> List.length X = List.length y -> (q = 1 <-> p = y)) /\
       ((List.length (zunique y) <= 2)%nat -> In 1%Z y -> p = y -> q = 1)).
Proof.
  intros ord same parse mixed s a s' E. unfold fdt_fit in E.
  destruct (n_vars (a_nb a)) as [vars|] eqn:Q1; [|destruct (check_methods _ _ _ _) in E; discriminate]. destruct (n_X (a_nb a)) as [X|] eqn:Q2; [|repeat match type of E with context[tryS ?r _ _] => destruct r; cbn [tryS] in E; [|discriminate] end; discriminate].
  destruct (n_y (a_nb a)) as [y|] eqn:Q3; [|repeat match type of E with context[tryS ?r _ _] => destruct r; cbn [tryS] in E; [|discriminate] end; discriminate].
  exists vars, X, y.
  repeat match type of E with context[tryS ?r _ _] => match r with fit _ _ _ _ _ => fail 1 | _ => let Q := fresh "Q" in destruct r eqn:Q; cbn [tryS] in E; [|discriminate] end end.
  repeat match goal with Q : Ok _ = Ok _ |- _ => injection Q as <- end.
  match type of E with context[tryS (fit ?a ?b ?c ?d ?e) _ _] => destruct (fit a b c d e) as [t|] eqn:QF; cbn [tryS] in E; [|discriminate] end.
  match type of E with context[tryS (predict ?a ?b ?c) _ _] => destruct (predict a b c) as [p|] eqn:QP; cbn [tryS] in E; [|discriminate] end.
  match type of E with context[tryS (fdt_fidelity ?a ?b) _ _] => destruct (fdt_fidelity a b) as [q|] eqn:QD; cbn [tryS] in E; [|discriminate] end.
  exists t, p, q. repeat match type of E with context[tryS ?r _ _] => destruct r; cbn [tryS] in E; [|discriminate] end. injection E as <-.
  split; [reflexivity|]. split; [reflexivity|]. split; [reflexivity|]. split; [first [assumption|reflexivity]|]. split; [first [assumption|reflexivity]|]. split; [reflexivity|]. intro NE. unfold fdt_fidelity in QD.
  destruct (Nat.ltb_spec 2 (List.length (zunique y))) as [L|L].
  - injection QD as <-. destruct (f1_weighted_01 p NE) as [A B]. split; [assumption|]. split; [assumption|]. split; [|lia]. intros _ LX. apply f1_weighted_one; [assumption|]. rewrite <- LX. eapply predict_length. eassumption.
  - apply f1_binary_spec in QD. destruct QD as (-> & _). destruct (f1_01 y p 1%Z) as [A B]. split; [assumption|]. split; [assumption|]. split; [lia|]. intros _ I ->. apply f1_one. unfold fp, fn, tp. rewrite !countb_zero. split; [|split].
    + intros x Ix. apply zip_diag in Ix. rewrite Ix. destruct (Z.eqb (snd x) 1); reflexivity.
    + intros x Ix. apply zip_diag in Ix. rewrite Ix. destruct (Z.eqb (snd x) 1); reflexivity.
    + destruct (@zip_In_l Z Z y y 1%Z eq_refl I) as [b K]. intro H. specialize (H _ K). assert (E := @zip_diag _ y _ K). cbn in *. subst. discriminate.
Qed.
Print Assumptions C82_fidelity.
Example C82_instance : f1_weighted [0; 1; 2; 2]%Z [0; 1; 2; 1]%Z = qc 3 4 /\ f1_binary [0; 0]%Z [0; 0]%Z = Ok 0 /\ f1_binary [0; 2]%Z [0; 2]%Z = Err ValueError /\ e_fidelity (after ex_fdt new_explainer [ex_call]) = Some 1.
Proof. split; [qex|]. split; [reflexivity|]. split; [reflexivity|]. cbn [after]. rewrite ex_succeeds. reflexivity. Qed.
