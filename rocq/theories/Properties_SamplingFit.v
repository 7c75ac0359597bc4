(** * C128: SamplingNeighborhood.fit from the dataset to the fuzzified neighbourhood *)
From Verif Require Import Prelude M_Fuzzy M_Discretize M_Rule M_FDT M_Counterfactual M_Explainer M_Neighborhood S_Neighborhood P_FuzzySet P_FuzzyVar P_Entropy P_Metrics P_Counterfactual P_Neighborhood P_Neighborhood2
  Properties_Neighborhood M_Genetic M_Utils S_Utils P_Utils2 P_Utils4 M_Sampling S_Sampling P_Sampling P_Sampling2 Properties_Sampling M_SamplingFit S_SamplingFit P_SamplingFit.
From Coq Require Import Reals Lra.
Set Implicit Arguments.
Open Scope string_scope. Open Scope list_scope. Open Scope Qc_scope.

Lemma generate_wide rnd bb method fuel nr d cls w X inst size tb : generate rnd bb method fuel nr d cls w X inst size = Ok tb ->
  method = "fast" /\ exists rows, tb = mkTb (feature_names d cls) (map (map CNum) rows) /\ forall r, In r rows -> List.length r = List.length (feature_names d cls).
Proof.
  unfold generate. destruct (eqb method "slow") eqn:E1; [discriminate|]. destruct (eqb method "fast") eqn:E2; [|discriminate]. apply eqb_eq in E2. intro H. split; [assumption|]. unfold generate_fast in H. cbv zeta in H.
  repeat match type of H with bind ?r _ = _ => destruct r; [|discriminate]; cbn [bind] in H end. destruct (forallb _ _) eqn:F; [|discriminate]. injection H as <-. eexists. split; [reflexivity|].
  intros r I. rewrite forallb_forall in F. apply F in I. apply Nat.eqb_eq in I. exact I.
Qed.
Lemma run_parts rnd bb encs method fuel nr d cls w X inst size s s' : sampling_run rnd bb encs method fuel nr d cls w X inst size s = (s', None) ->
  exists dec Z df labels, decode_instance encs (feature_names d cls) inst = Ok dec /\ generate rnd bb method fuel nr d cls w X inst size = Ok Z /\ decode_table encs cls Z = Ok df /\
    decode_labels encs cls (map bb (number_rows Z)) = Ok labels /\
    get_X s' = Ok df /\ get_y s' = Ok (map bb (number_rows Z)) /\ get_y_decoded s' = Ok labels /\ nb_decoded s' = Some dec /\ nb_Xy s' = true.
Proof.
  unfold sampling_run, sampling_fit, sampling_outcome. cbn [o_decoded o_Z o_target o_df o_y o_y_decoded]. change (filter (fun c => negb (eqb c cls)) (s_columns d)) with (feature_names d cls).
  destruct (decode_instance encs (feature_names d cls) inst) as [dec|] eqn:E1; [|discriminate]. cbn [tryS]. destruct (generate rnd bb method fuel nr d cls w X inst size) as [Z|] eqn:E2; [|discriminate]. cbn [tryS bind].
  destruct (decode_labels encs cls [bb inst]) as [t|] eqn:E3; [|discriminate]. cbn [tryS bind]. destruct (decode_table encs cls Z) as [df|] eqn:E4; [|discriminate]. cbn [tryS].
  destruct (decode_labels encs cls (map bb (number_rows Z))) as [labels|] eqn:E5; [|discriminate]. cbn [tryS]. intro H. injection H as <-. exists dec, Z, df, labels. splits; auto; reflexivity.
Qed.

(** a successful fit: the rows of the neighbourhood are [generated] rows followed by the instance; get_X holds them in the original values, get_y their outcomes
    and get_y_decoded the names of these outcomes, row by row; the decoded instance is the last row of get_X.  The generated rows have their values from the
    columns of the dataset, near the instance or near the closest row with another outcome, and no outcome has more than its share of them *)
Theorem C128_fit : forall rnd bb encs method fuel nr d class_name w X instance size s s',
  (0 < w)%nat -> matrix w X -> List.length instance = w ->
  (forall i, In i (idx_of (s_continuous d) d) \/ In i (idx_of (s_discrete d) d) -> (i < w)%nat) ->
  NoDup (feature_names d class_name) -> NoDup (dkeys encs) ->
  sampling_run rnd bb encs method fuel nr d class_name w X instance size s = (s', None) ->
  let names := feature_names d class_name in
  let cont := idx_of (s_continuous d) d in
  let dist := mixed_value cont (idx_of (s_discrete d) d) w in
  let others := filter (fun r => negb (Z.eqb (bb r) (bb instance))) X in
  exists generated cells labels closest,
    get_X s' = Ok (mkTb names cells) /\ get_y s' = Ok (map bb (generated ++ [instance])) /\ get_y_decoded s' = Ok labels /\ nb_decoded s' = Some (last cells []) /\
    Forall2 (original encs names) (generated ++ [instance]) cells /\ Forall2 (label_of encs class_name) (map bb (generated ++ [instance])) labels /\
    ((closest = [] /\ forall r, In r others -> dist instance r = 0%R) \/ nearest dist instance others closest) /\
    (forall r, In r generated -> drawn_around nr X w cont instance r \/ drawn_around nr X w cont closest r) /\
    (forall c, (of_class bb c generated <= share size (s_outcomes d))%nat) /\ (List.length generated <= size + 1)%nat /\ ((0 < size)%nat -> generated <> []).
Proof.
  intros rnd bb encs method fuel nr d cls w X inst size s s' P M L I ND NK H. cbv zeta. destruct (run_parts _ _ _ _ _ _ _ _ _ _ _ _ _ H) as (dec & Z & df & labels & E1 & E2 & E3 & E4 & GX & GY & GD & DI & _).
  destruct (generate_wide _ _ _ _ _ _ _ _ _ _ _ E2) as (-> & rows & EZ & W). destruct (@C64_fast_sampling rnd bb fuel nr d cls w X inst size Z P M L I E2) as (gen & drawn & m & cl & C & R & N & LD & AL & SU & RG & OC & LG & LM & ST).
  assert (ER : rows = gen ++ [inst]). { rewrite <- (number_rows_num [] rows), <- (number_rows_num [] (gen ++ [inst])). f_equal. f_equal. rewrite <- R, EZ. reflexivity. } subst rows. subst Z. rewrite number_rows_num in GY, E4.
  assert (NC : ~ In cls (feature_names d cls)). { intro Q. apply filter_In in Q. destruct Q as (_ & Q). rewrite eqb_refl in Q. discriminate. }
  destruct (@decode_table_ok encs cls (feature_names d cls) (gen ++ [inst]) df ND NK NC W E3) as (TC & TR). destruct df as [cols cells]. cbn [tb_cols tb_rows] in TC, TR. subst cols.
  exists gen, cells, labels, cl. splits; auto.
  - assert (OD : original encs (feature_names d cls) inst dec) by (apply decode_instance_ok; [apply W, in_or_app; right; left; reflexivity|assumption]). rewrite DI. f_equal.
    apply Forall2_app_inv_l in TR. destruct TR as (c1 & c2 & _ & T2 & ->). inversion T2 as [|? c ? ? O T3]; subst. inversion T3; subst. rewrite last_last. eapply original_fun; eassumption.
  - apply decode_labels_ok. assumption.
  - intros r Ir. apply (sub_In _ SU) in Ir. apply In_nth_error in Ir. destruct Ir as (j & Nj). specialize (AL j r Nj). destruct (Nat.even j); auto.
  - intro c. rewrite OC. lia.
  - intros PS EG. subst gen. cbn [List.length] in ST. assert (EM : m = (100 * size + 1)%nat) by lia. destruct drawn as [|r drawn]; [cbn in LD; lia|]. specialize (OC (bb r)). assert (O1 : (1 <= of_class bb (bb r) (r :: drawn))%nat).
    { unfold of_class. cbn [filter]. rewrite Z.eqb_refl. cbn [List.length]. lia. }
    assert (RB := RG r (or_introl eq_refl)). assert (SH : (1 <= share size (s_outcomes d))%nat). { unfold share. apply Nat.div_le_lower_bound; lia. } change (of_class bb (bb r) []) with 0%nat in OC. lia.
Qed.

(** with the generation method 'fast' fit succeeds, for every stream of random choices, on an encoded sampling task with a valid range whose continuous columns vary *)
Theorem C128_succeeds : forall rnd bb encs nr d class_name w X instance size s, task bb d class_name w X instance -> valid_range nr ->
  (forall i, In i (idx_of (s_continuous d) d) -> varies X i) ->
  NoDup (feature_names d class_name) -> encoded encs (feature_names d class_name) class_name (s_outcomes d) X ->
  exists s', sampling_run rnd bb encs "fast" (100 * size + 1) nr d class_name w X instance size s = (s', None).
Proof.
  intros rnd bb encs nr d cls w X inst size s T V W ND EN. destruct (@C64_succeeds rnd bb nr d cls w X inst size T V W) as (tb & E). destruct T as [M N Cov Idx In_ (r0 & Ir & Nr) Cl].
  assert (Li : List.length inst = w) by (apply M; assumption).
  assert (P : (0 < w)%nat). { destruct w; [|lia]. exfalso. apply Nr. f_equal. assert (A := M r0 Ir). destruct r0; [|discriminate]. destruct inst; [reflexivity|discriminate]. }
  destruct (generate_wide _ _ _ _ _ _ _ _ _ _ _ E) as (_ & rows & EZ & WR). destruct (@C64_fast_sampling rnd bb _ nr d cls w X inst size tb P M Li Idx E) as (gen & drawn & m & cl & C & R & NN & LD & AL & SU & RG & OC & LG & LM & ST).
  assert (ER : rows = gen ++ [inst]). { rewrite <- (number_rows_num [] rows), <- (number_rows_num [] (gen ++ [inst])). f_equal. f_equal. rewrite <- R, EZ. reflexivity. } subst rows. subst tb.
  assert (NC : ~ In cls (feature_names d cls)). { intro Q. apply filter_In in Q. destruct Q as (_ & Q). rewrite eqb_refl in Q. discriminate. }
  destruct (@decode_instance_total encs cls (feature_names d cls) (s_outcomes d) X inst EN In_) as (dec & D1); [congruence|].
  destruct (@decode_labels_total encs cls _ _ X [bb inst] EN) as (t & D2); [intros c [<-|[]]; apply Cl|].
  destruct (@decode_table_total encs cls (feature_names d cls) (s_outcomes d) X (gen ++ [inst]) ND EN NC WR) as (df & D3).
  { intros r i q Ir0 Nq. apply in_app_or in Ir0. destruct Ir0 as [Ir0|[<-|[]]]; [|exists inst; auto]. apply (sub_In _ SU) in Ir0. apply In_nth_error in Ir0. destruct Ir0 as (j & Nj).
    assert (A : exists c, drawn_around nr X w (idx_of (s_continuous d) d) c r) by (specialize (AL j r Nj); destruct (Nat.even j); eexists; exact AL). destruct A as (c & LR & A). destruct (A i q Nq) as (A1 & _). unfold col_of in A1. apply in_map_iff in A1. destruct A1 as (r' & E' & I').
    exists r'. split; [assumption|]. assert (LI : (i < w)%nat) by (rewrite <- LR; apply nth_error_Some; congruence). rewrite (nth_error_nth' r' 0) by (rewrite (M r' I'); assumption). congruence. }
  destruct (@decode_labels_total encs cls _ _ X (map bb (gen ++ [inst])) EN) as (labels & D4). { intros c Ic. apply in_map_iff in Ic. destruct Ic as (r & <- & _). apply Cl. }
  unfold sampling_run, sampling_fit, sampling_outcome. cbn [o_decoded o_Z o_target o_df o_y o_y_decoded]. change (filter (fun c => negb (eqb c cls)) (s_columns d)) with (feature_names d cls).
  rewrite D1, E. cbn [tryS bind]. rewrite D2. cbn [tryS bind]. rewrite D3. cbn [tryS]. rewrite number_rows_num, D4. cbn [tryS]. eexists. reflexivity.
Qed.

(** every other method, among them the default 'slow', raises and leaves the object as it was; so does an instance with a code that no class of an encoder has *)
Theorem C128_other_methods : forall rnd bb encs method fuel nr d class_name w X instance size s, method <> "fast" ->
  exists e, sampling_run rnd bb encs method fuel nr d class_name w X instance size s = (s, Some e) /\
    ((exists dec, decode_instance encs (feature_names d class_name) instance = Ok dec) -> e = if eqb method "slow" then TypeError else KeyError).
Proof.
  intros rnd bb encs method fuel nr d cls w X inst size s NF. unfold sampling_run, sampling_fit, sampling_outcome. cbn [o_decoded o_Z]. change (filter (fun c => negb (eqb c cls)) (s_columns d)) with (feature_names d cls).
  destruct (decode_instance encs (feature_names d cls) inst) as [dec|e] eqn:E1; cbn [tryS].
  - unfold generate. destruct (eqb method "slow") eqn:E; [eexists; split; [reflexivity|intros _; reflexivity]|]. rewrite (proj2 (@eqb_neq string _ method "fast") NF). eexists. split; [reflexivity|intros _; reflexivity].
  - exists e. split; [reflexivity|]. intros (dec & C). discriminate.
Qed.
Theorem C128_unknown_code : forall rnd bb encs method fuel nr d class_name w X instance size s i c classes q,
  nth_error (feature_names d class_name) i = Some c -> dget c encs = Some classes -> nth_error instance i = Some q -> List.length instance = List.length (feature_names d class_name) ->
  (forall k, truncated q (Z.of_nat k) -> (List.length classes <= k)%nat) ->
  sampling_run rnd bb encs method fuel nr d class_name w X instance size s = (s, Some ValueError).
Proof.
  intros rnd bb encs method fuel nr d cls w X inst size s i c classes q Nc D Nq L B. unfold sampling_run, sampling_fit, sampling_outcome. cbn [o_decoded]. change (filter (fun c => negb (eqb c cls)) (s_columns d)) with (feature_names d cls).
  assert (E : decode_instance encs (feature_names d cls) inst = Err ValueError); [|rewrite E; reflexivity].
  unfold decode_instance. match goal with |- mapM ?f ?l = _ => assert (OE : forall x e, In x l -> f x = Err e -> e = ValueError) end.
  { intros (j & n) e Ij. cbn [fst snd]. apply In_nth_error in Ij. destruct Ij as (j' & Nj). apply enumerate_nth_inv in Nj. cbn [fst snd] in Nj. destruct Nj as (<- & Nj). assert (LI : (j < List.length inst)%nat) by (rewrite L; apply nth_error_Some; congruence).
    unfold lget. destruct (nth_error inst j) as [v|] eqn:Nv; [|apply nth_error_None in Nv; lia]. cbn [ret_opt bind]. destruct (dget n encs) as [cl|]; [|discriminate]. unfold as_int. cbn [bind]. unfold inverse_transform. cbn [mapM].
    destruct (as_index _) as [k|]; cbn [ret_opt bind]; [|congruence]. destruct (nth_error cl k); cbn [ret_opt bind nth_error]; [discriminate|congruence]. }
  match goal with |- mapM ?f ?l = _ => assert (ER : exists e, mapM f l = Err e) end.
  { apply (P_Rule.mapM_some_err _ _ (i, c) (e := ValueError)); [apply nth_error_In with i; exact (enumerate_nth _ _ Nc)|]. cbn [fst snd]. rewrite D. unfold lget. rewrite Nq. cbn [ret_opt bind]. unfold as_int. cbn [bind]. unfold inverse_transform. cbn [mapM].
    destruct (as_index (CNum (truncate q))) as [k|] eqn:A; [|reflexivity]. cbn [ret_opt bind]. apply as_index_inv in A. destruct (truncate_spec q) as (z & TZ & T). assert (z = Z.of_nat k) as -> by (apply (proj1 (qz_inj _ _)); unfold qn in A; congruence).
    specialize (B k T). apply nth_error_None in B. rewrite B. reflexivity. }
  destruct ER as (e & ER). rewrite ER. f_equal. clear - OE ER.
  match type of ER with mapM ?f ?l = _ => revert OE ER; generalize f; generalize l end. intros l f. induction l as [|x l IH]; intros OE ER; [discriminate|]. cbn [mapM] in ER. destruct (f x) as [y|e'] eqn:E; cbn [bind] in ER.
  - destruct (mapM f l) as [ys|e'] eqn:E'; cbn [bind] in ER; [discriminate|]. apply IH; [intros; eapply OE; [right|]; eassumption|congruence].
  - assert (e' = e) as -> by congruence. apply (OE x e); [left; reflexivity|assumption].
Qed.

(** after a successful fit with a positive size, fuzzify by entropy succeeds when the features without an encoder (at least one) are numerical and those with an encoder
    categorical, and the membership of the instance is that of the last row *)
Theorem C128_fuzzify : forall cut show show_cell ops rnd bb encs method fuel nr d class_name w X instance size s kw num cat,
  (0 < w)%nat -> (0 < size)%nat -> matrix w X -> List.length instance = w ->
  (forall i, In i (idx_of (s_continuous d) d) \/ In i (idx_of (s_discrete d) d) -> (i < w)%nat) ->
  NoDup (feature_names d class_name) -> NoDup (dkeys encs) ->
  sampling_run rnd bb encs method fuel nr d class_name w X instance size (history cut show show_cell (map CNum instance) Sampling ops) = (s, None) ->
  z_num kw = Some num -> z_cat kw = Some cat -> z_verbose kw = false -> z_inst kw = None -> num <> [] ->
  (forall c, In c num \/ In c cat <-> In c (feature_names d class_name)) -> (forall c, In c num <-> In c (feature_names d class_name) /\ ~ In c (dkeys encs)) ->
  exists s' xm, sampling_fuzzify cut show show_cell (map CNum instance) s "entropy" kw = (s', None) /\
    get_X_membership s' = Ok xm /\ get_instance_membership s' = Ok (last_row xm).
Proof.
  intros cut show show_cell ops rnd bb encs method fuel nr d cls w X inst size s kw num cat P PS M L I ND NK H HN HC HV HI NE COV NUM.
  destruct (@C128_fit rnd bb encs method fuel nr d cls w X inst size _ s P M L I ND NK H) as (gen & cells & labels & cl & GX & GY & GD & DI & FO & FL & _ & _ & _ & _ & PG). specialize (PG PS).
  assert (HS : s = history cut show show_cell (map CNum inst) Sampling (ops ++ [Fit (sampling_outcome rnd bb encs method fuel nr d cls w X inst size)])).
  { unfold history. rewrite after_ops_snoc. change (s = fst (sampling_run rnd bb encs method fuel nr d cls w X inst size (history cut show show_cell (map CNum inst) Sampling ops))). rewrite H. reflexivity. }
  assert (LC : List.length cells = S (List.length gen)). { rewrite <- (Forall2_len FO), app_length. cbn. lia. }
  assert (RO : forall row, In row cells -> List.length row = List.length (feature_names d cls) /\ forall i c, nth_error (feature_names d cls) i = Some c -> In c num -> exists q, nth_error row i = Some (CNum q)).
  { intros row Ir. apply In_nth_error in Ir. destruct Ir as (j & Nj). destruct (Forall2_nth_r FO j Nj) as (r & Nr & (O1 & O2 & O3)). split; [assumption|]. intros i c Nc Ic. assert (LI : (i < List.length (feature_names d cls))%nat) by (apply nth_error_Some; congruence).
    destruct (nth_error r i) as [q|] eqn:Q; [|apply nth_error_None in Q; lia]. destruct (nth_error row i) as [v|] eqn:V; [|apply nth_error_None in V; lia]. specialize (O3 i c q v Nc Q V). unfold stands_for in O3. apply NUM in Ic. rewrite (proj2 (@dget_None _ _ _ c encs) (proj2 Ic)) in O3. exists q. congruence. }
  assert (NC0 : cells <> []) by (intro C; rewrite C in LC; discriminate). assert (EC := app_removelast_last [] NC0).
  assert (IL : In (last cells []) cells) by (rewrite EC at 2; apply in_or_app; right; left; reflexivity).
  destruct (@C83_succeeds cut show show_cell (map CNum inst) Sampling (ops ++ [Fit (sampling_outcome rnd bb encs method fuel nr d cls w X inst size)]) kw (mkTb (feature_names d cls) cells) (map bb (gen ++ [inst])) (last cells []) num cat) as (s' & F).
  all: try (cbn [tb_cols tb_rows]; assumption).
  - rewrite <- HS. split; assumption.
  - rewrite <- HS. assumption.
  - intros _. assumption.
  - cbn [tb_rows]. rewrite LC. destruct gen; [congruence|cbn; lia].
  - cbn [tb_rows]. rewrite map_length, app_length, LC. cbn. lia.
  - cbn [tb_cols]. destruct (RO _ IL) as (R1 & R2). split; [assumption|]. intros i c Nc NCat. apply (R2 i c Nc). destruct (proj2 (COV c) (nth_error_In _ _ Nc)); [assumption|contradiction].
  - intro Q. discriminate.
  - rewrite <- HS in F. exists s'. destruct (fuzzify_ok cut show show_cell (map CNum inst) Sampling s "entropy" kw F) as (X' & vars & xm & dec & im & HX & FV & HM & HD & HIM & _ & _ & GXM & GIM).
    exists xm. split; [exact F|]. unfold get_X_membership, get_instance_membership. rewrite GXM, GIM. split; [reflexivity|]. cbn [ret_opt]. f_equal.
    assert (X' = mkTb (feature_names d cls) cells) as -> by (unfold get_X in GX; rewrite HX in GX; cbn in GX; congruence). cbn [tb_rows] in HM. assert (dec = last cells []) as -> by congruence. rewrite EC in HM. exact (last_membership _ _ _ HM HIM).
Qed.

(** examples: the dataset of Properties_Sampling; "b" and the class "c" have encoders *)
Definition sx_encs : encoders := [("c", [CStr "high"; CStr "low"]); ("b", [CStr "no"; CStr "yes"])].
Example sx_encoded : encoded sx_encs (feature_names sx_d "c") "c" 2 sx_X.
Proof.
  constructor.
  - repeat constructor; cbn; intuition discriminate.
  - intros c [<-|[<-|[]]]; [left; reflexivity|right; right; left; reflexivity].
  - intros c classes i row q D N I Q. cbn in N. destruct i as [|[|i]]; [injection N as <-; discriminate D| |destruct i; discriminate]. injection N as <-. cbn in D. assert (classes = [CStr "no"; CStr "yes"]) as -> by congruence.
    assert (B : q = 0 \/ q = 1). { cbn in I. destruct I as [<-|[<-|[<-|[<-|[]]]]]; cbn in Q; injection Q as <-; auto. } destruct B as [->| ->]; [exists 0%nat|exists 1%nat]; (split; [|cbn; lia]); split; intro Z; split; try reflexivity; discriminate.
  - exists [CStr "high"; CStr "low"]. split; [reflexivity|cbn; lia].
Qed.
Definition sx_run (rnd : nat -> nat) (s : nbhd) : nbhd * option exn := sampling_run rnd sx_bb sx_encs "fast" 1001 RStd sx_d "c" 2 sx_X [qz 2; 1] 10 s.
Example C128_fit_instance : forall rnd, exists s' cells, sx_run rnd new_nbhd = (s', None) /\ get_X s' = Ok (mkTb ["a"; "b"] cells) /\ nb_decoded s' = Some [CNum (qz 2); CStr "yes"] /\ last cells [] = [CNum (qz 2); CStr "yes"].
Proof.
  intro rnd. assert (ND : NoDup (feature_names sx_d "c")) by (repeat constructor; cbn; intuition discriminate).
  destruct (@C128_succeeds rnd sx_bb sx_encs RStd sx_d "c" 2 sx_X [qz 2; 1] 10 new_nbhd sx_task I sx_varies ND sx_encoded) as (s' & E).
  destruct sx_task as [M N Cov Idx In_ _ Cl]. destruct (@C128_fit rnd sx_bb sx_encs "fast" 1001 RStd sx_d "c" 2 sx_X [qz 2; 1] 10 new_nbhd s') as (gen & cells & labels & cl & GX & _ & _ & DI & FO & _); auto; try exact (enc_keys sx_encoded).
  exists s', cells. split; [exact E|]. split; [exact GX|]. assert (LO : last cells [] = [CNum (qz 2); CStr "yes"]).
  { apply Forall2_app_inv_l in FO. destruct FO as (c1 & c2 & _ & T2 & ->). inversion T2 as [|? c ? ? O T3]; subst. inversion T3; subst. rewrite last_last. eapply original_fun; [exact O|]. split; [reflexivity|]. split; [reflexivity|].
    intros [|[|i]] c0 q v Nc Nq Nv; cbn in Nc, Nq, Nv; try (destruct i; discriminate); injection Nc as <-; injection Nq as <-; injection Nv as <-; [reflexivity|]. unfold stands_for. cbn. exists 1%nat. split; [|reflexivity]. split; intro Z; split; try reflexivity; discriminate. }
  split; [rewrite DI, LO; reflexivity|exact LO].
Qed.
Example C128_fuzzify_instance : forall cut show show_cell rnd, exists s s' xm, sx_run rnd new_nbhd = (s, None) /\
  sampling_fuzzify cut show show_cell [CNum (qz 2); CNum 1] s "entropy" (mkZ None false (Some ["a"]) (Some ["b"]) None None) = (s', None) /\
  get_X_membership s' = Ok xm /\ get_instance_membership s' = Ok (last_row xm).
Proof.
  intros cut show show_cell rnd. destruct (C128_fit_instance rnd) as (s & cells & E & _). exists s. assert (ND : NoDup (feature_names sx_d "c")) by (repeat constructor; cbn; intuition discriminate). destruct sx_task as [M N Cov Idx In_ _ Cl].
  destruct (@C128_fuzzify cut show show_cell [] rnd sx_bb sx_encs "fast" 1001 RStd sx_d "c" 2 sx_X [qz 2; 1] 10 s (mkZ None false (Some ["a"]) (Some ["b"]) None None) ["a"] ["b"]) as (s' & xm & F & A & B); auto; try lia; try discriminate.
  - exact (enc_keys sx_encoded).
  - intro c. cbn. intuition.
  - intro c. cbn. split; [intros [<-|[]]; split; [left; reflexivity|intuition discriminate]|intros ([<-|[<-|[]]] & Q); [left; reflexivity|exfalso; apply Q; right; left; reflexivity]].
  - exists s', xm. auto.
Qed.
Example C128_slow_instance : forall rnd s, sampling_run rnd sx_bb sx_encs "slow" 1001 RStd sx_d "c" 2 sx_X [qz 2; 1] 10 s = (s, Some TypeError).
Proof. intros. destruct (@C128_other_methods rnd sx_bb sx_encs "slow" 1001 RStd sx_d "c" 2 sx_X [qz 2; 1] 10 s) as (e & -> & T); [discriminate|]. rewrite T; [reflexivity|]. exists [CNum (qz 2); CStr "yes"]. qex. Qed.
Example C128_unknown_instance : forall rnd s, sampling_run rnd sx_bb sx_encs "fast" 1001 RStd sx_d "c" 2 sx_X [qz 2; qz 2] 10 s = (s, Some ValueError).
Proof.
  intros. apply (@C128_unknown_code rnd sx_bb sx_encs "fast" 1001 RStd sx_d "c" 2 sx_X [qz 2; qz 2] 10 s 1 "b" [CStr "no"; CStr "yes"] (qz 2)); try reflexivity. intros k (T & _). destruct T as (A & B); [discriminate|].
  rewrite qz_lt in B. cbn. lia.
Qed.

Print Assumptions C128_fit.
Print Assumptions C128_succeeds.
Print Assumptions C128_other_methods.
Print Assumptions C128_unknown_code.
Print Assumptions C128_fuzzify.
