(** * Properties C105-C108: estimating a distribution, values of the features, artificial features *)
From Verif Require Import Prelude M_Fuzzy M_Discretize M_Rule M_FDT M_ID3 M_Neighborhood M_Sampling M_Genetic M_Utils M_Lore M_Distr S_Distr S_Lore P_Entropy P_FDT P_FuzzyVar P_Counterfactual P_Utils P_Utils2 P_Utils4 P_Genetic P_Lore P_Lore2 P_Lore3 P_Lore4 P_Distr.
From Coq Require Import Reals Lra.
Local Notation eqb := Prelude.eqb.
Unset Implicit Arguments.
Open Scope string_scope. Open Scope list_scope. Open Scope Qc_scope.

(** ** C105: the number of bins *)
(** three or more numbers with different quartiles: the least number of bins that is enough *)
Theorem C105_bins : forall x hi lo, (3 <= List.length x)%nat -> percentile (qc 1 4) x <> percentile (qc 3 4) x -> In hi x -> (forall v, In v x -> v <= hi) -> In lo x -> (forall v, In v x -> lo <= v) ->
  exists k, estimate_nbr_bins x = Ok k /\ forall m, (k <= m)%Z <-> enough (List.length x) (hi - lo) (percentile (qc 3 4) x - percentile (qc 1 4) x) m.
Proof. intros x hi lo L Q H1 H2 L1 L2. apply estimate_spread; [assumption|assumption|apply qmaximum_unique; assumption|apply qminimum_unique; assumption]. Qed.
(** of equal quartiles none is found: OverflowError, ValueError if all numbers are equal *)
Theorem C105_equal_quartiles : forall x, (3 <= List.length x)%nat -> percentile (qc 1 4) x = percentile (qc 3 4) x ->
  ((forall u v, In u x -> In v x -> u = v) -> estimate_nbr_bins x = Err ValueError) /\
  (~ (forall u v, In u x -> In v x -> u = v) -> estimate_nbr_bins x = Err OverflowError).
Proof.
  intros x L Q. assert (NE : x <> []) by (destruct x; [cbn in L; lia|discriminate]). destruct (qmaximum_ok NE) as (hi & HI). destruct (qminimum_ok NE) as (lo & LO). rewrite (@estimate_flat x hi lo L Q HI LO).
  apply qmaximum_spec in HI. apply qminimum_spec in LO. destruct HI as (I1 & M1), LO as (I2 & M2). split; intro A.
  - rewrite (A hi lo I1 I2). rewrite (proj2 (qeqb_eq lo lo) eq_refl). reflexivity.
  - rewrite (proj2 (qeqb_neq hi lo)); [reflexivity|]. intros ->. apply A. intros u v U V. transitivity lo; apply Qcle_antisym; auto.
Qed.
(** so it is for a value of which at most a quarter of the others are smaller and at most a quarter greater *)
Theorem C105_common_value : forall x v, (3 <= List.length x)%nat -> (4 * below v x <= List.length x - 1)%nat -> (4 * above v x <= List.length x - 1)%nat ->
  percentile (qc 1 4) x = v /\ percentile (qc 3 4) x = v /\ (estimate_nbr_bins x = Err ValueError \/ estimate_nbr_bins x = Err OverflowError).
Proof.
  intros x v L B A. destruct (@common_value x v L B A) as (P1 & P3). splits; [assumption|assumption|].
  assert (NE : x <> []) by (destruct x; [cbn in L; lia|discriminate]). destruct (qmaximum_ok NE) as (hi & HI). destruct (qminimum_ok NE) as (lo & LO). rewrite (@estimate_flat x hi lo L (eq_trans P1 (eq_sym P3)) HI LO). destruct (qeqb hi lo); auto.
Qed.
(** the quartiles are ordered and within the data *)
Theorem C105_quartiles : forall x hi lo, x <> [] -> (forall v, In v x -> v <= hi) -> (forall v, In v x -> lo <= v) ->
  lo <= percentile (qc 1 4) x /\ percentile (qc 1 4) x <= percentile (qc 3 4) x /\ percentile (qc 3 4) x <= hi.
Proof.
  intros x hi lo NE H L. assert (X0 : (0 < List.length x)%nat) by (destruct x; [congruence|cbn; lia]). splits; [|apply quartiles; assumption|].
  - assert (P := @percentile_between (qc 1 4) x). destruct P as (P & _); [discriminate|discriminate|assumption|]. eapply Qcle_trans; [|exact P]. apply L. apply (sort_by_In (fun a b => qleb a b)). apply nth_In. unfold sort_asc. rewrite sort_by_length. destruct (@at_floor_spec (qc 1 4) x) as (F & _); [discriminate|discriminate|assumption|]. lia.
  - assert (P := @percentile_between (qc 3 4) x). destruct P as (_ & P); [discriminate|discriminate|assumption|]. eapply Qcle_trans; [exact P|]. apply H. apply (sort_by_In (fun a b => qleb a b)). apply nth_In. unfold sort_asc. rewrite sort_by_length. lia.
Qed.
(** a single number gets one bin, two get two, and none is an error *)
Theorem C105_few : (forall a, estimate_nbr_bins [a] = Ok 1%Z) /\ (forall a b, estimate_nbr_bins [a; b] = Ok 2%Z) /\ estimate_nbr_bins [] = Err OverflowError.
Proof.
  splits; [reflexivity| |reflexivity]. intros a b. unfold estimate_nbr_bins, struges. cbn [List.length Nat.eqb Nat.ltb Nat.leb bind]. f_equal.
  assert (C : ceiling (ln (INR 2) / ln 2) = 1%Z); [|rewrite C; reflexivity]. assert (L2 : (0 < ln 2)%R) by (rewrite <- ln_1; apply ln_increasing; lra). assert (E : (ln (INR 2) / ln 2 = 1)%R). { cbn [INR]. replace (1 + 1)%R with 2%R by ring. field. lra. } rewrite E.
  apply Z.le_antisymm; [apply ceiling_le; lra|]. destruct (Z_le_gt_dec 1 (ceiling 1)) as [|G]; [assumption|]. exfalso. assert (K : (ceiling 1 <= 0)%Z) by lia. apply ceiling_le in K. lra.
Qed.
Example C105_ex : percentile (qc 1 4) [1; 0; qz 4; qz 2; qz 3] = 1 /\ percentile (qc 3 4) [1; 0; qz 4; qz 2; qz 3] = qz 3 /\ enough 5 (qz 4) (qz 2) 4 /\ ~ enough 5 (qz 4) (qz 2) 3.
Proof. splits; [qex|qex|split; [cbn; lia|vm_compute; discriminate]|]. intros (H & _). cbn in H. lia. Qed.
(** nine zeros and a one, as in a column of rare events *)
Example C105_rare : let x := 1 :: repeat 0 9 in (4 * below 0 x <= List.length x - 1)%nat /\ (4 * above 0 x <= List.length x - 1)%nat /\ estimate_nbr_bins x = Err OverflowError.
Proof.
  cbv zeta. split; [vm_compute; lia|]. split; [vm_compute; lia|]. apply C105_equal_quartiles; [cbn; lia|qex|]. intro H. assert (E : 1 = 0) by (apply H; cbn; auto). discriminate.
Qed.
Print Assumptions C105_bins. Print Assumptions C105_equal_quartiles. Print Assumptions C105_common_value. Print Assumptions C105_quartiles. Print Assumptions C105_few.

(** ** C106: the best fit and the values spread over it *)
Lemma chosen_among : forall attempt data bins names name params, fst (fit_among attempt data bins names) = (name, params) ->
  (winner names (error_of (attempt data bins)) (Some name) /\ exists s, attempt data bins name = Some (params, Some s)) \/
  (winner names (error_of (attempt data bins)) None /\ name = "norm" /\ params = [0; 1]).
Proof.
  intros attempt data bins names name params H. destruct (contest_spec attempt data bins names) as [(A & B & C)|(d & ps & s & A & B & C)].
  - right. rewrite B in H. injection H as <- <-. auto.
  - left. rewrite A in H. cbn [fst] in H. injection H as <- <-. eauto.
Qed.
(** the distribution chosen is the first of the least positive error; fits that raise, or have an error of 0, NaN or inf, do not take part;
    if none does, the normal distribution of mean 0 and deviation 1 is chosen *)
Theorem C106_best_fit : forall attempt data bins name params, best_fit_distribution attempt data bins = (name, params) ->
  (winner DISTRIBUTIONS (error_of (attempt data bins)) (Some name) /\ exists s, attempt data bins name = Some (params, Some s)) \/
  (winner DISTRIBUTIONS (error_of (attempt data bins)) None /\ name = "norm" /\ params = [0; 1]).
Proof. intros attempt data bins. unfold best_fit_distribution. apply chosen_among. Qed.
(** a distribution that fits without any error is passed over for one that fits worse *)
Theorem C106_perfect_fit_refuted : exists attempt data bins, attempt data bins "uniform" = Some ([0; 1], Some 0) /\ attempt data bins "expon" = Some ([0; 1], Some (qz 5)) /\
  best_fit_distribution attempt data bins = ("expon", [0; 1]).
Proof.
  exists (fun _ _ d => if eqb d "uniform" then Some ([0; 1], Some 0) else if eqb d "expon" then Some ([0; 1], Some (qz 5)) else None), [], 1%Z. splits; [reflexivity|reflexivity|vm_compute; reflexivity].
Qed.
(** the values: from the 1%- to the 99%-quantile of the best fit in equal steps *)
Theorem C106_spread : forall attempt ppf x size l, get_distr_values attempt ppf x size = Ok l ->
  exists bins name params, estimate_nbr_bins x = Ok bins /\ best_fit_distribution attempt x bins = (name, params) /\ evenly (ppf name params (qc 1 100)) (ppf name params (qc 99 100)) size l.
Proof.
  intros attempt ppf x size l H. apply get_distr_inv in H. cbv zeta in H. destruct H as (bins & E & ->). exists bins. generalize (best_fit_distribution attempt x bins). intros (nm & ps). exists nm, ps. splits; [assumption|reflexivity|]. apply linspace_evenly.
Qed.
Theorem C106_total : forall attempt ppf x size, ((exists l, get_distr_values attempt ppf x size = Ok l) <-> exists bins, estimate_nbr_bins x = Ok bins) /\
  (forall e, get_distr_values attempt ppf x size = Err e <-> estimate_nbr_bins x = Err e).
Proof.
  intros attempt ppf x size. unfold get_distr_values. destruct (estimate_nbr_bins x) as [bins|e0]; cbn [bind].
  - generalize (best_fit_distribution attempt x bins). intros (nm & ps). split; [split; intros _; eauto|]. intro e. split; discriminate.
  - split; [split; intros (y & H); discriminate|]. intro e. split; intro H; injection H as <-; reflexivity.
Qed.
Example C106_ex : get_distr_values (fun _ _ _ => None) (fun _ _ q => q) [1; qz 2] 3 = Ok [qc 1 100; qc 1 2; qc 99 100].
Proof. unfold get_distr_values. rewrite (proj1 (proj2 C105_few)). cbn [bind]. qex. Qed.
Print Assumptions C106_best_fit. Print Assumptions C106_perfect_fit_refuted. Print Assumptions C106_spread. Print Assumptions C106_total.

(** ** C107: calculate_feature_values with flags *)
(** an entry for each feature: with discrete_use_probabilities the values of a discrete column and [size] draws, all of them seen in it;
    without, its distinct values in order; for a continuous column its values and [size] new ones, with continuous_function_estimation
    those of C106 *)
Theorem C107_values : forall attempt ppf up est normal choice X columns cls discrete continuous size fv, NoDup columns ->
  calculate_values attempt ppf up est normal choice X columns cls discrete continuous size = Ok fv ->
  In cls columns /\ dkeys fv = seq 0 (List.length columns - 1) /\
  forall i c, nth_error (filter (fun c => negb (eqb c cls)) columns) i = Some c -> exists vs values, dget i fv = Some vs /\ column_values X i values /\
    (In c discrete -> if up then exists drawn, List.length drawn = size /\ vs = values ++ drawn /\ forall v, In v drawn -> In v values
                      else StronglySorted Qclt vs /\ forall v, In v vs <-> In v values) /\
    (~ In c discrete -> In c continuous -> exists new, List.length new = size /\ vs = values ++ new /\ (est = true -> get_distr_values attempt ppf values size = Ok new)) /\
    (~ In c discrete -> ~ In c continuous -> exists j, i = S j /\ dget j fv = Some vs).
Proof.
  intros attempt ppf up est normal choice X columns cls discrete continuous size fv N H. destruct (@flags_spec attempt ppf up est normal choice X columns cls discrete continuous size fv N H) as (A & B & C). splits; [assumption|assumption|]. intros i c Nc. destruct (C i c Nc) as (vs & D & (values & L)). exists vs, values. split; assumption.
Qed.
(** neither flag: the values of C92 *)
Theorem C107_default : forall attempt ppf normal choice X columns cls discrete continuous size,
  calculate_values attempt ppf false false normal choice X columns cls discrete continuous size = calculate_feature_values normal X columns cls discrete continuous size.
Proof. exact flags_off. Qed.
(** estimation fails on the whole data as soon as one continuous column has more than two values and equal quartiles *)
Theorem C107_estimation_fails : forall attempt ppf up normal choice X columns cls discrete continuous size i c values, NoDup columns ->
  nth_error (filter (fun c => negb (eqb c cls)) columns) i = Some c -> ~ In c discrete -> In c continuous -> column_values X i values ->
  (3 <= List.length values)%nat -> percentile (qc 1 4) values = percentile (qc 3 4) values ->
  exists e, calculate_values attempt ppf up true normal choice X columns cls discrete continuous size = Err e.
Proof.
  intros attempt ppf up normal choice X columns cls discrete continuous size i c values N Nc ND IC CV L Q. rewrite flags_eq. destruct (list_remove cls columns) as [cols|] eqn:R; [|cbn [bind]; eauto]. apply list_remove_filter in R; [|assumption]. destruct R as (_ & ->). cbn [bind].
  assert (NE : values <> []) by (destruct values; [cbn in L; lia|discriminate]). destruct (qmaximum_ok NE) as (hi & HI). destruct (qminimum_ok NE) as (lo & LO). assert (E := @estimate_flat values hi lo L Q HI LO).
  destruct (@foldM_fails _ _ (flag_step attempt ppf up true normal choice X discrete continuous size) (enumerate (filter (fun c => negb (eqb c cls)) columns)) ([], None) (i, c) (if qeqb hi lo then ValueError else OverflowError)) as (e & F).
  - apply nth_error_In with (n := i). apply enumerate_nth. assumption.
  - intro st. unfold flag_step. rewrite (proj2 (qcolumn_spec X i values) CV). cbn [bind]. rewrite (proj2 (@memb_not_In _ _ c discrete) ND), (proj2 (@memb_In _ _ c continuous) IC). unfold get_distr_values. rewrite E. reflexivity.
  - exists e. rewrite F. reflexivity.
Qed.
Example C107_ex : calculate_values (fun _ _ _ => None) (fun _ _ q => q) true true (fun _ _ => 0) (fun _ j => j) [[1; qz 3]; [0; qz 5]] ["c"; "a"; "b"] "c" ["c"; "a"] ["b"] 2 =
  Ok [(0%nat, [1; 0; 0; 1]); (1%nat, [qz 3; qz 5; qc 1 100; qc 99 100])].
Proof.
  rewrite flags_eq. change (list_remove "c" ["c"; "a"; "b"]) with (Ok ["a"; "b"]). cbn [bind]. change (enumerate ["a"; "b"]) with [(0%nat, "a"); (1%nat, "b")]. cbn [foldM]. unfold flag_step at 1.
  change (qcolumn [[1; qz 3]; [0; qz 5]] 0) with (Ok [1; 0]). cbn [bind]. change (memb "a" ["c"; "a"]) with true. cbv iota.
  assert (NC : np_choice (fun j => j) (qunique [1; 0]) 2 true = Ok [0; 1]) by qex. rewrite NC. cbn [bind app fst snd]. unfold flag_step at 1.
  change (qcolumn [[1; qz 3]; [0; qz 5]] 1) with (Ok [qz 3; qz 5]). cbn [bind]. change (memb "b" ["c"; "a"]) with false. change (memb "b" ["b"]) with true. cbv iota. unfold get_distr_values. rewrite (proj1 (proj2 C105_few)). cbn [bind]. qex.
Qed.
Print Assumptions C107_values. Print Assumptions C107_default. Print Assumptions C107_estimation_fails.

(** ** C108: generate_artificial_features *)
(** the columns, the types and the two lists given are extended in place by new names, as many as the ratio says; all that was there stays,
    and the names are returned; the data cannot be read: TypeError *)
Theorem C108_artificial : forall size cls st ratio st' r, In cls (a_discrete st) -> generate_artificial_features size cls st ratio = (st', r) ->
  exists new_disc new_cont n_all n_disc,
    nearest_even (ratio * qz (Z.of_nat (List.length (a_columns st)) - 1)) n_all /\ nearest_even (ratio * qz (Z.of_nat (List.length (a_discrete st)) - 1)) n_disc /\
    Z.of_nat (List.length new_disc) = Z.max 0 n_disc /\ Z.of_nat (List.length new_cont) = Z.max 0 (n_all - n_disc) /\
    NoDup (new_disc ++ new_cont) /\ (forall n, In n new_disc -> String.prefix "artificial_disc_" n = true) /\ (forall n, In n new_cont -> String.prefix "artificial_cont_" n = true) /\
    a_columns st' = a_columns st ++ new_disc ++ new_cont /\ a_discrete st' = a_discrete st ++ new_disc /\ a_continuous st' = a_continuous st ++ new_cont /\
    (forall n, In n new_disc -> dget n (a_types st') = Some "integer") /\ (forall n, In n new_cont -> dget n (a_types st') = Some "double") /\
    (forall n, ~ In n (new_disc ++ new_cont) -> dget n (a_types st') = dget n (a_types st)) /\
    (new_disc ++ new_cont = [] -> st' = st /\ r = Err TypeError) /\
    (new_disc ++ new_cont <> [] -> exists data, r = Ok (data, new_disc, new_cont) /\ ((0 < size)%nat -> data = Err TypeError) /\ (size = 0%nat -> data = Ok [])).
Proof.
  intros size cls st ratio st' r I H. unfold generate_artificial_features in H. destruct (proj1 (list_remove_ok cls (a_discrete st)) I) as (dnc & R). rewrite R in H. assert (LR := list_remove_length _ _ R).
  set (n_all := np_round (ratio * qz (Z.of_nat (List.length (a_columns st)) - 1))) in *. set (n_disc := np_round (ratio * qn (List.length dnc))) in *.
  set (nd := map (art_name "artificial_disc_") (seq 0 (Z.to_nat n_disc))) in *. set (nc := map (art_name "artificial_cont_") (seq 0 (Z.to_nat (Z.max 0 (n_all - n_disc))))) in *.
  injection H as <- <-. exists nd, nc, n_all, n_disc. cbn [a_columns a_types a_discrete a_continuous].
  assert (DJ : forall n, In n nd -> ~ In n nc). { intros n U V. apply in_map_iff in U, V. destruct U as (i & <- & _), V as (j & E & _). symmetry in E. exact (@art_names_disjoint i j E). }
  assert (ND : NoDup (nd ++ nc)). { unfold nd, nc. assert (A := art_names_nodup "artificial_disc_" (Z.to_nat n_disc)). fold nd in A |- *. assert (B := art_names_nodup "artificial_cont_" (Z.to_nat (Z.max 0 (n_all - n_disc)))). fold nc in B |- *. clear - A B DJ. induction nd as [|x l IH]; [assumption|]. cbn. inversion A; subst. constructor; [rewrite in_app_iff; intros [U|U]; [contradiction|exact (DJ x (or_introl eq_refl) U)]|]. apply IH; [|assumption]. intros n U. apply DJ. right. assumption. }
  splits.
  - apply np_round_spec.
  - replace (Z.of_nat (List.length (a_discrete st)) - 1)%Z with (Z.of_nat (List.length dnc)) by (rewrite LR; lia). apply np_round_spec.
  - unfold nd. rewrite map_length, seq_length. lia.
  - unfold nc. rewrite map_length, seq_length. lia.
  - assumption.
  - intros n U. apply in_map_iff in U. destruct U as (i & <- & _). apply prefix_app.
  - intros n U. apply in_map_iff in U. destruct U as (i & <- & _). apply prefix_app.
  - reflexivity.
  - reflexivity.
  - reflexivity.
  - intros n U. rewrite !mark_types, (proj2 (@memb_not_In _ _ n nc) (DJ n U)), (proj2 (@memb_In _ _ n nd) U). reflexivity.
  - intros n U. rewrite !mark_types, (proj2 (@memb_In _ _ n nc) U). reflexivity.
  - intros n U. rewrite in_app_iff in U. rewrite !mark_types, (proj2 (@memb_not_In _ _ n nc)), (proj2 (@memb_not_In _ _ n nd)) by tauto. reflexivity.
  - intro E. rewrite E. apply app_eq_nil in E. destruct E as (E1 & E2). rewrite E1, E2. cbn. rewrite !app_nil_r. split; [destruct st; reflexivity|reflexivity].
  - intro NE. destruct (Nat.eqb (List.length (nd ++ nc)) 0) eqn:E; [apply Nat.eqb_eq in E; destruct (nd ++ nc); [congruence|discriminate]|]. exists (read_map size). split; [reflexivity|]. split; intro P; unfold read_map; destruct size; (lia || reflexivity).
Qed.
(** without the class among the discrete names nothing happens but a ValueError *)
Theorem C108_class_missing : forall size cls st ratio, ~ In cls (a_discrete st) -> generate_artificial_features size cls st ratio = (st, Err ValueError).
Proof. intros size cls st ratio N. unfold generate_artificial_features. rewrite (proj2 (list_remove_ok cls (a_discrete st)) N). reflexivity. Qed.
(** a second call makes the same names again *)
Theorem C108_repeat_refuted : exists size cls st ratio st1 r1 st2 r2, NoDup (a_columns st) /\ generate_artificial_features size cls st ratio = (st1, r1) /\ generate_artificial_features size cls st1 ratio = (st2, r2) /\ NoDup (a_columns st1) /\ ~ NoDup (a_columns st2).
Proof.
  exists 5%nat, "c", (mkArt ["c"; "a"; "b"] [] ["c"; "a"] ["b"]), 1. eexists. eexists. eexists. eexists. split; [repeat constructor; cbn; intuition discriminate|]. split; [vm_compute; reflexivity|]. split; [vm_compute; reflexivity|].
  split; [cbn; repeat constructor; cbn; intuition discriminate|]. cbn. intro N. do 3 (inversion N as [|? ? _ N']; subst; clear N; rename N' into N). inversion N as [|? ? NI _]; subst. apply NI. cbn. auto.
Qed.
Example C108_ex : generate_artificial_features 5 "c" (mkArt ["c"; "a"; "b"; "d"] [("c", "string")] ["c"; "a"] ["b"; "d"]) 1 =
  (mkArt ["c"; "a"; "b"; "d"; "artificial_disc_0"; "artificial_cont_0"; "artificial_cont_1"] [("c", "string"); ("artificial_disc_0", "integer"); ("artificial_cont_0", "double"); ("artificial_cont_1", "double")] ["c"; "a"; "artificial_disc_0"] ["b"; "d"; "artificial_cont_0"; "artificial_cont_1"],
   Ok (Err TypeError, ["artificial_disc_0"], ["artificial_cont_0"; "artificial_cont_1"])).
Proof. vm_compute. reflexivity. Qed.
Print Assumptions C108_artificial. Print Assumptions C108_class_missing. Print Assumptions C108_repeat_refuted.
