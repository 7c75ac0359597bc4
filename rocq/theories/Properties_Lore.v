(** * C90-C93: the LORE generator (fitness functions, generate_data, calculate_feature_values, genetic_neighborhood) *)
From Verif Require Import Prelude M_Fuzzy M_Discretize M_Rule M_FDT M_ID3 M_Neighborhood M_Sampling M_Genetic M_Utils M_Lore.
From Verif Require Import P_FuzzyVar P_Metrics P_Factual P_Counterfactual P_Genetic P_Genetic2 P_Utils P_Utils2 P_Utils3 P_Utils4 P_Lore P_Lore2 Properties_Utils Properties_Utils3.
From Verif Require Import S_Utils S_Genetic S_Lore.
Set Implicit Arguments.
Open Scope string_scope. Open Scope list_scope. Open Scope Qc_scope.

(** ** C90 *)
(** the fitness of a candidate lies in [alpha2, alpha1 + alpha2] if it has the outcome looked for and in [0, alpha1] otherwise *)
Theorem C90_range : forall a bb distance idx x alpha1 alpha2 eta z d, 0 <= alpha1 ->
  row_distance distance idx x z (Some d) -> 0 <= d -> d <= 1 ->
  exists f, fitness_of a bb distance idx x alpha1 alpha2 eta z = Ok (Some f) /\
    (wanted bb a x z -> alpha2 <= f /\ f <= alpha1 + alpha2) /\ (~ wanted bb a x z -> 0 <= f /\ f <= alpha1).
Proof.
  intros a bb distance idx x a1 a2 eta z d A1 R D0 D1. destruct (@fitness_value bb distance idx a x a1 a2 eta z (Some d) R) as (r & (s & -> & S0 & S1) & F). rewrite F. cbn [fl_mult option_map fl_plus].
  assert (S : 0 <= s /\ s <= 1). { destruct (uncounted_dec a eta d) as [U|U]; [rewrite (S0 U); split; qlra|rewrite (S1 U); destruct (near_wanted a); split; qlra]. }
  destruct S as (B0 & B1). assert (M0 := Qcmult_nonneg A1 B0). assert (M1 : a1 * s <= a1). { rewrite <- (Qcmult_1_r a1) at 2. rewrite (Qcmult_comm a1 s), (Qcmult_comm a1 1). apply Qcmult_le_compat_r; assumption. }
  clear S0 S1 F. eexists. split; [reflexivity|]. destruct (wanted_dec bb a x z) as [(-> & W)|(-> & W)]; (split; intro V; [try contradiction|try contradiction]); rewrite ?Qcmult_1_r, ?Qcmult_0_r; generalize dependent (a1 * s); intros; split; qlra.
Qed.
(** so with alpha1 <= alpha2 no candidate with another outcome than looked for is fitter than one with it *)
Theorem C90_outcome_first : forall a bb distance idx x alpha1 alpha2 eta u v du dv fu fv, 0 <= alpha1 -> alpha1 <= alpha2 ->
  row_distance distance idx x u (Some du) -> 0 <= du -> du <= 1 -> row_distance distance idx x v (Some dv) -> 0 <= dv -> dv <= 1 ->
  fitness_of a bb distance idx x alpha1 alpha2 eta u = Ok (Some fu) -> fitness_of a bb distance idx x alpha1 alpha2 eta v = Ok (Some fv) ->
  wanted bb a x u -> ~ wanted bb a x v -> fv <= fu.
Proof.
  intros a bb distance idx x a1 a2 eta u v du dv fu fv A1 A2 RU U0 U1 RV V0 V1 FU FV WU WV.
  destruct (@C90_range a bb distance idx x a1 a2 eta u du A1 RU U0 U1) as (f & F & B & _). rewrite FU in F. injection F as <-. destruct (B WU) as (B1 & _).
  destruct (@C90_range a bb distance idx x a1 a2 eta v dv A1 RV V0 V1) as (g & G & _ & C). rewrite FV in G. injection G as <-. destruct (C WV) as (_ & C1). qlra.
Qed.
(** among candidates on the same side of the outcome, the nearer ones are fitter in the runs for near records and the farther ones in the
    others, except that a candidate beyond the threshold is no fitter than any *)
Theorem C90_distance_order : forall a bb distance idx x alpha1 alpha2 eta u v du dv fu fv, 0 <= alpha1 ->
  row_distance distance idx x u (Some du) -> row_distance distance idx x v (Some dv) -> 0 <= du -> du <= 1 -> 
  fitness_of a bb distance idx x alpha1 alpha2 eta u = Ok (Some fu) -> fitness_of a bb distance idx x alpha1 alpha2 eta v = Ok (Some fv) ->
  (wanted bb a x u <-> wanted bb a x v) ->
  (uncounted a eta dv -> fv <= fu) /\
  (~ uncounted a eta du -> ~ uncounted a eta dv -> (if near_wanted a then du <= dv else dv <= du) -> fv <= fu).
Proof.
  intros a bb distance idx x a1 a2 eta u v du dv fu fv A1 RU RV D0 D1 FU FV W.
  destruct (@fitness_value bb distance idx a x a1 a2 eta u (Some du) RU) as (ru & (su & -> & SU0 & SU1) & EU). rewrite FU in EU. cbn [fl_mult option_map fl_plus] in EU.
  destruct (@fitness_value bb distance idx a x a1 a2 eta v (Some dv) RV) as (rv & (sv & -> & SV0 & SV1) & EV). rewrite FV in EV. cbn [fl_mult option_map fl_plus] in EV.
  assert (Q : forall s t, s <= t -> a1 * s <= a1 * t). { intros s t H. rewrite (Qcmult_comm a1 s), (Qcmult_comm a1 t). apply Qcmult_le_compat_r; assumption. }
  assert (X : sv <= su -> fv <= fu).
  { intro H. specialize (Q sv su H). destruct (wanted_dec bb a x u) as [(Eu & Wu)|(Eu & Wu)], (wanted_dec bb a x v) as [(Ev & Wv)|(Ev & Wv)]; try tauto; rewrite Eu in EU; rewrite Ev in EV; injection EU as ->; injection EV as ->; generalize dependent (a1 * sv); generalize dependent (a1 * su); intros; qlra. }
  split.
  - intro U. apply X. rewrite (SV0 U). destruct (uncounted_dec a eta du) as [V|V]; [rewrite (SU0 V); qlra|rewrite (SU1 V)]. destruct (near_wanted a); qlra.
  - intros U V L. apply X. rewrite (SU1 U), (SV1 V). destruct (near_wanted a); qlra.
Qed.
(** the record itself: alpha2 where its outcome is looked for, 0 elsewhere *)
Theorem C90_record_itself : forall a bb distance idx x alpha1 alpha2 eta, row_distance distance idx x x (Some 0) -> eta <= 1 ->
  fitness_of a bb distance idx x alpha1 alpha2 eta x = Ok (Some (if same_wanted a then alpha2 else 0)).
Proof.
  intros a bb distance idx x a1 a2 eta R E. destruct (@fitness_value bb distance idx a x a1 a2 eta x (Some 0) R) as (r & (s & -> & S0 & S1) & F). rewrite F. cbn [fl_mult option_map fl_plus].
  assert (Z : s = 0). { destruct (uncounted_dec a eta 0) as [U|U]; [exact (S0 U)|]. rewrite (S1 U). unfold uncounted in U. destruct (near_wanted a); [|reflexivity]. exfalso. apply U. qlra. }
  subst s. rewrite Z.eqb_refl. apply (f_equal (@Ok _)). f_equal. destruct (same_wanted a); cbn [negb]; ring.
Qed.
(** a distance that is not a number gives a fitness that is not a number *)
Theorem C90_undefined : forall a bb distance idx x alpha1 alpha2 eta z, row_distance distance idx x z None ->
  fitness_of a bb distance idx x alpha1 alpha2 eta z = Ok None.
Proof. intros a bb distance idx x a1 a2 eta z R. destruct (@fitness_value bb distance idx a x a1 a2 eta z None R) as (r & -> & F). exact F. Qed.
(** the distance genetic_neighborhood passes lies in [0,1] where it is a number *)
Theorem C90_default_distance : forall cls ds discrete x z d, row_distance (lore_distance cls ds discrete) (ds_idx ds) x z (Some d) -> 0 <= d /\ d <= 1.
Proof.
  intros cls ds discrete x z d (xd & zd & _ & _ & H). unfold lore_distance in H.
  destruct (existsb (fun a => negb (eqb a cls)) discrete) eqn:E.
  - apply existsb_exists in E. destruct E as (b & I & N). apply negb_true_iff in N. apply C70_bounds in H; [tauto|]. exists b. split; [assumption|]. intros ->. rewrite eqb_refl in N. discriminate.
  - assert (F : filter (fun att => negb (eqb att cls)) discrete = []).
    { clear - E. induction discrete as [|b l IH]; [reflexivity|]. cbn in *. destruct (negb (eqb b cls)); [discriminate|]. apply IH. assumption. }
    unfold mixed_distance in H. rewrite F in H. change (fields xd []) with (Ok (@nil cell)) in H. cbn [bind List.length Nat.ltb Nat.leb] in H. destruct (fields xd (ds_continuous ds)); [|discriminate]. cbn [bind] in H.
    assert (D : d = 0 * 0 + 0 * 0) by congruence. subst d. split; qlra.
Qed.
Print Assumptions C90_range. Print Assumptions C90_outcome_first. Print Assumptions C90_distance_order. Print Assumptions C90_record_itself. Print Assumptions C90_undefined. Print Assumptions C90_default_distance.

Unset Implicit Arguments.
(** ** C91 *)
(** what generate_data returns: the rows of the four runs, one after the other, at most as many as each run's population and hall of fame;
    in every row each gene is the record's or one of the values listed for its position; every row is fitter, for its run, than some
    individual bred from the record; and where the distance is always 0 (data without a discrete feature) every row has the outcome its run looks for *)
Theorem C91_rows : forall bb distance idx fv rnd hall x nt n hr alpha1 alpha2 eta1 eta2 cxpb mutpb ngen Z,
  generate_data bb distance idx fv rnd hall x nt n hr alpha1 alpha2 eta1 eta2 cxpb mutpb ngen = Ok Z ->
  Z <> [] /\ exists G : aim -> list (list Qc), Z = G NearSame ++ G NearOther ++ G FarSame ++ G FarOther /\ forall a,
    let size := share_size n (ratio_of nt (key_of a)) in
    let fitness := fitness_of a bb distance idx x alpha1 alpha2 (eta_of a eta1 eta2) in
    (List.length (G a) <= size + share_size size hr)%nat /\
    forall z, In z (G a) -> bred x fv z /\
      (exists y fy fz, bred x fv y /\ fitness y = Ok (Some fy) /\ fitness z = Ok (Some fz) /\ fy < fz) /\
      (blind distance -> 0 <= alpha2 -> eta1 <= 1 -> wanted bb a x z).
Proof.
  intros bb distance idx fv rnd hall x nt n hr a1 a2 e1 e2 cxpb mutpb ngen Z H. apply generate_inv_groups in H. destruct H as (g & E & NE & ->).
  assert (I : forall a, (size_of nt n a = 0%nat /\ g a = []) \/ (List.length (List.concat (g a)) <= size_of nt n a + share_size (size_of nt n a) hr)%nat /\ (forall z, In z (List.concat (g a)) -> stands_out fv x (goal_of bb distance idx x a1 a2 e1 e2 a) z) /\ (g a <> [] -> List.concat (g a) <> [])).
  { intro a. destruct (run_group_inv _ _ _ _ _ _ _ _ _ _ _ (E a)) as [?|(_ & _ & _ & ? & ? & ?)]; [left; assumption|right; splits; assumption]. }
  split.
  - intro Q. apply app_eq_nil in Q. destruct Q as (Q1 & Q). apply app_eq_nil in Q. destruct Q as (Q2 & Q). apply app_eq_nil in Q. destruct Q as (Q3 & Q4).
    assert (N : forall a, List.concat (g a) = [] -> g a = []). { intros a C. destruct (I a) as [(_ & ?)|(_ & _ & K)]; [assumption|]. destruct (g a) as [|h t]; [reflexivity|]. exfalso. apply K; [discriminate|assumption]. }
    apply NE. rewrite (N _ Q1), (N _ Q2), (N _ Q3), (N _ Q4). reflexivity.
  - exists (fun a => List.concat (g a)). split; [reflexivity|]. intro a. cbv zeta. destruct (I a) as [(Z0 & ->)|(L & S & _)]; [split; [cbn; lia|intros z []]|]. split; [assumption|].
    intros z Iz. destruct (S z Iz) as (B & y & fy & fz & By & Fy & Fz & Lt). split; [assumption|]. split; [exists y, fy, fz; splits; assumption|].
    intros BL A2 E1. destruct (blind_fitness _ _ _ _ _ _ _ _ _ _ _ BL Fz E1) as [(W & _)|(_ & Q)]; [assumption|]. injection Q as ->. exfalso.
    destruct (blind_fitness _ _ _ _ _ _ _ _ _ _ _ BL Fy E1) as [(_ & Q)|(_ & Q)]; injection Q as ->; qlra.
Qed.
(** nothing is returned, whatever the draws, if ... a run has one individual, or so few that its hall of fame has no place *)
Theorem C91_small_runs_fail : forall bb distance idx fv rnd hall x nt n hr alpha1 alpha2 eta1 eta2 cxpb mutpb ngen a,
  let size := share_size n (ratio_of nt (key_of a)) in
  size = 1%nat \/ size <> 0%nat /\ share_size size hr = 0%nat ->
  forall Z, generate_data bb distance idx fv rnd hall x nt n hr alpha1 alpha2 eta1 eta2 cxpb mutpb ngen <> Ok Z.
Proof.
  intros bb distance idx fv rnd hall x nt n hr a1 a2 e1 e2 cxpb mutpb ngen a size S Z H. apply generate_inv_groups in H. destruct H as (g & E & _ & _).
  destruct (run_group_inv _ _ _ _ _ _ _ _ _ _ _ (E a)) as [(S0 & _)|(S2 & SH & _)]; unfold size, size_of in *; destruct S as [S|(S & S')]; try lia; contradiction.
Qed.
(** ... the distance of candidates is not a number *)
Theorem C91_undefined_distance_fails : forall bb distance idx fv rnd hall x nt n hr alpha1 alpha2 eta1 eta2 cxpb mutpb ngen,
  (forall u v d, distance u v = Ok d -> d = None) ->
  forall Z, generate_data bb distance idx fv rnd hall x nt n hr alpha1 alpha2 eta1 eta2 cxpb mutpb ngen <> Ok Z.
Proof.
  intros bb distance idx fv rnd hall x nt n hr a1 a2 e1 e2 cxpb mutpb ngen U Z H. apply generate_inv_groups in H. destruct H as (g & E & NE & _). apply NE.
  assert (N : forall a, g a = []); [|rewrite !N; reflexivity]. intro a. destruct (run_group_inv _ _ _ _ _ _ _ _ _ _ _ (E a)) as [(_ & Q)|(_ & _ & (y & f & _ & F) & _)]; [assumption|].
  exfalso. destruct (fitness_row _ _ _ _ _ _ _ _ _ F) as (d & R). assert (D : d = None) by (destruct R as (xd & yd & _ & _ & R); exact (U _ _ _ R)). subst d.
  unfold goal_of in F. rewrite (@C90_undefined _ _ _ _ _ _ _ _ _ R) in F. discriminate.
Qed.
(** ... the distance is always 0 and the black box gives one outcome to everything bred from the record *)
Theorem C91_constant_blackbox_fails : forall bb distance idx fv rnd hall x nt n hr alpha1 alpha2 eta1 eta2 cxpb mutpb ngen,
  blind distance -> eta1 <= 1 -> (forall z, bred x fv z -> bb z = bb x) ->
  forall Z, generate_data bb distance idx fv rnd hall x nt n hr alpha1 alpha2 eta1 eta2 cxpb mutpb ngen <> Ok Z.
Proof.
  intros bb distance idx fv rnd hall x nt n hr a1 a2 e1 e2 cxpb mutpb ngen BL E1 C Z H. assert (H0 := H). apply C91_rows in H. destruct H as (NE & G & -> & R). apply NE.
  assert (N : forall a, G a = []); [|rewrite !N; reflexivity]. intro a. destruct (G a) as [|z l] eqn:EG; [reflexivity|]. exfalso. destruct (R a) as (_ & S). rewrite EG in S. destruct (S z (or_introl eq_refl)) as (B & (y & fy & fz & By & Fy & Fz & Lt) & _).
  assert (W : wanted bb a x z <-> wanted bb a x y) by (unfold wanted; rewrite (C z B), (C y By); tauto).
  destruct (blind_fitness _ _ _ _ _ _ _ _ _ _ _ BL Fz E1) as [(W1 & Q1)|(W1 & Q1)], (blind_fitness _ _ _ _ _ _ _ _ _ _ _ BL Fy E1) as [(W2 & Q2)|(W2 & Q2)]; try tauto; injection Q1 as ->; injection Q2 as ->; qlra.
Qed.
(** otherwise, with at least two features, values for every feature and distances that are numbers, the only failure is ValueError *)
Theorem C91_total : forall bb distance idx fv rnd hall x nt n hr alpha1 alpha2 eta1 eta2 cxpb mutpb ngen,
  (2 <= List.length x)%nat -> covers fv (List.length x) ->
  (forall a, let size := share_size n (ratio_of nt (key_of a)) in size <> 0%nat -> (2 <= size)%nat /\ share_size size hr <> 0%nat) ->
  (forall z, bred x fv z -> exists d, row_distance distance idx x z (Some d)) ->
  generate_data bb distance idx fv rnd hall x nt n hr alpha1 alpha2 eta1 eta2 cxpb mutpb ngen = Err ValueError \/
  exists Z, generate_data bb distance idx fv rnd hall x nt n hr alpha1 alpha2 eta1 eta2 cxpb mutpb ngen = Ok Z.
Proof.
  intros bb distance idx fv rnd hall x nt n hr a1 a2 e1 e2 cxpb mutpb ngen W C S D.
  destruct (@generate_total_or bb distance idx fv rnd hall x nt n hr a1 a2 e1 e2 cxpb mutpb ngen W C S) as (g & _ & E).
  - intros a z B. destruct (D z B) as (d & R). destruct (@fitness_value bb distance idx a x a1 a2 (eta_of a e1 e2) z (Some d) R) as (r & (s & -> & _) & F). unfold goal_of. rewrite F. eexists. reflexivity.
  - rewrite E. destruct (_ ++ _); [left; reflexivity|right; eexists; reflexivity].
Qed.
(** with the default neigtype and hall of fame, populations below 22 always fail *)
Theorem C91_default_needs_22 : forall bb distance idx fv rnd hall x n alpha1 alpha2 eta1 eta2 cxpb mutpb ngen, (n < 22)%nat ->
  forall Z, generate_data bb distance idx fv rnd hall x NAll n (qc 1 10) alpha1 alpha2 eta1 eta2 cxpb mutpb ngen <> Ok Z.
Proof.
  intros bb distance idx fv rnd hall x n a1 a2 e1 e2 cxpb mutpb ngen L Z.
  assert (R : forall a, ratio_of NAll (key_of a) = qc 1 4) by (intros []; reflexivity).
  destruct (Nat.eq_dec (share_size n (qc 1 4)) 0) as [Z0|NZ].
  - intro H. apply generate_inv_groups in H. destruct H as (g & E & NE & _). apply NE. assert (N : forall a, g a = []); [|rewrite !N; reflexivity].
    intro a. destruct (run_group_inv _ _ _ _ _ _ _ _ _ _ _ (E a)) as [(_ & Q)|(S2 & _)]; [assumption|]. unfold size_of in S2. rewrite R, Z0 in S2. lia.
  - apply (@C91_small_runs_fail bb distance idx fv rnd hall x NAll n (qc 1 10) a1 a2 e1 e2 cxpb mutpb ngen NearSame). right. rewrite R. split; [assumption|].
    assert (A : (share_size n (qc 1 4) <= share_size 21 (qc 1 4))%nat) by (apply share_size_mono; [discriminate|lia]). change (share_size 21 (qc 1 4)) with 5%nat in A.
    assert (B : (share_size (share_size n (qc 1 4)) (qc 1 10) <= share_size 5 (qc 1 10))%nat) by (apply share_size_mono; [discriminate|assumption]). change (share_size 5 (qc 1 10)) with 0%nat in B. lia.
Qed.
Print Assumptions C91_rows. Print Assumptions C91_small_runs_fail. Print Assumptions C91_undefined_distance_fails. Print Assumptions C91_constant_blackbox_fails. Print Assumptions C91_total. Print Assumptions C91_default_needs_22.

(** ** C92 *)
(** calculate_feature_values: an entry for every column but the class *)
Theorem C92_feature_values : forall normal X columns cls discrete continuous size fv, NoDup columns ->
  calculate_feature_values normal X columns cls discrete continuous size = Ok fv ->
  In cls columns /\ dkeys fv = seq 0 (List.length columns - 1) /\
  forall i c, nth_error (filter (fun c => negb (eqb c cls)) columns) i = Some c -> exists vs, dget i fv = Some vs /\ listed X discrete continuous size fv i c vs.
Proof. exact calculate_spec. Qed.
(** without the class column ValueError; if the first feature is in neither list, NameError *)
Theorem C92_errors : forall normal X columns cls discrete continuous size,
  (~ In cls columns -> calculate_feature_values normal X columns cls discrete continuous size = Err ValueError) /\
  (forall c rest values, columns = cls :: c :: rest -> column_values X 0 values -> ~ In c discrete -> ~ In c continuous ->
     calculate_feature_values normal X columns cls discrete continuous size = Err NameError).
Proof.
  intros normal X columns cls discrete continuous size. rewrite calculate_eq. split.
  - intro N. assert (R : list_remove cls columns = Err ValueError); [|rewrite R; reflexivity]. clear - N. induction columns as [|y l IH]; [reflexivity|]. cbn. destruct (eqb y cls) eqn:E; [exfalso; apply N; left; exact (proj1 (@eqb_eq _ _ y cls) E)|]. rewrite IH; [reflexivity|]. intro I. apply N. right. assumption.
  - intros c rest values -> CV ND NC. cbn [list_remove]. rewrite eqb_refl. cbn [bind]. apply qcolumn_spec in CV. assert (S0 : value_step normal X discrete continuous size ([], None) (0%nat, c) = Err NameError).
    { unfold value_step. rewrite CV. cbn [bind snd]. rewrite (proj2 (@memb_not_In _ _ c discrete) ND), (proj2 (@memb_not_In _ _ c continuous) NC). reflexivity. }
    change (enumerate (c :: rest)) with ((0%nat, c) :: zip (seq 1 (List.length rest)) rest). cbn [foldM]. rewrite S0. reflexivity.
Qed.
(** so a discrete feature of a generated row has a value the data has: no unseen category is made *)
Theorem C92_no_new_categories : forall normal X columns cls discrete continuous size fv bb distance idx rnd hall x nt n hr alpha1 alpha2 eta1 eta2 cxpb mutpb ngen Z,
  NoDup columns -> In x X -> calculate_feature_values normal X columns cls discrete continuous size = Ok fv ->
  generate_data bb distance idx fv rnd hall x nt n hr alpha1 alpha2 eta1 eta2 cxpb mutpb ngen = Ok Z ->
  forall z i c v, In z Z -> nth_error (filter (fun c => negb (eqb c cls)) columns) i = Some c -> In c discrete -> nth_error z i = Some v ->
  exists row, In row X /\ nth_error row i = Some v.
Proof.
  intros normal X columns cls discrete continuous size fv bb distance idx rnd hall x nt n hr a1 a2 e1 e2 cxpb mutpb ngen Z N Ix HF HG z i c v Iz Nc D V.
  apply C91_rows in HG. destruct HG as (_ & G & -> & R). assert (B : bred x fv z). { rewrite !in_app_iff in Iz. destruct Iz as [Iz|[Iz|[Iz|Iz]]]; exact (proj1 (proj2 (R _) z Iz)). }
  destruct B as (_ & B). destruct (B i v V) as [E|(vs & DV & IV)]; [exists x; split; assumption|].
  apply calculate_spec in HF; [|assumption]. destruct HF as (_ & _ & P). destruct (P i c Nc) as (vs' & DV' & values & CV & A & _). rewrite DV in DV'. injection DV' as <-. destruct (A D) as (_ & S). apply S in IV.
  unfold column_values in CV. assert (I : In (Some v) (map Some values)) by (apply in_map; assumption). rewrite <- CV in I. apply in_map_iff in I. destruct I as (row & E & I). exists row. split; assumption.
Qed.
Print Assumptions C92_feature_values. Print Assumptions C92_errors. Print Assumptions C92_no_new_categories.

(** ** C93 *)
Lemma genetic_inv bb argsort cls ds fv rnd hall dfZ x n df Z : genetic_neighborhood bb argsort cls ds fv rnd hall dfZ x n = Ok (df, Z) ->
  exists discrete, list_remove cls (ds_discrete ds) = Ok discrete /\
  generate_data bb (lore_distance cls ds discrete) (ds_idx ds) fv rnd hall x (NDict [("ss", qc 1 2); ("sd", qc 1 2)]) n (qc 1 10) (qc 1 2) (qc 1 2) 1 0 (qc 1 2) (qc 1 5) 10 = Ok Z /\
  List.length (zunique (map bb Z)) <> 1%nat /\ explain_frame bb ds Z = Ok df.
Proof.
  intro H. unfold genetic_neighborhood in H. destruct (list_remove cls (ds_discrete ds)) as [discrete|]; [|discriminate]. cbn [bind] in H. exists discrete. split; [reflexivity|].
  match type of H with bind ?r _ = _ => destruct r as [Z0|] eqn:E; [|discriminate] end. cbn [bind] in H.
  match type of H with bind ?r _ = _ => destruct r as [Z1|] eqn:E1; [|discriminate] end. cbn [bind] in H.
  assert (Q : Z1 = Z0 /\ List.length (zunique (map bb Z0)) <> 1%nat).
  { destruct (Nat.eqb_spec (List.length (zunique (map bb Z0))) 1) as [L|L]; [|split; [congruence|assumption]]. exfalso. clear - E1.
    repeat match type of E1 with bind ?r _ = _ => destruct r; [|discriminate]; cbn [bind] in E1 end. discriminate. }
  destruct Q as (-> & L). destruct (explain_frame bb ds Z0) as [df0|] eqn:X; [|discriminate]. cbn [bind] in H. assert (Q1 : df0 = df) by congruence. assert (Q2 : Z0 = Z) by congruence. subst df0 Z0. split; [reflexivity|]. split; [assumption|exact X].
Qed.
(** a neighbourhood that is returned holds at least two outcomes; every gene is the record's or a listed value; the frame gives each
    row's predicted outcome, decoded, in the class column *)
Theorem C93_two_outcomes : forall bb argsort cls ds fv rnd hall dfZ x n df Z,
  genetic_neighborhood bb argsort cls ds fv rnd hall dfZ x n = Ok (df, Z) ->
  (exists u v, In u Z /\ In v Z /\ bb u <> bb v) /\ (forall z, In z Z -> bred x fv z) /\
  forall features classes, ds_columns ds = cls :: features -> NoDup (ds_columns ds) -> NoDup (ds_discrete ds) -> dget cls (ds_encoders ds) = Some classes ->
    forall j z, nth_error Z j = Some z -> (0 <= bb z)%Z /\ exists label, nth_error classes (Z.to_nat (bb z)) = Some label /\ value_at df cls j = Some label.
Proof.
  intros bb argsort cls ds fv rnd hall dfZ x n df Z H. apply genetic_inv in H. destruct H as (discrete & R & G & L & E). apply C91_rows in G. destruct G as (NE & G & EZ & P). splits.
  - destruct Z as [|u Z]; [contradiction|]. assert (X : exists v, In v (u :: Z) /\ bb u <> bb v).
    { destruct (forallb (fun v => Z.eqb (bb u) (bb v)) (u :: Z)) eqn:F.
      - exfalso. apply L. rewrite forallb_forall in F. assert (A : forall c, In c (map bb (u :: Z)) -> c = bb u). { intros c I. apply in_map_iff in I. destruct I as (v & <- & I). specialize (F v I). apply Z.eqb_eq in F. congruence. }
        assert (ND := zunique_NoDup (map bb (u :: Z))). assert (IN : forall c, In c (zunique (map bb (u :: Z))) <-> In c (map bb (u :: Z))) by (intro c; apply zunique_In).
        assert (IU := proj2 (IN (bb u)) (or_introl eq_refl)). remember (zunique (map bb (u :: Z))) as l eqn:El. clear El. destruct l as [|c [|c' l]]; [destruct IU|reflexivity|]. exfalso.
        assert (Ec : c = bb u) by (apply A, IN; left; reflexivity). assert (Ec' : c' = bb u) by (apply A, IN; right; left; reflexivity). inversion ND as [|? ? NI _]; subst. apply NI. left. congruence.
      - destruct (forallb_false _ _ F) as (v & I & N). apply Z.eqb_neq in N. exists v. split; assumption. }
    destruct X as (v & I & N). exists u, v. splits; [left; reflexivity|assumption|assumption].
  - intros z I. rewrite EZ in I. rewrite !in_app_iff in I. destruct I as [I|[I|[I|I]]]; exact (proj1 (proj2 (P _) z I)).
  - intros features classes C NC ND D j z J. unfold explain_frame in E. rewrite C in E, NC.
    assert (IC : In cls (ds_discrete ds)). { apply list_remove_filter in R; [tauto|assumption]. }
    destruct (@C75_class_first _ _ _ _ _ _ _ _ NC ND IC E) as (col & cl & Dc & De & Q & _). rewrite D in De. injection De as <-.
    destruct (Q j (bb z)) as (B & v & V & W); [rewrite nth_error_map, J; reflexivity|]. split; [assumption|]. exists v. split; [assumption|]. unfold value_at. rewrite Dc. assumption.
Qed.
(** it is never returned for a population of 10 or less ... *)
Theorem C93_small_population_fails : forall bb argsort cls ds fv rnd hall dfZ x n, (n <= 10)%nat ->
  forall r, genetic_neighborhood bb argsort cls ds fv rnd hall dfZ x n <> Ok r.
Proof.
  intros bb argsort cls ds fv rnd hall dfZ x n L (df & Z) H. apply genetic_inv in H. destruct H as (discrete & _ & G & _).
  destruct (Nat.eq_dec (share_size n (qc 1 2)) 0) as [Z0|NZ].
  - apply generate_inv_groups in G. destruct G as (g & E & NE & _). apply NE. assert (N : forall a, g a = []); [|rewrite !N; reflexivity].
    intro a. destruct (run_group_inv _ _ _ _ _ _ _ _ _ _ _ (E a)) as [(_ & Q)|(S2 & _)]; [assumption|]. exfalso. unfold size_of in S2. destruct a; cbn [key_of ratio_of] in S2; try (change (share_size n (qc 1 2)) with (share_size n (ratio_of (NDict [("ss", qc 1 2); ("sd", qc 1 2)]) "ss")) in Z0; cbv [ratio_of dget eqb] in *; cbn in *; lia);
    assert (Q : share_size n 0 = 0%nat) by (unfold share_size; rewrite Qcmult_0_r; reflexivity); cbv [ratio_of dget eqb] in S2; cbn in S2; lia.
  - revert G. apply (@C91_small_runs_fail bb _ _ fv rnd hall x _ n _ _ _ _ _ _ _ _ NearSame). right. change (ratio_of (NDict [("ss", qc 1 2); ("sd", qc 1 2)]) (key_of NearSame)) with (qc 1 2). split; [assumption|].
    assert (A : (share_size n (qc 1 2) <= share_size 10 (qc 1 2))%nat) by (apply share_size_mono; [discriminate|lia]). change (share_size 10 (qc 1 2)) with 5%nat in A.
    assert (B : (share_size (share_size n (qc 1 2)) (qc 1 10) <= share_size 5 (qc 1 10))%nat) by (apply share_size_mono; [discriminate|assumption]). change (share_size 5 (qc 1 10)) with 0%nat in B. lia.
Qed.
(** ... for data with a discrete feature and fewer than two continuous ones ... *)
Theorem C93_few_continuous_fails : forall bb argsort cls ds fv rnd hall dfZ x n, NoDup (ds_discrete ds) ->
  (exists a, In a (ds_discrete ds) /\ a <> cls) -> (List.length (ds_continuous ds) <= 1)%nat ->
  forall r, genetic_neighborhood bb argsort cls ds fv rnd hall dfZ x n <> Ok r.
Proof.
  intros bb argsort cls ds fv rnd hall dfZ x n ND (a & A & NA) L (df & Z) H. apply genetic_inv in H. destruct H as (discrete & R & G & _). apply list_remove_filter in R; [|assumption]. destruct R as (_ & ->).
  revert G. apply C91_undefined_distance_fails. intros u v d D. unfold lore_distance in D. apply C70_convex in D; [|exists a; split; [apply not_class; split; assumption|assumption]].
  destruct D as (xd & yd & xc & yc & dd & cd & wd & wc & _ & _ & FX & FY & _ & CD & _ & _ & _ & _ & CN & _). apply CN.
  unfold on_numbers in CD. destruct (numbers xc) as [qx|] eqn:QX; [|discriminate]. cbn [bind] in CD. destruct (numbers yc) as [qy|] eqn:QY; [|discriminate]. cbn [bind] in CD.
  destruct (normalized_spec _ _ CD) as (_ & RN & _). apply RN.
  assert (C : forall q : list Qc, (List.length q <= 1)%nat -> constant q). { clear. intros [|p [|r q]] H s t S T; [destruct S|destruct S as [<-|[]], T as [<-|[]]; reflexivity|cbn in H; lia]. }
  split; apply C; [rewrite (mapM_length _ _ QX), (fields_length _ _ FX)|rewrite (mapM_length _ _ QY), (fields_length _ _ FY)]; assumption.
Qed.
(** ... and for data without a discrete feature if the black box gives one outcome to everything bred from the record *)
Theorem C93_continuous_only : forall bb argsort cls ds fv rnd hall dfZ x n, (forall a, In a (ds_discrete ds) -> a = cls) ->
  ((forall z, bred x fv z -> bb z = bb x) -> forall r, genetic_neighborhood bb argsort cls ds fv rnd hall dfZ x n <> Ok r) /\
  forall df Z, genetic_neighborhood bb argsort cls ds fv rnd hall dfZ x n = Ok (df, Z) ->
    exists same other, Z = same ++ other /\ (forall z, In z same -> bb z = bb x) /\ (forall z, In z other -> bb z <> bb x) /\ other <> [].
Proof.
  intros bb argsort cls ds fv rnd hall dfZ x n D.
  assert (BL : forall discrete, list_remove cls (ds_discrete ds) = Ok discrete -> blind (lore_distance cls ds discrete)).
  { intros discrete R u v d H. assert (F : filter (fun att => negb (eqb att cls)) discrete = []).
    { assert (I : incl discrete (ds_discrete ds)). { clear - R. revert discrete R. induction (ds_discrete ds) as [|y l IH]; intros d R; [discriminate|]. cbn in R. destruct (eqb y cls); [injection R as <-; intros q Q; right; assumption|]. destruct (list_remove cls l) as [r|] eqn:E; [|discriminate]. cbn in R. injection R as <-. intros q [->|Q]; [left; reflexivity|right; apply (IH r eq_refl); assumption]. }
      destruct (filter (fun att => negb (eqb att cls)) discrete) as [|b l] eqn:E; [reflexivity|]. exfalso. assert (Ib : In b (b :: l)) by (left; reflexivity). rewrite <- E in Ib. apply not_class in Ib. destruct Ib as (Ib & N). apply N. apply D. apply I. assumption. }
    unfold lore_distance, mixed_distance in H. rewrite F in H. change (fields u []) with (Ok (@nil cell)) in H. cbn [bind List.length Nat.ltb Nat.leb] in H. destruct (fields u (ds_continuous ds)); [|discriminate]. cbn [bind] in H. assert (Q : d = Some (0 * 0 + 0 * 0)) by congruence. rewrite Q. f_equal. }
  split.
  - intros C (df & Z) H. apply genetic_inv in H. destruct H as (discrete & R & G & _). revert G. apply C91_constant_blackbox_fails; [exact (BL _ R)|qlra|assumption].
  - intros df Z H. assert (H0 := H). apply genetic_inv in H. destruct H as (discrete & R & G & _). apply C91_rows in G. destruct G as (NE & G & EZ & P).
    assert (W : forall a z, In z (G a) -> wanted bb a x z). { intros a z I. destruct (P a) as (_ & P'). destruct (P' z I) as (_ & _ & K). apply K; [exact (BL _ R)|discriminate|qlra]. }
    assert (N3 : G FarSame = [] /\ G FarOther = []).
    { assert (Q : share_size n 0 = 0%nat) by (unfold share_size; rewrite Qcmult_0_r; reflexivity). split.
      - destruct (P FarSame) as (Ln & _). change (ratio_of (NDict [("ss", qc 1 2); ("sd", qc 1 2)]) (key_of FarSame)) with 0 in Ln. rewrite Q in Ln. change (share_size 0 (qc 1 10)) with 0%nat in Ln. destruct (G FarSame); [reflexivity|cbn in Ln; lia].
      - destruct (P FarOther) as (Ln & _). change (ratio_of (NDict [("ss", qc 1 2); ("sd", qc 1 2)]) (key_of FarOther)) with 0 in Ln. rewrite Q in Ln. change (share_size 0 (qc 1 10)) with 0%nat in Ln. destruct (G FarOther); [reflexivity|cbn in Ln; lia]. }
    destruct N3 as (N3 & N4). rewrite N3, N4, !app_nil_r in EZ. exists (G NearSame), (G NearOther). splits; [assumption|exact (W NearSame)|exact (W NearOther)|].
    intro Q. rewrite Q, app_nil_r in EZ. apply C93_two_outcomes in H0. destruct H0 as ((u & v & U & V & NEQ) & _). rewrite EZ in U, V. apply NEQ. rewrite (W NearSame u U), (W NearSame v V). reflexivity.
Qed.
Print Assumptions C93_two_outcomes. Print Assumptions C93_small_population_fails. Print Assumptions C93_few_continuous_fails. Print Assumptions C93_continuous_only.

(** ** Examples *)
(** two continuous features; class 1 from 2 upwards in the first *)
Definition lx_bb (z : list Qc) : BinNums.Z := if qleb (qz 2) (nth 0 z 0) then 1%Z else 0%Z.
Definition lx_ds : dataset := mkDs ["cls"; "a"; "b"] [CStr "no"; CStr "yes"] [("cls", "string"); ("a", "double"); ("b", "double")] ["cls"] ["a"; "b"]
  [(0%nat, "a"); (1%nat, "b")] [("cls", [CStr "no"; CStr "yes"])] [] [].
Definition lx_X : list (list Qc) := [[1; 1]; [qz 3; qz 2]; [qz 3; qz 4]].
Definition lx_normal (i j : nat) : Qc := qn (i + j).
(** in each generation the second individual gets a new value for its first feature and is crossed with the first one *)
Definition lx_rnd (run gen : nat) : ea_draws :=
  mkE (fun i => i) (fun i => if Nat.eqb i 1 then 0 else 1) (fun _ => 0%nat) (fun _ => 0%nat) (fun i => if Nat.eqb i 1 then 0 else 1) (fun _ j => if Nat.eqb j 0 then 0 else 1) (fun _ _ => 1%nat).
Definition lx_hall (run : nat) : list nat := [7%nat].
Example C92_instance : calculate_feature_values lx_normal lx_X (ds_columns lx_ds) "cls" ["cls"; "a"] ["b"] 2 = Ok [(0%nat, [1; qz 3]); (1%nat, [1; qz 2; qz 4; 1; qz 2])].
Proof. qex. Qed.
Example C90_instance : exists d, row_distance (lore_distance "cls" lx_ds ["a"]) (ds_idx lx_ds) [1; 1] [qz 3; qz 2] (Some d) /\ d = qc 2 3.
Proof. eexists. split; [|reflexivity]. eexists. eexists. split; [vm_compute; reflexivity|]. split; [vm_compute; reflexivity|]. qex. Qed.
Definition lx_fv : dict nat (list Qc) := [(0%nat, [1; qz 3]); (1%nat, [1; qz 2; qz 4])].
Example C91_instance : generate_data lx_bb (lore_distance "cls" lx_ds []) (ds_idx lx_ds) lx_fv lx_rnd lx_hall [1; 1] (NDict [("ss", qc 1 2); ("sd", qc 1 2)]) 12 (qc 1 10) (qc 1 2) (qc 1 2) 1 0 (qc 1 2) (qc 1 5) 2 =
  Ok [[1; 1]; [1; 1]; [1; 1]; [1; 1]; [1; 1]; [qz 3; 1]; [qz 3; 1]].
Proof. qex. Qed.
Example C93_instance : exists r, genetic_neighborhood lx_bb (fun l => seq 0 (List.length l)) "cls" lx_ds lx_fv lx_rnd lx_hall [] [1; 1] 12 = Ok r /\
  dget "cls" (fst r) = Some [CStr "no"; CStr "no"; CStr "no"; CStr "no"; CStr "no"; CStr "yes"; CStr "yes"].
Proof. eexists. split; [vm_compute; reflexivity|]. reflexivity. Qed.
