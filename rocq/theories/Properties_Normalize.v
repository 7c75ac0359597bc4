(** * Property C109: data sets prepared with normalize=True *)
From Verif Require Import Prelude M_Fuzzy M_Discretize M_Rule M_FDT M_ID3 M_Neighborhood M_Sampling M_Genetic M_Utils S_Utils P_FuzzyVar P_Metrics P_FDT P_Counterfactual P_Neighborhood2 P_Neighborhood3 P_Explainer P_Sampling P_Genetic P_ID3b P_Utils P_Utils2 P_Utils3 P_Utils4 Properties_Utils Properties_Utils3 P_Lore3 M_Normalize S_Normalize P_Normalize.
Set Implicit Arguments.
Open Scope string_scope. Open Scope list_scope. Open Scope Qc_scope.

(** ** C109 *)
(** compared with the data set [D0] prepared without normalisation: the caller's table has its continuous columns replaced by standardised ones
    and nothing else changed; all parts of the data set but X are the same; X differs in the continuous positions only, which hold
    the standardised values *)
Theorem C109_normalized : forall deviation sl dt n df columns cls discrete D0, set_listing sl -> typed dt df -> rectangular n df -> (0 < n)%nat -> NoDup columns -> incl discrete (dkeys df) ->
  filter (fun c => negb (eqb c cls)) columns = filter (fun c => negb (eqb c cls)) (dkeys df) ->
  generate_dataset sl dt df columns cls discrete = Ok D0 -> ds_continuous D0 <> [] ->
  exists df1 D, generate_normalized deviation sl dt df columns cls discrete = (df1, Ok D) /\
    dkeys df1 = dkeys df /\ (forall c, ~ In c (ds_continuous D0) -> dget c df1 = dget c df) /\
    (forall c, In c (ds_continuous D0) -> exists l l', dget c df = Some (map CNum l) /\ dget c df1 = Some (map CNum l') /\ standardised deviation l l') /\
    ds_columns D = ds_columns D0 /\ ds_outcomes D = ds_outcomes D0 /\ ds_types D = ds_types D0 /\ ds_discrete D = ds_discrete D0 /\ ds_continuous D = ds_continuous D0 /\
    ds_idx D = ds_idx D0 /\ ds_encoders D = ds_encoders D0 /\ ds_y D = ds_y D0 /\ List.length (ds_X D) = List.length (ds_X D0) /\
    forall i row row0 q c, nth_error (ds_X D) i = Some row -> nth_error (ds_X D0) i = Some row0 -> dget q (ds_idx D) = Some c ->
      (In c (ds_continuous D0) -> nth_error row q = value_at df1 c i) /\ (~ In c (ds_continuous D0) -> nth_error row q = nth_error row0 q).
Proof.
  intros deviation sl dt n df columns cls discrete D0 SL T R P N I O H NC.
  destruct (@normalized_inv deviation sl dt n df columns cls discrete D0 SL T R P N H NC) as (df1 & D & G & K & OO & SC & E1 & E2 & E3 & E4 & E5 & E6 & E7 & E8 & T1 & R1 & H1).
  exists df1, D. split; [exact G|]. split; [exact K|]. split; [exact OO|]. split.
  { intros c Ic. destruct (SC c Ic) as (qs & A & B). exists qs, (scale_column deviation qs). split; [exact A|]. split; [exact B|]. apply scale_standardised. intro Z. subst qs. apply dget_In in A. apply (proj2 R) in A. cbn in A. lia. }
  do 8 (split; [assumption|]).
  assert (I1 : incl discrete (dkeys df1)) by (rewrite K; exact I).
  assert (O1 : filter (fun c => negb (eqb c cls)) columns = filter (fun c => negb (eqb c cls)) (dkeys df1)) by (rewrite K; exact O).
  destruct (@C86_describes sl dt n df columns cls discrete D0 SL T R N I O H) as (L0 & _ & M0 & J0 & _ & V0 & _).
  destruct (@C86_describes sl _ n df1 columns cls discrete _ SL T1 R1 N I1 O1 H1) as (L1 & _ & M1 & J1 & _ & V1 & _). cbn [ds_X ds_idx ds_discrete ds_encoders] in *.
  split; [congruence|]. intros i row row0 q c Xi Xi0 Q. destruct (J1 q c Q) as (Kc & Nc).
  assert (In_n : (i < n)%nat) by (rewrite <- L1; apply nth_error_Some; congruence).
  assert (VA : forall dff, rectangular n dff -> In c (dkeys dff) -> exists v, value_at dff c i = Some v).
  { intros dff Rf Kf. unfold value_at. destruct (dget_ex _ _ Kf) as (col & C). rewrite C. apply dget_In in C. apply (proj2 Rf) in C. destruct (nth_error col i) as [v|] eqn:E; [exists v; reflexivity|]. apply nth_error_None in E. lia. }
  destruct (VA df1 R1 Kc) as (v1 & W1). destruct (VA df R) as (v0 & W0); [rewrite <- K; exact Kc|]. assert (Q0 : dget q (ds_idx D0) = Some c) by congruence.
  destruct (V1 i row q c v1 Xi Q W1) as (A1 & B1). destruct (V0 i row0 q c v0 Xi0 Q0 W0) as (A0 & B0). split; intro J.
  - rewrite W1. apply B1. rewrite E4. assert (GI := generate_inv _ _ _ SL T H). destruct GI as (target & tmp & disc & cont & df' & encs & y & Ct & RM & S & ND & CD & LE & Y & ->). cbn [ds_continuous ds_discrete] in *. destruct (lists_spec SL N S) as (_ & _ & _ & CC). exact (proj1 (CC c J)).
  - assert (VV : v1 = v0) by (unfold value_at in W1, W0; rewrite (OO c J) in W1; congruence). subst v1. destruct (in_dec string_dec c (ds_discrete D0)) as [Jd|Jd].
    + destruct (A0 Jd) as (u0 & k0 & C0 & U0 & X0). destruct A1 as (u1 & k1 & C1 & U1 & X1); [rewrite E4; exact Jd|]. rewrite E7, C0 in C1. injection C1 as <-. rewrite X0, X1. do 2 f_equal.
      assert (ND : NoDup u0). { assert (GI := generate_inv _ _ _ SL T H). destruct GI as (target & tmp & disc & cont & df' & encs & y & Ct & RM & S & ND & CD & LE & Y & ->). cbn [ds_encoders ds_discrete] in *.
        destruct (@generate_good sl dt df cls _ discrete disc cont SL T I (@dget_Some_key _ _ _ _ _ _ Ct) S) as (_ & G' & _). apply encode_fold in LE; [|split; assumption]. destruct LE as (_ & _ & LE). destruct (G' c Jd) as (col & Cc & Un). destruct (LE c col Jd Cc) as (u & codes & U & _ & _ & D2). rewrite C0 in D2. injection D2 as <-. destruct (uniform_unique Un) as (u' & U' & NU & _). congruence. }
      f_equal. f_equal. assert (LT : (k1 < List.length u0)%nat) by (apply nth_error_Some; congruence). apply (proj1 (NoDup_nth_error u0) ND k1 k0 LT). congruence.
    + rewrite (B0 Jd), B1; [reflexivity|]. rewrite E4. exact Jd.
Qed.
(** a standardised column ranks the rows as before and has mean 0; a constant one is all 0; if the deviation is the exact one the column has variance 1 *)
Theorem C109_standardised : forall deviation l l', positive_deviation deviation -> standardised deviation l l' ->
  same_ranking l l' /\ mean_is l' 0 /\ (constant l -> forall x, In x l' -> x = 0) /\
  (~ constant l -> (forall m, mean_is l m -> qn (List.length l) * (deviation l * deviation l) = qsum (map (fun x => (x - m) * (x - m)) l)) -> qsum (map (fun x => x * x) l') = qn (List.length l')).
Proof.
  intros deviation l l' PD (m & s & M & C1 & C2 & ->).
  assert (P : 0 < s). { destruct (all_equal l) eqn:E; [apply all_equal_spec in E; rewrite (C1 E); reflexivity|]. assert (NC : ~ constant l) by (intro C; apply all_equal_spec in C; congruence). rewrite (C2 NC).
    destruct l as [|x l]; [exfalso; apply NC; intros a b []|]. cbn [all_equal] in E. assert (X : exists y, In y l /\ x <> y). { clear - E. induction l as [|y l IH]; [discriminate|]. cbn [forallb] in E. destruct (qeqb x y) eqn:Q; [|exists y; split; [left; reflexivity|apply qeqb_neq in Q; assumption]]. destruct IH as (z & Z & NZ); [exact E|]. exists z. split; [right; assumption|assumption]. }
    destruct X as (y & Y & NY). exact (PD (x :: l) x y (or_introl eq_refl) (or_intror Y) NY). }
  assert (NZ : s <> 0) by (intro E; rewrite E in P; qlra).
  assert (MONO : forall a b, a < b -> (a - m) / s < (b - m) / s). { intros a b A. apply Qcdiv_lt; [assumption|]. rewrite Qcdiv_mult by assumption. qlra. }
  split; [|split; [|split]].
  - split; [rewrite map_length; reflexivity|]. intros i j a b a' b' A B A' B'. rewrite nth_error_map, A in A'. rewrite nth_error_map, B in B'. cbn in A', B'. injection A' as <-. injection B' as <-. destruct (Qc_dec a b) as [[L|L]|E].
    + assert (G := MONO _ _ L). split; split; intro Q; [exact G|exact L|exfalso; rewrite Q in L; qlra|exfalso; rewrite Q in G; qlra].
    + assert (G := MONO _ _ L). split; split; intro Q; exfalso; [qlra|qlra|rewrite Q in L; qlra|rewrite Q in G; qlra].
    + subst b. split; split; intro Q; try reflexivity; exfalso; qlra.
  - unfold mean_is in *. rewrite map_length. rewrite <- (qsum_div (fun x => x - m) s l). assert (Z : qsum (map (fun x => x - m) l) = 0).
    { assert (G : qsum (map (fun x => x - m) l) = qsum l - qn (List.length l) * m). { clear. induction l as [|x l IH]; [cbn [map List.length]; rewrite qsum_nil, qn_0; ring|]. cbn [map List.length]. rewrite !qsum_cons, IH, qn_S. ring. } rewrite G, M. ring. }
    rewrite Z. field. assumption.
  - intros C x X. apply in_map_iff in X. destruct X as (y & <- & Y). assert (G : qsum l = qn (List.length l) * y). { assert (forall z, In z l -> z = y) by (intros z Z; apply C; assumption). clear - H. rewrite <- (map_id l) at 1. rewrite <- qsum_const. f_equal. apply map_ext_in. exact H. }
    rewrite <- M in G. assert (Q : m = y). { assert (NN : qn (List.length l) <> 0). { intro E. change 0 with (qz 0%Z) in E. unfold qn in E. apply qz_inj in E. destruct l; [contradiction|cbn in E; lia]. } exact (@P_Lore3.Qc_cancel _ _ _ NN G). }
    rewrite Q. field. assumption.
  - intros NC V. specialize (V m M). rewrite <- (C2 NC) in V. rewrite map_length, map_map. transitivity (qsum (map (fun x => (x - m) * (x - m)) l) / (s * s)); [|rewrite <- V; field; assumption].
    rewrite qsum_div. f_equal. apply map_ext. intro x. field. assumption.
Qed.
(** without continuous columns, or without rows, it raises ValueError and the table stays as it is *)
Theorem C109_nothing_to_scale : forall deviation sl dt n df columns cls discrete D0, set_listing sl -> typed dt df -> rectangular n df -> generate_dataset sl dt df columns cls discrete = Ok D0 ->
  ds_continuous D0 = [] \/ n = 0%nat -> generate_normalized deviation sl dt df columns cls discrete = (df, Err ValueError).
Proof.
  intros deviation sl dt n df columns cls discrete D0 SL T R H E. assert (GI := generate_inv _ _ _ SL T H). destruct GI as (target & tmp & disc & cont & df' & encs & y & Ct & RM & S & ND & CD & LE & Y & ->). cbn [ds_continuous] in E.
  assert (NE : df <> []) by (intro; subst; discriminate). unfold generate_normalized. unfold fcolumn at 1. rewrite Ct. cbn [ret_opt]. rewrite S, RM. unfold scale_frame. rewrite (frame_length_pos R NE).
  destruct E as [-> | ->]; [reflexivity|]. rewrite Bool.orb_true_r. reflexivity.
Qed.
(** rebuilding a table from the normalised data, the class first: discrete columns are as in the original table, standardised float columns are shown,
    but the standardised values of an integer column are cut to integers, because its type is still 'integer' *)
Theorem C109_rebuild : forall deviation sl dt n df cls features discrete df1 D, set_listing sl -> typed dt df -> rectangular n df -> dkeys df = cls :: features -> incl discrete (dkeys df) ->
  generate_normalized deviation sl dt df (dkeys df) cls discrete = (df1, Ok D) ->
  exists X y df2, ds_X D = map (map CNum) X /\ ds_y D = map (fun c => CNum (qz c)) y /\
    build_df2explain y X (ds_columns D) (ds_types D) (ds_discrete D) (ds_encoders D) = Ok df2 /\ dkeys df2 = dkeys df /\
    forall c i, In c (dkeys df) -> (i < n)%nat ->
      (~ In c (ds_continuous D) -> value_at df2 c i = value_at df c i) /\
      (In c (ds_continuous D) -> exists z, value_at df1 c i = Some (CNum z) /\
         (dt c = DFloat -> value_at df2 c i = Some (CNum z)) /\ (dt c = DInt -> exists t, truncated z t /\ value_at df2 c i = Some (CNum (qz t)))).
Proof.
  intros deviation sl dt n df cls features discrete df1 D SL T R KD I G.
  assert (Kc : In cls (dkeys df)) by (rewrite KD; left; reflexivity). destruct (@C86_total sl dt df (dkeys df) cls discrete SL T Kc Kc I) as (D0 & H).
  assert (NC : ds_continuous D0 <> [] /\ (0 < n)%nat). { split; [intro E|destruct n as [|n]; [exfalso|lia]]; [rewrite (@C109_nothing_to_scale deviation sl dt n df _ cls discrete D0 SL T R H (or_introl E)) in G|rewrite (@C109_nothing_to_scale deviation sl dt 0%nat df _ cls discrete D0 SL T R H (or_intror eq_refl)) in G]; discriminate. }
  destruct NC as (NC & P). destruct (@normalized_inv deviation sl dt n df (dkeys df) cls discrete D0 SL T R P (proj1 R) H NC) as (df1' & D' & G' & K & OO & SC & E1 & E2 & E3 & E4 & E5 & E6 & E7 & E8 & T1 & R1 & H1).
  rewrite G in G'. injection G' as <- <-. rewrite <- K in H1.
  assert (KD1 : dkeys df1 = cls :: features) by congruence. assert (I1 : incl discrete (dkeys df1)) by (rewrite K; exact I).
  destruct (@C86_round_trip sl _ n df1 cls features discrete _ SL T1 R1 KD1 I1 H1) as (X & y & EX & EY & B). cbn [ds_X ds_y ds_columns ds_types ds_discrete ds_encoders] in *.
  assert (GI := generate_inv _ _ _ SL T H). destruct GI as (target & tmp & disc & cont & df' & encs & yy & Ct & RM & S & ND & CD & LE & Y & ->). cbn [ds_columns ds_outcomes ds_types ds_discrete ds_continuous ds_idx ds_encoders ds_X ds_y] in *.
  destruct (lists_spec SL (proj1 R) S) as (_ & _ & _ & CC).
  rewrite E1, E3, E4, E5, E7 in *. assert (NK : NoDup (dkeys df)) by exact (proj1 R).
  destruct (@C75_columns _ _ _ _ _ _ _ NK ND B) as (LXY & _ & GB).
  assert (LY : List.length y = n). { destruct (GB 0%nat cls) as (col & t & C & _ & LC & _); [rewrite KD; reflexivity|]. rewrite <- LC. apply dget_In in C. exact (proj2 R1 cls col C). }
  assert (TY : forall c, In c (dkeys df) -> exists t, dget c (features_type dt df) = Some t /\ (t = "integer" <-> dt c = DInt)).
  { intros c Ic. rewrite C86_types. destruct (in_dec string_dec c (dkeys df)) as [_|NN]; [|contradiction]. destruct (dget_ex _ _ Ic) as (col & C). apply dget_In in C. destruct (T c col C) as (NO & _). destruct (dt c); [| | |contradiction]; eexists; (split; [reflexivity|]); split; intro; try reflexivity; discriminate. }
  destruct (@C75_total y X (dkeys df) (features_type dt df) disc encs NK) as (df2 & B2).
  - rewrite KD. discriminate.
  - exact ND.
  - exact LXY.
  - intros row Xr. apply In_nth_error in Xr. destruct Xr as (j & Xj). assert (J : (j < List.length y)%nat) by (rewrite LXY; apply nth_error_Some; congruence). rewrite KD. cbn [List.length]. destruct features as [|f0 fs] eqn:FE; [cbn; lia|]. rewrite <- FE in *.
    assert (LF : (0 < List.length features)%nat) by (rewrite FE; cbn; lia). destruct (nth_error (dkeys df) (List.length features)) as [c|] eqn:C; [|apply nth_error_None in C; rewrite KD in C; cbn in C; lia].
    destruct (GB _ c C) as (col & t & _ & _ & _ & V). destruct (V j J) as (q & Q & _). destruct (List.length features) as [|m] eqn:Lm; [lia|]. cbn [source] in Q. rewrite Xj in Q. assert (m < List.length row)%nat by (apply nth_error_Some; congruence). lia.
  - intros c Ic. destruct (TY c Ic) as (t & E & _). exists t. exact E.
  - intros c Ic. destruct (@generate_good sl dt df cls _ discrete disc cont SL T I Kc S) as (_ & GG & _). destruct (GG c Ic) as (col & C & _). eapply dget_Some_key. exact C.
  - intros i c C Ic. destruct (GB i c C) as (col & t & Cc & _ & _ & V).
    assert (EE : exists classes, dget c encs = Some classes). { destruct (@generate_good sl dt df cls _ discrete disc cont SL T I Kc S) as (_ & GG & _). assert (LE' := LE). apply encode_fold in LE'; [|split; assumption]. destruct LE' as (_ & _ & LE'). destruct (GG c Ic) as (col0 & C0 & _). destruct (LE' c col0 Ic C0) as (u & codes & _ & _ & _ & D2). exists u. exact D2. }
    destruct EE as (classes & EC). exists classes. split; [exact EC|]. intros j q Q. assert (J : (j < List.length y)%nat). { rewrite LXY. destruct i as [|i]; cbn [source] in Q; [rewrite <- LXY; destruct (nth_error y j) eqn:YJ; [|discriminate]; apply nth_error_Some; congruence|]. destruct (nth_error X j) eqn:XJ; [|discriminate]. apply nth_error_Some. congruence. }
    destruct (V j J) as (q' & Q' & VD & _). rewrite Q in Q'. injection Q' as <-. destruct (VD Ic) as (cl & k & EC' & LT & TR & _). rewrite EC in EC'. injection EC' as <-. exists k. split; assumption.
  - exists X, y, df2. split; [exact EX|]. split; [exact EY|]. split; [exact B2|]. destruct (@C75_columns _ _ _ _ _ _ _ NK ND B2) as (_ & K2 & G2). split; [exact K2|].
    intros c i Ic In_n. apply In_nth_error in Ic. destruct Ic as (p & Cp). assert (Ic := nth_error_In _ _ Cp). destruct (GB p c Cp) as (col & t1 & C1 & F1 & _ & V1). destruct (G2 p c Cp) as (col2 & t2 & C2 & F2 & _ & V2).
    rewrite <- LY in In_n. destruct (V1 i In_n) as (q & Q & A1 & A2 & A3). destruct (V2 i In_n) as (q' & Q' & B1 & B2' & B3). rewrite Q in Q'. injection Q' as <-.
    destruct (TY c Ic) as (t & Ft & TT). rewrite Ft in F2. injection F2 as <-.
    assert (W1 : value_at df1 c i = nth_error col i) by (unfold value_at; rewrite C1; reflexivity). assert (W2 : value_at df2 c i = nth_error col2 i) by (unfold value_at; rewrite C2; reflexivity).
    split; intro J.
    + assert (W0 : value_at df c i = nth_error col i) by (rewrite <- W1; unfold value_at; rewrite (OO c J); reflexivity). rewrite W0, W2. destruct (in_dec string_dec c disc) as [Jd|Jd].
      * destruct (A1 Jd) as (cl & k & EC & LT & TR & NN). destruct (B1 Jd) as (cl' & k' & EC' & LT' & TR' & NN'). rewrite EC in EC'. injection EC' as <-. rewrite NN, NN'. f_equal.
        destruct TR as (K1 & K2'), TR' as (S1 & S2). destruct (Qclt_le_dec q 0) as [Neg|Pos]; [destruct (K2' Neg) as (a1 & a2), (S2 Neg) as (b1 & b2)|destruct (K1 Pos) as (a1 & a2), (S1 Pos) as (b1 & b2)].
        -- assert (P1 := Qclt_le_trans _ _ _ a1 b2). assert (P2 := Qclt_le_trans _ _ _ b1 a2). rewrite qz_lt in P1, P2. lia.
        -- assert (P1 := Qcle_lt_trans _ _ _ a1 b2). assert (P2 := Qcle_lt_trans _ _ _ b1 a2). rewrite qz_lt in P1, P2. lia.
      * assert (T1c : t1 <> "integer" \/ t1 = "integer" /\ t = "integer").
        { rewrite C86_types in F1. rewrite K in F1. destruct (in_dec string_dec c (dkeys df)) as [_|NN]; [|contradiction]. unfold as_float in F1. rewrite (proj2 (@memb_not_In _ _ c cont) J) in F1. destruct (dt c) eqn:DT; [right; split; [congruence|apply TT; reflexivity]|left; congruence|left; congruence|discriminate]. }
        destruct T1c as [N1|(-> & ->)].
        -- rewrite (A3 Jd N1). assert (NT : t <> "integer"). { intro Et. apply TT in Et. apply N1. rewrite C86_types in F1. rewrite K in F1. destruct (in_dec string_dec c (dkeys df)) as [_|NN]; [|contradiction]. unfold as_float in F1. rewrite (proj2 (@memb_not_In _ _ c cont) J), Et in F1. congruence. } exact (B3 Jd NT).
        -- destruct (A2 Jd eq_refl) as (z & TR & NN). destruct (B2' Jd eq_refl) as (z' & TR' & NN'). rewrite NN, NN'. do 3 f_equal.
           destruct TR as (K1 & K2'), TR' as (S1 & S2). destruct (Qclt_le_dec q 0) as [Neg|Pos]; [destruct (K2' Neg) as (a1 & a2), (S2 Neg) as (b1 & b2)|destruct (K1 Pos) as (a1 & a2), (S1 Pos) as (b1 & b2)].
           ++ assert (P1 := Qclt_le_trans _ _ _ a1 b2). assert (P2 := Qclt_le_trans _ _ _ b1 a2). rewrite qz_lt in P1, P2. lia.
           ++ assert (P1 := Qcle_lt_trans _ _ _ a1 b2). assert (P2 := Qcle_lt_trans _ _ _ b1 a2). rewrite qz_lt in P1, P2. lia.
    + destruct (CC c J) as (Jd & _ & _ & DT). exists q. rewrite W1, W2.
      assert (N1 : t1 <> "integer"). { rewrite C86_types in F1. rewrite K in F1. destruct (in_dec string_dec c (dkeys df)) as [_|NN]; [|contradiction]. unfold as_float in F1. rewrite (proj2 (@memb_In _ _ c cont) J) in F1. congruence. }
      split; [exact (A3 Jd N1)|]. split; intro E.
      * apply (B3 Jd). intro Et. apply TT in Et. congruence.
      * apply (B2' Jd). apply TT. exact E.
Qed.
(** so every value of an integer column less than one deviation away from the mean is shown as 0 *)
Theorem C109_integer_lost : forall deviation sl dt n df cls features discrete df1 D, set_listing sl -> typed dt df -> rectangular n df -> dkeys df = cls :: features -> incl discrete (dkeys df) ->
  positive_deviation deviation -> generate_normalized deviation sl dt df (dkeys df) cls discrete = (df1, Ok D) ->
  exists X y df2, ds_X D = map (map CNum) X /\ ds_y D = map (fun c => CNum (qz c)) y /\
    build_df2explain y X (ds_columns D) (ds_types D) (ds_discrete D) (ds_encoders D) = Ok df2 /\
    forall c l m i v, In c (ds_continuous D) -> dt c = DInt -> dget c df = Some (map CNum l) -> ~ constant l -> mean_is l m ->
      nth_error l i = Some v -> qabs (v - m) < deviation l -> value_at df2 c i = Some (CNum 0).
Proof.
  intros deviation sl dt n df cls features discrete df1 D SL T R KD I PD G.
  assert (Kc : In cls (dkeys df)) by (rewrite KD; left; reflexivity). destruct (@C86_total sl dt df (dkeys df) cls discrete SL T Kc Kc I) as (D0 & H).
  assert (NC : ds_continuous D0 <> [] /\ (0 < n)%nat). { split; [intro E|destruct n as [|n]; [exfalso|lia]]; [rewrite (@C109_nothing_to_scale deviation sl dt n df _ cls discrete D0 SL T R H (or_introl E)) in G|rewrite (@C109_nothing_to_scale deviation sl dt 0%nat df _ cls discrete D0 SL T R H (or_intror eq_refl)) in G]; discriminate. }
  destruct NC as (NC & P). destruct (@C109_normalized deviation sl dt n df (dkeys df) cls discrete D0 SL T R P (proj1 R) I eq_refl H NC) as (df1' & D' & G' & K & OO & SC & E1 & E2 & E3 & E4 & E5 & _).
  rewrite G in G'. injection G' as <- <-. destruct (@C109_rebuild deviation sl dt n df cls features discrete df1 D SL T R KD I G) as (X & y & df2 & EX & EY & B & _ & W). exists X, y, df2. split; [exact EX|]. split; [exact EY|]. split; [exact B|].
  intros c l m i v J DT C NK M V A. rewrite E5 in *. destruct (SC c J) as (l0 & l' & C0 & C1 & ST). rewrite C in C0. injection C0 as C0.
  assert (EQ : l0 = l). { clear - C0. revert l0 C0. induction l as [|x l IH]; intros [|x0 l0] E; try discriminate; [reflexivity|]. cbn in E. injection E as -> E. f_equal. apply IH. assumption. } subst l0. clear C0.
  assert (Ic : In c (dkeys df)) by (eapply dget_Some_key; exact C). assert (Li : (i < n)%nat) by (apply dget_In in C; apply (proj2 R) in C; rewrite map_length in C; rewrite <- C; apply nth_error_Some; congruence).
  destruct (proj2 (W c i Ic Li) J) as (z & Z & _ & ZI). destruct (ZI DT) as (t & TR & VT). rewrite VT. do 2 f_equal. change 0 with (qz 0%Z). f_equal.
  destruct ST as (m0 & s & M0 & _ & S2 & ->). specialize (S2 NK). unfold value_at in Z. rewrite C1, !nth_error_map, V in Z. cbn in Z. injection Z as <-.
  assert (EM : m0 = m). { unfold mean_is in *. apply (@P_Lore3.Qc_cancel (qn (List.length l))); [|congruence]. intro E. change 0 with (qz 0%Z) in E. unfold qn in E. apply qz_inj in E. destruct l; [destruct i; discriminate|cbn in E; lia]. } subst m0.
  assert (Ps : 0 < s) by (rewrite S2; generalize (@qabs_nonneg (v - m)); intro; qlra). rewrite <- S2 in A.
  assert (A1 : v - m < s /\ - s < v - m) by (clear - A; revert A; unfold qabs; qcase; intros; split; qlra).
  destruct A1 as (A1 & A1b). assert (UP : (v - m) / s < qz 1) by (apply Qcdiv_lt; [assumption|]; change (qz 1) with 1; qlra).
  assert (LO : qz (-1) < (v - m) / s). { assert (Q : - ((v - m) / s) < 1). { replace (- ((v - m) / s)) with ((m - v) / s) by (field; intro E; rewrite E in Ps; qlra). apply Qcdiv_lt; [assumption|qlra]. } change (qz (-1)) with (- (1)). qlra. }
  destruct TR as (T1 & T2). destruct (Qclt_le_dec ((v - m) / s) 0) as [Neg|Pos].
  - destruct (T2 Neg) as (a1 & a2). assert (P1 := Qclt_le_trans _ _ _ LO a2). assert (P2 := Qclt_trans _ _ _ a1 Neg). change 0 with (qz 0%Z) in P2. rewrite qz_lt in P1, P2. lia.
  - destruct (T1 Pos) as (a1 & a2). assert (P1 := Qcle_lt_trans _ _ _ a1 UP). assert (P2 := Qcle_lt_trans _ _ _ Pos a2). change 0 with (qz 0%Z) in P2. rewrite qz_lt in P1, P2. lia.
Qed.
(** a table with a class, an integer column of exact deviation 2 and a float column *)
Definition norm_types (c : string) : dtype := if eqb c "cls" then DObject else if eqb c "age" then DInt else DFloat.
Definition norm_table : frame := [("cls", [CStr "a"; CStr "b"; CStr "a"; CStr "a"; CStr "b"]); ("age", [CNum (qz 0); CNum (qz 0); CNum (qz 0); CNum (qz 0); CNum (qz 5)]);
  ("size", [CNum (qz 5); CNum (qz 0); CNum (qz 0); CNum (qz 0); CNum (qz 0)])].
Definition two (l : list Qc) : Qc := qz 2.
Lemma norm_table_ok : typed norm_types norm_table /\ rectangular 5 norm_table /\ positive_deviation two.
Proof.
  split; [|split].
  - intros c col [E|[E|[E|[]]]]; injection E as <- <-; (split; [discriminate|]); intros v V; cbn in V; repeat destruct V as [<-|V]; try (destruct V); eexists; reflexivity.
  - split; [repeat constructor; cbn; intuition discriminate|]. intros c col [E|[E|[E|[]]]]; injection E as <- <-; reflexivity.
  - intros l a b _ _ _. reflexivity.
Qed.
Example C109_ex : exists df1 D, generate_normalized two (nodup string_dec) norm_types norm_table ["cls"; "age"; "size"] "cls" [] = (df1, Ok D) /\
  ds_continuous D = ["age"; "size"] /\ dget "age" df1 = Some [CNum (qc (-1) 2); CNum (qc (-1) 2); CNum (qc (-1) 2); CNum (qc (-1) 2); CNum (qz 2)] /\ dget "cls" df1 = dget "cls" norm_table /\
  (exists df2, build_df2explain [0; 1; 0; 0; 1]%Z [[qc (-1) 2; qz 2]; [qc (-1) 2; qc (-1) 2]; [qc (-1) 2; qc (-1) 2]; [qc (-1) 2; qc (-1) 2]; [qz 2; qc (-1) 2]] (ds_columns D) (ds_types D) (ds_discrete D) (ds_encoders D) = Ok df2 /\
     dget "age" df2 = Some [CNum 0; CNum 0; CNum 0; CNum 0; CNum (qz 2)] /\ dget "size" df2 = dget "size" df1).
Proof.
  eexists. eexists. split; [vm_compute; reflexivity|]. splits; [reflexivity|qex|reflexivity|]. eexists. split; [vm_compute; reflexivity|]. split; qex.
Qed.
Print Assumptions C109_normalized. Print Assumptions C109_standardised. Print Assumptions C109_nothing_to_scale. Print Assumptions C109_rebuild. Print Assumptions C109_integer_lost.
