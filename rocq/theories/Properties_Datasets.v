(** * Properties C99-C101: the dataset loaders *)
From Verif Require Import Prelude M_Fuzzy M_Discretize M_Rule M_FDT M_ID3 M_Neighborhood M_Sampling M_Genetic M_Utils S_Utils P_FuzzyVar P_Counterfactual P_Genetic P_Utils2 P_Utils3 P_Utils4 Properties_Utils3 M_Datasets S_Datasets P_Datasets.
Unset Implicit Arguments.
Open Scope string_scope. Open Scope list_scope. Open Scope Qc_scope.

(** ** C99 *)
(** [D] is the prepared form of the table [df]: its column list is that of the table, and rebuilding a table from its X and y
    gives [df] back *)
Definition prepared (D : dataset) (df : frame) : Prop :=
  ds_columns D = dkeys df /\
  exists X y, ds_X D = map (map CNum) X /\ ds_y D = map (fun c => CNum (qz c)) y /\
    build_df2explain y X (ds_columns D) (ds_types D) (ds_discrete D) (ds_encoders D) = Ok df.
Lemma columns_of sl dt df columns cls discrete D : set_listing sl -> typed dt df -> generate_dataset sl dt df columns cls discrete = Ok D -> ds_columns D = columns.
Proof. intros SL T H. destruct (generate_inv _ _ _ SL T H) as (? & ? & ? & ? & ? & ? & ? & ? & ? & ? & ? & ? & ? & ? & ->). reflexivity. Qed.
(** the loaders that take the columns as they are prepare the table if the file has the class in front *)
Theorem C99_plain : forall sl dt n df cls features discrete, set_listing sl -> typed dt df -> rectangular n df -> dkeys df = cls :: features -> incl discrete (dkeys df) ->
  exists D, load_plain sl dt cls discrete df = Ok D /\ prepared D df.
Proof.
  intros sl dt n df cls features discrete SL T R K I. assert (C : In cls (dkeys df)) by (rewrite K; left; reflexivity).
  destruct (@C86_total sl dt df (dkeys df) cls discrete SL T C C I) as (D & H). exists D. split; [exact H|]. split; [exact (columns_of _ _ _ _ _ _ _ SL T H)|].
  exact (@C86_round_trip sl dt n df cls features discrete D SL T R K I H).
Qed.
(** the loaders that move the class to the front prepare the rearranged table: every other column keeps its place among the others
    and its values *)
Theorem C99_moved : forall sl dt n df cls, set_listing sl -> typed dt df -> rectangular n df -> In cls (dkeys df) ->
  exists D df1, load_moved sl dt cls df = Ok D /\ rearranged (cls :: others cls (dkeys df)) df df1 /\ prepared D df1.
Proof.
  intros sl dt n df cls SL T R C. destruct (class_first_total cls df (proj1 R) C) as (df1 & E). destruct (class_first_spec _ _ _ (proj1 R) E) as (_ & RA).
  assert (NC := others_nodup cls _ (proj1 R)). assert (T1 := rearranged_typed _ _ _ _ (proj1 R) NC RA T). assert (R1 := rearranged_rect _ _ _ _ NC RA R).
  destruct (C99_plain sl dt n df1 cls (others cls (dkeys df)) [] SL T1 R1 (proj1 RA)) as (D & H & P); [intros x []|]. exists D, df1. split; [|split; assumption]. unfold load_moved. rewrite E. exact H.
Qed.
(** a file without the class column is rejected *)
Theorem C99_no_class : forall sl dt df cls discrete, ~ In cls (dkeys df) -> load_moved sl dt cls df = Err ValueError /\ load_plain sl dt cls discrete df = Err KeyError.
Proof.
  intros sl dt df cls discrete N. split; [|apply C86_rejects; exact N]. unfold load_moved, class_first. assert (R : list_remove cls (dkeys df) = Err ValueError); [|rewrite R; reflexivity].
  revert N. induction (dkeys df) as [|k l IH]; intro N; [reflexivity|]. cbn [list_remove]. destruct (eqb k cls) eqn:E; [apply eqb_eq in E; subst; exfalso; apply N; left; reflexivity|]. rewrite IH; [reflexivity|]. intro; apply N; right; assumption.
Qed.
(** the last column as the class (iris, wine); columns dropped first (breast, phishing) *)
Theorem C99_last : forall sl dt n df features cls, set_listing sl -> typed dt df -> rectangular n df -> dkeys df = features ++ [cls] ->
  exists D df1, load_last sl dt df = Ok D /\ rearranged (cls :: features) df df1 /\ prepared D df1.
Proof.
  intros sl dt n df features cls SL T R K. unfold load_last. rewrite K, rev_app_distr. cbn [rev app nth_error ret_opt bind].
  assert (C : In cls (dkeys df)) by (rewrite K; apply in_app_iff; right; left; reflexivity). destruct (C99_moved sl dt n df cls SL T R C) as (D & df1 & H & RA & P). exists D, df1. split; [exact H|]. split; [|exact P].
  assert (E : others cls (dkeys df) = features); [|rewrite E in RA; exact RA]. rewrite K. unfold others. rewrite filter_app. cbn [filter]. rewrite eqb_refl. cbn [negb]. rewrite app_nil_r.
  assert (N : ~ In cls features) by (destruct R as (N & _); rewrite K in N; apply NoDup_remove_2 in N; rewrite app_nil_r in N; exact N).
  clear - N. induction features as [|f l IH]; [reflexivity|]. cbn [filter]. rewrite (proj2 (@eqb_neq _ _ f cls)) by (intros ->; apply N; left; reflexivity). cbn [negb]. f_equal. apply IH. intro; apply N; right; assumption.
Qed.
Theorem C99_dropped : forall sl dt n df,  set_listing sl -> typed dt df -> rectangular n df ->
  (forall features, dkeys df = "id" :: "diagnosis" :: features -> exists D df1, load_breast sl dt df = Ok D /\ rearranged ("diagnosis" :: features) df df1 /\ prepared D df1) /\
  (forall dropped, dropped = ["id"; "PctExtResourceUrls"; "PctNullSelfRedirectHyperlinks"; "SubdomainLevelRT"; "UrlLengthRT"; "PctExtResourceUrlsRT";
       "AbnormalExtFormActionR"; "ExtMetaScriptLinkRT"; "PctExtNullSelfRedirectHyperlinksRT"] ->
   incl ("CLASS_LABEL" :: dropped) (dkeys df) ->
   exists D df1, load_phishing sl dt df = Ok D /\ rearranged ("CLASS_LABEL" :: without ("CLASS_LABEL" :: dropped) (dkeys df)) df df1 /\ prepared D df1).
Proof.
  intros sl dt n df SL T R. split.
  - intros features K. unfold load_breast. assert (I : incl ["id"] (dkeys df)) by (intros x [<-|[]]; rewrite K; left; reflexivity). destruct (dels_total ["id"] df) as (df1 & E); [repeat constructor; intros []|exact I|].
    destruct (dels_spec _ _ _ E) as (_ & K1 & G). assert (E' : del_column df "id" = Ok df1) by (cbn [foldM] in E; destruct (del_column df "id"); [exact E|discriminate]). rewrite E'. cbn [bind].
    assert (KK : dkeys df1 = "diagnosis" :: features).
    { rewrite K1, K. destruct R as (N & _). rewrite K in N. inversion N as [|? ? NI _]; subst. clear - NI. unfold without. change (filter (fun c => negb (memb c ["id"])) ("id" :: "diagnosis" :: features)) with ("diagnosis" :: filter (fun c => negb (memb c ["id"])) features). f_equal.
      assert (NI' : ~ In "id" features) by (intro; apply NI; right; assumption). clear NI. induction features as [|f l IH]; [reflexivity|]. cbn [filter]. assert (M : memb f ["id"] = false). { apply memb_not_In. intros [<-|[]]. apply NI'. left. reflexivity. } rewrite M. cbn [negb]. f_equal. apply IH. intro; apply NI'; right; assumption. }
    assert (NC : NoDup ("diagnosis" :: features)) by (destruct R as (N & _); rewrite K in N; inversion N; assumption).
    assert (RA : rearranged ("diagnosis" :: features) df df1). { split; [exact KK|]. intros c Ic. apply G. intros [<-|[]]. destruct R as (N & _). rewrite K in N. inversion N; contradiction. }
    destruct (C99_plain sl dt n df1 "diagnosis" features [] SL (rearranged_typed _ _ _ _ (proj1 R) NC RA T) (rearranged_rect _ _ _ _ NC RA R) KK) as (D & H & P); [intros x []|]. exists D, df1. tauto.
  - intros dropped ED I. unfold load_phishing. rewrite <- ED. destruct (dels_total dropped df) as (df1 & E).
    { subst dropped. repeat constructor; cbn; intuition discriminate. }
    { intros x X. apply I. right. exact X. }
    rewrite E. cbn [bind]. destruct (dels_spec _ _ _ E) as (_ & K1 & G).
    assert (NK : NoDup (dkeys df1)) by (rewrite K1; apply NoDup_filter, R).
    assert (NM : forall c, In c (dkeys df1) -> ~ In c dropped). { intros c Ic. rewrite K1 in Ic. apply filter_In in Ic. destruct Ic as (_ & M). apply (proj1 (@memb_not_In _ _ c dropped)). destruct (memb c dropped); [discriminate|reflexivity]. }
    assert (RA0 : rearranged (dkeys df1) df df1) by (split; [reflexivity|]; intros c Ic; apply G, NM, Ic).
    assert (C : In "CLASS_LABEL" (dkeys df1)). { rewrite K1. apply filter_In. split; [apply I; left; reflexivity|]. subst dropped. reflexivity. }
    destruct (C99_moved sl dt n df1 "CLASS_LABEL" SL (rearranged_typed _ _ _ _ (proj1 R) NK RA0 T) (rearranged_rect _ _ _ _ NK RA0 R) C) as (D & df2 & H & RA & P). exists D, df2. split; [exact H|]. split; [|exact P].
    assert (EO : others "CLASS_LABEL" (dkeys df1) = without ("CLASS_LABEL" :: dropped) (dkeys df)).
    { rewrite K1. clear. unfold others, without. induction (dkeys df) as [|k K IH]; [reflexivity|]. cbn [filter]. unfold memb in *. cbn [existsb]. destruct (existsb (eqb k) dropped) eqn:X; cbn [negb filter]; destruct (eqb k "CLASS_LABEL"); cbn [negb orb]; rewrite ?IH; reflexivity. }
    rewrite EO in RA. destruct RA as (KA & GA). split; [exact KA|]. intros c Ic. rewrite (GA c Ic). apply G. rewrite <- EO in Ic. apply NM. destruct Ic as [<-|Ic]; [exact C|]. apply others_In in Ic. tauto.
Qed.
(** load_basket lists the columns as in the file but delivers X without the class as the first column: rebuilding a table from X and
    its predictions puts the predicted codes into the first column of the file (here a column of floats), not into the class *)
Theorem C99_basket : forall sl dt n df first_column rest D X y df1, set_listing sl -> typed dt df -> rectangular n df ->
  dkeys df = first_column :: rest -> In "Position" rest -> dt first_column = DFloat ->
  load_basket sl dt df = Ok D -> ds_X D = map (map CNum) X ->
  build_df2explain y X (ds_columns D) (ds_types D) (ds_discrete D) (ds_encoders D) = Ok df1 ->
  ds_columns D = dkeys df /\ forall j c row, nth_error y j = Some c -> nth_error X j = Some row -> value_at df1 first_column j = Some (CNum (qz c)).
Proof.
  intros sl dt n df fc rest D X y df1 SL T R K I FL H EX B. unfold load_basket in H. destruct (class_first "Position" df) as [df0|] eqn:E; [|discriminate]. cbn [bind] in H.
  destruct (class_first_spec _ _ _ (proj1 R) E) as (C & RA). assert (NC := others_nodup "Position" _ (proj1 R)). assert (T0 := rearranged_typed _ _ _ _ (proj1 R) NC RA T).
  assert (NR : NoDup (fc :: rest)) by (rewrite <- K; apply R). assert (NF : fc <> "Position") by (intros ->; inversion NR; contradiction).
  assert (KF : In fc (dkeys df0)). { rewrite (proj1 RA). right. apply others_In. split; [rewrite K; left; reflexivity|exact NF]. }
  destruct (generate_inv _ _ _ SL T0 H) as (target & tmp & disc & cont & df' & encs & yy & Ct & RM & S & ND & CD & LE & Y & ->). cbn [ds_X ds_y ds_idx ds_discrete ds_encoders ds_outcomes ds_columns ds_types] in *.
  split; [reflexivity|]. intros j c row Yj Xj. apply In_nth_error in I. destruct I as (q & I).
  assert (MD : ~ In fc disc). { assert (Kc : In "Position" (dkeys df0)) by (rewrite (proj1 RA); left; reflexivity). destruct (@generate_good sl dt df0 "Position" _ [] disc cont SL T0 (fun x (f : In x []) => match f with end) Kc S) as (_ & _ & M). rewrite M. intros [->|[[]|(_ & DT)]]; [contradiction|congruence]. }
  assert (FT : dget fc (features_type dt df0) <> Some "integer"). { rewrite C86_types. destruct (in_dec string_dec fc (dkeys df0)); [|discriminate]. rewrite FL. discriminate. }
  rewrite K in B. refine (proj1 (@C75_class_elsewhere y X (fc :: rest) _ disc encs df1 "Position" q fc NR ND CD _ eq_refl MD FT B j c row Yj Xj)). exact I.
Qed.
Print Assumptions C99_plain. Print Assumptions C99_moved. Print Assumptions C99_no_class. Print Assumptions C99_last. Print Assumptions C99_dropped. Print Assumptions C99_basket.

(** ** C100 *)
(** the table of load_adult: two columns dropped, the last column in front, and in every column the unknown values '?' replaced by
    one most frequent value of that column *)
Theorem C100_table : forall top df df', mode_oracle top -> NoDup (dkeys df) -> adult_table top df = Ok df' ->
  (forall l x, without ["fnlwgt"; "education-num"] (dkeys df) = l ++ [x] -> dkeys df' = x :: l) /\
  forall c, In c (without ["fnlwgt"; "education-num"] (dkeys df)) -> exists col col' m, dget c df = Some col /\ dget c df' = Some col' /\ a_mode m col /\
    List.length col' = List.length col /\
    forall i v, nth_error col i = Some v -> (v <> CStr "?" -> nth_error col' i = Some v) /\ (v = CStr "?" -> nth_error col' i = Some m).
Proof.
  intros top df df' MO ND H. destruct (adult_spec _ _ _ ND H) as (_ & K & _ & G). split; [exact K|]. intros c C. destruct (G c C) as (col & t & E & TT & E'). exists col, (map (swap_unknown t) col), t. split; [exact E|]. split; [exact E'|]. split; [|split; [apply map_length|]].
  - destruct MO as (M0 & M1). destruct col as [|v col]; [congruence|]. destruct (M1 (v :: col)) as (m & EM & A); [discriminate|]. assert (m = t) by congruence. subst. exact A.
  - intros i v V. rewrite nth_error_map, V. cbn [option_map]. unfold swap_unknown. split.
    + intro N. rewrite (proj2 (@eqb_neq _ _ v (CStr "?")) N). reflexivity.
    + intros ->. rewrite eqb_refl. reflexivity.
Qed.
(** no unknown value is left in a column in which some value is more frequent than '?' *)
Theorem C100_no_unknown_left : forall top df df' c col v, mode_oracle top -> NoDup (dkeys df) -> adult_table top df = Ok df' ->
  dget c df = Some col -> ~ In c ["fnlwgt"; "education-num"] -> (occurrences (CStr "?") col < occurrences v col)%nat ->
  exists col', dget c df' = Some col' /\ ~ In (CStr "?") col'.
Proof.
  intros top df df' c col v MO ND H E N O. destruct (adult_spec _ _ _ ND H) as (_ & _ & _ & G).
  assert (C : In c (without ["fnlwgt"; "education-num"] (dkeys df))). { apply filter_In. split; [exact (dget_Some_key _ _ E)|]. rewrite (proj2 (@memb_not_In _ _ c _) N). reflexivity. }
  destruct (G c C) as (col1 & t & E1 & TT & E'). assert (col1 = col) by congruence. subst col1. exists (map (swap_unknown t) col). split; [exact E'|]. intro Q. apply in_map_iff in Q. destruct Q as (x & X & _). unfold swap_unknown in X. destruct (eqb x (CStr "?")) eqn:EX.
  - subst t. destruct MO as (M0 & M1). assert (NE : col <> []) by (intros ->; cbn in O; lia). destruct (M1 col NE) as (m & EM & _ & A). assert (m = CStr "?") by congruence. subst m. specialize (A v). lia.
  - apply eqb_neq in EX. contradiction.
Qed.
(** ... but a column in which '?' is the most frequent value stays as it is *)
Theorem C100_unknown_stays : forall top df df' c col, mode_oracle top -> NoDup (dkeys df) -> adult_table top df = Ok df' ->
  dget c df = Some col -> ~ In c ["fnlwgt"; "education-num"] -> In (CStr "?") col -> (forall v, v <> CStr "?" -> (occurrences v col < occurrences (CStr "?") col)%nat) ->
  dget c df' = Some col.
Proof.
  intros top df df' c col MO ND H E N Q O. destruct (adult_spec _ _ _ ND H) as (_ & _ & _ & G).
  assert (C : In c (without ["fnlwgt"; "education-num"] (dkeys df))). { apply filter_In. split; [exact (dget_Some_key _ _ E)|]. rewrite (proj2 (@memb_not_In _ _ c _) N). reflexivity. }
  destruct (G c C) as (col1 & t & E1 & TT & E'). assert (col1 = col) by congruence. subst col1. rewrite E'. f_equal.
  assert (T : t = CStr "?"). { destruct MO as (M0 & M1). assert (NE : col <> []) by (intros ->; contradiction). destruct (M1 col NE) as (m & EM & _ & A). assert (m = t) by congruence. subst m. specialize (A (CStr "?")). destruct (eqb t (CStr "?")) eqn:X; [apply eqb_eq in X; exact X|]. apply eqb_neq in X. specialize (O t X). lia. }
  rewrite T. rewrite <- (map_id col) at 2. apply map_ext. intro x. unfold swap_unknown. destruct (eqb x (CStr "?")) eqn:X; [apply eqb_eq in X; congruence|reflexivity].
Qed.
(** a file with at least one row, the two columns to drop and the class in its last column is prepared; without rows the loader fails *)
Theorem C100_dataset : forall sl dt top n df l, set_listing sl -> mode_oracle top -> typed dt df -> rectangular (S n) df -> incl ["fnlwgt"; "education-num"] (dkeys df) ->
  without ["fnlwgt"; "education-num"] (dkeys df) = l ++ ["class"] ->
  exists D df', load_adult sl dt top df = Ok D /\ adult_table top df = Ok df' /\ prepared D df'.
Proof.
  intros sl dt top n df l SL MO T R I K. set (kept := without ["fnlwgt"; "education-num"] (dkeys df)) in *.
  assert (AT : exists df', adult_table top df = Ok df').
  { unfold adult_table. destruct (dels_total ["fnlwgt"; "education-num"] df) as (df1 & D); [repeat constructor; cbn; intuition discriminate|exact I|]. rewrite D. cbn [bind]. destruct (dels_spec _ _ _ D) as (_ & K1 & G1). destruct (replace_total top df1) as (df2 & E).
    - intros c col J. assert (NK : NoDup (dkeys df1)) by (rewrite K1; apply NoDup_filter, R). assert (J1 : In c (dkeys df1)) by exact (in_map fst _ _ J). apply dget_nodup in J; [|exact NK].
      assert (N : ~ In c ["fnlwgt"; "education-num"]). { rewrite K1 in J1. apply filter_In in J1. destruct J1 as (_ & M). apply (proj1 (@memb_not_In _ _ c _)). destruct (memb c ["fnlwgt"; "education-num"]); [discriminate|reflexivity]. }
      rewrite (G1 c N) in J. apply dget_In in J. apply R in J. destruct (proj2 MO col) as (v & V & _); [intros ->; discriminate|]. exists v. exact V.
    - rewrite E. cbn [bind]. apply last_first_total. }
  destruct AT as (df' & AT). destruct (adult_spec _ _ _ (proj1 R) AT) as (_ & KK & P & G). assert (KF : dkeys df' = "class" :: l) by (apply KK; exact K).
  assert (NK : NoDup (dkeys df')) by (eapply Permutation_NoDup; [apply Permutation_sym, P|]; apply NoDup_filter, R).
  assert (CELLS : forall c col', In (c, col') df' -> exists col t, In (c, col) df /\ In t col /\ col' = map (swap_unknown t) col).
  { intros c col' J. assert (J1 : In c (dkeys df')) by exact (in_map fst _ _ J). apply (Permutation_in _ P) in J1. destruct (G c J1) as (col & t & E & TT & E'). apply dget_nodup in J; [|exact NK]. exists col, t. apply dget_In in E. split; [exact E|]. split; [|congruence].
    destruct (proj2 MO col) as (v & V & A & _); [intros ->; apply R in E; discriminate|]. assert (v = t) by congruence. subst. exact A. }
  assert (T' : typed dt df'). { intros c col' J. destruct (CELLS c col' J) as (col & t & E & It & ->). destruct (T c col E) as (NO & TV). split; [exact NO|]. intros v V. apply in_map_iff in V. destruct V as (x & <- & X). unfold swap_unknown. destruct (eqb x (CStr "?")); [apply TV; exact It|apply TV; exact X]. }
  assert (R' : rectangular (S n) df'). { split; [exact NK|]. intros c col' J. destruct (CELLS c col' J) as (col & t & E & It & ->). rewrite map_length. exact (proj2 R c col E). }
  destruct (C99_plain sl dt (S n) df' "class" l [] SL T' R' KF) as (D & H & PR); [intros x []|]. exists D, df'. split; [|split; [exact AT|exact PR]]. unfold load_adult. rewrite AT. exact H.
Qed.
Theorem C100_fails : forall sl dt top df, mode_oracle top -> NoDup (dkeys df) ->
  (forall c, In c ["fnlwgt"; "education-num"] -> ~ In c (dkeys df) -> load_adult sl dt top df = Err KeyError) /\
  (incl ["fnlwgt"; "education-num"] (dkeys df) -> rectangular 0 df -> without ["fnlwgt"; "education-num"] (dkeys df) <> [] -> load_adult sl dt top df = Err IndexError).
Proof.
  intros sl dt top df MO ND. split.
  - intros c C N. unfold load_adult, adult_table. assert (E : foldM del_column df ["fnlwgt"; "education-num"] = Err KeyError); [|rewrite E; reflexivity]. cbn [foldM]. destruct (del_column df "fnlwgt") as [df1|e] eqn:D.
    + cbn [bind]. destruct (del_spec _ _ _ D) as (I & K & _). destruct C as [<-|[<-|[]]]; [contradiction|]. unfold del_column. rewrite (proj2 (@memb_not_In _ _ "education-num" (dkeys df1))); [reflexivity|]. rewrite K. intro X. apply others_In in X. tauto.
    + unfold del_column in D. destruct (memb "fnlwgt" (dkeys df)); [discriminate|]. cbn [bind]. congruence.
  - intros I R NE. unfold load_adult, adult_table. destruct (dels_total ["fnlwgt"; "education-num"] df) as (df1 & D); [repeat constructor; cbn; intuition discriminate|exact I|]. rewrite D. cbn [bind]. destruct (dels_spec _ _ _ D) as (_ & K1 & G1).
    assert (E : replace_unknown top df1 = Err IndexError); [|rewrite E; reflexivity].
    assert (Z : forall c col, In (c, col) df1 -> col = []). { intros c col J. assert (NK : NoDup (dkeys df1)) by (rewrite K1; apply NoDup_filter, R). assert (J1 : In c (dkeys df1)) by exact (in_map fst _ _ J). apply dget_nodup in J; [|exact NK].
      assert (N : ~ In c ["fnlwgt"; "education-num"]). { rewrite K1 in J1. apply filter_In in J1. destruct J1 as (_ & M). apply (proj1 (@memb_not_In _ _ c _)). destruct (memb c ["fnlwgt"; "education-num"]); [discriminate|reflexivity]. }
      rewrite (G1 c N) in J. apply dget_In in J. apply R in J. destruct col; [reflexivity|discriminate]. }
    destruct df1 as [|[c col] df1]; [cbn in K1; congruence|]. unfold replace_unknown. cbn [mapM fst snd]. rewrite (Z c col (or_introl eq_refl)), (proj1 MO). reflexivity.
Qed.

Print Assumptions C100_table. Print Assumptions C100_no_unknown_left. Print Assumptions C100_unknown_stays. Print Assumptions C100_dataset. Print Assumptions C100_fails.

(** ** C101 *)
(** the table of load_compas: the class first, the columns taken over unchanged, the days before the screening without their sign
    and the lengths of stay filled up with a most frequent value, and the class from the score: Medium-Low below 7, High from 7 on
    and for a missing score *)
Theorem C101_table : forall top parse n df df', mode_oracle top -> rows_of n df -> compas_table top parse df = Ok df' ->
  exists days outs ins scores days' stays' classes,
    dget "days_b_screening_arrest" df = Some days /\ dget "c_jail_out" df = Some outs /\ dget "c_jail_in" df = Some ins /\ dget "decile_score" df = Some scores /\
    dkeys df' = compas_result /\ (forall c, In c compas_kept -> dget c df' = dget c df) /\
    dget "days_b_screening_arrest" df' = Some days' /\ filled_up (map absolute days) days' /\
    dget "length_of_stay" df' = Some stays' /\ filled_up (map2 (stay parse) outs ins) stays' /\
    dget "class" df' = Some classes /\ List.length classes = List.length scores /\
    forall i x, nth_error scores i = Some x ->
      (exists q, x = Some (CNum q) /\ q < qz 7 /\ nth_error classes i = Some (Some (CStr "Medium-Low"))) \/
      ((x = None \/ exists q, x = Some (CNum q) /\ qz 7 <= q) /\ nth_error classes i = Some (Some (CStr "High"))).
Proof.
  intros top parse n df df' MO R H. destruct (compas_spec _ _ _ _ _ MO R H) as (days & outs & ins & scores & days' & stays' & classes & E1 & E2 & E3 & E4 & K & KEEP & D1 & D2 & S1 & S2 & C1 & C2 & _).
  destruct (classes_spec _ _ C2) as (L & CS). exists days, outs, ins, scores, days', stays', classes. repeat (split; [assumption|]). exact CS.
Qed.
(** the length of a stay is a whole number of days rounded down for the stated order of the two times, but rounded up when
    the recorded end precedes the start *)
Theorem C101_rounding : forall parse s t a b, parse s = Ok a -> parse t = Ok b -> exists d, stay parse (Some (CStr s)) (Some (CStr t)) = Some (CNum (qz d)) /\
  ((b <= a)%Z -> (86400 * d <= a - b < 86400 * (d + 1))%Z) /\ ((a < b)%Z -> (86400 * (d - 1) < b - a <= 86400 * d)%Z).
Proof.
  intros parse s t a b A B. exists (Z.abs ((a - b) / 86400)). cbn [stay]. rewrite A, B. split; [reflexivity|].
  assert (M := Z.div_mod (a - b) 86400 ltac:(lia)). assert (MB := Z.mod_pos_bound (a - b) 86400 ltac:(lia)). set (d := ((a - b) / 86400)%Z) in *. set (r := ((a - b) mod 86400)%Z) in *. lia.
Qed.
(** the table is made whenever the columns are there, the days and scores are numbers, the times can be read and at least one day
    count and one complete stay are recorded *)
Definition compas_input (parse : string -> res Z) (n : nat) (df : rframe) (days outs ins scores : list (option cell)) : Prop :=
  rows_of n df /\ incl compas_columns (dkeys df) /\
  dget "days_b_screening_arrest" df = Some days /\ dget "c_jail_out" df = Some outs /\ dget "c_jail_in" df = Some ins /\ dget "decile_score" df = Some scores /\
  (forall x, In (Some x) days \/ In (Some x) scores -> exists q, x = CNum q) /\
  (forall x, In (Some x) outs \/ In (Some x) ins -> exists s z, x = CStr s /\ parse s = Ok z).
Theorem C101_total : forall top parse n df days outs ins scores, mode_oracle top -> compas_input parse n df days outs ins scores ->
  (exists x, In (Some x) days) -> (exists i o e, nth_error outs i = Some (Some o) /\ nth_error ins i = Some (Some e)) ->
  exists df', compas_table top parse df = Ok df'.
Proof.
  intros top parse n df days outs ins scores MO (R & I & ED & EO & EI & ES & NUM & TIM) PD PS. destruct (compas_steps top parse n df days outs ins scores MO R I ED EO EI ES NUM TIM) as (_ & _ & GO).
  destruct (fill_total top (map2 (stay parse) outs ins)) as (s & E1); [exact MO| |].
  - destruct PS as (i & o & e & O & E). destruct (TIM o (or_introl (nth_error_In _ _ O))) as (s & a & -> & A). destruct (TIM e (or_intror (nth_error_In _ _ E))) as (s' & b & -> & B).
    eexists. apply (nth_error_In _ i). rewrite (@map2_nth _ _ _ (stay parse) _ _ _ _ _ O E). cbn [stay]. rewrite A, B. reflexivity.
  - destruct (fill_total top (map absolute days)) as (d & E2); [exact MO| |exact (GO s d E1 E2)]. destruct PD as (x & X). destruct (NUM x (or_introl X)) as (q & ->). exists (CNum (qabs q)). apply in_map_iff. exists (Some (CNum q)). split; [reflexivity|exact X].
Qed.
(** a missing column raises KeyError; without a complete stay, or without a day count, the loader raises IndexError *)
Theorem C101_fails : forall top parse n df days outs ins scores, mode_oracle top ->
  (forall c, In c compas_columns -> ~ In c (dkeys df) -> compas_table top parse df = Err KeyError) /\
  (compas_input parse n df days outs ins scores ->
   (forall i o e, nth_error outs i = Some (Some o) -> nth_error ins i = Some (Some e) -> False) \/ (forall x, ~ In (Some x) days) ->
   compas_table top parse df = Err IndexError).
Proof.
  intros top parse n df days outs ins scores MO. split.
  - intros c C N. unfold compas_table. rewrite (select_missing compas_columns df c C N). reflexivity.
  - intros (R & I & ED & EO & EI & ES & NUM & TIM) H. destruct (compas_steps top parse n df days outs ins scores MO R I ED EO EI ES NUM TIM) as (G1 & G2 & _).
    destruct (fill top (map2 (stay parse) outs ins)) as [s|e] eqn:E.
    + destruct H as [H|H].
      * exfalso. rewrite fill_empty in E; [discriminate|exact MO|]. intros x X. apply In_nth_error in X. destruct X as (i & X). apply map2_nth_inv in X. destruct X as (a & b & A & B & X). destruct a as [a|]; [|discriminate]. destruct b as [b|]; [exact (H i a b A B)|]. destruct a; discriminate.
      * apply (G2 s IndexError eq_refl). apply fill_empty; [exact MO|]. intros x X. apply in_map_iff in X. destruct X as ([y|] & X & Y); [exact (H y Y)|discriminate].
    + rewrite (G1 e eq_refl). f_equal. unfold fill in E. fold (present (map2 (stay parse) outs ins)) in E. destruct (present (map2 (stay parse) outs ins)) as [|v l] eqn:P.
      * rewrite (proj1 MO) in E. cbn in E. congruence.
      * destruct (proj2 MO (v :: l)) as (m & M & _); [discriminate|]. rewrite M in E. discriminate.
Qed.
(** a table without missing values is then prepared *)
Theorem C101_dataset : forall sl dt top parse n df df', set_listing sl -> mode_oracle top -> rows_of n df -> compas_table top parse df = Ok (all_present df') -> typed dt df' -> rectangular n df' ->
  exists D, load_plain sl dt "class" ["is_recid"; "is_violent_recid"; "two_year_recid"] df' = Ok D /\ prepared D df'.
Proof.
  intros sl dt top parse n df df' SL MO R H T R'. destruct (compas_spec _ _ _ _ _ MO R H) as (_ & _ & _ & _ & _ & _ & _ & _ & _ & _ & _ & K & _).
  assert (K' : dkeys df' = compas_result). { rewrite <- K. unfold all_present, dkeys. rewrite map_map. reflexivity. }
  apply (C99_plain sl dt n df' "class" (tl compas_result)); [exact SL|exact T|exact R'|exact K'|]. rewrite K'. intros x X. cbn in X |- *. tauto.
Qed.
Print Assumptions C101_table. Print Assumptions C101_rounding. Print Assumptions C101_total. Print Assumptions C101_fails. Print Assumptions C101_dataset.

(** ** Instances *)
(** a concrete listing of most frequent values *)
Definition first_mode (l : list cell) : res cell := ret_opt IndexError (max_by (fun a b => qltb (qn (occurrences a l)) (qn (occurrences b l))) l).
Lemma first_mode_oracle : mode_oracle first_mode.
Proof.
  split; [reflexivity|]. intros [|x l] N; [contradiction|]. unfold first_mode. cbn [max_by ret_opt]. eexists. split; [reflexivity|]. set (key := fun a => qn (occurrences a (x :: l))). split; [exact (max_by_aux_In key x l)|]. intro w.
  destruct (memb w (x :: l)) eqn:I; [apply (proj1 (@memb_In _ _ w _)) in I|apply (proj1 (@memb_not_In _ _ w _)) in I].
  - assert (G := max_by_aux_ge key I). unfold key in G at 1 2. apply qn_le in G. exact G.
  - assert (Z : occurrences w (x :: l) = 0%nat); [|rewrite Z; lia]. unfold occurrences. clear - I. induction (x :: l) as [|y m IH]; [reflexivity|]. cbn [filter]. rewrite (proj2 (@eqb_neq _ _ y w)) by (intros ->; apply I; left; reflexivity). apply IH. intro; apply I; right; assumption.
Qed.

Definition ex_dt (c : string) : dtype := if memb c ["beer_style"; "Position"; "workclass"; "class"] then DObject else if memb c ["age"; "fnlwgt"; "education-num"] then DInt else DFloat.
Definition ex_beer : frame := [("color", [CNum (qz 2); CNum (qz 3)]); ("beer_style", [CStr "Porter"; CStr "Blanche"]); ("strength", [CNum (qc 1 2); CNum (qc 1 4)])].
Example C99_ex_moved : typed ex_dt ex_beer /\ rectangular 2 ex_beer /\ In "beer_style" (dkeys ex_beer) /\
  exists D, load_beer (nodup string_dec) ex_dt ex_beer = Ok D /\ ds_columns D = ["beer_style"; "color"; "strength"] /\ ds_y D = [CNum (qz 1); CNum (qz 0)].
Proof.
  splits.
  - intros c col [E|[E|[E|[]]]]; injection E as <- <-; (split; [discriminate|]); intros v [<-|[<-|[]]]; eexists; reflexivity.
  - split; [repeat constructor; cbn; intuition discriminate|]. intros c col [E|[E|[E|[]]]]; injection E as <- <-; reflexivity.
  - right. left. reflexivity.
  - eexists. splits; [vm_compute; reflexivity|reflexivity|qex].
Qed.
(** the first player's height 1.9 comes back as 1, his class code; the positions come from the truncated heights *)
Definition ex_small : frame := [("Height", [CNum (qc 19 10); CNum (qc 1 2)]); ("Position", [CStr "Guard"; CStr "Center"])].
Example C99_ex_basket : typed ex_dt ex_small /\ rectangular 2 ex_small /\
  exists D X y df1, load_basket (nodup string_dec) ex_dt ex_small = Ok D /\ ds_X D = map (map CNum) X /\ ds_y D = map (fun c => CNum (qz c)) y /\
    build_df2explain y X (ds_columns D) (ds_types D) (ds_discrete D) (ds_encoders D) = Ok df1 /\ value_at df1 "Height" 0 = Some (CNum (qz 1)) /\ value_at df1 "Position" 0 = Some (CStr "Guard") /\ value_at df1 "Position" 1 = Some (CStr "Center").
Proof.
  splits.
  - intros c col [E|[E|[]]]; injection E as <- <-; (split; [discriminate|]); intros v [<-|[<-|[]]]; eexists; reflexivity.
  - split; [repeat constructor; cbn; intuition discriminate|]. intros c col [E|[E|[]]]; injection E as <- <-; reflexivity.
  - eexists. exists [[qc 19 10]; [qc 1 2]], [1; 0]%Z. eexists. splits; [vm_compute; reflexivity|qex|qex|vm_compute; reflexivity|qex|reflexivity|reflexivity].
Qed.
Definition ex_adult : frame := [("workclass", [CStr "Private"; CStr "?"; CStr "Private"]); ("fnlwgt", [CNum (qz 5); CNum (qz 6); CNum (qz 7)]); ("education-num", [CNum (qz 1); CNum (qz 1); CNum (qz 2)]); ("age", [CNum (qz 30); CNum (qz 31); CNum (qz 31)]); ("class", [CStr "<=50K"; CStr ">50K"; CStr ">50K"])].
Example C100_ex : typed ex_dt ex_adult /\ rectangular 3 ex_adult /\ incl ["fnlwgt"; "education-num"] (dkeys ex_adult) /\ without ["fnlwgt"; "education-num"] (dkeys ex_adult) = ["workclass"; "age"] ++ ["class"] /\
  adult_table first_mode ex_adult = Ok [("class", [CStr "<=50K"; CStr ">50K"; CStr ">50K"]); ("workclass", [CStr "Private"; CStr "Private"; CStr "Private"]); ("age", [CNum (qz 30); CNum (qz 31); CNum (qz 31)])] /\
  (occurrences (CStr "?") [CStr "Private"; CStr "?"; CStr "Private"] < occurrences (CStr "Private") [CStr "Private"; CStr "?"; CStr "Private"])%nat.
Proof.
  splits.
  - intros c col [E|[E|[E|[E|[E|[]]]]]]; injection E as <- <-; (split; [discriminate|]); intros v [<-|[<-|[<-|[]]]]; eexists; reflexivity.
  - split; [repeat constructor; cbn; intuition discriminate|]. intros c col [E|[E|[E|[E|[E|[]]]]]]; injection E as <- <-; reflexivity.
  - intros x X. cbn in X |- *. tauto.
  - reflexivity.
  - qex.
  - vm_compute. lia.
Qed.
(** one recorded stay whose end precedes its start by one second *)
Definition ex_parse (s : string) : res Z := if eqb s "monday" then Ok 0%Z else if eqb s "tuesday" then Ok 86400%Z else Ok 86401%Z.
Definition ex_prisoners : rframe :=
  [("age", [Some (CNum (qz 30)); Some (CNum (qz 40))]); ("age_cat", [Some (CStr "a"); Some (CStr "b")]); ("sex", [Some (CStr "m"); Some (CStr "f")]); ("race", [Some (CStr "x"); Some (CStr "y")]);
   ("priors_count", [Some (CNum 0); Some (CNum 1)]); ("days_b_screening_arrest", [Some (CNum (qz (-1))); None]); ("c_jail_in", [Some (CStr "later"); Some (CStr "monday")]); ("c_jail_out", [Some (CStr "tuesday"); None]);
   ("c_charge_degree", [Some (CStr "F"); Some (CStr "M")]); ("is_recid", [Some (CNum 0); Some (CNum 1)]); ("is_violent_recid", [Some (CNum 0); Some (CNum 1)]); ("two_year_recid", [Some (CNum 0); Some (CNum 1)]);
   ("decile_score", [Some (CNum (qz 6)); Some (CNum (qz 7))]); ("score_text", [None; None])].
Definition ex_prepared : frame :=
  [("class", [CStr "Medium-Low"; CStr "High"]); ("age", [CNum (qz 30); CNum (qz 40)]); ("age_cat", [CStr "a"; CStr "b"]); ("sex", [CStr "m"; CStr "f"]); ("race", [CStr "x"; CStr "y"]);
   ("priors_count", [CNum 0; CNum 1]); ("days_b_screening_arrest", [CNum 1; CNum 1]); ("c_charge_degree", [CStr "F"; CStr "M"]); ("is_recid", [CNum 0; CNum 1]); ("is_violent_recid", [CNum 0; CNum 1]); ("two_year_recid", [CNum 0; CNum 1]);
   ("length_of_stay", [CNum 1; CNum 1])].
Example C101_ex : rows_of 2 ex_prisoners /\ compas_input ex_parse 2 ex_prisoners [Some (CNum (qz (-1))); None] [Some (CStr "tuesday"); None] [Some (CStr "later"); Some (CStr "monday")] [Some (CNum (qz 6)); Some (CNum (qz 7))] /\
  compas_table first_mode ex_parse ex_prisoners = Ok (all_present ex_prepared) /\ rectangular 2 ex_prepared.
Proof.
  assert (R : rows_of 2 ex_prisoners). { split; [unfold ex_prisoners; cbn [dkeys map fst]; repeat constructor; cbn; intuition discriminate|]. intros c col H. unfold ex_prisoners in H. cbn [In] in H. repeat (destruct H as [E|H]; [injection E as <- <-; reflexivity|]). destruct H. }
  splits.
  - exact R.
  - unfold compas_input. splits; try reflexivity; try exact R.
    + intros x X. cbn in X |- *. tauto.
    + intros x H. cbn [In] in H. repeat (destruct H as [H|H]); try discriminate; try contradiction; injection H as <-; eexists; reflexivity.
    + intros x H. cbn [In] in H. repeat (destruct H as [H|H]); try discriminate; try contradiction; injection H as <-; do 2 eexists; (split; [reflexivity|]); vm_compute; reflexivity.
  - qex.
  - split; [unfold ex_prepared; cbn [dkeys map fst]; repeat constructor; cbn; intuition discriminate|]. intros c col H. unfold ex_prepared in H. cbn [In] in H. repeat (destruct H as [E|H]; [injection E as <- <-; reflexivity|]). destruct H.
Qed.
