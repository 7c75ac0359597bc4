(** * Properties C75, C86, C87: preparing a data set and rebuilding its table *)
From Verif Require Import Prelude M_Fuzzy M_Discretize M_Rule M_FDT M_ID3 M_Neighborhood M_Sampling M_Genetic M_Utils S_Utils P_FuzzyVar P_Metrics P_FDT P_Counterfactual P_Neighborhood2 P_Explainer P_Sampling P_Genetic P_ID3b P_Utils P_Utils2 P_Utils3 P_Utils4.
Set Implicit Arguments.
Open Scope string_scope. Open Scope list_scope. Open Scope Qc_scope.

(** ** C75 *)
(** column number i of the rebuilt table holds position i of [predictions | X]: decoded if the column is discrete,
    rounded towards zero if it is an integer column, unchanged otherwise *)
Theorem C75_columns : forall y X columns ftype discrete encs df, NoDup columns -> NoDup discrete ->
  build_df2explain y X columns ftype discrete encs = Ok df ->
  List.length y = List.length X /\ dkeys df = columns /\
  forall i c, nth_error columns i = Some c -> exists col t, dget c df = Some col /\ dget c ftype = Some t /\ List.length col = List.length y /\
    forall j, (j < List.length y)%nat -> exists q, source y X i j = Some q /\
      (In c discrete -> exists classes k, dget c encs = Some classes /\ (k < List.length classes)%nat /\ truncated q (Z.of_nat k) /\ nth_error col j = nth_error classes k) /\
      (~ In c discrete -> t = "integer" -> exists z, truncated q z /\ nth_error col j = Some (CNum (qz z))) /\
      (~ In c discrete -> t <> "integer" -> nth_error col j = Some (CNum q)).
Proof.
  intros y X columns ftype discrete encs df N ND H. rewrite build_eq in H. destruct (Nat.eqb_spec (List.length y) (List.length X)) as [L|L]; [|discriminate]. cbn [negb] in H.
  destruct (mapM (raw_column y X ftype discrete) (enumerate columns)) as [data|] eqn:M; [|discriminate]. cbn [bind] in H. destruct (Nat.eqb (List.length columns) 0); [discriminate|].
  destruct (data_get y X ftype discrete N L M) as (K & G). apply decode_fold in H; [|assumption]. destruct H as (K' & O & D). split; [assumption|]. split; [congruence|].
  intros i c C. destruct (G i c C) as (raw & Dr & R). apply raw_column_ok in R; [|assumption]. destruct R as (raw' & t & E & Ft & LR & R). injection E as <-.
  destruct (in_dec string_dec c discrete) as [I|I].
  - destruct (D c I) as (u & col & vals & U & Cc & V & Cd). rewrite Dr in Cc. injection Cc as <-. apply inverse_nth in V. destruct V as (LV & V). exists vals, t. split; [assumption|]. split; [assumption|]. split; [congruence|].
    intros j J. destruct (R j J) as (q & S & Q). exists q. split; [assumption|]. split; [|split; [intro; contradiction|intro; contradiction]]. intros _. destruct (V j _ Q) as (k & E & LT & W). exists u, k. split; [assumption|]. split; [assumption|]. split; [|assumption].
    rewrite (proj2 (@memb_In _ _ c discrete) I) in E. destruct (truncate_spec q) as (z & Tz & TS). rewrite Tz in E. rewrite truncate_int in E. assert (E' : qz z = qn k) by (destruct (eqb t "integer"); congruence). unfold qn in E'. apply qz_inj in E'. subst z. assumption.
  - exists raw, t. rewrite (O c I). split; [assumption|]. split; [assumption|]. split; [assumption|]. intros j J. destruct (R j J) as (q & S & Q). exists q. split; [assumption|]. rewrite (proj2 (@memb_not_In _ _ c discrete) I) in Q. split; [intro; contradiction|]. split; intros _ T.
    + subst t. rewrite eqb_refl in Q. destruct (truncate_spec q) as (z & Tz & TS). exists z. split; [assumption|]. rewrite Tz in Q. assumption.
    + rewrite (proj2 (@eqb_neq _ _ t "integer") T) in Q. assumption.
Qed.
(** it succeeds when the array is wide enough, the column types are known and the discrete columns hold valid codes *)
Theorem C75_total : forall y X columns ftype discrete encs, NoDup columns -> columns <> [] -> NoDup discrete -> List.length y = List.length X ->
  (forall row, In row X -> (List.length columns <= S (List.length row))%nat) -> (forall c, In c columns -> exists t, dget c ftype = Some t) -> incl discrete columns ->
  (forall i c, nth_error columns i = Some c -> In c discrete -> exists classes, dget c encs = Some classes /\ forall j q, source y X i j = Some q -> exists k, (k < List.length classes)%nat /\ truncated q (Z.of_nat k)) ->
  exists df, build_df2explain y X columns ftype discrete encs = Ok df.
Proof.
  intros y X columns ftype discrete encs N NE ND L W T I V. rewrite build_eq, L, Nat.eqb_refl. cbn [negb].
  assert (RC : forall i c, nth_error columns i = Some c -> exists r, raw_column y X ftype discrete (i, c) = Ok r).
  { intros i c C. unfold raw_column. assert (Q : exists dc, mapM (fun row => ret_opt IndexError (nth_error row i)) (map2 (fun c row => qz c :: row) y X) = Ok dc).
    { apply mapM_total. intros row R. apply In_nth_error in R. destruct R as (j & R). rewrite yX_nth in R by assumption. destruct (nth_error y j); [|discriminate]. destruct (nth_error X j) as [r|] eqn:Xj; [|discriminate]. injection R as <-. assert (Wr := W r (nth_error_In _ _ Xj)).
      assert (i < List.length columns)%nat by (apply nth_error_Some; congruence). destruct (nth_error (qz z :: r) i) as [v|] eqn:E; [exists v; reflexivity|]. apply nth_error_None in E. cbn in E. lia. }
    destruct Q as (dc & ->). cbn [bind]. destruct (T c (nth_error_In _ _ C)) as (t & ->). eexists. reflexivity. }
  destruct (mapM_total (raw_column y X ftype discrete) (enumerate columns)) as (data & M).
  { intros [i c] E. apply In_nth_error in E. destruct E as (i' & E). apply enumerate_nth_inv in E. cbn [fst snd] in E. destruct E as (-> & E). exact (RC i' c E). }
  rewrite M. cbn [bind]. destruct (Nat.eqb_spec (List.length columns) 0) as [Z|_]; [destruct columns; [contradiction|discriminate]|].
  destruct (data_get y X ftype discrete N L M) as (K & G). apply decode_total; [assumption|]. intros c Ic. assert (Cc := I c Ic). apply In_nth_error in Cc. destruct Cc as (i & C). destruct (G i c C) as (raw & Dr & R). apply raw_column_ok in R; [|assumption]. destruct R as (raw' & t & E & Ft & LR & R). injection E as <-.
  destruct (V i c C Ic) as (classes & Ec & Vc). exists classes, raw. assert (Q : exists vals, inverse_transform classes raw = Ok vals); [|destruct Q as (vals & Q); exists vals; tauto].
  unfold inverse_transform. apply mapM_total. intros x Ix. apply In_nth_error in Ix. destruct Ix as (j & Xj). assert (J : (j < List.length y)%nat) by (rewrite <- LR; apply nth_error_Some; congruence). destruct (R j J) as (q & S & Q). destruct (Vc j q S) as (k & KL & KT).
  rewrite (proj2 (@memb_In _ _ c discrete) Ic) in Q. assert (TQ : truncate q = qn k).
  { destruct (truncate_spec q) as (z & Tz & TS). rewrite Tz. unfold qn. f_equal. destruct KT as (K1 & K2), TS as (S1 & S2). destruct (Qclt_le_dec q 0) as [Neg|Pos].
    - specialize (K2 Neg). specialize (S2 Neg). destruct K2 as (A1 & A2), S2 as (B1 & B2). assert (P1 := Qclt_le_trans _ _ _ A1 B2). assert (P2 := Qclt_le_trans _ _ _ B1 A2). rewrite qz_lt in P1, P2; lia.
    - specialize (K1 Pos). specialize (S1 Pos). destruct K1 as (A1 & A2), S1 as (B1 & B2). assert (P1 := Qcle_lt_trans _ _ _ A1 B2). assert (P2 := Qcle_lt_trans _ _ _ B1 A2). rewrite qz_lt in P1, P2; lia. }
  rewrite TQ in Q. unfold qn at 1 in Q. rewrite truncate_int in Q. assert (EX : x = CNum (qn k)) by (unfold qn; unfold qn in Q; destruct (eqb t "integer"); congruence). subst x. rewrite as_index_nat. cbn [ret_opt bind]. destruct (nth_error classes k) as [v|] eqn:NE'; [exists v; reflexivity|apply nth_error_None in NE'; lia].
Qed.
(** the class first: the class column shows the predictions, feature q gets column q of X *)
Theorem C75_class_first : forall y X cls features ftype discrete encs df, NoDup (cls :: features) -> NoDup discrete -> In cls discrete ->
  build_df2explain y X (cls :: features) ftype discrete encs = Ok df ->
  exists col classes, dget cls df = Some col /\ dget cls encs = Some classes /\
    (forall j c, nth_error y j = Some c -> (0 <= c)%Z /\ exists v, nth_error classes (Z.to_nat c) = Some v /\ nth_error col j = Some v) /\
    forall q f j, nth_error features q = Some f -> (j < List.length y)%nat -> dget f ftype <> Some "integer" -> ~ In f discrete ->
      exists row v, nth_error X j = Some row /\ nth_error row q = Some v /\ value_at df f j = Some (CNum v).
Proof.
  intros y X cls features ftype discrete encs df N ND I H. destruct (@C75_columns _ _ _ _ _ _ _ N ND H) as (L & K & G).
  destruct (G 0%nat cls eq_refl) as (col & t & C & Ft & LC & V). assert (YD := H).
  assert (CL : exists classes, dget cls encs = Some classes).
  { rewrite build_eq in H. destruct (negb (Nat.eqb (List.length y) (List.length X))); [discriminate|]. destruct (mapM (raw_column y X ftype discrete) (enumerate (cls :: features))) as [data|]; [|discriminate]. cbn [bind List.length Nat.eqb] in H. apply decode_fold in H; [|assumption]. destruct H as (_ & _ & D). destruct (D cls I) as (u & _ & _ & U & _). exists u. assumption. }
  destruct CL as (classes & CL). exists col, classes. split; [assumption|]. split; [assumption|]. split.
  - intros j c Yj. assert (J : (j < List.length y)%nat) by (apply nth_error_Some; congruence). destruct (V j J) as (q & S & D & _). cbn [source] in S. rewrite Yj in S. cbn in S. injection S as <-. destruct (D I) as (u & k & U & KL & T & W). rewrite CL in U. injection U as <-.
    assert (c = Z.of_nat k). { destruct T as (T1 & T2). destruct (Qclt_le_dec (qz c) 0) as [Neg|Pos]; [destruct (T2 Neg) as (A1 & A2)|destruct (T1 Pos) as (A1 & A2)]; rewrite ?qz_lt, ?qz_le in *; change 0 with (qz 0%Z) in *; rewrite ?qz_lt, ?qz_le in *; lia. }
    subst c. split; [lia|]. rewrite Nat2Z.id. rewrite W. destruct (nth_error classes k) as [v|] eqn:E; [exists v; split; reflexivity|apply nth_error_None in E; lia].
  - intros q f j F J NT NI. destruct (G (S q) f F) as (fcol & t' & FC & Ft' & _ & V'). destruct (V' j J) as (v & S & _ & _ & E). cbn [source] in S. destruct (nth_error X j) as [row|]; [|discriminate]. exists row, v. split; [reflexivity|]. split; [assumption|]. unfold value_at. rewrite FC. apply E; [assumption|congruence].
Qed.
(** the class elsewhere: the class column is filled from column q of X, and the first column from the predictions *)
Theorem C75_class_elsewhere : forall y X columns ftype discrete encs df cls q first_column, NoDup columns -> NoDup discrete -> In cls discrete ->
  nth_error columns (S q) = Some cls -> nth_error columns 0 = Some first_column -> ~ In first_column discrete -> dget first_column ftype <> Some "integer" ->
  build_df2explain y X columns ftype discrete encs = Ok df ->
  forall j c row, nth_error y j = Some c -> nth_error X j = Some row ->
    value_at df first_column j = Some (CNum (qz c)) /\
    exists classes k v, nth_error row q = Some v /\ dget cls encs = Some classes /\ truncated v (Z.of_nat k) /\ value_at df cls j = nth_error classes k.
Proof.
  intros y X columns ftype discrete encs df cls q fc N ND I C F NF NT H j c row Yj Xj. destruct (@C75_columns _ _ _ _ _ _ _ N ND H) as (L & K & G). assert (J : (j < List.length y)%nat) by (apply nth_error_Some; congruence). split.
  - destruct (G 0%nat fc F) as (col & t & Cc & Ft & _ & V). destruct (V j J) as (v & S & _ & _ & E). cbn [source] in S. rewrite Yj in S. cbn in S. injection S as <-. unfold value_at. rewrite Cc. apply E; [assumption|congruence].
  - destruct (G (S q) cls C) as (col & t & Cc & Ft & _ & V). destruct (V j J) as (v & S & D & _). cbn [source] in S. rewrite Xj in S. destruct (D I) as (u & k & U & _ & T & W). exists u, k, v. split; [assumption|]. split; [assumption|]. split; [assumption|]. unfold value_at. rewrite Cc. assumption.
Qed.
Example C75_ex : exists df, build_df2explain [1; 0]%Z [[qc 5 2; qz 3]; [qc (-5) 2; qz 4]] ["cls"; "a"; "b"] [("cls", "string"); ("a", "integer"); ("b", "double")] ["cls"] [("cls", [CStr "no"; CStr "yes"])] = Ok df /\
  dget "cls" df = Some [CStr "yes"; CStr "no"] /\ dget "a" df = Some [CNum (qz 2); CNum (qz (-2))] /\ dget "b" df = Some [CNum (qz 3); CNum (qz 4)].
Proof. eexists. splits; [vm_compute; reflexivity|reflexivity|qex|qex]. Qed.
Print Assumptions C75_columns. Print Assumptions C75_total. Print Assumptions C75_class_first. Print Assumptions C75_class_elsewhere.

(** ** C86 *)
(** the types reported for the columns *)
Theorem C86_types : forall dt df c, dget c (features_type dt df) =
  if in_dec string_dec c (dkeys df) then match dt c with DInt => Some "integer" | DFloat => Some "double" | DObject => Some "string" | DOther => None end else None.
Proof.
  intros dt df c. rewrite features_type_get. destruct (in_dec string_dec c (dkeys df)) as [I|I]; [rewrite (proj2 (@memb_In _ _ c (dkeys df)) I); destruct (dt c); reflexivity|rewrite (proj2 (@memb_not_In _ _ c (dkeys df)) I); reflexivity].
Qed.
(** preparing succeeds on a table of typed columns that contains the class and the listed columns *)
Lemma generate_good sl dt df cls (columns discrete disc cont : list string) : set_listing sl -> typed dt df -> incl discrete (dkeys df) -> In cls (dkeys df) ->
  set_discrete_continuous sl columns (type_features dt df) cls (Some discrete) None = (disc, cont) ->
  NoDup disc /\ (forall d, In d disc -> exists col, dget d df = Some col /\ uniform col) /\
  (forall c, In c disc <-> c = cls \/ (In c discrete \/ In c (dkeys df) /\ dt c = DObject)).
Proof.
  intros SL T I C S. unfold set_discrete_continuous, type_features in S. cbv beta iota zeta in S. injection S as <- <-.
  assert (M : forall c, In c (filter (fun f => negb (eqb f cls)) (sl (discrete ++ filter (is_dtype DObject dt) (dkeys df))) ++ [cls]) <-> c = cls \/ (In c discrete \/ In c (dkeys df) /\ dt c = DObject)).
  { intro c. rewrite in_app_iff, not_class, (setlist_In _ c SL), in_app_iff, filter_In. cbn [In]. assert (is_dtype DObject dt c = true <-> dt c = DObject) by (unfold is_dtype; destruct (dt c); split; congruence). destruct (string_dec c cls); intuition congruence. }
  split; [apply NoDup_snoc; [apply NoDup_filter, setlist_NoDup; assumption|rewrite not_class; tauto]|]. split; [|exact M].
  intros d D. apply M in D. assert (K : In d (dkeys df)) by (destruct D as [->|[D|[D _]]]; auto). destruct (dget_ex _ _ K) as (col & E). exists col. split; [assumption|]. exact (@typed_uniform dt df d col T E).
Qed.
Theorem C86_total : forall sl dt df columns cls discrete, set_listing sl -> typed dt df -> In cls (dkeys df) -> In cls columns -> incl discrete (dkeys df) ->
  exists D, generate_dataset sl dt df columns cls discrete = Ok D.
Proof.
  intros sl dt df columns cls discrete SL T C CC I. unfold generate_dataset. unfold fcolumn at 1. destruct (dget_ex _ _ C) as (target & E). rewrite E. cbn [ret_opt bind].
  destruct (set_discrete_continuous sl columns (type_features dt df) cls (Some discrete) None) as [disc cont] eqn:S. destruct (@generate_good sl dt df cls _ discrete disc cont SL T I C S) as (ND & G & M).
  destruct (list_remove_total _ _ CC) as (tmp & ->). cbn [bind]. destruct (@encode_total disc df (conj ND G)) as (df' & encs & L). rewrite L. cbn [bind fst]. unfold fcolumn. apply encode_fold in L; [|split; assumption]. destruct L as (_ & _ & L). destruct (L cls target) as (u & codes & _ & _ & D1 & _); [apply M; left; reflexivity|assumption|]. rewrite D1. cbn [ret_opt bind]. eexists. reflexivity.
Qed.
(** X, y, idx_features, label_encoder and possible_outcomes describe the table: position q of row i of X is the value of
    the column named idx_features[q], encoded if that column is discrete *)
Theorem C86_describes : forall sl dt n df columns cls discrete D, set_listing sl -> typed dt df -> rectangular n df -> NoDup columns -> incl discrete (dkeys df) ->
  filter (fun c => negb (eqb c cls)) columns = filter (fun c => negb (eqb c cls)) (dkeys df) ->
  generate_dataset sl dt df columns cls discrete = Ok D ->
  List.length (ds_X D) = n /\ List.length (ds_y D) = n /\
  (forall c, In c (ds_discrete D) <-> c = cls \/ (In c discrete \/ In c (dkeys df) /\ dt c = DObject)) /\
  (forall q c, dget q (ds_idx D) = Some c -> In c (dkeys df) /\ c <> cls) /\
  (forall c, In c (dkeys df) -> c <> cls -> exists q, dget q (ds_idx D) = Some c) /\
  (forall i row q c v, nth_error (ds_X D) i = Some row -> dget q (ds_idx D) = Some c -> value_at df c i = Some v ->
     (In c (ds_discrete D) -> exists classes k, dget c (ds_encoders D) = Some classes /\ nth_error classes k = Some v /\ nth_error row q = Some (CNum (qn k))) /\
     (~ In c (ds_discrete D) -> nth_error row q = Some v)) /\
  exists target classes, dget cls df = Some target /\ dget cls (ds_encoders D) = Some classes /\
    (forall i v, nth_error target i = Some v -> exists k, nth_error classes k = Some v /\ nth_error (ds_y D) i = Some (CNum (qn k))) /\
    Permutation (ds_outcomes D) classes /\ NoDup (ds_outcomes D) /\ forall v, In v (ds_outcomes D) <-> In v target.
Proof.
  intros sl dt n df columns cls discrete D SL T R N I O H. assert (GI := generate_inv _ _ _ SL T H). destruct GI as (target & tmp & disc & cont & df' & encs & y & Ct & RM & S & ND & CD & LE & Y & ->). cbn [ds_X ds_y ds_idx ds_discrete ds_encoders ds_outcomes].
  assert (Kc : In cls (dkeys df)) by (eapply dget_Some_key; eassumption). destruct (@generate_good sl dt df cls _ discrete disc cont SL T I Kc S) as (_ & G & M). destruct (@list_remove_filter _ _ _ N RM) as (_ & ->). rewrite O.
  assert (R' := @encode_rectangular n df disc df' encs R ND G LE). assert (EF := LE). apply encode_fold in EF; [|split; assumption]. destruct EF as (K & OO & EF).
  assert (NE : df' <> []) by (intro Q; subst; discriminate).
  split; [rewrite matrix_length; apply frame_length_rect; assumption|]. split; [destruct R' as (_ & R'); apply (R' cls); apply dget_In; assumption|]. split; [exact M|]. split; [|split; [|split]].
  - intros q c E. rewrite enumerate_get in E. apply nth_error_In in E. apply not_class in E. assumption.
  - intros c Ic Nc. assert (J : In c (filter (fun c => negb (eqb c cls)) (dkeys df))) by (apply not_class; split; assumption). apply In_nth_error in J. destruct J as (q & J). exists q. rewrite enumerate_get. assumption.
  - intros i row q c v Xi E V. rewrite enumerate_get in E. assert (MV := matrix_value cls i q R' Xi). rewrite K, E in MV. destruct (@encode_value df disc df' encs c i v ND G LE V) as (A & B). split; intro J.
    + destruct (A J) as (classes & k & A1 & A2 & A3). exists classes, k. split; [assumption|]. split; [assumption|]. rewrite MV. assumption.
    + rewrite MV. apply B. assumption.
  - destruct (EF cls target CD Ct) as (u & codes & U & TR & D1 & D2). rewrite Y in D1. injection D1 as <-. destruct (G cls CD) as (tg & Ct' & Un). rewrite Ct in Ct'. injection Ct' as <-. destruct (uniform_unique Un) as (u' & U' & NU & IU & _). rewrite U in U'. injection U' as <-.
    exists target, u. split; [assumption|]. split; [assumption|]. split; [|split; [|split; [apply appearing_NoDup|intro v; apply appearing_In]]].
    + intros i v Vi. destruct (transform_nth _ _ TR i Vi) as (k & P & Q). exists k. split; [apply (position_nth _ _ NU); assumption|assumption].
    + apply NoDup_Permutation; [apply appearing_NoDup|assumption|]. intro v. rewrite appearing_In. symmetry. apply IU.
Qed.
(** with the class as first column, rebuilding the table from X and correct predictions gives the table back *)
Theorem C86_round_trip : forall sl dt n df cls features discrete D, set_listing sl -> typed dt df -> rectangular n df -> dkeys df = cls :: features -> incl discrete (dkeys df) ->
  generate_dataset sl dt df (dkeys df) cls discrete = Ok D ->
  exists X y, ds_X D = map (map CNum) X /\ ds_y D = map (fun c => CNum (qz c)) y /\
    build_df2explain y X (ds_columns D) (ds_types D) (ds_discrete D) (ds_encoders D) = Ok df.
Proof.
  intros sl dt n df cls features discrete D SL T R KD I H. assert (GI := generate_inv _ _ _ SL T H). destruct GI as (target & tmp & disc & cont & df' & encs & y & Ct & RM & S & ND & CD & LE & Y & ->). cbn [ds_X ds_y ds_idx ds_discrete ds_encoders ds_outcomes ds_columns ds_types].
  assert (Kc : In cls (dkeys df)) by (eapply dget_Some_key; eassumption). destruct (@generate_good sl dt df cls _ discrete disc cont SL T I Kc S) as (_ & G & M).
  assert (R' := @encode_rectangular n df disc df' encs R ND G LE). assert (EF := LE). apply encode_fold in EF; [|split; assumption]. destruct EF as (K & OO & EF).
  assert (CODES : forall c col, In c disc -> In (c, col) df' -> exists ks, col = map (fun k => CNum (qn k)) ks).
  { intros c col Ic E. destruct (G c Ic) as (col0 & C0 & _). destruct (EF c col0 Ic C0) as (u & codes & _ & TR & D1 & _). apply dget_nodup in E; [|apply R']. rewrite D1 in E. injection E as <-. exact (transform_codes _ _ TR). }
  assert (SAME : forall c col, ~ In c disc -> In (c, col) df' -> In (c, col) df).
  { intros c col Nc E. apply dget_nodup in E; [|apply R']. destruct (OO c Nc) as (E' & _). rewrite E in E'. symmetry in E'. apply dget_In. assumption. }
  destruct (@all_numbers df') as (q & Eq).
  { intros c col v E V. destruct (in_dec string_dec c disc) as [J|J].
    - destruct (CODES c col J E) as (ks & ->). apply in_map_iff in V. destruct V as (k & <- & _). exists (qn k). reflexivity.
    - assert (E' := SAME c col J E). assert (TV := proj2 (T c col E') v V). destruct (dt c) eqn:DT; [destruct TV as (z & ->); exists (qz z); reflexivity|assumption| |contradiction]. exfalso. apply J. apply M. right. right. split; [apply (in_map fst) in E'; exact E'|assumption]. }
  assert (FST : forall l, dkeys (cells_of l) = map fst l) by (intro l; unfold dkeys, cells_of; rewrite map_map; reflexivity).
  assert (INQ : forall c qs, In (c, qs) q -> In (c, map CNum qs) df') by (intros c qs J; rewrite Eq; apply (in_map (fun cq : string * list Qc => (fst cq, map CNum (snd cq))) q (c, qs)) in J; exact J).
  assert (KQ : map fst q = cls :: features) by (rewrite <- FST, <- Eq, K; assumption).
  destruct q as [|[c0 qs0] q]; [discriminate|]. cbn [map fst] in KQ. injection KQ as -> KQ.
  assert (Y0 := INQ cls qs0 (or_introl eq_refl)). destruct (CODES cls _ CD Y0) as (ks & EK). apply dget_nodup in Y0; [|apply R']. rewrite Y in Y0. injection Y0 as ->.
  assert (QZ : qs0 = map qz (map Z.of_nat ks)). { clear - EK. revert ks EK. induction qs0 as [|a qs IH]; intros [|k ks] E; try discriminate; [reflexivity|]. cbn in E. injection E as -> E. cbn. f_equal. apply IH. assumption. }
  assert (RQ : forall c qs, In (c, qs) ((cls, qs0) :: q) -> List.length qs = n) by (intros c qs J; apply INQ in J; destruct R' as (_ & R'); rewrite <- (map_length CNum); exact (R' c _ J)).
  assert (NK : NoDup (cls :: features)) by (rewrite <- KD; apply R). inversion NK as [|? ? NI NF]; subst.
  assert (IDX : List.length (map Z.of_nat ks) = List.length (map (row_of q) (seq 0 n)) /\ mapM (raw_column (map Z.of_nat ks) (map (row_of q) (seq 0 n)) (features_type dt df) disc) (enumerate (map fst ((cls, map qz (map Z.of_nat ks)) :: q))) = Ok (cells_of ((cls, map qz (map Z.of_nat ks)) :: q))).
  { apply (@rebuild_data cls ((cls, map qz (map Z.of_nat ks)) :: q) n (map Z.of_nat ks) (features_type dt df) disc); [exact RQ|reflexivity|]. intros c qs J. assert (J' := INQ c qs J). assert (Kc' : In c (dkeys df)) by (rewrite <- K; apply (in_map fst) in J'; exact J').
    rewrite C86_types. destruct (in_dec string_dec c (dkeys df)) as [_|NN]; [|contradiction].
    assert (INT : In c disc \/ dt c = DInt -> forall x, In x qs -> exists z, x = qz z).
    { intros Q x Ix. destruct (in_dec string_dec c disc) as [Jd|Jd].
      - destruct (CODES c _ Jd J') as (ks' & E'). apply (in_map CNum) in Ix. rewrite E' in Ix. apply in_map_iff in Ix. destruct Ix as (k & Ek & _). exists (Z.of_nat k). injection Ek as <-. reflexivity.
      - destruct Q as [Q|Q]; [contradiction|]. assert (TV := proj2 (T c _ (SAME c _ Jd J')) (CNum x) (in_map CNum qs x Ix)). rewrite Q in TV. destruct TV as (z & E'). exists z. congruence. }
    assert (OT : dt c <> DOther) by (destruct (dget_ex _ _ Kc') as (col1 & C1); apply dget_In in C1; exact (proj1 (T c col1 C1))).
    destruct (dt c) eqn:DT; [| | |contradiction]; eexists; (split; [reflexivity|]); (intros [Q|Q]; [apply INT; left; assumption|]); try discriminate. apply INT. right. reflexivity. }
  destruct IDX as (LY & IDX). exists (map (row_of q) (seq 0 n)), (map Z.of_nat ks). split; [|split].
  - apply (@matrix_numbers cls ((cls, map qz (map Z.of_nat ks)) :: q) n RQ); [discriminate| |discriminate|reflexivity]. cbn [tl]. assumption.
  - rewrite !map_map. reflexivity.
  - rewrite build_eq, LY, Nat.eqb_refl. cbn [negb]. cbn [map fst] in IDX. rewrite KD, IDX. cbn [bind List.length Nat.eqb]. apply (@round_trip disc df _ encs); [split; assumption|apply R|assumption].
Qed.
(** with the class elsewhere in the column list (as load_basket passes it) the table does not come back, although the
    predictions are correct: columns are exchanged, or the rebuilding fails *)
Definition ex_types (c : string) : dtype := if eqb c "pos" then DObject else DInt.
Definition ex_basket (a b : Z) : frame := [("pos", [CStr "guard"; CStr "centre"]); ("rebounds", [CNum (qz a); CNum (qz b)])].
Lemma ex_basket_ok a b : typed ex_types (ex_basket a b) /\ rectangular 2 (ex_basket a b).
Proof.
  split.
  - intros c col [E|[E|[]]]; injection E as <- <-; (split; [discriminate|]); intros v [<-|[<-|[]]]; eexists; reflexivity.
  - split; [repeat constructor; cbn; intuition discriminate|]. intros c col [E|[E|[]]]; injection E as <- <-; reflexivity.
Qed.
Theorem C86_class_elsewhere_refuted : exists sl D X y df', set_listing sl /\
  generate_dataset sl ex_types (ex_basket 0 1) ["rebounds"; "pos"] "pos" [] = Ok D /\ ds_X D = map (map CNum) X /\ ds_y D = map (fun c => CNum (qz c)) y /\
  build_df2explain y X (ds_columns D) (ds_types D) (ds_discrete D) (ds_encoders D) = Ok df' /\
  dget "pos" df' = Some [CStr "centre"; CStr "guard"] /\ dget "rebounds" df' = Some [CNum (qz 1); CNum (qz 0)].
Proof.
  exists (nodup string_dec). eexists. exists [[qz 0]; [qz 1]], [1; 0]%Z. eexists. splits.
  - intro l. apply Permutation_refl.
  - vm_compute. reflexivity.
  - qex.
  - qex.
  - vm_compute. reflexivity.
  - reflexivity.
  - qex.
Qed.
Theorem C86_class_elsewhere_fails : exists sl D X y, set_listing sl /\
  generate_dataset sl ex_types (ex_basket 7 9) ["rebounds"; "pos"] "pos" [] = Ok D /\ ds_X D = map (map CNum) X /\ ds_y D = map (fun c => CNum (qz c)) y /\
  build_df2explain y X (ds_columns D) (ds_types D) (ds_discrete D) (ds_encoders D) = Err ValueError.
Proof.
  exists (nodup string_dec). eexists. exists [[qz 7]; [qz 9]], [1; 0]%Z. splits.
  - intro l. apply Permutation_refl.
  - vm_compute. reflexivity.
  - qex.
  - qex.
  - vm_compute. reflexivity.
Qed.
(** possible_outcomes lists the classes in order of appearance, so its positions are not the codes in y *)
Theorem C86_outcome_order_refuted : exists sl D v, set_listing sl /\ generate_dataset sl ex_types (ex_basket 7 9) ["pos"; "rebounds"] "pos" [] = Ok D /\
  nth_error (ds_y D) 0 = Some (CNum (qn 1)) /\ value_at (ex_basket 7 9) "pos" 0 = Some v /\ nth_error (ds_outcomes D) 1 <> Some v.
Proof.
  exists (nodup string_dec). eexists. exists (CStr "guard"). splits.
  - intro l. apply Permutation_refl.
  - vm_compute. reflexivity.
  - qex.
  - reflexivity.
  - vm_compute. discriminate.
Qed.
(** the class is missing from the table or from the column list *)
Theorem C86_rejects : forall sl dt df columns cls discrete, (~ In cls (dkeys df) -> generate_dataset sl dt df columns cls discrete = Err KeyError) /\
  (In cls (dkeys df) -> ~ In cls columns -> generate_dataset sl dt df columns cls discrete = Err ValueError).
Proof.
  intros sl dt df columns cls discrete. split.
  - intro N. apply dget_None in N. unfold generate_dataset. unfold fcolumn at 1. rewrite N. reflexivity.
  - intros I N. destruct (dget_ex _ _ I) as (t & E). unfold generate_dataset. unfold fcolumn at 1. rewrite E. cbn [ret_opt bind]. destruct (set_discrete_continuous sl columns (type_features dt df) cls (Some discrete) None).
    assert (R : list_remove cls columns = Err ValueError); [|rewrite R; reflexivity]. clear - N. induction columns as [|y l IH]; [reflexivity|]. cbn [list_remove]. destruct (eqb y cls) eqn:E; [apply eqb_eq in E; subst; exfalso; apply N; left; reflexivity|]. rewrite IH; [reflexivity|]. intro; apply N; right; assumption.
Qed.
Example C86_ex : exists D, generate_dataset (nodup string_dec) ex_types (ex_basket 7 9) ["pos"; "rebounds"] "pos" ["rebounds"] = Ok D /\ ds_discrete D = ["rebounds"; "pos"] /\ ds_X D = [[CNum (qn 0)]; [CNum (qn 1)]] /\ dget 0%nat (ds_idx D) = Some "rebounds" /\ ds_continuous D = [].
Proof. eexists. splits; [vm_compute; reflexivity|reflexivity|qex|reflexivity|reflexivity]. Qed.
Print Assumptions C86_types. Print Assumptions C86_total. Print Assumptions C86_describes. Print Assumptions C86_round_trip. Print Assumptions C86_class_elsewhere_refuted. Print Assumptions C86_class_elsewhere_fails. Print Assumptions C86_outcome_order_refuted. Print Assumptions C86_rejects.

(** ** C87 *)
(** of two possible outcomes get_diff_outcome returns the other one *)
Theorem C87_other : forall a b o, a <> b -> In o [a; b] -> exists o', get_diff_outcome o [a; b] = Ok o' /\ In o' [a; b] /\ o' <> o /\ get_diff_outcome o' [a; b] = Ok o.
Proof.
  intros a b o N I. unfold get_diff_outcome, lget. cbn [nth_error ret_opt bind]. destruct I as [<-|[<-|[]]].
  - exists b. rewrite eqb_refl. split; [reflexivity|]. split; [right; left; reflexivity|]. split; [congruence|]. rewrite (proj2 (@eqb_neq _ _ b a)) by congruence. reflexivity.
  - exists a. rewrite (proj2 (@eqb_neq _ _ b a)) by congruence. split; [reflexivity|]. split; [left; reflexivity|]. split; [assumption|]. rewrite eqb_refl. reflexivity.
Qed.
(** with more outcomes it returns one of the first two, never the given one *)
Theorem C87_general : forall a b l o, a <> b -> exists o', get_diff_outcome o (a :: b :: l) = Ok o' /\ o' <> o /\ (o' = a \/ o' = b).
Proof.
  intros a b l o N. unfold get_diff_outcome, lget. cbn [nth_error ret_opt bind]. destruct (eqb o a) eqn:E.
  - apply eqb_eq in E. subst. exists b. split; [reflexivity|]. split; [congruence|right; reflexivity].
  - apply eqb_neq in E. exists a. split; [reflexivity|]. split; [congruence|left; reflexivity].
Qed.
(** a single outcome has no other *)
Theorem C87_single : forall a o, get_diff_outcome o [] = Err IndexError /\ get_diff_outcome a [a] = Err IndexError /\ (o <> a -> get_diff_outcome o [a] = Ok a).
Proof.
  intros a o. unfold get_diff_outcome, lget. cbn [nth_error ret_opt bind]. split; [reflexivity|]. split; [rewrite eqb_refl; reflexivity|]. intro N. rewrite (proj2 (@eqb_neq _ _ o a)) by assumption. reflexivity.
Qed.
Example C87_ex : get_diff_outcome (CStr "yes") [CStr "no"; CStr "yes"] = Ok (CStr "no").
Proof. reflexivity. Qed.
Print Assumptions C87_other. Print Assumptions C87_general. Print Assumptions C87_single.
