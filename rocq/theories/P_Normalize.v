(** * Proofs about generate_dataset with normalize=True *)
From Verif Require Import Prelude M_Fuzzy M_Discretize M_Rule M_FDT M_ID3 M_Neighborhood M_Sampling M_Genetic M_Utils S_Utils P_FuzzyVar P_Metrics P_FDT P_Counterfactual P_Neighborhood2 P_Neighborhood3 P_Explainer P_Sampling P_Genetic P_ID3b P_Utils P_Utils2 P_Utils3 P_Utils4 Properties_Utils Properties_Utils3 M_Normalize S_Normalize.
Set Implicit Arguments.
Open Scope Qc_scope.

Lemma all_equal_spec l : all_equal l = true <-> constant l.
Proof.
  unfold constant. destruct l as [|x l]; cbn [all_equal]; [split; [intros _ a b []|reflexivity]|]. rewrite forallb_forall. split.
  - intro H. assert (G : forall a, In a (x :: l) -> a = x) by (intros a [<-|I]; [reflexivity|specialize (H a I); apply qeqb_eq in H; congruence]). intros a b A B. rewrite (G a A), (G b B). reflexivity.
  - intros H a A. apply qeqb_eq. apply H; [left; reflexivity|right; assumption].
Qed.
Lemma qn_length_pos A (l : list A) : l <> [] -> 0 < qn (List.length l).
Proof. intro N. destruct l; [contradiction|]. apply qn_pos. cbn. lia. Qed.
Lemma mean_of_column l : l <> [] -> mean_is l (qmean l).
Proof. intro N. unfold mean_is, qmean. assert (P := qn_length_pos N). field. intro E. rewrite E in P. qlra. Qed.
Lemma scale_standardised deviation l : l <> [] -> standardised deviation l (scale_column deviation l).
Proof.
  intro N. exists (qmean l), (if all_equal l then 1 else deviation l). split; [apply mean_of_column; assumption|]. split; [intro C; apply all_equal_spec in C; rewrite C; reflexivity|].
  split; [|reflexivity]. intro C. destruct (all_equal l) eqn:E; [apply all_equal_spec in E; contradiction|reflexivity].
Qed.
Lemma scale_length deviation l : List.length (scale_column deviation l) = List.length l.
Proof. unfold scale_column. cbv zeta. apply map_length. Qed.
Lemma scale_fold deviation df cont df1 : NoDup cont -> foldM (fun df c => do col <- fcolumn df c; do qs <- numbers col; Ok (dset c (map CNum (scale_column deviation qs)) df)) df cont = Ok df1 ->
  dkeys df1 = dkeys df /\ (forall c, ~ In c cont -> dget c df1 = dget c df) /\
  (forall c, In c cont -> exists qs, dget c df = Some (map CNum qs) /\ dget c df1 = Some (map CNum (scale_column deviation qs))).
Proof.
  intro N. revert df. induction cont as [|c cont IH]; intros df H.
  - injection H as <-. split; [reflexivity|]. split; [reflexivity|intros c []].
  - cbn [foldM] in H. unfold fcolumn in H at 1. destruct (dget c df) as [col|] eqn:C; [|discriminate]. cbn [ret_opt bind] in H. destruct (numbers col) as [qs|] eqn:Q; [|discriminate]. cbn [bind] in H. apply numbers_spec in Q. subst col.
    inversion N as [|? ? NI NC]; subst. destruct (IH NC _ H) as (K & O & S). split; [|split].
    + rewrite K. apply dkeys_dset. eapply dget_Some_key. eassumption.
    + intros d D. rewrite O by (intro; apply D; right; assumption). apply dset_other. intro E. apply D. left. congruence.
    + intros d [<-|D].
      * exists qs. split; [assumption|]. rewrite O by assumption. apply dset_same.
      * destruct (S d D) as (qs' & A & B). exists qs'. split; [|assumption]. rewrite dset_other in A by (intro; subst; contradiction). assumption.
Qed.
Lemma scale_total deviation df cont : NoDup cont -> (forall c, In c cont -> exists qs, dget c df = Some (map CNum qs)) ->
  exists df1, foldM (fun df c => do col <- fcolumn df c; do qs <- numbers col; Ok (dset c (map CNum (scale_column deviation qs)) df)) df cont = Ok df1.
Proof.
  intro N. revert df. induction cont as [|c cont IH]; intros df H; [eexists; reflexivity|]. cbn [foldM]. destruct (H c (or_introl eq_refl)) as (qs & C). unfold fcolumn at 1. rewrite C. cbn [ret_opt bind]. rewrite numbers_map. cbn [bind].
  inversion N; subst. apply IH; [assumption|]. intros d D. rewrite dset_other by (intro; subst; contradiction). apply H. right. assumption.
Qed.

(** encoding looks at the discrete columns only *)
Definition enc_step (st : frame * encoders) (c : string) : res (frame * encoders) := do col <- fcolumn (fst st) c; do classes <- np_unique col; do codes <- transform classes col; Ok (dset c codes (fst st), dset c classes (snd st)).
Lemma enc_step_eq df e c : enc_step (df, e) c = do col <- fcolumn df c; do classes <- np_unique col; do codes <- transform classes col; Ok (dset c codes df, dset c classes e).
Proof. reflexivity. Qed.
Definition agree (disc : list string) (df df1 : frame) (r r1 : res (frame * encoders)) : Prop :=
  match r, r1 with
  | Ok (df', e), Ok (df1', e') => e = e' /\ (forall c, In c disc -> dget c df1' = dget c df') /\ (forall c, ~ In c disc -> dget c df1' = dget c df1 /\ dget c df' = dget c df) /\ (dkeys df1 = dkeys df -> dkeys df1' = dkeys df')
  | Err a, Err b => a = b
  | _, _ => False
  end.
Lemma encode_agree_gen disc : NoDup disc -> forall (df df1 : frame) e0, (forall c, In c disc -> dget c df1 = dget c df) ->
  agree disc df df1 (foldM enc_step (df, e0) disc) (foldM enc_step (df1, e0) disc).
Proof.
  intro N. induction disc as [|c disc IH]; intros df df1 e0 A.
  - cbn [foldM agree]. split; [reflexivity|]. split; [intros c []|]. split; [intros; split; reflexivity|auto].
  - cbn [foldM]. rewrite (enc_step_eq df e0 c), (enc_step_eq df1 e0 c). replace (fcolumn df1 c) with (fcolumn df c) by (unfold fcolumn; rewrite (A c (or_introl eq_refl)); reflexivity). destruct (fcolumn df c) as [col|] eqn:C'; [|reflexivity]. assert (C : dget c df = Some col) by (unfold fcolumn in C'; destruct (dget c df); [cbn in C'; congruence|discriminate]). cbn [bind]. destruct (np_unique col) as [u|]; [|reflexivity]. cbn [bind]. destruct (transform u col) as [codes|]; [|reflexivity]. cbn [bind].
    inversion N as [|? ? NI NC]; subst. assert (A' : forall d, In d disc -> dget d (dset c codes df1) = dget d (dset c codes df)).
    { intros d D. rewrite !dset_other by (intro; subst; contradiction). apply A. right. assumption. }
    assert (C1 : dget c df1 = Some col) by (rewrite A; [assumption|left; reflexivity]).
    assert (G : forall r r1, agree disc (dset c codes df) (dset c codes df1) r r1 -> agree (c :: disc) df df1 r r1); [|exact (G _ _ (IH NC _ _ (dset c u e0) A'))].
    clear IH. intros [[df' e]|a] [[df1' e']|b] IH; try exact IH. cbn [agree] in *. destruct IH as (E & I1 & I2 & I3). split; [assumption|]. split; [|split].
    + intros d [<-|D]; [|apply I1; assumption]. destruct (I2 c NI) as (B1 & B2). rewrite B1, B2, !dset_same. reflexivity.
    + intros d D. destruct (I2 d) as (B1 & B2); [intro; apply D; right; assumption|]. rewrite B1, B2. rewrite !dset_other by (intro; subst; apply D; left; reflexivity). split; reflexivity.
    + intro K. apply I3. rewrite !dkeys_dset; [assumption|eapply dget_Some_key; eassumption|eapply dget_Some_key; eassumption].
Qed.
Lemma encode_agree disc df df1 df' e : NoDup disc -> (forall c, In c disc -> dget c df1 = dget c df) -> label_encode df disc None = Ok (df', e) ->
  exists df1', label_encode df1 disc None = Ok (df1', e) /\ (forall c, In c disc -> dget c df1' = dget c df') /\ (forall c, ~ In c disc -> dget c df1' = dget c df1 /\ dget c df' = dget c df) /\ (dkeys df1 = dkeys df -> dkeys df1' = dkeys df').
Proof.
  intros N A H. assert (G := @encode_agree_gen disc N df df1 [] A). assert (Q : forall r r1, agree disc df df1 r r1 -> r = Ok (df', e) -> exists df1', r1 = Ok (df1', e) /\ (forall c, In c disc -> dget c df1' = dget c df') /\ (forall c, ~ In c disc -> dget c df1' = dget c df1 /\ dget c df' = dget c df) /\ (dkeys df1 = dkeys df -> dkeys df1' = dkeys df')).
  { clear. intros r [[df1' e']|] G ->; [|contradiction]. cbn [agree] in G. destruct G as (<- & G). exists df1'. split; [reflexivity|exact G]. }
  exact (Q _ _ G H).
Qed.
(** the lists of a table *)
Lemma lists_spec sl dt df columns cls discrete disc cont : set_listing sl -> NoDup columns -> set_discrete_continuous sl columns (type_features dt df) cls (Some discrete) None = (disc, cont) ->
  NoDup disc /\ NoDup cont /\ In cls disc /\ (forall c, In c cont -> ~ In c disc /\ In c columns /\ In c (dkeys df) /\ (dt c = DInt \/ dt c = DFloat)).
Proof.
  intros SL N S. assert (W := fun c => @C72_discrete_given sl columns _ _ _ cls discrete disc cont c SL S). assert (X : forall c, In c cont -> c <> cls).
  { intros c I E. subst c. exact (proj2 (C72_class _ _ _ _ _ _ S) I). }
  split; [exact (proj1 (W cls))|]. split.
  { unfold set_discrete_continuous, type_features in S. cbv beta iota zeta in S. injection S as <- <-. apply NoDup_filter, NoDup_filter. assumption. }
  split. { destruct (proj1 (C72_class _ _ _ _ _ _ S)) as (d' & -> & _). apply in_or_app. right. left. reflexivity. }
  intros c I. destruct (W c) as (_ & A & B). destruct (A (X c I)) as (_ & A2). assert (I' := proj1 A2 I). destruct I' as (I1 & I2 & I3). split.
  { intro D. apply B; [|assumption|assumption]. intros g G. rewrite !filter_In in *. destruct G as (_ & G). unfold is_dtype in *. destruct (dt g); try discriminate. split; intros (_ & Q); discriminate. }
  split; [assumption|]. rewrite !filter_In in I3. unfold is_dtype in I3. destruct I3 as [(K & T)|(K & T)]; (split; [assumption|]); destruct (dt c); try discriminate; auto.
Qed.
Definition as_float (cont : list string) (dt : string -> dtype) (c : string) : dtype := if memb c cont then DFloat else dt c.
Lemma lists_same sl dt df df1 columns cls discrete disc cont : set_listing sl -> NoDup columns -> dkeys df1 = dkeys df -> set_discrete_continuous sl columns (type_features dt df) cls (Some discrete) None = (disc, cont) ->
  set_discrete_continuous sl columns (type_features (as_float cont dt) df1) cls (Some discrete) None = (disc, cont).
Proof.
  intros SL N K S. destruct (lists_spec SL N S) as (_ & _ & _ & C). rewrite <- S. unfold set_discrete_continuous, type_features. cbv beta iota zeta. rewrite K.
  assert (F : forall c, In c cont -> dt c = DInt \/ dt c = DFloat) by (intros c I; apply C; assumption).
  assert (E1 : filter (is_dtype DObject (as_float cont dt)) (dkeys df) = filter (is_dtype DObject dt) (dkeys df)).
  { apply filter_ext. intro c. unfold is_dtype, as_float. destruct (memb c cont) eqn:M; [|reflexivity]. apply memb_In in M. destruct (F c M) as [->| ->]; reflexivity. }
  rewrite E1. f_equal. f_equal. apply filter_ext. intro c. f_equal.
  assert (G : forall dt', memb c (filter (is_dtype DInt dt') (dkeys df)) || memb c (filter (is_dtype DFloat dt') (dkeys df)) = memb c (dkeys df) && match dt' c with DInt | DFloat => true | _ => false end).
  { intro dt'. apply Bool.eq_iff_eq_true. rewrite Bool.orb_true_iff, Bool.andb_true_iff, !memb_In, !filter_In. unfold is_dtype. destruct (dt' c); intuition congruence. }
  rewrite !G. f_equal. unfold as_float. destruct (memb c cont) eqn:M; [|reflexivity]. apply memb_In in M. destruct (F c M) as [->| ->]; reflexivity.
Qed.
(** ** what a successful call gives *)
Lemma frame_length_pos n df : rectangular n df -> df <> [] -> frame_length df = n.
Proof. intros (_ & R) N. destruct df as [|[c col] df]; [contradiction|]. cbn. apply (R c). left. reflexivity. Qed.
Lemma typed_numbers dt df c : typed dt df -> In c (dkeys df) -> dt c = DInt \/ dt c = DFloat -> exists qs, dget c df = Some (map CNum qs).
Proof.
  intros T K D. destruct (dget_ex _ _ K) as (col & C). rewrite C. apply dget_In in C. destruct (T c col C) as (_ & V). assert (N : forall x, In x col -> exists q, x = CNum q).
  { intros x X. specialize (V x X). destruct D as [D|D]; rewrite D in V; [destruct V as (z & ->); exists (qz z); reflexivity|assumption]. }
  destruct (numbers_ok _ N) as (qs & Q). apply numbers_spec in Q. exists qs. congruence.
Qed.
Lemma normalized_inv deviation sl dt n df columns cls discrete D0 : set_listing sl -> typed dt df -> rectangular n df -> (0 < n)%nat -> NoDup columns ->
  generate_dataset sl dt df columns cls discrete = Ok D0 -> ds_continuous D0 <> [] ->
  exists df1 D, generate_normalized deviation sl dt df columns cls discrete = (df1, Ok D) /\
    dkeys df1 = dkeys df /\ (forall c, ~ In c (ds_continuous D0) -> dget c df1 = dget c df) /\
    (forall c, In c (ds_continuous D0) -> exists qs, dget c df = Some (map CNum qs) /\ dget c df1 = Some (map CNum (scale_column deviation qs))) /\
    ds_columns D = ds_columns D0 /\ ds_outcomes D = ds_outcomes D0 /\ ds_types D = ds_types D0 /\ ds_discrete D = ds_discrete D0 /\ ds_continuous D = ds_continuous D0 /\
    ds_idx D = ds_idx D0 /\ ds_encoders D = ds_encoders D0 /\ ds_y D = ds_y D0 /\
    typed (as_float (ds_continuous D0) dt) df1 /\ rectangular n df1 /\
    generate_dataset sl (as_float (ds_continuous D0) dt) df1 columns cls discrete =
      Ok (mkDs (ds_columns D) (ds_outcomes D) (features_type (as_float (ds_continuous D0) dt) df1) (ds_discrete D) (ds_continuous D) (ds_idx D) (ds_encoders D) (ds_X D) (ds_y D)).
Proof.
  intros SL T R P N H NC. assert (GI := generate_inv _ _ _ SL T H). destruct GI as (target & tmp & disc & cont & df' & encs & y & Ct & RM & S & ND & CD & LE & Y & ->).
  cbn [ds_columns ds_outcomes ds_types ds_discrete ds_continuous ds_idx ds_encoders ds_X ds_y] in *. destruct (lists_spec SL N S) as (_ & NCt & _ & CC).
  assert (Kc : In cls (dkeys df)) by (eapply dget_Some_key; eassumption). assert (NE : df <> []) by (intro; subst; contradiction).
  destruct (@scale_total deviation df cont NCt) as (df1 & F). { intros c I. destruct (CC c I) as (_ & _ & K & TT). exact (typed_numbers _ T K TT). }
  assert (SF : scale_frame deviation df cont = Ok df1).
  { unfold scale_frame. rewrite (frame_length_pos R NE). destruct (Nat.eqb_spec (List.length cont) 0) as [Z|_]; [destruct cont; [contradiction|discriminate]|]. destruct (Nat.eqb_spec n 0); [lia|]. exact F. }
  destruct (@scale_fold deviation df cont df1 NCt F) as (K & O & SC).
  assert (AG : forall c, In c disc -> dget c df1 = dget c df). { intros c D. apply O. intro I. exact (proj1 (CC c I) D). }
  destruct (@encode_agree disc df df1 df' encs ND AG LE) as (df1' & LE1 & E1 & E2 & E3).
  assert (Y1 : dget cls df1' = Some y) by (rewrite E1; assumption).
  assert (NDK : NoDup (dkeys df1)) by (rewrite K; apply R).
  assert (T1 : typed (as_float cont dt) df1).
  { intros c col I. apply (@dget_nodup _ _ _ _ _ _ NDK) in I. unfold as_float. destruct (memb c cont) eqn:M.
    - apply memb_In in M. split; [discriminate|]. destruct (SC c M) as (qs & _ & B). rewrite I in B. injection B as ->. intros v V. apply in_map_iff in V. destruct V as (q & <- & _). exists q. reflexivity.
    - apply memb_not_In in M. rewrite O in I by assumption. apply dget_In in I. exact (T c col I). }
  assert (R1 : rectangular n df1).
  { split; [assumption|]. intros c col I. apply (@dget_nodup _ _ _ _ _ _ NDK) in I. destruct (in_dec string_dec c cont) as [J|J].
    - destruct (SC c J) as (qs & A & B). rewrite I in B. injection B as ->. rewrite map_length, scale_length, <- (map_length CNum). apply dget_In in A. exact (proj2 R c _ A).
    - rewrite O in I by assumption. apply dget_In in I. exact (proj2 R c _ I). }
  exists df1, (mkDs columns (appearing target) (features_type dt df) disc cont (enumerate tmp) encs (matrix_without cls df1') y).
  cbn [ds_columns ds_outcomes ds_types ds_discrete ds_continuous ds_idx ds_encoders ds_X ds_y]. splits; try reflexivity; try assumption.
  - unfold generate_normalized. unfold fcolumn at 1. rewrite Ct. cbn [ret_opt]. rewrite S, RM, SF, LE1. cbn [bind fst snd]. unfold fcolumn. rewrite Y1. reflexivity.
  - unfold generate_dataset. unfold fcolumn at 1. rewrite AG, Ct by assumption. cbn [ret_opt bind]. rewrite (@lists_same sl dt df df1 columns cls discrete disc cont SL N K S), RM. cbn [bind]. rewrite LE1. cbn [bind fst snd]. unfold fcolumn. rewrite Y1. reflexivity.
Qed.
